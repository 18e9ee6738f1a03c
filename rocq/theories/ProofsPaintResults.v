(** Proofs about stored reconstruction results. *)
From Coq Require Import List Arith String Bool Lia Reals.
From Verif Require Import ModelField ModelHdf5 ModelDistributed ModelOptimization ModelReconstruction ModelPaintResults
  SpecOptimization SpecReconstruction SpecPaintResults ProofsEvaluation ProofsReconstruction.
Import ListNotations.
Local Open Scope string_scope.

Section Results.
Context {loss position : Type}.
Implicit Types (r : results loss position) (losses : list loss).

Lemma lookup_store : forall n k v r n' k', lookup (store_value n k v r) n' k' = if String.eqb n' n && String.eqb k' k then Some v else lookup r n' k'.
Proof.
  intros. unfold lookup, store_value. rewrite dict_find. destruct (String.eqb_spec n' n) as [->|D]; [|reflexivity]. rewrite dict_find. cbn [andb].
  destruct (String.eqb_spec k' k); [reflexivity|]. now destruct (find_link n r).
Qed.
Lemma store_group : forall centroid losses names index r, NoDup names -> index + List.length names <= List.length losses ->
  exists r', store_group_losses centroid losses index names r = Ok r'
  /\ (forall i n, nth_error names i = Some n -> lookup r' n centroid = option_map StoredLoss (nth_error losses (index + i)))
  /\ (forall n k, k <> centroid \/ ~ In n names -> lookup r' n k = lookup r n k).
Proof.
  intros centroid losses. induction names as [|x names IH]; intros index r N L; cbn [store_group_losses].
  - exists r. split; [reflexivity|]. split; [|reflexivity]. intros [|i] n; discriminate.
  - cbn in L. inversion N as [|? ? NI N']; subst. destruct (nth_error losses index) as [l|] eqn:E; [|apply nth_error_None in E; lia].
    destruct (IH (S index) (store_value x centroid (StoredLoss l) r) N') as (r' & E' & P & Q); [lia|]. exists r'. split; [assumption|]. split.
    + intros [|i] n H; cbn in H.
      * inversion H; subst n. rewrite Q by now right. rewrite lookup_store, !String.eqb_refl. cbn [andb]. now rewrite Nat.add_0_r, E.
      * rewrite (P _ _ H). now replace (S index + i) with (index + S i) by lia.
    + intros n k D. rewrite Q by (destruct D as [D|D]; [now left|right; intros I; apply D; now right]). rewrite lookup_store.
      destruct (String.eqb_spec n x) as [->|]; [|reflexivity]. destruct (String.eqb_spec k centroid) as [->|]; [|reflexivity].
      destruct D as [D|D]; [contradiction|]. exfalso. apply D. now left.
Qed.
Lemma NoDup_app_parts : forall {A} (a b : list A), NoDup (a ++ b) -> NoDup a /\ NoDup b /\ forall x, In x a -> ~ In x b.
Proof.
  induction a as [|x a IH]; intros b H; cbn in H; [repeat split; auto; constructor|]. inversion H as [|? ? NI N]; subst. destruct (IH b N) as (N1 & N2 & N3).
  repeat split; auto.
  - constructor; auto. intros I. apply NI, in_or_app. now left.
  - intros y [->|I]; [intros J; apply NI, in_or_app; now right|auto].
Qed.
Lemma store_groups : forall centroid losses groups r, NoDup (List.concat groups) -> (forall names, In names groups -> List.length names <= List.length losses) ->
  exists r', store_losses centroid losses groups r = Ok r'
  /\ (forall g i n, heliostat_at groups g i n -> lookup r' n centroid = option_map StoredLoss (nth_error losses i))
  /\ (forall n k, k <> centroid \/ ~ In n (List.concat groups) -> lookup r' n k = lookup r n k).
Proof.
  intros centroid losses. induction groups as [|names groups IH]; intros r N L; cbn [store_losses].
  - exists r. split; [reflexivity|]. split; [|reflexivity]. intros [|g] i n (x & H & _); discriminate.
  - cbn in N. apply NoDup_app_parts in N as (N1 & N2 & N3). destruct (store_group centroid losses names 0 r N1) as (r1 & E1 & P1 & Q1); [cbn; apply L; now left|].
    rewrite E1. cbn [bind]. destruct (IH r1 N2) as (r' & E & P & Q); [intros x I; apply L; now right|]. exists r'. split; [assumption|]. split.
    + intros [|g] i n (group & H & H'); cbn in H.
      * inversion H; subst group. rewrite Q by (right; apply N3; now apply nth_error_In in H'). now apply P1.
      * apply (P g i n). now exists group.
    + intros n k D. rewrite Q, Q1; auto; destruct D as [D|D]; auto; right; intros I; apply D; cbn; apply in_or_app; auto.
Qed.
Lemma store_group_positions : forall (names : list (string * position)) r, NoDup (map fst names) ->
  let r' := fold_left (fun r '(name, p) => store_value name "Position" (StoredPosition p) r) names r in
  (forall n p, In (n, p) names -> lookup r' n "Position" = Some (StoredPosition p))
  /\ (forall n k, k <> "Position" \/ ~ In n (map fst names) -> lookup r' n k = lookup r n k).
Proof.
  induction names as [|[x p] names IH]; intros r N; cbn [fold_left]; [split; [intros ? ? []|reflexivity]|]. cbn in N. inversion N as [|? ? NI N']; subst.
  destruct (IH (store_value x "Position" (StoredPosition p) r) N') as [P Q]. split.
  - intros n q [H|H]; [|now apply P]. inversion H; subst. rewrite Q by now right. rewrite lookup_store, !String.eqb_refl. reflexivity.
  - intros n k D. rewrite Q by (destruct D as [D|D]; [now left|right; intros I; apply D; now right]). rewrite lookup_store.
    destruct (String.eqb_spec n x) as [->|]; [|reflexivity]. destruct (String.eqb_spec k "Position") as [->|]; [|reflexivity].
    destruct D as [D|D]; [contradiction|]. exfalso. apply D. now left.
Qed.
Lemma store_all_positions : forall groups r, NoDup (List.concat (map (map fst) groups)) ->
  (forall n p, In (n, p) (List.concat groups) -> lookup (store_positions groups r) n "Position" = Some (StoredPosition p))
  /\ (forall n k, k <> "Position" -> lookup (store_positions groups r) n k = lookup r n k)
  /\ (forall n k, ~ In n (List.concat (map (map fst) groups)) -> lookup (store_positions groups r) n k = lookup r n k).
Proof.
  unfold store_positions. induction groups as [|names groups IH]; intros r N; cbn [fold_left]; [repeat split; intros; contradiction|].
  cbn in N. apply NoDup_app_parts in N as (N1 & N2 & N3). destruct (store_group_positions names r N1) as [P Q].
  destruct (IH (fold_left (fun r '(name, p) => store_value name "Position" (StoredPosition p) r) names r) N2) as (P' & Q' & S').
  repeat split.
  - intros n p I. cbn in I. apply in_app_or in I as [I|I]; [|now apply P']. rewrite S'; [now apply P|]. apply N3. now apply (in_map fst) in I.
  - intros n k D. rewrite Q' by assumption. apply Q. now left.
  - intros n k D. cbn in D. rewrite S', Q; auto; [right|]; intros I; apply D, in_or_app; auto.
Qed.

Theorem stored_by_index : forall (reconstruct : string -> res (list loss)) (groups : list (list (string * position))) utis helios,
  NoDup (map fst (List.concat groups)) -> reconstruct "UTIS" = Ok utis -> reconstruct "HeliOS" = Ok helios ->
  (forall group, In group groups -> List.length group <= List.length utis /\ List.length group <= List.length helios) ->
  exists r, generate_reconstruction_results reconstruct groups = Ok r
  /\ forall g i n p, heliostat_at groups g i (n, p) ->
     lookup r n "UTIS" = option_map StoredLoss (nth_error utis i) /\ lookup r n "HeliOS" = option_map StoredLoss (nth_error helios i)
     /\ lookup r n "Position" = Some (StoredPosition p).
Proof.
  intros reconstruct groups utis helios N U H L. rewrite concat_map in N. unfold generate_reconstruction_results. rewrite U. cbn [bind].
  assert (LN : forall losses, (forall group, In group groups -> List.length group <= List.length losses) ->
    forall names : list string, In names (map (map fst) groups) -> List.length names <= List.length losses).
  { intros losses X names I. apply in_map_iff in I as (group & <- & I). rewrite map_length. auto. }
  destruct (store_groups "UTIS" utis (map (map fst) groups) [] N) as (r1 & E1 & P1 & Q1); [apply LN; intros; now apply L|]. rewrite E1. cbn [bind]. rewrite H. cbn [bind].
  destruct (store_groups "HeliOS" helios (map (map fst) groups) r1 N) as (r2 & E2 & P2 & Q2); [apply LN; intros; now apply L|]. rewrite E2. cbn [bind].
  eexists. split; [reflexivity|]. destruct (store_all_positions groups r2 N) as (P3 & Q3 & _). intros g i n p (group & Hg & Hi).
  assert (A : heliostat_at (map (map fst) groups) g i n).
  { exists (map fst group). split; [now apply map_nth_error|]. now apply (map_nth_error fst _ _ Hi). }
  split; [|split].
  - rewrite Q3 by discriminate. rewrite Q2 by (left; discriminate). now apply (P1 g).
  - rewrite Q3 by discriminate. now apply (P2 g).
  - apply P3. apply in_concat. exists group. split; [now apply nth_error_In in Hg|now apply nth_error_In in Hi].
Qed.
End Results.

Lemma length_le_sum : forall sizes g, g < List.length sizes -> nth g sizes 0 <= list_sum sizes.
Proof. induction sizes as [|s sizes IH]; intros [|g] H; cbn in *; try lia. specialize (IH g). change (fold_right Nat.add 0 sizes) with (list_sum sizes). lia. Qed.

Section Study.
Context {M P X : Type}.
Variable masks : list (list nat).
Variable test_of_count : nat -> nat.
Variable loss_definition : string -> P -> M -> R.
Variable reduction : list R -> R.
Variables prediction garbage : string -> nat -> nat -> nat -> P.
Variable measured : string -> nat -> nat -> nat -> M.
Definition own_loss (c : string) (g i : nat) : option R :=
  reported test_of_count reduction (fun k => loss_definition c (prediction c g i k) (measured c g i k)) (nth i (nth g masks []) 0).
Theorem study_results : forall world (groups : list (list (string * X))),
  (forall mask, In mask masks -> usable_mask test_of_count mask) -> 1 <= world <= List.length masks ->
  map (@List.length (string * X)) groups = map (@List.length nat) masks -> NoDup (map fst (List.concat groups)) ->
  exists r, generate_reconstruction_results
    (fun c => reconstruct masks test_of_count (loss_definition c) reduction (prediction c) (garbage c) (measured c) world) groups = Ok r
  /\ (forall g i n p, heliostat_at groups g i (n, p) -> lookup r n "Position" = Some (StoredPosition p))
  /\ (forall g i n p g' i', heliostat_at groups g i (n, p) -> g' < List.length masks -> i' < List.length (nth g' masks []) ->
      field_index (map (@List.length nat) masks) g' i' = i ->
      forall c, In c ["UTIS"; "HeliOS"] -> lookup r n c = Some (StoredLoss (own_loss c g' i'))).
Proof.
  intros world groups HU HW HL N.
  destruct (reported_losses masks test_of_count (loss_definition "UTIS") reduction (prediction "UTIS") (garbage "UTIS") (measured "UTIS") HU world HW) as (u & EU & LU & VU).
  destruct (reported_losses masks test_of_count (loss_definition "HeliOS") reduction (prediction "HeliOS") (garbage "HeliOS") (measured "HeliOS") HU world HW) as (h & EH & LH & VH).
  assert (LE : forall group, In group groups -> List.length group <= list_sum (map (@List.length nat) masks)).
  { intros group I. apply (in_map (@List.length (string * X))) in I. rewrite HL in I. destruct (In_nth _ _ 0 I) as (g & Hg & <-). now apply length_le_sum. }
  destruct (stored_by_index (fun c => reconstruct masks test_of_count (loss_definition c) reduction (prediction c) (garbage c) (measured c) world) groups u h N EU EH) as (r & E & V).
  { intros group I. rewrite LU, LH. split; now apply LE. }
  exists r. split; [assumption|]. split; [intros g i n p A; now apply (V g i n p)|].
  intros g i n p g' i' A Hg Hi F c [<-|[<-|[]]]; destruct (V g i n p A) as (V1 & V2 & _).
  - rewrite V1, <- F, VU by assumption. reflexivity.
  - rewrite V2, <- F, VH by assumption. reflexivity.
Qed.
End Study.

(** Every number below the number of heliostats is that of a heliostat. *)
Lemma field_index_onto : forall sizes n, n < list_sum sizes -> exists g i, g < List.length sizes /\ i < nth g sizes 0 /\ field_index sizes g i = n.
Proof.
  induction sizes as [|s sizes IH]; intros n H; [cbn in H; lia|]. change (list_sum (s :: sizes)) with (s + list_sum sizes) in H.
  destruct (Nat.lt_ge_cases n s) as [L|L].
  - exists 0, n. cbn. repeat split; auto; lia.
  - destruct (IH (n - s)) as (g & i & A & B & C); [lia|]. exists (S g), i. unfold field_index in *. cbn [List.length nth firstn]. repeat split; auto; [lia|].
    change (list_sum (s :: firstn g sizes)) with (s + list_sum (firstn g sizes)). lia.
Qed.
Lemma group_length : forall {X} (groups : list (list X)) (masks : list (list nat)) g i x, map (@List.length X) groups = map (@List.length nat) masks ->
  heliostat_at groups g i x -> g < List.length masks /\ i < List.length (nth g masks []).
Proof.
  intros X groups masks g i x HL (group & Hg & Hi). assert (Lg : g < List.length groups) by (apply nth_error_Some; congruence).
  assert (LM : List.length groups = List.length masks) by (rewrite <- (map_length (@List.length X)), HL; apply map_length). split; [lia|].
  apply (map_nth_error (@List.length X)) in Hg. rewrite HL in Hg. rewrite nth_error_map in Hg. destruct (nth_error masks g) as [m|] eqn:E; [|discriminate].
  cbn in Hg. inversion Hg as [H]. apply (nth_error_nth _ _ []) in E. rewrite E, H. apply nth_error_Some. congruence.
Qed.
Lemma heliostat_exists : forall {X} (groups : list (list X)) (masks : list (list nat)) g i, map (@List.length X) groups = map (@List.length nat) masks ->
  g < List.length masks -> i < List.length (nth g masks []) -> exists x, heliostat_at groups g i x.
Proof.
  intros X groups masks g i HL Hg Hi. assert (LM : List.length groups = List.length masks) by (rewrite <- (map_length (@List.length X)), HL; apply map_length).
  destruct (nth_error groups g) as [group|] eqn:E; [|apply nth_error_None in E; lia].
  assert (L : List.length group = List.length (nth g masks [])).
  { pose proof (map_nth_error (@List.length X) _ _ E) as H. rewrite HL in H. apply (nth_error_nth _ _ 0) in H. change 0 with (List.length (@nil nat)) in H. now rewrite (map_nth (@List.length nat) masks [] g) in H. }
  destruct (nth_error group i) as [x|] eqn:E'; [|apply nth_error_None in E'; lia]. exists x, group. auto.
Qed.
