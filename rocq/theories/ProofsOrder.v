(** Proofs for C133: order of mirrors and samples. *)
From Coq Require Import List Arith ZArith Reals Bool Lia Lra Permutation.
From Verif Require Import RealSums ModelField ModelLBVH SpecLBVH ProofsMorton ProofsRadix ProofsRadixCounts ProofsTraversal ProofsLBVHRefuted ModelBlocking
  ModelSplatting ModelIntersections ModelTrace SpecTranslation ProofsTranslation SpecOrder.
Import ListNotations.
Local Open Scope R_scope.

(** ** Codes *)
Lemma Rmin_perm : forall l l', Permutation l l' -> Rmin_list l = Rmin_list l'.
Proof.
  intros l l' P. destruct l as [|x l]; [apply Permutation_nil in P; subst; auto|]. destruct l' as [|y l']; [apply Permutation_sym, Permutation_nil in P; discriminate|].
  pose proof (Rmin_list_in (x :: l) ltac:(discriminate)) as A. pose proof (Rmin_list_in (y :: l') ltac:(discriminate)) as B.
  apply (Permutation_in _ P) in A. apply (Permutation_in _ (Permutation_sym P)) in B. apply Rmin_list_le in A, B. lra.
Qed.
Lemma Rmax_perm : forall l l', Permutation l l' -> Rmax_list l = Rmax_list l'.
Proof.
  intros l l' P. destruct l as [|x l]; [apply Permutation_nil in P; subst; auto|]. destruct l' as [|y l']; [apply Permutation_sym, Permutation_nil in P; discriminate|].
  pose proof (Rmax_list_in (x :: l) ltac:(discriminate)) as A. pose proof (Rmax_list_in (y :: l') ltac:(discriminate)) as B.
  apply (Permutation_in _ P) in A. apply (Permutation_in _ (Permutation_sym P)) in B. apply Rmax_list_ge in A, B. lra.
Qed.
Lemma grid_cell_perm : forall eps l l' p, Permutation l l' -> grid_cell eps l p = grid_cell eps l' p.
Proof.
  intros eps l l' p P. unfold grid_cell, grid_scale. rewrite !(Rmin_perm (map pe l) (map pe l')), !(Rmin_perm (map pn l) (map pn l')), !(Rmin_perm (map pu l) (map pu l')),
    (Rmax_perm (map pe l) (map pe l')), (Rmax_perm (map pn l) (map pn l')), (Rmax_perm (map pu l) (map pu l')) by (apply Permutation_map; auto). auto.
Qed.
Lemma map_res_entry : forall {A B} (f : A -> res B) l ys, map_res f l = Ok ys -> List.length ys = List.length l
  /\ forall k x, nth_error l k = Some x -> exists y, nth_error ys k = Some y /\ f x = Ok y.
Proof.
  induction l as [|a l IH]; intros ys E; cbn [map_res] in E; [injection E as <-; split; auto; intros [|k] x X; discriminate|].
  destruct (f a) as [y|] eqn:F; [|discriminate]. cbn [bind] in E. destruct (map_res f l) as [zs|] eqn:M; [|discriminate]. cbn [bind] in E. injection E as <-.
  destruct (IH zs eq_refl) as (L & N). split; [cbn; auto|]. intros [|k] x X; cbn in *; [injection X as <-; eauto|eauto].
Qed.
Lemma map_res_select : forall {A B} (f : A -> res B) perm l ys, map_res f l = Ok ys -> (forall j, In j perm -> (j < List.length l)%nat) ->
  forall l' ys', Forall2 (fun j x => nth_error l j = Some x) perm l' -> Forall2 (fun j y => nth_error ys j = Some y) perm ys' -> map_res f l' = Ok ys'.
Proof.
  intros A B f perm l ys E. destruct (map_res_entry f l ys E) as (L & N). induction perm as [|j perm IH]; intros D l' ys' X Y; inversion X; inversion Y; subst; [auto|].
  cbn [map_res]. destruct (N _ _ H1) as (z & Z1 & Z2). rewrite H6 in Z1. injection Z1 as <-. rewrite Z2. cbn [bind]. rewrite (IH ltac:(intros; apply D; right; auto) l'0 l'1); auto.
Qed.
Lemma relisted_bound : forall {A} perm (l l' : list A), relisted perm l l' -> List.length perm = List.length l /\ forall j, In j perm -> (j < List.length l)%nat.
Proof.
  intros A perm l l' (P & _). split; [rewrite (Permutation_length P), seq_length; auto|]. intros j J. apply (Permutation_in _ P) in J. apply in_seq in J. lia.
Qed.
Lemma relisted_nth : forall {A} perm (l l' : list A) d k, relisted perm l l' -> (k < List.length l)%nat -> nth k l' d = nth (nth k perm 0%nat) l d.
Proof.
  intros A perm l l' d k H K. destruct (relisted_bound perm l l' H) as (LP & B). destruct H as (P & L & N).
  assert (E : nth_error perm k = Some (nth k perm 0%nat)) by (apply nth_error_nth'; lia). specialize (N _ _ E).
  rewrite (nth_error_nth' l' d) in N by lia. rewrite (nth_error_nth' l d) in N by (apply B, nth_In; lia). congruence.
Qed.
Lemma relisted_map : forall {A} perm (l l' : list A) d, relisted perm l l' -> l' = map (fun j => nth j l d) perm.
Proof.
  intros A perm l l' d H. destruct (relisted_bound perm l l' H) as (LP & B). pose proof (proj1 (proj2 H)) as L. apply (nth_ext _ _ d (nth 0 l d)).
  - rewrite map_length. lia.
  - intros k K. rewrite (map_nth (fun j => nth j l d) perm 0%nat). apply relisted_nth; auto. lia.
Qed.
Lemma relisted_forall2 : forall {A} perm (l l' : list A), relisted perm l l' -> Forall2 (fun j x => nth_error l j = Some x) perm l'.
Proof.
  intros A perm l l' H. destruct l as [|d l]; [destruct H as (P & L & _); apply Permutation_sym, Permutation_nil in P; subst; destruct l'; [constructor|discriminate]|].
  destruct (relisted_bound _ _ _ H) as (LP & B). rewrite (relisted_map _ _ _ d H). clear - B. induction perm as [|j perm IH]; cbn [map]; constructor.
  - apply nth_error_nth'. apply B. left; auto.
  - apply IH. intros; apply B; right; auto.
Qed.
Lemma relisted_select : forall {A} perm (l : list A) d, Permutation perm (seq 0 (List.length l)) -> relisted perm l (map (fun j => nth j l d) perm).
Proof.
  intros A perm l d P. assert (LP : List.length perm = List.length l) by (rewrite (Permutation_length P), seq_length; auto).
  split; auto. split; [rewrite map_length; auto|]. intros k j J. rewrite nth_error_map, J. cbn. symmetry. apply nth_error_nth'.
  apply nth_error_In in J. apply (Permutation_in _ P) in J. apply in_seq in J. lia.
Qed.
Lemma select_all : forall {A} (m : list A) d, map (fun j => nth j m d) (seq 0 (List.length m)) = m.
Proof.
  intros A m d. apply (nth_ext _ _ (nth 0 m d) d); [rewrite map_length, seq_length; auto|]. intros k K. rewrite map_length, seq_length in K.
  rewrite (map_nth (fun j => nth j m d) _ 0%nat). rewrite seq_nth; auto.
Qed.
Lemma relisted_permutation : forall {A} perm (l l' : list A), relisted perm l l' -> Permutation l' l.
Proof.
  intros A perm l l' H. destruct l as [|d l]; [destruct H as (_ & L & _); destruct l'; [auto|discriminate]|].
  rewrite (relisted_map _ _ _ d H). etransitivity; [apply Permutation_map, (proj1 H)|]. exact (Permutation_refl' (select_all (d :: l) d)).
Qed.
Lemma relisted_fmap : forall {A B} (f : A -> B) perm l l', relisted perm l l' -> relisted perm (map f l) (map f l').
Proof.
  intros A B f perm l l' (P & L & N). split; [rewrite map_length; auto|]. split; [rewrite !map_length; auto|]. intros k j J. rewrite !nth_error_map, (N _ _ J). auto.
Qed.
Lemma morton_relisted : forall eps perm l l' codes, relisted perm l l' -> morton_codes eps l = Ok codes ->
  exists codes', morton_codes eps l' = Ok codes' /\ relisted perm codes codes'.
Proof.
  intros eps perm l l' codes H E. pose proof (relisted_permutation _ _ _ H) as PM. destruct (relisted_bound _ _ _ H) as (LP & B). unfold morton_codes in *.
  assert (LC : List.length codes = List.length l) by (apply (map_res_entry _ _ _ E)).
  assert (R : relisted perm codes (map (fun j => nth j codes 0%Z) perm)) by (apply relisted_select; rewrite LC; apply H).
  exists (map (fun j => nth j codes 0%Z) perm). split; auto.
  rewrite (map_res_ext _ (fun p => let '(e, n, u) := grid_cell eps l p in morton_of_cell e n u)).
  - apply (map_res_select _ perm l codes E B); apply relisted_forall2; auto.
  - intros x _. rewrite (grid_cell_perm eps l' l x PM). auto.
Qed.

(** ** Sorting *)
Lemma nth_perm_inj : forall l i j, NoDup l -> (i < List.length l)%nat -> (j < List.length l)%nat -> nth i l 0%Z = nth j l 0%Z -> i = j.
Proof. intros l i j N I J E. apply (proj1 (NoDup_nth l 0%Z) N); auto. Qed.
Lemma sorts_same : forall sort sort' perm codes codes', sorts sort -> sorts sort' -> relisted perm codes codes' -> NoDup codes ->
  fst (sort' codes') = fst (sort codes) /\ List.length (snd (sort codes)) = List.length codes
  /\ List.length (snd (sort' codes')) = List.length codes
  /\ (forall x, (x < List.length codes)%nat -> (nth x (snd (sort' codes')) 0%nat < List.length codes)%nat /\ (nth x (snd (sort codes)) 0%nat < List.length codes)%nat)
  /\ forall x, (x < List.length codes)%nat -> nth (nth x (snd (sort' codes')) 0%nat) perm 0%nat = nth x (snd (sort codes)) 0%nat.
Proof.
  intros sort sort' perm codes codes' HS HS' R ND. destruct (relisted_bound _ _ _ R) as (LP & B).
  pose proof (sort_permutes sort codes HS) as P1. pose proof (sort_permutes sort' codes' HS') as P2.
  pose proof (HS codes) as S1. pose proof (HS' codes') as S2. destruct (sort codes) as [sd od]. destruct (sort' codes') as [sd' od']. cbn [fst snd] in *.
  destruct S1 as (PO & ES & AS). destruct S2 as (PO' & ES' & AS').
  assert (EQ : sd' = sd).
  { apply ascending_unique; auto. rewrite P1, P2. apply relisted_permutation in R. auto. }
  assert (LO : List.length od = List.length codes) by (rewrite (Permutation_length PO), seq_length; auto).
  assert (LO' : List.length od' = List.length codes) by (rewrite (Permutation_length PO'), seq_length; apply R).
  assert (BO : forall x, (x < List.length codes)%nat -> (nth x od' 0%nat < List.length codes)%nat /\ (nth x od 0%nat < List.length codes)%nat).
  { intros x X. split.
    - assert (I : In (nth x od' 0%nat) od') by (apply nth_In; lia). apply (Permutation_in _ PO') in I. apply in_seq in I. rewrite (proj1 (proj2 R)) in I. lia.
    - assert (I : In (nth x od 0%nat) od) by (apply nth_In; lia). apply (Permutation_in _ PO) in I. apply in_seq in I. lia. }
  split; auto. split; auto. split; auto. split; auto. intros x X. destruct (BO x X) as (B1 & B2).
  apply (nth_perm_inj codes); auto.
  - apply B, nth_In. lia.
  - rewrite <- (relisted_nth perm codes codes' 0%Z _ R) by auto.
    assert (E1 : nth x sd 0%Z = nth (nth x od 0%nat) codes 0%Z).
    { rewrite ES. rewrite (nth_indep _ 0%Z (nth 0%nat codes 0%Z)) by (rewrite map_length; lia). rewrite (map_nth (fun i => nth i codes 0%Z)). auto. }
    assert (E2 : nth x sd' 0%Z = nth (nth x od' 0%nat) codes' 0%Z).
    { rewrite ES'. rewrite (nth_indep _ 0%Z (nth 0%nat codes' 0%Z)) by (rewrite map_length; lia). rewrite (map_nth (fun i => nth i codes' 0%Z)). auto. }
    congruence.
Qed.

(** ** Children are nodes *)
Section Below.
Local Open Scope Z_scope.
Lemma children_below : forall codes k, thirty_bit codes -> ascending codes -> (k < List.length codes - 1)%nat ->
  forall a b, children_of codes (Z.of_nat k) = Some (a, b) -> a < Z.of_nat (total_nodes codes) /\ b < Z.of_nat (total_nodes codes).
Proof.
  intros codes k B A K a b. unfold children_of. destruct (Z.ltb_spec (Z.of_nat k) (Z.of_nat (List.length codes) - 1)) as [L|L]; [|lia].
  set (i := Z.of_nat k) in *. destruct (analyse_node (node_fuel codes) codes i) as [r|] eqn:E; [|discriminate]. cbn [option_map]. intros H. injection H as HA HB.
  set (n := Z.of_nat (List.length codes)) in *.
  assert (G : nr_gamma r + 1 <= n - 1).
  { unfold analyse_node in E. assert (I : inr codes i) by (unfold inr; lia). fold n in E.
    destruct (Z.leb_spec n 1); [lia|].
    set (ll := longest_common_prefix codes i (i - 1)) in *. set (lr := longest_common_prefix codes i (i + 1)) in *.
    assert (R : 0 <= lr <= 30) by (apply lcp_range; auto; unfold inr; lia).
    assert (LL : -1 <= ll) by (apply lcp_ge_m1; auto).
    destruct (expand_range _ _ _ _ _ _) as [m|] eqn:EM; [|discriminate]. apply expand_nonneg in EM; [|lia].
    destruct (halving_search _ _ _ _ _ 0 (m / 2)) as [len|] eqn:EL; [|discriminate].
    destruct (halving_search _ _ _ _ _ 0 ((len + 1) / 2)) as [s|] eqn:ES; [|discriminate].
    injection E as <-. cbn [nr_gamma].
    pose proof (halving_range _ _ _ _ _ _ _ _ (Z.div_pos m 2 ltac:(lia) ltac:(lia)) EL) as RL.
    pose proof (halving_range _ _ _ _ _ _ _ _ (Z.div_pos (len + 1) 2 ltac:(lia) ltac:(lia)) ES) as RS.
    apply halving_accepted in EL, ES.
    destruct (Z.ltb_spec ll lr) as [D|D]; [|change (0 * 2 - 1) with (-1); lia]. change (1 * 2 - 1) with 1 in *.
    assert (OUT : forall j, -1 < longest_common_prefix codes i j -> j < n).
    { intros j J. destruct (Z_lt_le_dec j n) as [N|]; auto. assert (longest_common_prefix codes i j = -1) by (apply lcp_out_of_range; lia). lia. }
    destruct ES as [->|ES]; [lia|].
    assert (LF : i + len * 1 < n).
    { destruct EL as [->|EL]; [lia|]. apply OUT. assert (-1 <= Z.min ll lr) by lia. lia. }
    assert (-1 <= longest_common_prefix codes i (i + len * 1)) by (apply lcp_ge_m1; auto).
    assert (SF : i + s * 1 < n) by (apply OUT; lia).
    destruct (Z_lt_le_dec len s) as [LS|LS].
    - pose proof (lcp_mono_right codes i (i + len * 1) (i + s * 1) B A ltac:(lia) ltac:(lia) ltac:(lia)) as M. unfold lcp in M. lia.
    - destruct (Z.eq_dec s len) as [->|]; lia. }
  unfold total_nodes. cbv zeta in HA, HB. split; [subst a|subst b]; match goal with |- context [if ?c then _ else _] => destruct c end; lia.
Qed.
End Below.

(** ** Traversal *)
Lemma hull_unique : forall b b' bs, hull b bs -> hull b' bs -> b' = b.
Proof.
  intros b b' bs [I E] [I' E'].
  assert (M : forall f, In f axes -> f (box_min b') = f (box_min b) /\ f (box_max b') = f (box_max b)).
  { intros f F. destruct (E f F) as ((x & X & XE) & (y & Y & YE)). destruct (E' f F) as ((x' & X' & XE') & (y' & Y' & YE')).
    pose proof (I x' X' f F). pose proof (I y' Y' f F). pose proof (I' x X f F). pose proof (I' y Y f F). lra. }
  destruct b' as [lo hi], b as [lo0 hi0]. cbn [box_min box_max] in M. f_equal; apply ProofsTranslation.point_eq; apply M; auto.
Qed.
Lemma subtree_below : forall internal total l r, (forall k, (k < internal)%nat -> (l k < Z.of_nat total)%Z /\ (r k < Z.of_nat total)%Z) ->
  forall k ls, subtree internal l r k ls -> (k < total)%nat -> forall x, In x ls -> (internal <= x < total)%nat.
Proof.
  intros internal total l r B k ls S. induction S as [k Hk|k a b la lb Hk Ea Eb S1 IH1 S2 IH2]; intros K x X.
  - destruct X as [<-|[]]. lia.
  - destruct (B k Hk) as (B1 & B2). rewrite Ea in B1. rewrite Eb in B2. apply in_app_or in X as [X|X]; [apply IH1|apply IH2]; auto; lia.
Qed.

Definition same_outcome (f : nat -> nat) (t t' : traversal) : Prop :=
  match t, t' with Visited m, Visited m' => m = map f m' | StackOverflow, StackOverflow => True | NoFuel, NoFuel => True | _, _ => False end.
Lemma traverse_relabelled : forall internal total f n h h', h_left h' = h_left h -> h_right h' = h_right h -> h_is_leaf h' = h_is_leaf h ->
  (forall k, h_is_leaf h k = true <-> (internal <= k)%nat) ->
  (forall k, (k < internal)%nat -> (h_left h k < Z.of_nat total)%Z /\ (h_right h k < Z.of_nat total)%Z) ->
  (forall k, (internal <= k < total)%nat -> h_primitive h k = f (h_primitive h' k) /\ (h_primitive h' k < n)%nat) ->
  (forall a b, (a < n)%nat -> (b < n)%nat -> f a = f b -> a = b) ->
  forall hit hit' own', (own' < n)%nat -> (forall k ls, (k < total)%nat -> subtree internal (h_left h) (h_right h) k ls -> hit' k = hit k) ->
  forall fuel capacity stack marked', (forall k, In k stack -> (k < total)%nat /\ exists ls, subtree internal (h_left h) (h_right h) k ls) ->
  same_outcome f (traverse fuel capacity h hit (f own') stack (map f marked')) (traverse fuel capacity h' hit' own' stack marked').
Proof.
  intros internal total f n h h' EL ER EF LF BD PR INJ hit hit' own' OWN HH. induction fuel as [|fuel IH]; intros capacity [|node stack] marked' T; cbn [traverse]; try reflexivity.
  rewrite EL, ER, EF. destruct (T node (or_introl eq_refl)) as (K & ls & S). rewrite (HH node ls K S).
  assert (T' : forall k, In k stack -> (k < total)%nat /\ exists ls, subtree internal (h_left h) (h_right h) k ls) by (intros; apply T; right; auto).
  destruct (hit node); [|apply IH; auto]. destruct (h_is_leaf h node) eqn:F.
  - apply LF in F. destruct (PR node (conj F K)) as (P1 & P2). rewrite P1.
    replace (if (f own' =? f (h_primitive h' node))%nat then map f marked' else f (h_primitive h' node) :: map f marked')
      with (map f (if (own' =? h_primitive h' node)%nat then marked' else h_primitive h' node :: marked')); [apply IH; auto|].
    destruct (Nat.eqb_spec own' (h_primitive h' node)) as [E|E]; [rewrite E, Nat.eqb_refl; auto|].
    destruct (Nat.eqb_spec (f own') (f (h_primitive h' node))) as [E'|E']; [elim E; apply INJ; auto|auto].
  - destruct (_ || _)%bool; [exact I|]. apply IH. intros k KI.
    assert (NI : ~ (internal <= node)%nat) by (intros L; apply LF in L; congruence).
    inversion S as [|k0 a b la lb K0 EA EB SA SB]; subst; [contradiction|]. destruct (BD node K0) as (B1 & B2). rewrite EA in B1, KI. rewrite EB in B2, KI.
    destruct (Z.leb_spec 0 (Z.of_nat a)) as [ZA|ZA]; [|lia]. destruct (Z.leb_spec 0 (Z.of_nat b)) as [ZB|ZB]; [|lia].
    rewrite !Nat2Z.id in KI. destruct KI as [<-|[<-|KI]]; [split; [lia|eauto]|split; [lia|eauto]|auto].
Qed.
Lemma traverse_members : forall internal total n h, (forall k, h_is_leaf h k = true <-> (internal <= k)%nat) ->
  (forall k, (k < internal)%nat -> (h_left h k < Z.of_nat total)%Z /\ (h_right h k < Z.of_nat total)%Z) ->
  (forall k, (internal <= k < total)%nat -> (h_primitive h k < n)%nat) ->
  forall hit own fuel capacity stack marked m, (forall k, In k stack -> (k < total)%nat) -> (forall p, In p marked -> (p < n)%nat) ->
  traverse fuel capacity h hit own stack marked = Visited m -> forall p, In p m -> (p < n)%nat.
Proof.
  intros internal total n h LF BD PR hit own. induction fuel as [|fuel IH]; intros capacity [|node stack] marked m T M V p P; cbn [traverse] in V;
    try (injection V as <-; auto; fail); try discriminate.
  assert (T' : forall k, In k stack -> (k < total)%nat) by (intros; apply T; right; auto). assert (K := T node (or_introl eq_refl)).
  destruct (hit node); [|eapply IH; eauto]. destruct (h_is_leaf h node) eqn:F.
  - apply LF in F. eapply IH in V; eauto. intros q Q. destruct (Nat.eqb own (h_primitive h node)); auto. destruct Q as [<-|Q]; auto.
  - destruct (_ || _)%bool; [discriminate|]. eapply IH in V; eauto. intros k KI.
    assert (NI : (node < internal)%nat). { destruct (Nat.lt_ge_cases node internal); auto. apply LF in H. congruence. }
    destruct (BD node NI) as (B1 & B2). destruct (Z.leb_spec 0 (h_right h node)), (Z.leb_spec 0 (h_left h node)); cbn [In] in KI;
      repeat (destruct KI as [<-|KI]; [lia|]); auto.
Qed.

Definition same_ray (f : nat -> nat) (r r' : ray) : Prop :=
  r_origin r' = r_origin r /\ r_direction r' = r_direction r /\ r_target_distance r' = r_target_distance r /\ r_owner r = f (r_owner r').
Lemma traverse_all_relabelled : forall internal total f n h h', h_left h' = h_left h -> h_right h' = h_right h -> h_is_leaf h' = h_is_leaf h ->
  (forall k, h_is_leaf h k = true <-> (internal <= k)%nat) ->
  (forall k, (k < internal)%nat -> (h_left h k < Z.of_nat total)%Z /\ (h_right h k < Z.of_nat total)%Z) ->
  (forall k, (internal <= k < total)%nat -> h_primitive h k = f (h_primitive h' k) /\ (h_primitive h' k < n)%nat) ->
  (forall a b, (a < n)%nat -> (b < n)%nat -> f a = f b -> a = b) ->
  (forall k ls, (k < total)%nat -> subtree internal (h_left h) (h_right h) k ls -> h_boxes h' k = h_boxes h k) ->
  (0 < total)%nat -> (exists ls, subtree internal (h_left h) (h_right h) 0%nat ls) ->
  forall fuel capacity rays rays' marked', Forall2 (fun r r' => same_ray f r r' /\ (r_owner r' < n)%nat) rays rays' -> (forall p, In p marked' -> (p < n)%nat) ->
  match traverse_all fuel capacity h' rays' marked' with
  | Filtered m' => traverse_all fuel capacity h rays (map f marked') = Filtered (map f m') /\ forall p, In p m' -> (p < n)%nat
  | other => traverse_all fuel capacity h rays (map f marked') = other
  end.
Proof.
  intros internal total f n h h' EL ER EF LF BD PR INJ HB T0 ROOT fuel capacity rays rays' marked' F. revert marked'.
  induction F as [|r r' rays rays' ((E1 & E2 & E3 & E4) & OW) F IH]; intros marked' M; cbn [traverse_all]; [auto|].
  pose proof (traverse_relabelled internal total f n h h' EL ER EF LF BD PR INJ (fun node => box_hit r (h_boxes h node)) (fun node => box_hit r' (h_boxes h' node)) (r_owner r') OW) as X.
  specialize (X ltac:(intros k ls K S; cbv beta; rewrite (HB k ls K S); unfold box_hit; rewrite E1, E2, E3; auto) fuel capacity [0%nat] [] ltac:(intros k [<-|[]]; auto)).
  rewrite <- E4 in X. cbn [map] in X.
  destruct (traverse fuel capacity h _ (r_owner r) [0%nat] []) as [m| |] eqn:V; destruct (traverse fuel capacity h' _ (r_owner r') [0%nat] []) as [m'| |] eqn:V'; cbn [same_outcome] in X; try contradiction; auto.
  subst m. rewrite <- map_app. apply IH. intros p P. apply in_app_or in P as [P|P]; auto.
  refine (traverse_members internal total n h' _ _ _ _ _ _ _ _ _ _ _ _ V' p P).
  - rewrite EF. auto.
  - rewrite EL, ER. auto.
  - intros k K. apply PR; auto.
  - intros k [<-|[]]; auto.
  - intros q [].
Qed.

Theorem filter_relisted : forall sort sort' fuel perm corners corners' codes rays rays', sorts sort -> sorts sort' -> relisted perm corners corners' ->
  morton_codes (/ 10 ^ 6) (map centroid corners) = Ok codes -> NoDup codes ->
  Forall2 (fun r r' => same_ray (fun k => nth k perm 0%nat) r r' /\ (r_owner r' < List.length corners)%nat) rays rays' ->
  match filter_primitives sort' fuel corners' rays' with
  | Filtered found' => exists found, filter_primitives sort fuel corners rays = Filtered found /\ Permutation found (map (fun k => nth k perm 0%nat) found')
      /\ forall p, In p found' -> (p < List.length corners)%nat
  | other => filter_primitives sort fuel corners rays = other
  end.
Proof.
  intros sort sort' fuel perm corners corners' codes rays rays' ST ST' RL MC ND FR.
  destruct (relisted_bound _ _ _ RL) as (LP & BP).
  destruct (morton_relisted _ _ _ _ _ (relisted_fmap centroid _ _ _ RL) MC) as (codes' & MC' & RC).
  destruct (sorts_same sort sort' perm codes codes' ST ST' RC ND) as (SE & LO & LO' & BO & PO).
  destruct (morton_codes_spec (/ 10 ^ 6) (map centroid corners) ltac:(lra)) as (codes0 & MC0 & LC & TB & _).
  rewrite MC in MC0. injection MC0 as <-. rewrite map_length in LC.
  unfold filter_primitives. rewrite MC, MC'.
  pose proof (ST codes) as SC. pose proof (sort_permutes sort codes ST) as SP. destruct (sort codes) as [sorted order]. destruct (sort' codes') as [sorted' order']. cbn [fst snd] in *. subst sorted'.
  destruct SC as (_ & ES & AS). assert (LS : List.length sorted = List.length codes) by apply (Permutation_length SP).
  unfold lbvh_filter. destruct (List.length sorted =? 0)%nat eqn:L0; auto. apply Nat.eqb_neq in L0.
  assert (TS : thirty_bit sorted) by (intros c C; apply TB, (Permutation_in _ SP C)).
  destruct (child_arrays_some sorted TS) as (ls & rs & CA & LL & LR & CH).
  set (pb := fun p => corners_box (nth p corners [])). set (pb' := fun p => corners_box (nth p corners' [])).
  destruct (build_spec sorted ls rs order pb CA) as (h & BH & HL & HR & HF & HP & HX & HU).
  destruct (build_spec sorted ls rs order' pb' CA) as (h' & BH' & HL' & HR' & HF' & HP' & HX' & HU').
  rewrite BH, BH'.
  assert (EQ : h_left h' = h_left h /\ h_right h' = h_right h /\ h_is_leaf h' = h_is_leaf h).
  { clear - BH BH' CA. unfold build_hierarchy in *. rewrite CA in *.
    destruct (propagate _ _ _ _ _ _ _) as [c1 b1] in BH. destruct (propagate _ _ _ _ _ _ _) as [c2 b2] in BH'.
    injection BH as <-. injection BH' as <-. auto. }
  destruct EQ as (EL & ER & EF).
  assert (MD : max_depth fuel h' = max_depth fuel h) by (unfold max_depth; rewrite EL, ER; auto).
  rewrite MD. destruct (max_depth fuel h) as [depth|] eqn:D; auto.
  set (n := List.length corners) in *. set (internal := (List.length sorted - 1)%nat) in *. set (total := total_nodes sorted).
  assert (TN : total = (internal + n)%nat) by (unfold total, total_nodes, internal; lia).
  assert (NN : forall k, (k < internal)%nat -> (0 <= h_left h k /\ 0 <= h_right h k)%Z).
  { intros k K. rewrite HL, HR. apply (children_nonneg sorted k TS AS K). apply CH. unfold total_nodes. lia. }
  assert (BD : forall k, (k < internal)%nat -> (h_left h k < Z.of_nat total)%Z /\ (h_right h k < Z.of_nat total)%Z).
  { intros k K. rewrite HL, HR. apply (children_below sorted k TS AS K). apply CH. unfold total_nodes. lia. }
  assert (PR : forall k, (internal <= k < total)%nat -> h_primitive h k = nth (h_primitive h' k) perm 0%nat /\ (h_primitive h' k < n)%nat).
  { intros k K. rewrite HP, HP'. fold internal. rewrite PO by lia. split; auto. rewrite <- LC. apply BO. lia. }
  assert (INJ : forall a b, (a < n)%nat -> (b < n)%nat -> nth a perm 0%nat = nth b perm 0%nat -> a = b).
  { intros a b A B E. assert (NDP : NoDup perm) by (eapply Permutation_NoDup; [apply Permutation_sym, (proj1 RL)|apply seq_NoDup]).
    apply (proj1 (NoDup_nth perm 0%nat) NDP); auto; lia. }
  assert (HB : forall k kl, (k < total)%nat -> subtree internal (h_left h) (h_right h) k kl -> h_boxes h' k = h_boxes h k).
  { intros k kl K S. apply (hull_unique _ _ (map (fun x => pb (h_primitive h x)) kl)); [apply HU; auto|].
    replace (map (fun x => pb (h_primitive h x)) kl) with (map (fun x => pb' (h_primitive h' x)) kl); [apply HU'; rewrite EL, ER; auto|].
    apply map_ext_in. intros x X. destruct (PR x (subtree_below internal total _ _ BD k kl S K x X)) as (P1 & P2).
    unfold pb', pb. rewrite P1. f_equal. apply relisted_nth; auto. }
  pose proof (traverse_all_relabelled internal total (fun k => nth k perm 0%nat) n h h' EL ER EF HF BD PR INJ HB ltac:(lia)
    (depth_finite internal _ _ NN _ _ _ _ D 0%nat 1%nat (or_introl eq_refl)) fuel depth rays rays' [] FR ltac:(intros p [])) as X. cbn [map] in X.
  destruct (traverse_all fuel depth h' rays' []) as [m'|e|].
  - destruct X as (X & MB). rewrite X. eexists. split; [reflexivity|]. split; [|intros p P; apply filter_In in P as (P & _); apply in_seq in P; lia].
    apply NoDup_Permutation.
    + apply NoDup_filter, seq_NoDup.
    + assert (NF : NoDup (filter (fun p => existsb (Nat.eqb p) m') (seq 0 (List.length sorted)))) by apply NoDup_filter, seq_NoDup.
      assert (BF : forall x, In x (filter (fun p => existsb (Nat.eqb p) m') (seq 0 (List.length sorted))) -> (x < n)%nat) by (intros x I; apply filter_In in I as (I & _); apply in_seq in I; lia).
      revert NF BF. generalize (filter (fun p => existsb (Nat.eqb p) m') (seq 0 (List.length sorted))) as l. intros l NF. induction NF as [|x l NI NF IH]; intros BF; cbn [map]; constructor.
      * intros I. apply in_map_iff in I as (y & Y1 & Y2). apply INJ in Y1; [congruence| |]; apply BF; [right; auto|left; auto].
      * apply IH. intros y Y. apply BF. right; auto.
    + intros p. rewrite filter_In, in_seq, existsb_exists, in_map_iff. split.
      * intros (B & q & Q & E). apply Nat.eqb_eq in E. subst q. apply in_map_iff in Q as (p' & <- & P'). exists p'. split; auto. apply filter_In. split.
        -- apply in_seq. specialize (MB p' P'). lia.
        -- apply existsb_exists. exists p'. split; auto. apply Nat.eqb_refl.
      * intros (p' & <- & I). apply filter_In in I as (I1 & I2). apply existsb_exists in I2 as (q & Q & E). apply Nat.eqb_eq in E. subst q.
        split. { assert (nth p' perm 0 < n)%nat by (apply BP, nth_In; specialize (MB p' Q); lia). lia. }
        exists (nth p' perm 0%nat). split; [apply (in_map (fun k => nth k perm 0%nat)); auto|apply Nat.eqb_refl].
  - rewrite X. auto.
  - rewrite X. auto.
Qed.

(** ** Blocking *)
Lemma densities_perm : forall eps soft off origin direction ps ps', Permutation ps ps' ->
  match densities eps soft off origin direction ps with
  | Some l => exists l', densities eps soft off origin direction ps' = Some l' /\ Permutation l l'
  | None => densities eps soft off origin direction ps' = None
  end.
Proof.
  intros eps soft off origin direction ps ps' P. induction P as [|x l l' P IH|x y l|l l' l'' P IH P' IH']; cbn [densities].
  - eauto.
  - destruct (density _ _ _ _ _ x) as [s|]; auto. destruct (densities _ _ _ _ _ l) as [d|].
    + destruct IH as (d' & -> & Q). eauto.
    + rewrite IH. auto.
  - destruct (density _ _ _ _ _ x), (density _ _ _ _ _ y); auto; destruct (densities _ _ _ _ _ l); auto. eexists. split; [reflexivity|]. constructor.
  - destruct (densities _ _ _ _ _ l) as [d|].
    + destruct IH as (d' & E & Q). rewrite E in IH'. destruct IH' as (d'' & E'' & Q'). exists d''. split; auto. etransitivity; eauto.
    + rewrite IH in IH'. auto.
Qed.
Lemma mask_perm : forall r r' ps ps', Permutation ps ps' -> r_origin r' = r_origin r -> r_direction r' = r_direction r -> traced_mask r' ps' = traced_mask r ps.
Proof.
  intros r r' ps ps' P E1 E2. unfold traced_mask, soft_mask. rewrite E1, E2.
  pose proof (densities_perm (/ 10 ^ 12) 1000 (5 / 100) (r_origin r) (r_direction r) ps ps' P) as X. destruct (densities _ _ _ _ _ ps) as [l|].
  - destruct X as (l' & -> & Q). cbn [option_map]. rewrite (Rsum_perm _ _ Q). auto.
  - rewrite X. auto.
Qed.
Theorem blocked_relisted : forall sort sort' fuel perm corners corners' codes rays rays', sorts sort -> sorts sort' -> relisted perm corners corners' ->
  morton_codes (/ 10 ^ 6) (map centroid corners) = Ok codes -> NoDup codes ->
  Forall2 (fun r r' => same_ray (fun k => nth k perm 0%nat) r r' /\ (r_owner r' < List.length corners)%nat) rays rays' ->
  batch_blocked sort' fuel corners' rays' = batch_blocked sort fuel corners rays.
Proof.
  intros sort sort' fuel perm corners corners' codes rays rays' ST ST' RL MC ND FR. unfold batch_blocked.
  pose proof (filter_relisted sort sort' fuel perm corners corners' codes rays rays' ST ST' RL MC ND FR) as X.
  destruct (filter_primitives sort' fuel corners' rays') as [found'|e|].
  - destruct X as (found & -> & P & B).
    assert (PS : Permutation (map (fun p => primitive_of_corners (nth p corners [])) found) (map (fun p => primitive_of_corners (nth p corners' [])) found')).
    { etransitivity; [apply Permutation_map, P|]. rewrite map_map. apply Permutation_refl', map_ext_in. intros p I. f_equal. symmetry. apply relisted_nth; auto. }
    destruct found' as [|p' found'].
    + apply Permutation_sym, Permutation_nil in P. subst found. f_equal. clear - FR. induction FR; cbn; congruence.
    + destruct found as [|p found]; [apply Permutation_nil in P; discriminate|]. f_equal. clear - FR PS. induction FR as [|r r' rays rays' ((E1 & E2 & _) & _) FR IH]; auto.
      cbn [map] in IH |- *. f_equal; auto. apply (mask_perm r r'); auto.
  - rewrite X. auto.
  - rewrite X. auto.
Qed.

(** ** Tracing *)
Lemma rays_relisted : forall width height magnitude perm corners corners' (samples samples' : list (sample * nat)), relisted perm (corners : list (list point)) corners' -> renumbered perm samples samples' ->
  Forall2 (fun r r' => same_ray (fun k => nth k perm 0%nat) r r' /\ (r_owner r' < List.length corners)%nat)
    (flat_map (fun '(s, owner) => blocking_rays width height magnitude s owner) samples) (flat_map (fun '(s, owner) => blocking_rays width height magnitude s owner) samples').
Proof.
  intros width height magnitude perm corners corners' samples samples' RL F. destruct (relisted_bound _ _ _ RL) as (LP & B).
  induction F as [|[s o] [s' o'] samples samples' (E & O) F IH]; cbn [flat_map]; [constructor|]. subst s'. apply Forall2_app; auto.
  unfold blocking_rays. clear - O LP. induction (combine (sample_rays s) (sample_intersections width height magnitude s)) as [|[[p d] i] l IH]; cbn [map]; constructor; auto.
  cbn [r_owner]. assert (OL : (o' < List.length perm)%nat) by (apply nth_error_Some; congruence). split; [|lia].
  unfold same_ray. cbn [r_origin r_direction r_target_distance r_owner]. repeat split. rewrite (nth_error_nth' perm 0%nat OL) in O. congruence.
Qed.
Theorem mirrors_relisted : forall sort sort' fuel width height magnitude extinction reflectivity perm corners corners' codes samples samples',
  sorts sort -> sorts sort' -> relisted perm corners corners' -> renumbered perm samples samples' ->
  morton_codes (/ 10 ^ 6) (map centroid corners) = Ok codes -> NoDup codes ->
  trace_samples sort' fuel width height magnitude extinction reflectivity (Some corners') samples'
  = trace_samples sort fuel width height magnitude extinction reflectivity (Some corners) samples.
Proof.
  intros sort sort' fuel width height magnitude extinction reflectivity perm corners corners' codes samples samples' ST ST' RL RN MC ND. unfold trace_samples.
  rewrite (blocked_relisted sort sort' fuel perm corners corners' codes _ _ ST ST' RL MC ND (rays_relisted width height magnitude perm corners corners' samples samples' RL RN)).
  assert (M : map fst samples' = map fst samples) by (clear - RN; induction RN as [|[s o] [s' o'] ? ? (E & _) ? IH]; cbn in *; congruence). rewrite M. auto.
Qed.

Lemma traverse_all_visited : forall fuel capacity h rays marked m, traverse_all fuel capacity h rays marked = Filtered m ->
  (forall r, In r rays -> exists v, traverse fuel capacity h (fun node => box_hit r (h_boxes h node)) (r_owner r) [0%nat] [] = Visited v)
  /\ forall p, In p m <-> In p marked \/ exists r v, In r rays /\ traverse fuel capacity h (fun node => box_hit r (h_boxes h node)) (r_owner r) [0%nat] [] = Visited v /\ In p v.
Proof.
  induction rays as [|r rays IH]; intros marked m E; cbn [traverse_all] in E.
  - injection E as <-. split; [intros r []|]. intros p. split; auto. intros [P|(r & v & [] & _)]; auto.
  - destruct (traverse _ _ _ _ (r_owner r) _ _) as [v| |] eqn:V; try discriminate. destruct (IH _ _ E) as (A & B). split.
    + intros r' [<-|R]; eauto.
    + intros p. rewrite B, in_app_iff. split.
      * intros [[P|P]|(r' & v' & R & V' & P)]; [right; exists r, v; split; [left|]; auto|auto|right; exists r', v'; split; [right|]; auto].
      * intros [P|(r' & v' & [<-|R] & V' & P)]; [auto|left; left; congruence|right; eauto].
Qed.
Lemma traverse_all_ok : forall fuel capacity h rays marked,
  (forall r, In r rays -> exists v, traverse fuel capacity h (fun node => box_hit r (h_boxes h node)) (r_owner r) [0%nat] [] = Visited v) ->
  exists m, traverse_all fuel capacity h rays marked = Filtered m.
Proof.
  induction rays as [|r rays IH]; intros marked H; cbn [traverse_all]; eauto. destruct (H r (or_introl eq_refl)) as (v & ->). apply IH. intros; apply H; right; auto.
Qed.
Lemma filter_rays : forall sort fuel corners rays rays' found, (forall r, In r rays' <-> In r rays) -> filter_primitives sort fuel corners rays = Filtered found ->
  filter_primitives sort fuel corners rays' = Filtered found.
Proof.
  intros sort fuel corners rays rays' found H E. unfold filter_primitives in *. destruct (morton_codes _ _) as [codes|]; [|discriminate]. destruct (sort codes) as [sorted order].
  unfold lbvh_filter in *. destruct (_ =? 0)%nat; [discriminate|]. destruct (build_hierarchy _ _ _) as [h|]; [|discriminate]. destruct (max_depth fuel h) as [d|]; [|discriminate].
  destruct (traverse_all fuel d h rays []) as [m| |] eqn:T; try discriminate. injection E as <-. apply traverse_all_visited in T as (A & B).
  destruct (traverse_all_ok fuel d h rays' []) as (m' & T'); [intros r R; apply A, H; auto|]. rewrite T'. apply traverse_all_visited in T' as (A' & B').
  f_equal. apply filter_ext. intros p. apply eq_true_iff_eq. rewrite !existsb_exists.
  assert (M : In p m' <-> In p m). { rewrite B, B'. split; (intros [[]|(r & v & R & V & P)]; right; exists r, v; split; [apply H|]; auto). }
  split; intros (q & Q & Q'); apply Nat.eqb_eq in Q'; subst q; exists p; split; [apply M| |apply M|]; auto using Nat.eqb_refl.
Qed.

Definition sample_row (width height : nat) (magnitude extinction reflectivity : R) (mask : ray -> option R) (x : sample * nat) : res (option traced) :=
  match all_some (map mask (blocking_rays width height magnitude (fst x) (snd x))) with
  | Some values => bind (trace_sample width height magnitude extinction reflectivity (fst x) values) (fun t => Ok (Some t))
  | None => Ok None
  end.
Lemma rows_by_sample : forall width height magnitude extinction reflectivity mask samples,
  trace_rows width height magnitude extinction reflectivity (map fst samples) (map mask (flat_map (fun '(s, owner) => blocking_rays width height magnitude s owner) samples))
  = match map_res (sample_row width height magnitude extinction reflectivity mask) samples with Ok rows => Traced rows | Err e => TraceError e end.
Proof.
  intros. unfold trace_rows. match goal with |- match ?a with _ => _ end = match ?b with _ => _ end => assert (E : a = b) end.
  { induction samples as [|[s o] samples IH]; auto. cbn [map flat_map fst ModelTrace.split_at combine map_res].
    assert (L : List.length (map mask (blocking_rays width height magnitude s o)) = List.length (sample_rays s)) by (rewrite map_length; unfold blocking_rays, sample_intersections; rewrite map_length, combine_length, map_length; lia).
    rewrite map_app, <- L, firstn_app, firstn_all, Nat.sub_diag, skipn_app, skipn_all, Nat.sub_diag. cbn [firstn skipn app]. rewrite app_nil_r, IH. reflexivity. }
  rewrite E. auto.
Qed.
Lemma map_res_perm : forall {A B} (f : A -> res B) l l' ys, Permutation l l' -> map_res f l = Ok ys -> exists ys', map_res f l' = Ok ys' /\ Permutation (combine l ys) (combine l' ys').
Proof.
  intros A B f l l' ys P. revert ys. induction P as [|x l l' P IH|x y l|l l' l'' P IH P' IH']; intros ys E; cbn [map_res] in *.
  - injection E as <-. eauto.
  - destruct (f x) as [a|]; [|discriminate]. cbn [bind] in *. destruct (map_res f l) as [zs|]; [|discriminate]. cbn [bind] in E. injection E as <-.
    destruct (IH zs eq_refl) as (zs' & -> & Q). cbn [bind]. eexists. split; [reflexivity|]. cbn [combine]. auto.
  - destruct (f y) as [b|]; [|discriminate]. cbn [bind] in *. destruct (f x) as [a|]; [|discriminate]. cbn [bind] in *. destruct (map_res f l) as [zs|]; [|discriminate]. cbn [bind] in *. injection E as <-.
    eexists. split; [reflexivity|]. cbn [combine]. constructor.
  - destruct (IH ys E) as (ys' & E' & Q). destruct (IH' ys' E') as (ys'' & E'' & Q'). exists ys''. split; auto. etransitivity; eauto.
Qed.
Lemma map_res_len : forall {A B} (f : A -> res B) l ys, map_res f l = Ok ys -> List.length ys = List.length l.
Proof.
  induction l as [|x l IH]; cbn [map_res]; intros ys E; [injection E as <-; auto|]. destruct (f x); [|discriminate]. cbn [bind] in E. destruct (map_res f l) as [zs|]; [|discriminate].
  injection E as <-. cbn. f_equal. auto.
Qed.
Theorem samples_reordered : forall sort fuel width height magnitude extinction reflectivity blocking samples samples' rows, Permutation samples samples' ->
  trace_samples sort fuel width height magnitude extinction reflectivity blocking samples = Traced rows ->
  exists rows', trace_samples sort fuel width height magnitude extinction reflectivity blocking samples' = Traced rows'
  /\ List.length rows' = List.length samples' /\ Permutation (combine samples rows) (combine samples' rows').
Proof.
  intros sort fuel width height magnitude extinction reflectivity blocking samples samples' rows P E. unfold trace_samples in *.
  assert (G : forall mask, trace_rows width height magnitude extinction reflectivity (map fst samples) (map mask (flat_map (fun '(s, owner) => blocking_rays width height magnitude s owner) samples)) = Traced rows ->
    exists rows', trace_rows width height magnitude extinction reflectivity (map fst samples') (map mask (flat_map (fun '(s, owner) => blocking_rays width height magnitude s owner) samples')) = Traced rows'
    /\ List.length rows' = List.length samples' /\ Permutation (combine samples rows) (combine samples' rows')).
  { intros mask X. rewrite rows_by_sample in X |- *. destruct (map_res _ samples) as [ys|] eqn:M; [|discriminate]. injection X as <-.
    destruct (map_res_perm _ _ _ _ P M) as (ys' & E' & Q). rewrite E'. eauto using map_res_len. }
  destruct blocking as [corners|].
  - assert (PR : Permutation (flat_map (fun '(s, owner) => blocking_rays width height magnitude s owner) samples) (flat_map (fun '(s, owner) => blocking_rays width height magnitude s owner) samples')) by (apply Permutation_flat_map; auto).
    unfold batch_blocked in *. destruct (filter_primitives sort fuel corners _) as [found| |] eqn:F; try discriminate.
    rewrite (filter_rays sort fuel corners _ (flat_map (fun '(s, owner) => blocking_rays width height magnitude s owner) samples') found) with (2 := F).
    + destruct found; apply G; auto.
    + intros r. split; apply Permutation_in; auto. apply Permutation_sym; auto.
  - assert (Z : forall l : list (sample * nat), map (fun _ => Some 0) (flat_map sample_rays (map fst l)) = map (fun _ : ray => Some 0) (flat_map (fun '(s, owner) => blocking_rays width height magnitude s owner) l)).
    { induction l as [|[s o] l IH]; auto. cbn [map flat_map fst]. rewrite !map_app, IH. f_equal. unfold blocking_rays, sample_intersections. rewrite map_map.
      generalize (sample_rays s) as rs. intros rs. assert (GE : forall (g : point * point -> intersection) l, map (fun _ => Some 0) l = map (fun x : point * point * intersection => Some 0) (combine l (map g l))) by (intros g l0; induction l0; cbn; congruence).
      apply GE. }
    rewrite Z in E |- *. apply G. auto.
Qed.
