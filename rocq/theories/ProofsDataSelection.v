(** Selection of calibration data. *)
From Coq Require Import List Arith ZArith NArith Reals String Bool Lia Lra Sorting.Permutation Sorting.Sorted.
From Verif Require Import ModelField ModelDataSelection SpecDataSelection.
Import ListNotations.
Local Open Scope nat_scope.

Lemma listed_iff : forall x l, listed x l = true <-> In x l.
Proof.
  intros x l. unfold listed. rewrite existsb_exists. split.
  - intros (y & H & E). apply String.eqb_eq in E. now subst.
  - intros H. exists x. split; [auto|apply String.eqb_refl].
Qed.
Lemma before_trans : forall a b c, before a b -> before b c -> before a c.
Proof.
  unfold before. induction a as [|x a IH]; intros [|y b] [|z c]; cbn; try discriminate; auto.
  unfold Ascii.compare. destruct (N.compare_spec (Ascii.N_of_ascii x) (Ascii.N_of_ascii y)) as [E|E|E]; try discriminate;
  destruct (N.compare_spec (Ascii.N_of_ascii y) (Ascii.N_of_ascii z)) as [F|F|F]; try discriminate; intros A B.
  - rewrite E, F, N.compare_refl. eauto.
  - rewrite E. now apply N.compare_lt_iff in F as ->.
  - rewrite <- F. now apply N.compare_lt_iff in E as ->.
  - assert (G : (Ascii.N_of_ascii x < Ascii.N_of_ascii z)%N) by (eapply N.lt_trans; eauto). now apply N.compare_lt_iff in G as ->.
Qed.
Lemma insert_in : forall x l y, In y (insert_key x l) <-> y = x \/ In y l.
Proof.
  intros x. induction l as [|z l IH]; intros y; cbn; [intuition|]. destruct (String.compare x z) eqn:E; cbn; rewrite ?IH.
  - apply String.compare_eq_iff in E. subst. intuition.
  - intuition.
  - intuition.
Qed.
Lemma insert_sorted : forall x l, alphabetical l -> alphabetical (insert_key x l).
Proof.
  intros x. unfold alphabetical. induction l as [|y l IH]; intros H; cbn; [repeat constructor|].
  apply StronglySorted_inv in H as (S & F). destruct (String.compare x y) eqn:E.
  - now constructor.
  - constructor; [now constructor|]. constructor; [auto|]. rewrite Forall_forall in *. intros z Z. eapply before_trans; [exact E|auto].
  - constructor; [auto|]. rewrite Forall_forall in *. intros z Z. apply insert_in in Z as [->|Z]; [|auto].
    unfold before. rewrite String.compare_antisym, E. reflexivity.
Qed.
Lemma keys_sorted : forall rows, alphabetical (group_keys rows).
Proof. unfold group_keys. induction rows; cbn; [constructor|now apply insert_sorted]. Qed.
Lemma keys_in : forall rows x, In x (group_keys rows) <-> exists r, In r rows /\ m_heliostat r = x.
Proof.
  unfold group_keys. induction rows as [|r rows IH]; intros x; cbn; [split; [tauto|intros (? & [] & _)]|].
  rewrite insert_in, IH. split.
  - intros [->|(s & I & E)]; eauto.
  - intros (s & [->|I] & E); eauto.
Qed.

Lemma valid_first : forall complete maximum ids count, count < maximum ->
  valid_ids complete maximum count ids = firstn (maximum - count) (filter complete ids).
Proof.
  intros complete maximum. induction ids as [|i ids IH]; intros count L; cbn [valid_ids filter]; [now rewrite firstn_nil|].
  destruct (complete i) eqn:C.
  - destruct (Nat.leb_spec maximum (S count)).
    + replace (maximum - count) with 1 by lia. reflexivity.
    + rewrite IH by lia. replace (maximum - count) with (S (maximum - S count)) by lia. reflexivity.
  - destruct (Nat.leb_spec maximum count); [lia|]. now apply IH.
Qed.
Lemma filter_map' : forall {A B} (f : A -> B) (p : B -> bool) l, filter p (map f l) = map f (filter (fun x => p (f x)) l).
Proof. intros A B f p. induction l as [|x l IH]; cbn; [auto|]. destruct (p (f x)); cbn; now rewrite IH. Qed.
Lemma filter_permutation : forall {A} (p : A -> bool) l l', Permutation l l' -> Permutation (filter p l) (filter p l').
Proof.
  intros A p l l' H. induction H; cbn; auto.
  - destruct (p x); auto.
  - destruct (p x), (p y); auto. apply perm_swap.
  - eapply Permutation_trans; eauto.
Qed.
Lemma filter_sorted : forall {A} (R : A -> A -> Prop) p l, StronglySorted R l -> StronglySorted R (filter p l).
Proof.
  intros A R p. induction l as [|x l IH]; intros H; cbn; [constructor|]. apply StronglySorted_inv in H as (S & F). destruct (p x); [|auto].
  constructor; [auto|]. rewrite Forall_forall in *. intros y Y. apply filter_In in Y as (Y & _). auto.
Qed.
Lemma sorted_app : forall {A} (R : A -> A -> Prop) l l', StronglySorted R (l ++ l') -> StronglySorted R l /\ forall x y, In x l -> In y l' -> R x y.
Proof.
  intros A R. induction l as [|x l IH]; intros l' H; cbn in H; [split; [constructor|intros ? ? []]|]. apply StronglySorted_inv in H as (S & F).
  apply IH in S as (S1 & S2). rewrite Forall_app in F. destruct F as (F1 & F2). split; [now constructor|].
  intros a b [->|Ia] Ib; [|auto]. rewrite Forall_forall in F2. auto.
Qed.

Section Find.
Variables (file_exists : path -> bool) (sort_by : (metadata_row -> Z) -> list metadata_row -> list metadata_row).
Variable (SO : sorts sort_by).
Variables (rows : list metadata_row) (names : option (list string)) (date : Z) (maximum : nat) (ki si : string) (excluded : list string).
Definition usable_rows : list metadata_row :=
  let l := filter (fun r => negb (listed (m_heliostat r) excluded)) rows in
  match names with None => l | Some n => filter (fun r => listed (m_heliostat r) n) l end.
Definition ordered_rows := sort_by (away date) usable_rows.
Definition of_heliostat (h : string) (r : metadata_row) : bool := String.eqb (m_heliostat r) h && complete_measurement file_exists ki si h (m_id r).
Definition candidates (h : string) := filter (of_heliostat h) ordered_rows.

Lemma usable_in : forall r, In r usable_rows <-> In r rows /\ wanted names excluded r.
Proof.
  intros r. unfold usable_rows, wanted. destruct names as [l|]; rewrite ?filter_In, negb_true_iff.
  - rewrite listed_iff, <- not_true_iff_false, listed_iff. tauto.
  - rewrite <- not_true_iff_false, listed_iff. tauto.
Qed.
Lemma ordered_in : forall r, In r ordered_rows <-> In r rows /\ wanted names excluded r.
Proof. intros r. rewrite <- usable_in. destruct (SO (away date) usable_rows) as (P & _). split; apply Permutation_in; [exact P|now apply Permutation_sym]. Qed.
Lemma candidate_in : forall h r, In r (candidates h) <-> In r rows /\ wanted names excluded r /\ m_heliostat r = h /\ has_files file_exists ki si r.
Proof.
  intros h r. unfold candidates. rewrite filter_In, ordered_in. unfold of_heliostat, complete_measurement, has_files. rewrite !andb_true_iff, String.eqb_eq.
  split; [intros ((A & B) & E & (F & G) & H)|intros (A & B & E & F & G & H)]; subst; auto 10.
Qed.
Lemma candidates_sorted : forall h, StronglySorted (fun a b => (away date a <= away date b)%Z) (candidates h).
Proof. intros h. apply filter_sorted. apply (SO (away date) usable_rows). Qed.

Definition entry_of (h : string) (found : list nat) : mapping_entry :=
  {| e_name := h; e_calibrations := map (fun id => (h, id, PropertiesFile)) found; e_kinematics := map (fun id => (h, id, ImageFile ki)) found;
     e_surfaces := map (fun id => (h, id, ImageFile si)) found |}.
Lemma found_is : 1 <= maximum -> find_calibration_data file_exists sort_by rows names date maximum ki si excluded
  = flat_map (fun h => match map m_id (firstn maximum (candidates h)) with [] => [] | found => [entry_of h found] end) (group_keys ordered_rows).
Proof.
  intros M. unfold find_calibration_data. fold usable_rows. change (sort_by _ usable_rows) with ordered_rows. apply flat_map_ext. intros h.
  rewrite valid_first by lia. rewrite Nat.sub_0_r, filter_map', firstn_map. unfold candidates, of_heliostat.
  replace (filter (fun r => String.eqb (m_heliostat r) h && complete_measurement file_exists ki si h (m_id r)) ordered_rows)
    with (filter (fun x => complete_measurement file_exists ki si h (m_id x)) (filter (fun r => String.eqb (m_heliostat r) h) ordered_rows)); [reflexivity|].
  induction ordered_rows as [|r l IH]; cbn; [auto|]. destruct (String.eqb (m_heliostat r) h); cbn; [|exact IH]. destruct (complete_measurement _ _ _ _ _); now rewrite IH.
Qed.

Theorem selection_closest : 1 <= maximum -> forall e, In e (find_calibration_data file_exists sort_by rows names date maximum ki si excluded) ->
  exists chosen left,
    e_calibrations e = map (fun r => (e_name e, m_id r, PropertiesFile)) chosen
    /\ e_kinematics e = map (fun r => (e_name e, m_id r, ImageFile ki)) chosen
    /\ e_surfaces e = map (fun r => (e_name e, m_id r, ImageFile si)) chosen
    /\ 1 <= List.length chosen <= maximum /\ (List.length chosen < maximum -> left = [])
    /\ (forall r, In r (chosen ++ left) <-> In r rows /\ wanted names excluded r /\ m_heliostat r = e_name e /\ has_files file_exists ki si r)
    /\ StronglySorted (fun a b => (away date a <= away date b)%Z) chosen
    /\ (forall a b, In a chosen -> In b left -> (away date a <= away date b)%Z).
Proof.
  intros M e IE. rewrite found_is in IE by auto. apply in_flat_map in IE as (h & K & IE).
  destruct (map m_id (firstn maximum (candidates h))) as [|i found] eqn:E; [contradiction|]. destruct IE as [<-|[]]. rewrite <- E.
  exists (firstn maximum (candidates h)), (skipn maximum (candidates h)). cbn [entry_of e_name e_calibrations e_kinematics e_surfaces]. rewrite !map_map, firstn_skipn.
  pose proof (candidates_sorted h) as SS. rewrite <- (firstn_skipn maximum (candidates h)) in SS. apply sorted_app in SS as (S1 & S2).
  split; [auto|]. split; [auto|]. split; [auto|]. split; [|split; [|split; [|split; auto]]].
  - apply (f_equal (@List.length nat)) in E. rewrite map_length in E. cbn in E. rewrite E. pose proof (firstn_le_length maximum (candidates h)). rewrite E in H. split; [lia|].
    rewrite firstn_length in E. lia.
  - intros L. apply skipn_all2. rewrite firstn_length in L. lia.
  - intros r. apply candidate_in.
Qed.
Theorem selection_names : 1 <= maximum ->
  alphabetical (map e_name (find_calibration_data file_exists sort_by rows names date maximum ki si excluded))
  /\ forall h, In h (map e_name (find_calibration_data file_exists sort_by rows names date maximum ki si excluded))
               <-> exists r, In r rows /\ wanted names excluded r /\ m_heliostat r = h /\ has_files file_exists ki si r.
Proof.
  intros M. rewrite found_is by auto. split.
  - pose proof (keys_sorted ordered_rows) as K. revert K. unfold alphabetical. generalize (group_keys ordered_rows). clear -M. induction l as [|h l IH]; intros K; cbn; [constructor|].
    apply StronglySorted_inv in K as (K & F). rewrite map_app. assert (Q : Forall (before h) (map e_name (flat_map (fun h => match map m_id (firstn maximum (candidates h)) with [] => [] | n :: l => [entry_of h (n :: l)] end) l))).
    { rewrite Forall_forall in *. intros x X. apply in_map_iff in X as (e & <- & X). apply in_flat_map in X as (k & K1 & X). destruct (map m_id (firstn maximum (candidates k))); [contradiction|]. destruct X as [<-|[]]. auto. }
    destruct (map m_id (firstn maximum (candidates h))); cbn; [auto|]. constructor; auto.
  - intros h. split.
    + intros I. apply in_map_iff in I as (e & <- & I). apply in_flat_map in I as (k & _ & I). destruct (map m_id (firstn maximum (candidates k))) as [|i f] eqn:E; [contradiction|]. destruct I as [<-|[]].
      destruct (firstn maximum (candidates k)) as [|r l] eqn:F; [discriminate|]. exists r. apply candidate_in. change (e_name _) with k. rewrite <- (firstn_skipn maximum (candidates k)). rewrite F. now left.
    + intros (r & IR & W & H & C). assert (IC : In r (candidates h)) by (apply candidate_in; auto). apply in_map_iff.
      destruct (candidates h) as [|c l] eqn:E; [contradiction|]. destruct maximum as [|m]; [lia|].
      exists (entry_of h (m_id c :: map m_id (firstn m l))). split; [auto|]. apply in_flat_map. exists h. split.
      * apply keys_in. exists r. split; [now apply ordered_in|auto].
      * rewrite E. cbn. now left.
Qed.
End Find.
