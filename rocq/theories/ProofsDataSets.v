(** Refuted parts of the selection, data sets and viable heliostats. *)
From Coq Require Import List Arith ZArith NArith Reals String Ascii Bool Lia Lra Sorting.Permutation Sorting.Sorted.
From Verif Require Import ModelField ModelDataSelection SpecDataSelection ProofsDataSelection.
Import ListNotations.
Local Open Scope nat_scope.

Theorem date_ignored : forall file_exists sort_by rows names date maximum ki si excluded h, sorts sort_by -> 1 <= maximum ->
  In h names -> ~ In h excluded -> (exists r, In r rows /\ m_heliostat r = h /\ has_files file_exists ki si r) ->
  (forall r, In r rows -> m_heliostat r = h -> day (m_time r) <> day date) ->
  exists e, In e (find_calibration_data file_exists sort_by rows (Some names) date maximum ki si excluded) /\ e_name e = h /\ e_calibrations e <> [].
Proof.
  intros file_exists sort_by rows names date maximum ki si excluded h SO M N X (r & IR & RH & C) _.
  destruct (selection_names file_exists sort_by SO rows (Some names) date maximum ki si excluded M) as (_ & H).
  assert (I : In h (map e_name (find_calibration_data file_exists sort_by rows (Some names) date maximum ki si excluded))).
  { apply H. exists r. unfold wanted. subst. auto. }
  apply in_map_iff in I as (e & E & I). exists e. split; [auto|]. split; [auto|].
  destruct (selection_closest file_exists sort_by SO rows (Some names) date maximum ki si excluded M e I) as (chosen & left & CE & _ & _ & (L & _) & _).
  rewrite CE. destruct chosen; [cbn in L; lia|discriminate].
Qed.
Theorem zero_selects : forall file_exists sort_by rows names date ki si excluded h, sorts sort_by ->
  (exists r, In r rows /\ m_heliostat r = h /\ wanted names excluded r) ->
  (forall r, In r rows -> m_heliostat r = h -> has_files file_exists ki si r) ->
  exists e, In e (find_calibration_data file_exists sort_by rows names date 0 ki si excluded) /\ e_name e = h /\ List.length (e_calibrations e) = 1.
Proof.
  intros file_exists sort_by rows names date ki si excluded h SO (r & IR & RH & W) C.
  unfold find_calibration_data. fold (usable_rows rows names excluded). change (sort_by _ (usable_rows rows names excluded)) with (ordered_rows sort_by rows names date excluded).
  assert (IO : In r (ordered_rows sort_by rows names date excluded)) by (apply ordered_in; auto).
  destruct (filter (fun r => String.eqb (m_heliostat r) h) (ordered_rows sort_by rows names date excluded)) as [|q l] eqn:F.
  { exfalso. assert (X : In r []) by (rewrite <- F; apply filter_In; split; [auto|now apply String.eqb_eq]). contradiction. }
  assert (Q : In q (filter (fun r => String.eqb (m_heliostat r) h) (ordered_rows sort_by rows names date excluded))) by (rewrite F; now left).
  apply filter_In in Q as (Q1 & Q2). apply String.eqb_eq in Q2. apply ordered_in in Q1 as (Q1 & _); [|auto]. specialize (C q Q1 Q2) as (C1 & C2 & C3). rewrite Q2 in C1, C2, C3.
  eexists. split.
  - apply in_flat_map. exists h. split; [apply keys_in; exists r; auto|]. rewrite F. cbn [map valid_ids Nat.leb]. unfold complete_measurement. rewrite C1, C2, C3. cbn. now left.
  - split; reflexivity.
Qed.

(** ** Data sets *)
Lemma picked_perm : forall {A} (l : list A) i j, Permutation i j -> Permutation (picked l i) (picked l j).
Proof. intros A l i j H. unfold picked. induction H; cbn; auto using Permutation_app_head; [|eauto using Permutation_trans]. rewrite !app_assoc. apply Permutation_app_tail, Permutation_app_comm. Qed.
Lemma picked_shift : forall {A} (x : A) l s n, picked (x :: l) (seq (S s) n) = picked l (seq s n).
Proof. intros A x l s n. revert s. induction n as [|n IH]; intros s; cbn; [auto|]. unfold picked in IH. now rewrite IH. Qed.
Lemma picked_all : forall {A} (l : list A), picked l (seq 0 (List.length l)) = l.
Proof. intros A. induction l as [|x l IH]; [auto|]. cbn [List.length seq]. unfold picked. cbn [flat_map nth_error app]. f_equal. fold (picked (x :: l) (seq 1 (List.length l))). now rewrite picked_shift. Qed.
Lemma picked_app : forall {A} (l : list A) i j, picked l (i ++ j) = picked l i ++ picked l j.
Proof. intros. apply flat_map_app. Qed.
Lemma picked_combine : forall {A B} (l : list A) (m : list B) idx, List.length l = List.length m -> combine (picked l idx) (picked m idx) = picked (combine l m) idx.
Proof.
  intros A B l m idx H. induction idx as [|i idx IH]; [auto|]. unfold picked in *. cbn [flat_map].
  assert (N : nth_error (combine l m) i = match nth_error l i, nth_error m i with Some a, Some b => Some (a, b) | _, _ => None end).
  { clear IH. revert m H i. induction l as [|a l IL]; intros [|b m] H i; try discriminate; destruct i; cbn; auto. }
  rewrite N. assert (E : nth_error l i = None <-> nth_error m i = None) by (rewrite !nth_error_None; lia).
  destruct (nth_error l i), (nth_error m i); cbn; try (exfalso; destruct E as (E1 & E2); (now specialize (E1 eq_refl)) || (now specialize (E2 eq_refl))); now rewrite ?IH.
Qed.
Lemma picked_length : forall {A} (l : list A) idx, (forall i, In i idx -> i < List.length l) -> List.length (picked l idx) = List.length idx.
Proof.
  intros A l. induction idx as [|i idx IH]; intros H; [auto|]. unfold picked in *. cbn [flat_map]. rewrite app_length, IH by (intros; apply H; now right).
  destruct (nth_error l i) eqn:E; [reflexivity|]. apply nth_error_None in E. specialize (H i (or_introl eq_refl)). lia.
Qed.
Lemma test_number_fraction : forall f n, (0 <= f <= 1)%R -> is_fraction f n (Z.to_nat (test_number n f)) /\ (0 <= test_number n f <= Z.of_nat n)%Z.
Proof.
  intros f n F. unfold test_number, is_fraction. pose proof (pos_INR n). assert (P : (0 <= INR n * f)%R) by nra. destruct (Rlt_dec (INR n * f) 0); [lra|].
  destruct (base_Int_part (INR n * f)) as (A & B). set (k := Int_part (INR n * f)) in *.
  assert (K : (0 <= k)%Z). { assert (IZR (-1) < IZR k)%R by lra. apply lt_IZR in H0. lia. }
  assert (L : (k <= Z.of_nat n)%Z). { apply le_IZR. rewrite <- INR_IZR_INZ. nra. }
  split; [|lia]. rewrite INR_IZR_INZ. rewrite Z2Nat.id by auto. lra.
Qed.
Lemma slice_from_splits : forall {A} (l : list A) k, (0 <= k <= Z.of_nat (List.length l))%Z ->
  exists front, l = front ++ slice_from (Z.of_nat (List.length l) - k) l /\ List.length (slice_from (Z.of_nat (List.length l) - k) l) = Z.to_nat k.
Proof.
  intros A l k K. unfold slice_from. destruct (Z.ltb_spec (Z.of_nat (List.length l) - k) 0); [lia|]. exists (firstn (Z.to_nat (Z.of_nat (List.length l) - k)) l).
  split; [now rewrite firstn_skipn|]. rewrite skipn_length. lia.
Qed.
Lemma slice_to_combine : forall {A B} limit (l : list A) (m : list B), combine (slice_to limit l) (slice_to limit m) = slice_to limit (combine l m).
Proof. intros A B [k|] l m; cbn; [now rewrite combine_firstn|auto]. Qed.
Lemma slice_to_length : forall {A B} limit (l : list A) (m : list B), List.length l = List.length m -> List.length (slice_to limit l) = List.length (slice_to limit m).
Proof. intros A B [k|] l m H; cbn; [rewrite !firstn_length; lia|auto]. Qed.
Lemma usable_lengths : forall h, usable h -> List.length (e_kinematics h) = List.length (e_calibrations h) /\ List.length (e_surfaces h) = List.length (e_calibrations h).
Proof. intros h (A & B). unfold same_measurements in *. apply (f_equal (@List.length _)) in A, B. now rewrite !map_length in A, B. Qed.
Lemma slice_to_map : forall {A B} (f : A -> B) limit l, map f (slice_to limit l) = slice_to limit (map f l).
Proof. intros A B f [k|] l; cbn; [now rewrite firstn_map|auto]. Qed.
Lemma limited_usable : forall limit h, usable h -> usable (limited limit h).
Proof. intros limit h (A & B). unfold usable, same_measurements, limited in *. cbn. rewrite !slice_to_map, A, B. auto. Qed.

Lemma split_is : forall order f h, (0 <= f <= 1)%R -> usable h -> Permutation order (seq 0 (List.length (e_calibrations h))) ->
  exists train test, split_single_heliostat order f h = Ok (train, test) /\ e_name train = e_name h /\ e_name test = e_name h
  /\ (forall images, images = e_kinematics \/ images = e_surfaces ->
      Permutation (combine (e_calibrations train) (images train)) (combine (e_calibrations h) (images h))
      /\ List.length (combine (e_calibrations test) (images test)) = Z.to_nat (test_number (List.length (e_calibrations h)) f)
      /\ incl (combine (e_calibrations test) (images test)) (combine (e_calibrations train) (images train))
      /\ exists others, Permutation (combine (e_calibrations test) (images test) ++ others) (combine (e_calibrations h) (images h))).
Proof.
  intros order f h F U P. destruct (usable_lengths h U) as (L1 & L2). unfold split_single_heliostat. rewrite L1, L2, !Nat.eqb_refl. cbn [andb].
  destruct (test_number_fraction f (List.length (e_calibrations h)) F) as (_ & K). pose proof (Permutation_length P) as PL. rewrite seq_length in PL.
  rewrite <- PL in *. destruct (slice_from_splits order _ K) as (front & E & TL). set (testing := slice_from _ order) in *.
  eexists _, _. split; [reflexivity|]. cbn [e_name e_calibrations e_kinematics e_surfaces]. split; [auto|]. split; [auto|].
  assert (BO : forall i, In i order -> i < List.length (e_calibrations h)) by (intros i I; apply (Permutation_in _ P), in_seq in I; lia).
  intros images C.
  assert (G : forall ims : list path, List.length ims = List.length (e_calibrations h) ->
    Permutation (combine (picked (e_calibrations h) order) (picked ims order)) (combine (e_calibrations h) ims)
    /\ List.length (combine (picked (e_calibrations h) testing) (picked ims testing)) = Z.to_nat (test_number (List.length order) f)
    /\ incl (combine (picked (e_calibrations h) testing) (picked ims testing)) (combine (picked (e_calibrations h) order) (picked ims order))
    /\ exists others, Permutation (combine (picked (e_calibrations h) testing) (picked ims testing) ++ others) (combine (e_calibrations h) ims)).
  { intros ims IL. rewrite !picked_combine by auto. set (all := combine (e_calibrations h) ims).
    assert (AL : List.length all = List.length (e_calibrations h)) by (unfold all; rewrite combine_length; lia).
    assert (PA : Permutation (picked all order) all). { eapply Permutation_trans; [apply (picked_perm all), P|]. rewrite PL, <- AL, picked_all. auto. }
    split; [auto|]. split.
    - rewrite picked_length; [exact TL|]. intros i I. rewrite AL. apply BO. rewrite E. apply in_or_app. now right.
    - split.
      + rewrite E, picked_app. intros x X. apply in_or_app. now right.
      + exists (picked all front). eapply Permutation_trans; [|exact PA]. transitivity (picked all (front ++ testing)); [rewrite picked_app; apply Permutation_app_comm|]. now rewrite <- E. }
  destruct C as [->| ->]; apply G; congruence.
Qed.

Theorem data_sets_hold : forall shuffle limit_kinematics limit_surfaces f hs, shuffles shuffle -> (0 <= f <= 1)%R -> Forall usable hs ->
  forall calls, exists d, create_data_sets shuffle calls limit_kinematics limit_surfaces f hs = Ok d
  /\ Forall2 (fun h t => holds h (slice_to limit_kinematics (kinematics_measurements h)) t) hs (kinematics_training d)
  /\ Forall2 (fun h t => exists k, is_fraction f (List.length (slice_to limit_kinematics (kinematics_measurements h))) k /\ holds_some h (slice_to limit_kinematics (kinematics_measurements h)) k t) hs (kinematics_testing d)
  /\ Forall2 (fun h t => holds h (slice_to limit_surfaces (slice_to limit_kinematics (surface_measurements h))) t) hs (surface_training d)
  /\ Forall2 (fun h t => exists k, is_fraction f (List.length (slice_to limit_surfaces (slice_to limit_kinematics (surface_measurements h)))) k /\ holds_some h (slice_to limit_surfaces (slice_to limit_kinematics (surface_measurements h))) k t) hs (surface_testing d)
  /\ Forall2 (fun test train => incl (measurements test) (measurements train)) (kinematics_testing d) (kinematics_training d)
  /\ Forall2 (fun test train => incl (measurements test) (measurements train)) (surface_testing d) (surface_training d).
Proof.
  intros shuffle lk ls f hs SH F U. induction hs as [|h hs IH]; intros calls; cbn [create_data_sets].
  - eexists. split; [reflexivity|]. cbn. repeat split; constructor.
  - apply Forall_cons_iff in U as (U1 & U2). set (h1 := limited lk h). set (h2 := limited ls h1).
    assert (V1 : usable h1) by now apply limited_usable. assert (V2 : usable h2) by now apply limited_usable.
    destruct (split_is (shuffle calls (List.length (e_calibrations h1))) f h1 F V1 (SH _ _)) as (train1 & test1 & E1 & A1 & B1 & C1).
    destruct (split_is (shuffle (S calls) (List.length (e_calibrations h2))) f h2 F V2 (SH _ _)) as (train2 & test2 & E2 & A2 & B2 & C2).
    rewrite E1. cbn [bind]. rewrite E2. cbn [bind]. destruct (IH U2 (S (S calls))) as (d & ED & D1 & D2 & D3 & D4 & D5 & D6). rewrite ED. cbn [bind].
    destruct (C1 e_kinematics (or_introl eq_refl)) as (P1 & L1 & I1 & O1). destruct (C2 e_surfaces (or_intror eq_refl)) as (P2 & L2 & I2 & O2).
    assert (K1 : combine (e_calibrations h1) (e_kinematics h1) = slice_to lk (kinematics_measurements h)) by (apply slice_to_combine).
    assert (K2 : combine (e_calibrations h2) (e_surfaces h2) = slice_to ls (slice_to lk (surface_measurements h))).
    { unfold h2, h1, limited. cbn [e_calibrations e_surfaces]. rewrite slice_to_combine, slice_to_combine. reflexivity. }
    rewrite K1 in *. rewrite K2 in *.
    assert (N1 : List.length (slice_to lk (kinematics_measurements h)) = List.length (e_calibrations h1)).
    { rewrite <- K1, combine_length. destruct (usable_lengths h1 V1). lia. }
    assert (N2 : List.length (slice_to ls (slice_to lk (surface_measurements h))) = List.length (e_calibrations h2)).
    { rewrite <- K2, combine_length. destruct (usable_lengths h2 V2). lia. }
    eexists. split; [reflexivity|]. cbn [kinematics_training kinematics_testing surface_training surface_testing].
    repeat split; constructor; auto.
    + split; [exact A1|exact P1].
    + exists (Z.to_nat (test_number (List.length (e_calibrations h1)) f)). rewrite N1. split; [now apply test_number_fraction|]. split; [exact B1|]. split; [exact L1|exact O1].
    + split; [exact A2|exact P2].
    + exists (Z.to_nat (test_number (List.length (e_calibrations h2)) f)). rewrite N2. split; [now apply test_number_fraction|]. split; [exact B2|]. split; [exact L2|exact O2].
Qed.
Theorem found_usable : forall file_exists sort_by rows names date maximum ki si excluded,
  Forall usable (find_calibration_data file_exists sort_by rows names date maximum ki si excluded).
Proof.
  intros. apply Forall_forall. intros e I. unfold find_calibration_data in I. apply in_flat_map in I as (h & _ & I).
  destruct (valid_ids _ _ _ _) as [|i l]; [contradiction|]. destruct I as [<-|[]]. split; unfold same_measurements; cbn [e_kinematics e_surfaces e_calibrations]; now rewrite !map_map.
Qed.

Lemma Forall2_nth : forall {A B} (P : A -> B -> Prop) l m i a, Forall2 P l m -> nth_error l i = Some a -> exists b, nth_error m i = Some b /\ P a b.
Proof. intros A B P l m i a H. revert i. induction H; intros [|i] E; try discriminate; cbn in *; [injection E as <-; eauto|auto]. Qed.
Theorem test_data_trained : forall shuffle limit_kinematics limit_surfaces f hs calls d i h, shuffles shuffle -> (0 <= f <= 1)%R -> Forall usable hs ->
  create_data_sets shuffle calls limit_kinematics limit_surfaces f hs = Ok d -> nth_error hs i = Some h ->
  (1 <= INR (List.length (slice_to limit_kinematics (kinematics_measurements h))) * f)%R ->
  exists train test, nth_error (kinematics_training d) i = Some train /\ nth_error (kinematics_testing d) i = Some test
    /\ measurements test <> [] /\ incl (measurements test) (measurements train).
Proof.
  intros shuffle lk ls f hs calls d i h SH F U E N L. destruct (data_sets_hold shuffle lk ls f hs SH F U calls) as (d' & E' & A & B & _ & _ & C & _).
  rewrite E in E'. injection E' as <-. destruct (Forall2_nth _ _ _ _ _ B N) as (test & T & k & K & _ & TL & _). destruct (Forall2_nth _ _ _ _ _ C T) as (train & TR & I).
  exists train, test. repeat split; auto. intros Z. rewrite Z in TL. cbn in TL. subst k. destruct K as (_ & K). cbn in K. lra.
Qed.
Theorem surface_limit : forall shuffle k s f hs calls d i h, shuffles shuffle -> (0 <= f <= 1)%R -> Forall usable hs ->
  create_data_sets shuffle calls (Some k) (Some s) f hs = Ok d -> nth_error hs i = Some h -> k < s -> s <= List.length (surface_measurements h) ->
  exists train, nth_error (surface_training d) i = Some train /\ List.length (measurements train) = k.
Proof.
  intros shuffle k s f hs calls d i h SH F U E N L M. destruct (data_sets_hold shuffle (Some k) (Some s) f hs SH F U calls) as (d' & E' & _ & _ & A & _).
  rewrite E in E'. injection E' as <-. destruct (Forall2_nth _ _ _ _ _ A N) as (train & T & _ & P). exists train. split; [auto|].
  rewrite (Permutation_length P). cbn. rewrite !firstn_length. lia.
Qed.

(** ** Viable heliostats *)
Definition valid_names (d : heliostat_directory) : list string :=
  match d_calibration d with None => [] | Some files => map cf_name (filter valid_file files) end.
Lemma capital_iff : forall a, capital a = true <-> In a (list_ascii_of_string "ABCDEFGHIJKLMNOPQRSTUVWXYZ").
Proof.
  intros a. destruct (in_dec ascii_dec a (list_ascii_of_string "ABCDEFGHIJKLMNOPQRSTUVWXYZ")) as [I|I]; split; intros H; auto.
  - clear H. revert a I. apply Forall_forall. vm_compute. repeat constructor.
  - exfalso. apply I. clear I. destruct a as [[] [] [] [] [] [] [] []]; vm_compute in H; try discriminate; vm_compute; tauto.
Qed.
Lemma digit_iff : forall a, digit a = true <-> In a (list_ascii_of_string "0123456789").
Proof.
  intros a. destruct (in_dec ascii_dec a (list_ascii_of_string "0123456789")) as [I|I]; split; intros H; auto.
  - clear H. revert a I. apply Forall_forall. vm_compute. repeat constructor.
  - exfalso. apply I. clear I. destruct a as [[] [] [] [] [] [] [] []]; vm_compute in H; try discriminate; vm_compute; tauto.
Qed.
Lemma heliostat_name_iff : forall s, heliostat_name s = true <-> named_like_a_heliostat s.
Proof.
  intros s. unfold heliostat_name, named_like_a_heliostat. split.
  - destruct s as [|a [|b [|c [|d [|e s]]]]]; cbn [list_ascii_of_string]; try discriminate. intros H. rewrite !andb_true_iff, !capital_iff, !digit_iff in H. exists a, b, c, d. tauto.
  - intros (a & b & c & d & -> & A & B & C & D). cbn [list_ascii_of_string]. rewrite <- capital_iff in A, B. rewrite <- digit_iff in C, D. now rewrite A, B, C, D.
Qed.
Lemma valid_file_iff : forall f, valid_file f = true <-> usable_file f.
Proof.
  intros f. unfold valid_file, usable_file. destruct (cf_focal_spots f) as [keys|].
  - rewrite !andb_true_iff, !listed_iff. split; [intros ((A & B) & C); exists keys; auto|]. intros (k & E & A & B & C). injection E as <-. auto.
  - split; [discriminate|]. intros (k & E & _). discriminate.
Qed.
Lemma usable_names_iff : forall d names, usable_names d names <-> d_calibration d <> None /\ names = valid_names d.
Proof.
  intros d names. unfold usable_names, valid_names. split.
  - intros (files & good & -> & G & ->). split; [discriminate|]. f_equal. apply filter_ext. intros f. apply eq_true_iff_eq. now rewrite G, valid_file_iff.
  - intros (N & ->). destruct (d_calibration d) as [files|]; [|contradiction]. exists files, valid_file. split; [auto|]. split; [apply valid_file_iff|auto].
Qed.
Definition considered (excluded : list string) (d : heliostat_directory) : Prop :=
  heliostat_name (d_name d) = true /\ ~ In (d_name d) excluded /\ d_calibration d <> None.
Definition counts (excluded : list string) (d : heliostat_directory) : bool :=
  heliostat_name (d_name d) && negb (listed (d_name d) excluded) && match d_calibration d with None => false | Some _ => true end.
Lemma counts_iff : forall excluded d, counts excluded d = true <-> considered excluded d.
Proof.
  intros excluded d. unfold counts, considered. rewrite !andb_true_iff, negb_true_iff, <- not_true_iff_false, listed_iff.
  destruct (d_calibration d); split; intros H; intuition; discriminate.
Qed.
Definition viable (minimum : nat) (excluded : list string) (d : heliostat_directory) : bool := counts excluded d && (minimum <=? List.length (valid_names d)).
Theorem viable_first : forall minimum maximum excluded directories found, found < maximum ->
  viable_heliostats minimum maximum excluded found directories
  = map (fun d => (d_name d, firstn minimum (valid_names d))) (firstn (maximum - found) (filter (viable minimum excluded) directories)).
Proof.
  intros minimum maximum excluded. induction directories as [|d ds IH]; intros found L; cbn [viable_heliostats filter]; [now rewrite firstn_nil|].
  assert (V : viable minimum excluded d = counts excluded d && (minimum <=? List.length (valid_names d))) by reflexivity. rewrite V. clear V.
  unfold counts. destruct (heliostat_name (d_name d)); cbn [negb orb andb]; [|auto].
  destruct (listed (d_name d) excluded); cbn [negb orb andb]; [auto|]. destruct (d_calibration d) as [files|] eqn:C; cbn [andb]; [|auto].
  assert (N : map cf_name (filter valid_file files) = valid_names d) by (unfold valid_names; now rewrite C). rewrite N.
  destruct (minimum <=? List.length (valid_names d)).
  - replace (maximum - found) with (S (maximum - S found)) by lia. cbn [firstn map]. f_equal.
    destruct (Nat.leb_spec maximum (S found)); [|apply IH; lia]. replace (maximum - S found) with 0 by lia. reflexivity.
  - destruct (Nat.leb_spec maximum found); [lia|]. now apply IH.
Qed.
Theorem viable_zero : forall minimum excluded skipped d rest, (forall x, In x skipped -> ~ considered excluded x) -> considered excluded d -> minimum <= List.length (valid_names d) ->
  viable_heliostats minimum 0 excluded 0 (skipped ++ d :: rest) = [(d_name d, firstn minimum (valid_names d))].
Proof.
  intros minimum excluded skipped d rest SK C M. induction skipped as [|x l IH]; cbn [app viable_heliostats].
  - apply counts_iff in C. unfold counts in C. destruct (heliostat_name (d_name d)); [|discriminate]. destruct (listed (d_name d) excluded); [discriminate|]. cbn [negb orb].
    unfold valid_names in *. destruct (d_calibration d); [|discriminate]. cbn [Nat.leb]. destruct (Nat.leb_spec minimum (List.length (map cf_name (filter valid_file l)))); [reflexivity|lia].
  - assert (X : counts excluded x = false) by (apply not_true_iff_false; rewrite counts_iff; apply SK; now left). unfold counts in X.
    assert (IH' := IH (fun y H => SK y (or_intror H))).
    destruct (heliostat_name (d_name x)); cbn [negb orb] in *; [|auto]. destruct (listed (d_name x) excluded); cbn [negb orb andb] in *; [auto|]. destruct (d_calibration x); [discriminate|auto].
Qed.
Lemma viable_iff : forall minimum excluded d, viable minimum excluded d = true <-> enough minimum excluded d.
Proof.
  intros minimum excluded d. unfold viable, enough. rewrite andb_true_iff, counts_iff, Nat.leb_le, <- heliostat_name_iff. unfold considered. split.
  - intros ((A & B & C) & D). split; [auto|]. split; [auto|]. exists (valid_names d). rewrite usable_names_iff. auto.
  - intros (A & B & names & C & D). apply usable_names_iff in C as (C & ->). auto.
Qed.
Theorem viable_list : forall minimum maximum excluded directories is_enough, 1 <= maximum ->
  (forall d, is_enough d = true <-> enough minimum excluded d) ->
  Forall2 (listed_as minimum) (firstn maximum (filter is_enough directories)) (viable_heliostats minimum maximum excluded 0 directories).
Proof.
  intros minimum maximum excluded directories is_enough M E. rewrite viable_first by lia. rewrite Nat.sub_0_r.
  rewrite (filter_ext is_enough (viable minimum excluded)) by (intros d; apply eq_true_iff_eq; now rewrite E, viable_iff).
  assert (A : forall d, In d (firstn maximum (filter (viable minimum excluded) directories)) -> viable minimum excluded d = true).
  { intros d I. rewrite <- (firstn_skipn maximum (filter (viable minimum excluded) directories)) in *. assert (J : In d (filter (viable minimum excluded) directories)).
    { rewrite <- (firstn_skipn maximum (filter (viable minimum excluded) directories)). apply in_or_app. left. rewrite firstn_skipn in I. auto. }
    apply filter_In in J. tauto. }
  revert A. generalize (firstn maximum (filter (viable minimum excluded) directories)). induction l as [|d l IH]; intros A; cbn [map]; constructor.
  - split; [auto|]. exists (valid_names d). split; [|auto]. apply usable_names_iff. split; [|auto]. specialize (A d (or_introl eq_refl)). unfold viable in A.
    apply andb_true_iff in A as (A & _). apply counts_iff in A. apply A.
  - apply IH. intros x I. apply A. now right.
Qed.
Theorem viable_list_zero : forall minimum excluded d rest, enough minimum excluded d ->
  exists x, viable_heliostats minimum 0 excluded 0 (d :: rest) = [x] /\ listed_as minimum d x.
Proof.
  intros minimum excluded d rest (N & X & names & U & M). apply usable_names_iff in U as (C & ->). apply heliostat_name_iff in N.
  exists (d_name d, firstn minimum (valid_names d)). split; [apply (viable_zero minimum excluded []); unfold considered; auto; intros ? []|].
  split; [auto|]. exists (valid_names d). rewrite usable_names_iff. auto.
Qed.

(** A way of sorting, for the examples. *)
Fixpoint insert_row (key : metadata_row -> Z) (x : metadata_row) (l : list metadata_row) : list metadata_row :=
  match l with [] => [x] | y :: l' => if (key x <=? key y)%Z then x :: l else y :: insert_row key x l' end.
Definition sort_rows (key : metadata_row -> Z) (l : list metadata_row) : list metadata_row := fold_right (insert_row key) [] l.
Lemma insert_row_perm : forall key x l, Permutation (insert_row key x l) (x :: l).
Proof. intros key x. induction l as [|y l IH]; cbn; [auto|]. destruct (key x <=? key y)%Z; [auto|]. eapply perm_trans; [apply perm_skip, IH|apply perm_swap]. Qed.
Theorem sort_rows_sorts : sorts sort_rows.
Proof.
  intros key. induction rows as [|x l (IP & IS)]; cbn [sort_rows fold_right]; [split; constructor|]. fold (sort_rows key l). split.
  - eapply perm_trans; [apply insert_row_perm|]. auto.
  - clear IP. revert IS. generalize (sort_rows key l). clear l. induction l as [|y l IH]; intros IS; cbn [insert_row]; [repeat constructor|].
    pose proof (StronglySorted_inv IS) as (A & B). destruct (Z.leb_spec (key x) (key y)).
    + constructor; [auto|]. constructor; [auto|]. eapply Forall_impl; [|exact B]. cbn. intros; lia.
    + constructor; [auto|]. apply (Permutation_Forall (Permutation_sym (insert_row_perm key x l))). constructor; [lia|auto].
Qed.
