(** Properties of the selection of calibration data for the example studies (C137-C139). *)
From Coq Require Import List Arith ZArith Reals String Bool Lia Lra Sorting.Permutation Sorting.Sorted.
From Verif Require Import ModelField ModelDataSelection SpecDataSelection ProofsDataSelection ProofsDataSets.
Import ListNotations.
Local Open Scope string_scope.
Local Open Scope nat_scope.

(** C137 (full statement: the data mapping of a heliostat is split into a training and a testing set that have no measurement in common; the testing
    set holds the given fraction of the measurements; every calibration file keeps its image; and each task uses at most as many measurements as
    its own limit says).  Proved: for every order the random generator picks, the sets are built, hold only selected measurements, each with its
    own image and not more often than it was selected, and the testing set has the fraction, rounded down.  Refuted: the training set is the whole
    selection, so that every measurement of the testing set is trained on; and the limit of the surface task has no effect beyond that of the
    kinematics task. *)
Theorem C137_data_sets_partial : forall shuffle limit_kinematics limit_surfaces fraction heliostats, shuffles shuffle -> (0 <= fraction <= 1)%R -> Forall usable heliostats ->
  forall calls, exists d, create_data_sets shuffle calls limit_kinematics limit_surfaces fraction heliostats = Ok d
  /\ Forall2 (fun h t => holds h (slice_to limit_kinematics (kinematics_measurements h)) t) heliostats (kinematics_training d)
  /\ Forall2 (fun h t => exists k, is_fraction fraction (List.length (slice_to limit_kinematics (kinematics_measurements h))) k
       /\ holds_some h (slice_to limit_kinematics (kinematics_measurements h)) k t) heliostats (kinematics_testing d)
  /\ Forall2 (fun h t => holds h (slice_to limit_surfaces (slice_to limit_kinematics (surface_measurements h))) t) heliostats (surface_training d)
  /\ Forall2 (fun h t => exists k, is_fraction fraction (List.length (slice_to limit_surfaces (slice_to limit_kinematics (surface_measurements h)))) k
       /\ holds_some h (slice_to limit_surfaces (slice_to limit_kinematics (surface_measurements h))) k t) heliostats (surface_testing d)
  /\ Forall2 (fun test train => incl (measurements test) (measurements train)) (kinematics_testing d) (kinematics_training d)
  /\ Forall2 (fun test train => incl (measurements test) (measurements train)) (surface_testing d) (surface_training d).
Proof. exact data_sets_hold. Qed.
Print Assumptions C137_data_sets_partial.

(** What the selection finds is usable. *)
Theorem C137_found_usable_partial : forall file_exists sort_by rows names date maximum kinematics_image surface_image excluded,
  Forall usable (find_calibration_data file_exists sort_by rows names date maximum kinematics_image surface_image excluded).
Proof. exact found_usable. Qed.
Print Assumptions C137_found_usable_partial.

Theorem C137_leak_refuted : forall shuffle limit_kinematics limit_surfaces fraction heliostats calls d i h, shuffles shuffle -> (0 <= fraction <= 1)%R -> Forall usable heliostats ->
  create_data_sets shuffle calls limit_kinematics limit_surfaces fraction heliostats = Ok d -> nth_error heliostats i = Some h ->
  (1 <= INR (List.length (slice_to limit_kinematics (kinematics_measurements h))) * fraction)%R ->
  exists train test, nth_error (kinematics_training d) i = Some train /\ nth_error (kinematics_testing d) i = Some test
    /\ measurements test <> [] /\ incl (measurements test) (measurements train).
Proof. exact test_data_trained. Qed.
Print Assumptions C137_leak_refuted.

Theorem C137_surface_limit_refuted : forall shuffle k s fraction heliostats calls d i h, shuffles shuffle -> (0 <= fraction <= 1)%R -> Forall usable heliostats ->
  create_data_sets shuffle calls (Some k) (Some s) fraction heliostats = Ok d -> nth_error heliostats i = Some h -> k < s -> s <= List.length (surface_measurements h) ->
  exists train, nth_error (surface_training d) i = Some train /\ List.length (measurements train) = k.
Proof. exact surface_limit. Qed.
Print Assumptions C137_surface_limit_refuted.

(** Four measurements of a heliostat, a generator that reverses the indices, a quarter for testing: the last measurement by the shuffled order is tested, and trained on. *)
Definition four : mapping_entry :=
  {| e_name := "AB12"; e_calibrations := map (fun i => ("AB12", i, PropertiesFile)) [7; 8; 9; 10]; e_kinematics := map (fun i => ("AB12", i, ImageFile "flux")) [7; 8; 9; 10];
     e_surfaces := map (fun i => ("AB12", i, ImageFile "centered")) [7; 8; 9; 10] |}.
Definition reversing (calls n : nat) : list nat := rev (seq 0 n).
Example C137_case : Forall usable [four] /\ shuffles reversing /\ (0 <= 1 / 4 <= 1)%R
  /\ (1 <= INR (List.length (slice_to None (kinematics_measurements four))) * (1 / 4))%R
  /\ (2 < 4 /\ 4 <= List.length (surface_measurements four))
  /\ exists d, create_data_sets reversing 0 None None (1 / 4) [four] = Ok d
       /\ kinematics_testing d = [("AB12", [("AB12", 7, PropertiesFile)], [("AB12", 7, ImageFile "flux")])].
Proof.
  split; [constructor; [split; reflexivity|constructor]|]. split; [intros i n; apply Permutation_sym, Permutation_rev|]. split; [lra|]. split; [cbn; lra|]. split; [cbn; lia|].
  assert (T : test_number 4 (1 / 4) = 1%Z).
  { destruct (test_number_fraction (1 / 4) 4) as ((A & B) & C); [lra|]. replace (INR 4 * (1 / 4))%R with 1%R in A, B by (cbn; lra).
    revert A B C. generalize (test_number 4 (1 / 4)). intros k A B C. assert (Z.to_nat k <= 1) by (apply INR_le; change (INR 1) with 1%R; exact A). assert (1 < S (Z.to_nat k)) by (apply INR_lt; rewrite (S_INR (Z.to_nat k)); change (INR 1) with 1%R; lra). lia. }
  cbn [create_data_sets]. change (limited None four) with four. unfold split_single_heliostat. cbn [four e_calibrations e_kinematics e_surfaces map List.length Nat.eqb andb bind limited slice_to e_name].
  rewrite T. eexists. split; reflexivity.
Qed.

(** C138 (full statement: for every heliostat that is not excluded, and among the named ones if any are named, the selection lists at most the given number of
    measurements, the ones closest to the given date whose three files exist, closest first; heliostats without such a measurement are left out;
    and if heliostats are named, only measurements of the given day are used).  Proved for limits of at least one, except the last part, which is
    refuted: the day is never compared, so that a named heliostat is listed with measurements of other days.  A limit of zero is refuted too: one
    measurement is listed. *)
Theorem C138_closest_partial : forall file_exists sort_by, sorts sort_by -> forall rows names date maximum kinematics_image surface_image excluded, 1 <= maximum ->
  forall e, In e (find_calibration_data file_exists sort_by rows names date maximum kinematics_image surface_image excluded) ->
  exists chosen left,
    e_calibrations e = map (fun r => (e_name e, m_id r, PropertiesFile)) chosen
    /\ e_kinematics e = map (fun r => (e_name e, m_id r, ImageFile kinematics_image)) chosen
    /\ e_surfaces e = map (fun r => (e_name e, m_id r, ImageFile surface_image)) chosen
    /\ 1 <= List.length chosen <= maximum /\ (List.length chosen < maximum -> left = [])
    /\ (forall r, In r (chosen ++ left) <-> In r rows /\ wanted names excluded r /\ m_heliostat r = e_name e /\ has_files file_exists kinematics_image surface_image r)
    /\ StronglySorted (fun a b => (away date a <= away date b)%Z) chosen
    /\ (forall a b, In a chosen -> In b left -> (away date a <= away date b)%Z).
Proof. exact selection_closest. Qed.
Print Assumptions C138_closest_partial.

Theorem C138_names_partial : forall file_exists sort_by, sorts sort_by -> forall rows names date maximum kinematics_image surface_image excluded, 1 <= maximum ->
  alphabetical (map e_name (find_calibration_data file_exists sort_by rows names date maximum kinematics_image surface_image excluded))
  /\ forall h, In h (map e_name (find_calibration_data file_exists sort_by rows names date maximum kinematics_image surface_image excluded))
               <-> exists r, In r rows /\ wanted names excluded r /\ m_heliostat r = h /\ has_files file_exists kinematics_image surface_image r.
Proof. exact selection_names. Qed.
Print Assumptions C138_names_partial.

Theorem C138_day_refuted : forall file_exists sort_by rows names date maximum kinematics_image surface_image excluded h, sorts sort_by -> 1 <= maximum ->
  In h names -> ~ In h excluded -> (exists r, In r rows /\ m_heliostat r = h /\ has_files file_exists kinematics_image surface_image r) ->
  (forall r, In r rows -> m_heliostat r = h -> day (m_time r) <> day date) ->
  exists e, In e (find_calibration_data file_exists sort_by rows (Some names) date maximum kinematics_image surface_image excluded) /\ e_name e = h /\ e_calibrations e <> [].
Proof. exact date_ignored. Qed.
Print Assumptions C138_day_refuted.

Theorem C138_zero_refuted : forall file_exists sort_by rows names date kinematics_image surface_image excluded h, sorts sort_by ->
  (exists r, In r rows /\ m_heliostat r = h /\ wanted names excluded r) ->
  (forall r, In r rows -> m_heliostat r = h -> has_files file_exists kinematics_image surface_image r) ->
  exists e, In e (find_calibration_data file_exists sort_by rows names date 0 kinematics_image surface_image excluded) /\ e_name e = h /\ List.length (e_calibrations e) = 1.
Proof. exact zero_selects. Qed.
Print Assumptions C138_zero_refuted.

(** Three measurements of one heliostat, none of them on the wanted day; the image of the closest one is missing. *)
Definition three_rows : list metadata_row :=
  [{| m_heliostat := "AB12"; m_id := 1; m_time := 0 |}; {| m_heliostat := "AB12"; m_id := 2; m_time := 3 * nanoseconds_per_day |};
   {| m_heliostat := "AB12"; m_id := 3; m_time := 1 * nanoseconds_per_day |}].
Definition two_complete (p : path) : bool := negb (Nat.eqb (snd (fst p)) 2).
Example C138_case : sorts sort_rows
  /\ find_calibration_data two_complete sort_rows three_rows (Some ["AB12"]) (4 * nanoseconds_per_day) 1 "flux" "centered" []
     = [{| e_name := "AB12"; e_calibrations := [("AB12", 3, PropertiesFile)]; e_kinematics := [("AB12", 3, ImageFile "flux")]; e_surfaces := [("AB12", 3, ImageFile "centered")] |}]
  /\ (exists r, In r three_rows /\ m_heliostat r = "AB12" /\ has_files two_complete "flux" "centered" r)
  /\ (forall r, In r three_rows -> m_heliostat r = "AB12" -> day (m_time r) <> day (4 * nanoseconds_per_day))
  /\ (forall r, In r three_rows -> m_heliostat r = "AB12" -> has_files (fun _ => true) "flux" "centered" r)
  /\ (exists r, In r three_rows /\ m_heliostat r = "AB12" /\ wanted None [] r).
Proof.
  split; [exact sort_rows_sorts|]. split; [vm_compute; reflexivity|]. split; [eexists; split; [left; reflexivity|]; repeat split|]. split.
  - intros r I _. cbn in I. destruct I as [<-|[<-|[<-|[]]]]; vm_compute; discriminate.
  - split; [intros; repeat split|]. eexists. split; [left; reflexivity|]. repeat split. intros [].
Qed.

(** C139 (full statement: the list of viable heliostats for the reconstruction study holds the first heliostats by name, at most the given maximum, that are not
    excluded and have at least the given number of usable calibration files, each with exactly that many files, the first by name).  Proved for a maximum of at least
    one; refuted for a maximum of zero: one heliostat is listed. *)
Theorem C139_viable_partial : forall minimum maximum excluded directories is_enough, 1 <= maximum ->
  (forall d, is_enough d = true <-> enough minimum excluded d) ->
  Forall2 (listed_as minimum) (firstn maximum (filter is_enough directories)) (viable_heliostats minimum maximum excluded 0 directories).
Proof. exact viable_list. Qed.
Print Assumptions C139_viable_partial.

Theorem C139_zero_refuted : forall minimum excluded d rest, enough minimum excluded d ->
  exists x, viable_heliostats minimum 0 excluded 0 (d :: rest) = [x] /\ listed_as minimum d x.
Proof. exact viable_list_zero. Qed.
Print Assumptions C139_zero_refuted.

Definition spots (name : string) (keys : list string) (image : bool) : calibration_file := {| cf_name := name; cf_focal_spots := Some keys; cf_image := image |}.
Definition directories : list heliostat_directory :=
  [{| d_name := "AA11"; d_calibration := Some [spots "1" ["HeliOS"; "UTIS"] true; spots "2" ["HeliOS"] true] |};
   {| d_name := "AB12"; d_calibration := Some [spots "3" ["UTIS"; "HeliOS"] true; spots "4" ["HeliOS"; "UTIS"] false; spots "5" ["HeliOS"; "UTIS"] true; spots "6" ["HeliOS"; "UTIS"] true] |};
   {| d_name := "AC13"; d_calibration := None |}; {| d_name := "metadata"; d_calibration := Some [] |}].
(** With at least two files wanted, only the second heliostat is listed, with two of its three usable files. *)
Example C139_case : viable_heliostats 2 5 [] 0 directories = [("AB12", ["3"; "5"])]
  /\ enough 2 [] {| d_name := "AB12"; d_calibration := Some [spots "3" ["UTIS"; "HeliOS"] true; spots "4" ["HeliOS"; "UTIS"] false; spots "5" ["HeliOS"; "UTIS"] true; spots "6" ["HeliOS"; "UTIS"] true] |}
  /\ exists is_enough, forall d, is_enough d = true <-> enough 2 [] d.
Proof.
  split; [reflexivity|]. split; [apply viable_iff; reflexivity|]. exists (viable 2 []). apply viable_iff.
Qed.
