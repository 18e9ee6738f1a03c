(** Vocabulary of the properties about the selection of calibration data (C137-C139). *)
From Coq Require Import List Arith ZArith Reals String Ascii Sorting.Permutation Sorting.Sorted.
From Verif Require Import ModelDataSelection.
Import ListNotations.

(** A way of sorting rows by a key. *)
Definition sorts (sort_by : (metadata_row -> Z) -> list metadata_row -> list metadata_row) : Prop :=
  forall key rows, Permutation (sort_by key rows) rows /\ StronglySorted (fun a b => (key a <= key b)%Z) (sort_by key rows).
(** Names in the order of a dictionary, each once. *)
Definition before (a b : string) : Prop := String.compare a b = Lt.
Definition alphabetical : list string -> Prop := StronglySorted before.
(** A row may be used: its heliostat is not excluded, and one of the named ones, if any are named. *)
Definition wanted (names : option (list string)) (excluded : list string) (r : metadata_row) : Prop :=
  ~ In (m_heliostat r) excluded /\ match names with None => True | Some l => In (m_heliostat r) l end.
(** All three files of the row's measurement exist. *)
Definition has_files (file_exists : path -> bool) (kinematics_image surface_image : string) (r : metadata_row) : Prop :=
  file_exists (m_heliostat r, m_id r, PropertiesFile) = true /\ file_exists (m_heliostat r, m_id r, ImageFile kinematics_image) = true
  /\ file_exists (m_heliostat r, m_id r, ImageFile surface_image) = true.
Definition away (date : Z) (r : metadata_row) : Z := Z.abs (m_time r - date).

(** The paths of a heliostat belong together: at every position, they are files of the same measurement. *)
Definition same_measurements (images : list path) (calibrations : list path) : Prop :=
  map fst images = map fst calibrations.
(** A random generator orders the indices in some way. *)
Definition shuffles (shuffle : nat -> nat -> list nat) : Prop := forall i n, Permutation (shuffle i n) (seq 0 n).
(** An entry of the list of viable heliostats is usable: as many calibrations as images of either kind. *)
Definition usable (h : mapping_entry) : Prop :=
  same_measurements (e_kinematics h) (e_calibrations h) /\ same_measurements (e_surfaces h) (e_calibrations h).

(** Measurements of a data set: calibration file and image of each. *)
Definition measurements (t : task_entry) : list (path * path) := let '(_, calibrations, images) := t in combine calibrations images.
Definition task_name (t : task_entry) : string := let '(name, _, _) := t in name.
(** The data set of a heliostat holds these measurements, in some order. *)
Definition holds (h : mapping_entry) (available : list (path * path)) (t : task_entry) : Prop :=
  task_name t = e_name h /\ Permutation (measurements t) available.
(** It holds some of these measurements, as many as given. *)
Definition holds_some (h : mapping_entry) (available : list (path * path)) (number : nat) (t : task_entry) : Prop :=
  task_name t = e_name h /\ List.length (measurements t) = number /\ exists others, Permutation (measurements t ++ others) available.
(** The measurements of a heliostat with the images for the kinematics or for the surface reconstruction. *)
Definition kinematics_measurements (h : mapping_entry) : list (path * path) := combine (e_calibrations h) (e_kinematics h).
Definition surface_measurements (h : mapping_entry) : list (path * path) := combine (e_calibrations h) (e_surfaces h).
(** The greatest number that is not more than the fraction of [n]. *)
Definition is_fraction (fraction : R) (n k : nat) : Prop := (INR k <= INR n * fraction < INR k + 1)%R.
Definition nanoseconds_per_day : Z := 86400000000000.
Definition day (time : Z) : Z := (time / nanoseconds_per_day)%Z.

(** The name of a heliostat: two capital letters and two digits. *)
Definition named_like_a_heliostat (s : string) : Prop :=
  exists a b c d, s = String a (String b (String c (String d EmptyString)))
    /\ In a (list_ascii_of_string "ABCDEFGHIJKLMNOPQRSTUVWXYZ") /\ In b (list_ascii_of_string "ABCDEFGHIJKLMNOPQRSTUVWXYZ")
    /\ In c (list_ascii_of_string "0123456789") /\ In d (list_ascii_of_string "0123456789").
(** A calibration file is usable: it can be read, has a centroid of both methods and an image. *)
Definition usable_file (f : calibration_file) : Prop :=
  exists keys, cf_focal_spots f = Some keys /\ In "HeliOS"%string keys /\ In "UTIS"%string keys /\ cf_image f = true.
(** The usable calibration files of a heliostat directory, in their order, have these names. *)
Definition usable_names (d : heliostat_directory) (names : list string) : Prop :=
  exists files good, d_calibration d = Some files /\ (forall f, good f = true <-> usable_file f) /\ names = map cf_name (filter good files).
(** A heliostat has enough usable measurements and is not excluded. *)
Definition enough (minimum : nat) (excluded : list string) (d : heliostat_directory) : Prop :=
  named_like_a_heliostat (d_name d) /\ ~ In (d_name d) excluded /\ exists names, usable_names d names /\ minimum <= List.length names.
(** An entry of the list: the heliostat's name and its first usable calibration files. *)
Definition listed_as (minimum : nat) (d : heliostat_directory) (x : string * list string) : Prop :=
  fst x = d_name d /\ exists names, usable_names d names /\ snd x = firstn minimum names.
