(** Model of the selection of calibration data in [examples/field_optimizations/generate_viable_heliostats_list.py] and
    [examples/paint_plots/reconstruction_generate_viable_heliostats_list.py]. *)
From Coq Require Import List Arith ZArith Reals String Bool.
From Verif Require Import ModelField.
Import ListNotations.

(** ** Field optimizations *)

(** A row of the metadata file: columns HeliostatId, Id and DateTime (as a number of nanoseconds). *)
Record metadata_row := { m_heliostat : string; m_id : nat; m_time : Z }.
(** The files of a measurement, generate_viable_heliostats_list.py:120-137: calibration properties or an image of some type. *)
Inductive measurement_file := PropertiesFile | ImageFile (image_type : string).
(** Path of a file of a measurement: heliostat, number of the measurement, file. *)
Definition path : Type := string * nat * measurement_file.

(** The order of the keys of [groupby]: sorted, each key once. *)
Fixpoint insert_key (x : string) (l : list string) : list string :=
  match l with
  | [] => [x]
  | y :: l' => match String.compare x y with Lt => x :: l | Eq => l | Gt => y :: insert_key x l' end
  end.
Definition group_keys (rows : list metadata_row) : list string := fold_right insert_key [] (map m_heliostat rows).

Definition listed (x : string) (l : list string) : bool := existsb (String.eqb x) l.

Section Selection.
(** [file_exists]: the files in the data directory.  [sort_by]: [sort_values] in line 109, which sorts by a key and may order rows with
    equal keys in any way. *)
Variables (file_exists : path -> bool) (sort_by : (metadata_row -> Z) -> list metadata_row -> list metadata_row).

(** The three files of a measurement exist, lines 139-143. *)
Definition complete_measurement (kinematics_image surface_image heliostat : string) (id : nat) : bool :=
  file_exists (heliostat, id, PropertiesFile) && file_exists (heliostat, id, ImageFile kinematics_image) && file_exists (heliostat, id, ImageFile surface_image).
(** The inner loop, lines 119-150: [count] measurements have been found before; the limit is checked after every row. *)
Fixpoint valid_ids (complete : nat -> bool) (maximum count : nat) (ids : list nat) : list nat :=
  match ids with
  | [] => []
  | id :: ids' =>
    let count' := if complete id then S count else count in
    let others := if maximum <=? count' then [] else valid_ids complete maximum count' ids' in
    if complete id then id :: others else others
  end.
(** An entry of the data mapping: the name and the paths of the calibration properties, the images for the kinematics and the images for
    the surface reconstruction; the path of the heliostat's properties is left out. *)
Record mapping_entry := { e_name : string; e_calibrations : list path; e_kinematics : list path; e_surfaces : list path }.

(** [find_calibration_data], lines 45-172 (the loop over heliostats at 113-170).  Times are compared with the reference date.  A negative maximum is like zero. *)
Definition find_calibration_data (rows : list metadata_row) (heliostat_names : option (list string)) (date : Z) (maximum : nat)
  (kinematics_image surface_image : string) (excluded : list string) : list mapping_entry :=
  let rows := filter (fun r => negb (listed (m_heliostat r) excluded)) rows in
  let rows := match heliostat_names with None => rows | Some names => filter (fun r => listed (m_heliostat r) names) rows end in
  let rows := sort_by (fun r => Z.abs (m_time r - date)) rows in
  flat_map (fun heliostat =>
    let ids := map m_id (filter (fun r => String.eqb (m_heliostat r) heliostat) rows) in
    match valid_ids (complete_measurement kinematics_image surface_image heliostat) maximum 0 ids with
    | [] => []
    | found => [{| e_name := heliostat; e_calibrations := map (fun id => (heliostat, id, PropertiesFile)) found;
                   e_kinematics := map (fun id => (heliostat, id, ImageFile kinematics_image)) found;
                   e_surfaces := map (fun id => (heliostat, id, ImageFile surface_image)) found |}]
    end) (group_keys rows).
End Selection.

(** Python's [l[k:]] and [l[:k]]; [None] is no limit. *)
Definition slice_from {A} (k : Z) (l : list A) : list A :=
  if (k <? 0)%Z then skipn (List.length l - Z.to_nat (- k)) l else skipn (Z.to_nat k) l.
Definition slice_to {A} (limit : option nat) (l : list A) : list A := match limit with None => l | Some k => firstn k l end.
(** [[l[i] for i in indices]] *)
Definition picked {A} (l : list A) (indices : list nat) : list A := flat_map (fun i => match nth_error l i with Some x => [x] | None => [] end) indices.
(** [int(n * test_fraction)], line 213, without the rounding of the product; it is exact for the default fraction of a quarter. *)
Definition test_number (n : nat) (test_fraction : R) : Z :=
  let x := (INR n * test_fraction)%R in if Rlt_dec x 0 then (- Int_part (- x))%Z else Int_part x.

(** [split_single_heliostat_all_tasks], lines 175-229; [order] is what the random generator makes of the list of indices. *)
Definition split_single_heliostat (order : list nat) (test_fraction : R) (h : mapping_entry) : res (mapping_entry * mapping_entry) :=
  let n := List.length (e_calibrations h) in
  if (n =? List.length (e_kinematics h)) && (List.length (e_kinematics h) =? List.length (e_surfaces h)) then
    let testing := slice_from (Z.of_nat n - test_number n test_fraction) order in
    let part indices := {| e_name := e_name h; e_calibrations := picked (e_calibrations h) indices; e_kinematics := picked (e_kinematics h) indices;
                           e_surfaces := picked (e_surfaces h) indices |} in
    Ok (part order, part testing)
  else Err AssertionError.
Definition limited (limit : option nat) (h : mapping_entry) : mapping_entry :=
  {| e_name := e_name h; e_calibrations := slice_to limit (e_calibrations h); e_kinematics := slice_to limit (e_kinematics h); e_surfaces := slice_to limit (e_surfaces h) |}.

(** A data mapping for one task: name, calibration properties and images of a heliostat. *)
Definition task_entry : Type := string * list path * list path.
Record data_sets := { kinematics_training : list task_entry; kinematics_testing : list task_entry;
                      surface_training : list task_entry; surface_testing : list task_entry }.
(** [create_heliostat_data_mappings], lines 232-329; [shuffle i n] is the order of the indices in the [i]-th shuffle of [n] indices.  The cut of the
    heliostat's properties path, which is a string, to the same number of characters is left out: it is not written. *)
Fixpoint create_data_sets (shuffle : nat -> nat -> list nat) (calls : nat) (limit_kinematics limit_surfaces : option nat) (test_fraction : R)
  (heliostats : list mapping_entry) : res data_sets :=
  match heliostats with
  | [] => Ok {| kinematics_training := []; kinematics_testing := []; surface_training := []; surface_testing := [] |}
  | h :: rest =>
    let h1 := limited limit_kinematics h in
    bind (split_single_heliostat (shuffle calls (List.length (e_calibrations h1))) test_fraction h1) (fun '(train1, test1) =>
    let h2 := limited limit_surfaces h1 in
    bind (split_single_heliostat (shuffle (S calls) (List.length (e_calibrations h2))) test_fraction h2) (fun '(train2, test2) =>
    bind (create_data_sets shuffle (S (S calls)) limit_kinematics limit_surfaces test_fraction rest) (fun d =>
    Ok {| kinematics_training := (e_name train1, e_calibrations train1, e_kinematics train1) :: kinematics_training d;
          kinematics_testing := (e_name test1, e_calibrations test1, e_kinematics test1) :: kinematics_testing d;
          surface_training := (e_name train2, e_calibrations train2, e_surfaces train2) :: surface_training d;
          surface_testing := (e_name test2, e_calibrations test2, e_surfaces test2) :: surface_testing d |})))
  end.

(** ** Reconstruction for the paint plots *)

(** A calibration file: its name, what reading it gives (the keys of the focal spot section, or [None] if it cannot be read) and whether
    the image of the wanted type exists beside it. *)
Record calibration_file := { cf_name : string; cf_focal_spots : option (list string); cf_image : bool }.
(** A directory of the data directory: its name and the calibration files in the order of their names, if it has a calibration directory. *)
Record heliostat_directory := { d_name : string; d_calibration : option (list calibration_file) }.

(** The name pattern of two capital letters and two digits, reconstruction_generate_viable_heliostats_list.py:78. *)
Definition capital (c : Ascii.ascii) : bool := (65 <=? Ascii.nat_of_ascii c) && (Ascii.nat_of_ascii c <=? 90).
Definition digit (c : Ascii.ascii) : bool := (48 <=? Ascii.nat_of_ascii c) && (Ascii.nat_of_ascii c <=? 57).
Definition heliostat_name (s : string) : bool :=
  match list_ascii_of_string s with [a; b; c; d] => capital a && capital b && digit c && digit d | _ => false end.
(** A valid calibration file, lines 112-139. *)
Definition valid_file (f : calibration_file) : bool :=
  match cf_focal_spots f with None => false | Some keys => listed "HeliOS" keys && listed "UTIS" keys && cf_image f end.
(** The loop, lines 91-157, over the directories in the order of their names; [found] counts the heliostats found before.  The limit is checked
    after every heliostat that was not skipped.  The result is sorted by name, as it already is. *)
Fixpoint viable_heliostats (minimum maximum : nat) (excluded : list string) (found : nat) (directories : list heliostat_directory)
  : list (string * list string) :=
  match directories with
  | [] => []
  | d :: rest =>
    if negb (heliostat_name (d_name d)) || listed (d_name d) excluded then viable_heliostats minimum maximum excluded found rest
    else match d_calibration d with
    | None => viable_heliostats minimum maximum excluded found rest
    | Some files =>
      let valid := map cf_name (filter valid_file files) in
      let viable := minimum <=? List.length valid in
      let found' := if viable then S found else found in
      let others := if maximum <=? found' then [] else viable_heliostats minimum maximum excluded found' rest in
      if viable then (d_name d, firstn minimum valid) :: others else others
    end
  end.
