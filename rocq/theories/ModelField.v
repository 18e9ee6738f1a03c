(** Model of heliostat selection: [artist/scenario/scenario.py] (index mapping), the activation of
    heliostats in [artist/field/heliostat_group.py], the target area bookkeeping of
    [artist/field/solar_tower.py] and the train/test split of [artist/optim/training.py]. *)
From Coq Require Import List Arith Bool ZArith String.
Import ListNotations.

(** Python exceptions that the modelled code can raise. *)
Inductive error := ValueError | IndexError | KeyError | ShapeError | ZeroDivisionError
  | RuntimeError | AssertionError | TypeError | UnboundLocalError.

Inductive res (A : Type) := Ok (a : A) | Err (e : error).
Arguments Ok {A} a.
Arguments Err {A} e.

(** ** Solar tower *)

(** [name in names]. *)
Definition mem_name (name : string) (names : list string) : bool :=
  existsb (String.eqb name) names.

(** [target_name_to_index] of [SolarTower.__init__], artist/field/solar_tower.py:76-81, and
    [heliostat_name_to_index], artist/scenario/scenario.py:380-383: a dictionary filled in list order,
    so that a repeated name keeps its last index.  [start] is the running index. *)
Fixpoint name_to_index_from (start : nat) (names : list string) (name : string) : option nat :=
  match names with
  | [] => None
  | n :: names' =>
    match name_to_index_from (S start) names' name with
    | Some i => Some i
    | None => if String.eqb n name then Some start else None
    end
  end.
Definition name_to_index := name_to_index_from 0.

(** [len(target_name_to_index)]: number of distinct names. *)
Definition number_of_keys (names : list string) : nat :=
  List.length (nodup string_dec names).

(** [SolarTower.index_to_target_area], artist/field/solar_tower.py:83-86: for each global index the
    type of the area (by position in [target_areas]) and its index within the type. *)
Fixpoint index_to_target_area_from (type_index : nat) (types : list (list string)) : list (nat * nat) :=
  match types with
  | [] => []
  | names :: types' =>
    map (fun local => (type_index, local)) (seq 0 (List.length names))
    ++ index_to_target_area_from (S type_index) types'
  end.
Definition index_to_target_area := index_to_target_area_from 0.

(** [SolarTower.get_centers_of_target_areas], artist/field/solar_tower.py:129-188, for one index:
    which table and which local row is read.  A cylinder's center is its outward surface point, a
    function [surface_point] of its row.  [None] is the IndexError of tensor indexing (also for
    negative rows, which cannot arise from [nat] indices). *)
Definition center_of_target_area {P C A} (planar_center : P -> A) (cylinder_surface_point : C -> A)
  (planar : list P) (cylindrical : list C) (index : nat) : option A :=
  if index <? List.length planar
  then option_map planar_center (nth_error planar index)
  else option_map cylinder_surface_point (nth_error cylindrical (index - List.length planar)).

(** ** Index mapping *)

Section IndexMapping.
Context {D : Type}.

Definition entry : Type := string * string * D.
Definition entry_heliostat (e : entry) : string := fst (fst e).
Definition entry_target (e : entry) : string := snd (fst e).
Definition entry_direction (e : entry) : D := snd e.

(** [mask[index] += 1]. *)
Fixpoint increment_at (l : list nat) (i : nat) : list nat :=
  match l, i with
  | [], _ => []
  | x :: l', 0 => S x :: l'
  | x :: l', S i' => x :: increment_at l' i'
  end.

(** Filling a [torch.empty(n)] tensor row by row: [None] marks a row never written; writing past the
    end is an IndexError. *)
Definition fill {A} (n : nat) (rows : list A) : res (list (option A)) :=
  if n <? List.length rows then Err IndexError
  else Ok (map Some rows ++ repeat None (n - List.length rows)).

Record mapping_result := {
  mr_mask : list nat;
  mr_targets : list (option Z);
  mr_directions : list (option D);
}.

(** The string-mapping branch of [Scenario.index_mapping], artist/scenario/scenario.py:341-413.
    [direction_ok] is the direction check of 355-369; the [defaultdict] of 312 is a function.
    Errors collected over the filtered mapping are one ValueError. *)
Definition index_mapping_strings (direction_ok : D -> bool) (group_names target_names : list string)
  (string_mapping : list entry) : res mapping_result :=
  let filtered := filter (fun e => mem_name (entry_heliostat e) group_names) string_mapping in
  if existsb (fun e => negb (mem_name (entry_target e) target_names)
                       || negb (direction_ok (entry_direction e))) filtered
  then Err ValueError
  else
    let mask :=
      fold_left (fun mask e =>
                   match name_to_index group_names (entry_heliostat e) with
                   | Some i => increment_at mask i
                   | None => mask
                   end) filtered (repeat 0 (List.length group_names)) in
    let data :=
      fold_left (fun (data : string -> list (Z * D)) e =>
                   fun name =>
                     if String.eqb name (entry_heliostat e)
                     then data name ++
                          [(match name_to_index target_names (entry_target e) with
                            | Some i => Z.of_nat i | None => (-1)%Z end, entry_direction e)]
                     else data name) filtered (fun _ => []) in
    let rows := flat_map data group_names in
    match fill (List.length filtered) (map fst rows), fill (List.length filtered) (map snd rows) with
    | Ok targets, Ok directions =>
      Ok {| mr_mask := mask; mr_targets := targets; mr_directions := directions |}
    | Err e, _ => Err e
    | _, Err e => Err e
    end.

(** The default branch, artist/scenario/scenario.py:314-340.  The target index is a Python int. *)
Definition index_mapping_default (direction_ok : D -> bool) (group_names target_names : list string)
  (direction : D) (target_index : Z) : res mapping_result :=
  if negb (direction_ok direction) then Err ValueError
  else if (Z.of_nat (number_of_keys target_names) <=? target_index)%Z then Err ValueError
  else Ok {| mr_mask := repeat 1 (List.length group_names);
             mr_targets := repeat (Some target_index) (List.length group_names);
             mr_directions := repeat (Some direction) (List.length group_names) |}.

End IndexMapping.
Arguments entry D : clear implicits.
Arguments mapping_result D : clear implicits.

(** ** Activation *)

(** [tensor.repeat_interleave(mask, dim=0)]; a length mismatch is a RuntimeError of torch. *)
Fixpoint repeat_interleave {A} (rows : list A) (mask : list nat) : res (list A) :=
  match rows, mask with
  | [], [] => Ok []
  | r :: rows', m :: mask' =>
    match repeat_interleave rows' mask' with
    | Ok rest => Ok (repeat r m ++ rest)
    | Err e => Err e
    end
  | _, _ => Err ShapeError
  end.

(** The per-heliostat tensors of a group, its kinematics and its actuators.  [V] is the type of the row
    of one heliostat (rows of different tensors have different shapes in the code; only whole rows are
    moved around by the modelled code). *)
Record group_data (V : Type) := {
  gd_surface_points : list V;
  gd_surface_normals : list V;
  gd_canting : list V;
  gd_facet_translations : list V;
  gd_control_points : list V;
  gd_positions : list V;
  gd_initial_orientations : list V;
  gd_translation_deviations : list V;
  gd_rotation_deviations : list V;
  gd_motor_positions : list V;
  gd_actuator_fixed : list V;
  gd_actuator_optimizable : list V;
}.
Arguments gd_surface_points {V}. Arguments gd_surface_normals {V}. Arguments gd_canting {V}.
Arguments gd_facet_translations {V}. Arguments gd_control_points {V}. Arguments gd_positions {V}.
Arguments gd_initial_orientations {V}. Arguments gd_translation_deviations {V}.
Arguments gd_rotation_deviations {V}. Arguments gd_motor_positions {V}.
Arguments gd_actuator_fixed {V}. Arguments gd_actuator_optimizable {V}.

Record group_state (V : Type) := {
  gs_base : group_data V;
  gs_active : group_data V;
  gs_number_of_active : nat;
  gs_mask : list nat;
}.
Arguments gs_base {V}. Arguments gs_active {V}. Arguments gs_number_of_active {V}. Arguments gs_mask {V}.

Definition bind {A B} (r : res A) (f : A -> res B) : res B :=
  match r with Ok a => f a | Err e => Err e end.

(** State after construction, artist/field/heliostat_group.py:119-152,
    artist/field/kinematics_rigid_body.py:147-162, artist/field/actuators.py:72-77: all active tensors
    are [empty_like] the base tensors; their contents are irrelevant, only the number of rows of the
    optimizable actuator tensor is ever inspected, so the base rows are used as contents. *)
Definition new_group {V} (base : group_data V) : group_state V :=
  {| gs_base := base; gs_active := base; gs_number_of_active := 0;
     gs_mask := repeat 0 (List.length (gd_positions base)) |}.

(** [HeliostatGroup.activate_heliostats], artist/field/heliostat_group.py:225-315.  The optimizable
    actuator parameters are repeated only if the *currently active* tensor is non-empty (306). *)
Definition activate_heliostats {V} (g : group_state V) (mask : option (list nat)) : res (group_state V) :=
  let base := gs_base g in
  let mask := match mask with
              | Some m => m
              | None => repeat 1 (List.length (gd_positions base))
              end in
  bind (repeat_interleave (gd_surface_points base) mask) (fun sp =>
  bind (repeat_interleave (gd_surface_normals base) mask) (fun sn =>
  bind (repeat_interleave (gd_canting base) mask) (fun ca =>
  bind (repeat_interleave (gd_facet_translations base) mask) (fun ft =>
  bind (repeat_interleave (gd_control_points base) mask) (fun cp =>
  bind (repeat_interleave (gd_positions base) mask) (fun po =>
  bind (repeat_interleave (gd_initial_orientations base) mask) (fun io =>
  bind (repeat_interleave (gd_translation_deviations base) mask) (fun td =>
  bind (repeat_interleave (gd_rotation_deviations base) mask) (fun rd =>
  bind (repeat_interleave (gd_motor_positions base) mask) (fun mp =>
  bind (repeat_interleave (gd_actuator_fixed base) mask) (fun af =>
  bind (match gd_actuator_optimizable (gs_active g) with
        | [] => Ok []
        | _ => repeat_interleave (gd_actuator_optimizable base) mask
        end) (fun ao =>
  Ok {| gs_base := base;
        gs_active := {| gd_surface_points := sp; gd_surface_normals := sn; gd_canting := ca;
                        gd_facet_translations := ft; gd_control_points := cp; gd_positions := po;
                        gd_initial_orientations := io; gd_translation_deviations := td;
                        gd_rotation_deviations := rd; gd_motor_positions := mp;
                        gd_actuator_fixed := af; gd_actuator_optimizable := ao |};
        gs_number_of_active := list_sum mask;
        gs_mask := mask |})))))))))))).

(** A history of activations. *)
Fixpoint activate_all {V} (g : group_state V) (masks : list (option (list nat))) : res (group_state V) :=
  match masks with
  | [] => Ok g
  | m :: masks' => bind (activate_heliostats g m) (fun g' => activate_all g' masks')
  end.

(** ** Train/test split *)

(** Row selection [tensor[indices]]; an index out of range is an IndexError. *)
Fixpoint select_rows {A} (rows : list A) (indices : list nat) : res (list A) :=
  match indices with
  | [] => Ok []
  | i :: indices' =>
    match nth_error rows i with
    | None => Err IndexError
    | Some r => bind (select_rows rows indices') (fun rest => Ok (r :: rest))
    end
  end.

(** [torch.arange(0, total, step)] (ceil(total/step) entries; step 0 raises). *)
Definition arange_step (total step : nat) : list nat :=
  map (fun k => k * step) (seq 0 ((total + step - 1) / step)).

Record split_result := {
  sr_train_indices : list nat;
  sr_test_indices : list nat;
  sr_mask_train : list nat;
  sr_mask_test : list nat;
  sr_number_of_train : nat;
  sr_number_of_test : nat;
  sr_per_heliostat : nat;
}.

(** [train_test_split], artist/optim/training.py:317-367 (index part).
    [test_of_count n] stands for [int(n * test_fraction)]; the float product is a parameter of the
    model so that the result holds for any rounding.  [nat] subtraction replaces Python's; the case in
    which Python's [number_of_train_samples] is negative is reported as an error of [torch.arange]. *)
Definition train_test_split (mask : list nat) (test_of_count : nat -> nat) : res split_result :=
  let total := list_sum mask in
  let heliostats := List.length (filter (fun m => 0 <? m) mask) in
  if heliostats =? 0 then Err ZeroDivisionError
  else
    let per := total / heliostats in
    let test := Nat.max 1 (test_of_count per) in
    if per <? test then Err ValueError
    else
      let train := per - test in
      let train_indices :=
        flat_map (fun start => map (fun k => start + k) (seq 0 train)) (arange_step total per) in
      let test_indices :=
        flat_map (fun h => map (fun offset => h * per + offset) (seq train test)) (seq 0 heliostats) in
      Ok {| sr_train_indices := train_indices;
            sr_test_indices := test_indices;
            sr_mask_train := map (fun m => m - test) mask;
            sr_mask_test := map (fun m => m - train) mask;
            sr_number_of_train := train;
            sr_number_of_test := test;
            sr_per_heliostat := per |}.
