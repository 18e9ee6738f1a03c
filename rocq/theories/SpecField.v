(** Vocabulary of the selection properties (C06-C09, C58), independent of the model. *)
From Coq Require Import List Arith Bool ZArith String Reals Sorted.
From Verif Require Import ModelField.
Import ListNotations.
Local Open Scope nat_scope.

(** [out] consists of the rows of [base] selected, in this order, by the row numbers [owners]. *)
Definition rows_selected {V} (base out : list V) (owners : list nat) : Prop :=
  List.length out = List.length owners /\
  forall k i, nth_error owners k = Some i -> exists v, nth_error out k = Some v /\ nth_error base i = Some v.

(** [owners] lists heliostat [i] exactly [mask_i] times, in heliostat order. *)
Definition owners_of_mask (mask owners : list nat) : Prop :=
  StronglySorted le owners /\
  forall i, count_occ Nat.eq_dec owners i = nth i mask 0.

(** A direction accepted by the string mapping: four components, the last one zero and length one,
    within the tolerances 1e-2 and 2e-4 of the code. *)
Definition acceptable_mapping_direction (d : list R) : Prop :=
  exists e n u w, d = [e; n; u; w] /\ (Rabs w <= 1/100)%R /\
    (Rabs (sqrt (e*e + n*n + u*u + w*w) - 1) <= 2/10000)%R.

(** A default direction: tolerances 1e-8 and 1.001e-5. *)
Definition acceptable_default_direction (d : list R) : Prop :=
  exists e n u w, d = [e; n; u; w] /\ (Rabs w <= 1/100000000)%R /\
    (Rabs (sqrt (e*e + n*n + u*u) - 1) <= 1/100000000 + 1/100000)%R.

(** All per-heliostat tensors except the optimizable actuator parameters. *)
Definition essential_attributes {V} : list (group_data V -> list V) :=
  [gd_surface_points; gd_surface_normals; gd_canting; gd_facet_translations; gd_control_points;
   gd_positions; gd_initial_orientations; gd_translation_deviations; gd_rotation_deviations;
   gd_motor_positions; gd_actuator_fixed].

(** Every tensor of the group has one row per heliostat. *)
Definition well_formed_data {V} (d : group_data V) : Prop :=
  forall attr, In attr (gd_actuator_optimizable :: essential_attributes) ->
    List.length (attr d) = List.length (gd_positions d).

(** A group with one heliostat, every row different. *)
Definition tiny_data : group_data nat :=
  {| gd_surface_points := [1]; gd_surface_normals := [2]; gd_canting := [3];
     gd_facet_translations := [4]; gd_control_points := [5]; gd_positions := [6];
     gd_initial_orientations := [7]; gd_translation_deviations := [8];
     gd_rotation_deviations := [9]; gd_motor_positions := [10]; gd_actuator_fixed := [11];
     gd_actuator_optimizable := [12] |}.

