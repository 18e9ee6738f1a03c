(** Model of [artist/field/kinematics_rigid_body.py] and of the alignment in
    [artist/field/heliostat_group_rigid_body.py]. *)
From Coq Require Import List Arith Reals Bool.
From Verif Require Import ModelField ModelVectors ModelAngles ModelTransforms ModelActuators.
Import ListNotations.
Local Open Scope R_scope.

(** One actuator as seen by the kinematics ([self.actuators], chosen by the type registry): its two conversions
    and its motor limits. *)
Record drive := { to_angle : R -> R; to_motor : R -> R; motor_min : R; motor_max : R }.
(** Linear and ideal actuators as drives.  The conversions of linear actuators are always defined (C35), so the
    default 0 is never used. *)
Definition value (x : option R) : R := match x with Some v => v | None => 0 end.
Definition linear_drive (a : actuator) : drive :=
  {| to_angle := fun m => value (motor_to_angle a m); to_motor := fun g => value (angle_to_motor a g);
     motor_min := a_min a; motor_max := a_max a |}.
Definition ideal_drive (low high : R) : drive :=
  {| to_angle := fun m => value (ideal_motor_to_angle m); to_motor := fun g => value (ideal_angle_to_motor g);
     motor_min := low; motor_max := high |}.

(** The parameters of one active heliostat, kinematics_rigid_body.py:76-192. *)
Record kinematics := {
  k_position : point;
  k_initial_orientation : point;
  k_translation_1 : point; k_translation_2 : point; k_translation_c : point;
  k_tilt_1n : R; k_tilt_1u : R; k_tilt_2e : R; k_tilt_2n : R;
  k_drive_1 : drive; k_drive_2 : drive }.

(** [kinematics_standard_orientation], [homogeneous_origin] and [initial_orientation_offsets],
    kinematics_rigid_body.py:170-192. *)
Definition standard_orientation : hvec := hv 0 (-1) 0 0.
Definition homogeneous_origin : hvec := hv 0 0 0 1.
Definition initial_orientation_offsets : mat :=
  let angles := decompose_rotations (vec 0 0 1) (vec 0 (-1) 0) in
  mmul (mmul (rotate_e (pe angles)) (rotate_n (pn angles))) (rotate_u (pu angles)).

Definition translate_by (t : point) : mat := translate (pe t) (pn t) (pu t).
(** The matrix product of [_compute_orientations_from_motor_positions], kinematics_rigid_body.py:225-322, for
    given joint angles. *)
Definition first_deviations (k : kinematics) : mat := mmul (rotate_n (k_tilt_1n k)) (rotate_u (k_tilt_1u k)).
Definition second_deviations (k : kinematics) : mat := mmul (rotate_e (k_tilt_2e k)) (rotate_n (k_tilt_2n k)).
Definition pose (k : kinematics) (angle_1 angle_2 : R) : mat :=
  let first := mmul (mmul (first_deviations k) (translate_by (k_translation_1 k))) (rotate_e angle_1) in
  let second := mmul (mmul (second_deviations k) (translate_by (k_translation_2 k))) (rotate_u angle_2) in
  mmul (mmul (mmul (mmul eye (translate_by (k_position k))) first) second) (translate_by (k_translation_c k)).
(** [_compute_orientations_from_motor_positions], kinematics_rigid_body.py:194-324. *)
Definition forward (k : kinematics) (motor : R * R) : mat :=
  pose k (to_angle (k_drive_1 k) (fst motor)) (to_angle (k_drive_2 k) (snd motor)).

(** [_compute_motor_positions_from_normal], kinematics_rigid_body.py:326-508: the two pairs of joint angles. *)
Definition wrap (x : R) : R := atan2 (sin x) (cos x).
Definition joint_angles (k : kinematics) (normal : hvec) : (R * R) * (R * R) :=
  let eps := / 10 ^ 8 in
  let f1 := first_deviations k in
  let f2 := second_deviations k in
  let n' := mapply (mtr f1) normal in
  let f00 := he (row_e f2) in
  let f01 := hn (row_e f2) in
  let denominator := sqrt (f00 ^ 2 + f01 ^ 2) in
  let phi := atan2 (- f01) f00 in
  let ratio := clamp (-1 + eps) (1 - eps) (he n' / (denominator + eps)) in
  let second_1 := wrap (asin ratio - phi) in
  let second_2 := wrap (PI - asin ratio - phi) in
  let first second :=
    let v := mapply (mmul f2 (rotate_u second)) standard_orientation in
    wrap (atan2 (hn v * hu n' - hu v * hn n') (hn v * hn n' + hu v * hu n')) in
  ((first second_1, second_1), (first second_2, second_2)).
Definition to_motors (k : kinematics) (angles : R * R) : R * R :=
  (to_motor (k_drive_1 k) (fst angles), to_motor (k_drive_2 k) (snd angles)).
(** kinematics_rigid_body.py:473-484. *)
Definition within (d : drive) (m : R) : bool :=
  (if Rle_dec (motor_min d) m then true else false) && (if Rle_dec m (motor_max d) then true else false).
Definition solution_valid (k : kinematics) (m : R * R) : bool :=
  within (k_drive_1 k) (fst m) && within (k_drive_2 k) (snd m).
Definition inverse (k : kinematics) (normal : hvec) : R * R :=
  let '(angles_1, angles_2) := joint_angles k normal in
  if solution_valid k (to_motors k angles_1) then to_motors k angles_1 else to_motors k angles_2.
(** The rows named in the warning, kinematics_rigid_body.py:486-495, starting at [row]. *)
Fixpoint invalid_rows (row : nat) (heliostats : list (kinematics * hvec)) : list nat :=
  match heliostats with
  | [] => []
  | (k, normal) :: rest =>
      let '(angles_1, angles_2) := joint_angles k normal in
      if solution_valid k (to_motors k angles_1) || solution_valid k (to_motors k angles_2)
      then invalid_rows (S row) rest
      else row :: invalid_rows (S row) rest
  end.

(** [motor_positions_to_orientations], kinematics_rigid_body.py:510-538. *)
Definition motor_positions_to_orientation (k : kinematics) (motor : R * R) : mat :=
  mmul (forward k motor) initial_orientation_offsets.

(** One heliostat of a batch to be aligned: its parameters, its incident ray direction and its aim point. *)
Record request := { rq_kinematics : kinematics; rq_incident : point; rq_aim : point }.
(** kinematics_rigid_body.py:590-615. *)
Definition desired_normal (incident aim origin : point) : point :=
  let reflection := normalize_eps (/ 10 ^ 8) (vsub aim origin) in
  normalize_eps (/ 10 ^ 8) (vadd (smul (-1) incident) reflection).
Definition desired (r : request) (orientation : mat) : hvec :=
  let o := mapply orientation homogeneous_origin in
  let d := desired_normal (rq_incident r) (rq_aim r) (vec (he o) (hn o) (hu o)) in
  hv (pe d) (pn d) (pu d) 0.
(** kinematics_rigid_body.py:617-619. *)
Definition alignment_loss (d c : hvec) : R :=
  (Rabs (he d - he c) + Rabs (hn d - hn c) + Rabs (hu d - hu c) + Rabs (hw d - hw c)) / 4.
Definition request_loss (r : request) (orientation : mat) : R :=
  alignment_loss (desired r orientation) (mapply orientation standard_orientation).
Definition all_close (min_eps : R) (last loss : list R) : bool :=
  forallb (fun '(a, b) => if Rle_dec (Rabs (a - b)) min_eps then true else false) (combine last loss).
(** The loop of [incident_ray_directions_to_orientations], kinematics_rigid_body.py:572-632; [before] holds the
    orientations of the previous iteration ([None]: not yet assigned). *)
Fixpoint align_loop (min_eps : R) (iterations : nat) (batch : list request)
    (motors : list (R * R)) (last : option (list R)) (before : option (list mat)) : option (list mat) * list (R * R) :=
  match iterations with
  | O => (before, motors)
  | S rest =>
      let orientations := map (fun '(r, m) => forward (rq_kinematics r) m) (combine batch motors) in
      let loss := map (fun '(r, o) => request_loss r o) (combine batch orientations) in
      let converged := match last with None => false | Some l => all_close min_eps l loss end in
      if converged then (Some orientations, motors)
      else align_loop min_eps rest batch
             (map (fun '(r, o) => inverse (rq_kinematics r) (desired r o)) (combine batch orientations))
             (Some loss) (Some orientations)
  end.
(** [incident_ray_directions_to_orientations], kinematics_rigid_body.py:540-634: the returned orientations and the
    stored [active_motor_positions]. *)
Definition incident_ray_directions_to_orientations (max_num_iterations : nat) (min_eps : R) (batch : list request)
  : res (list mat * list (R * R)) :=
  match align_loop min_eps max_num_iterations batch (map (fun _ => (0, 0)) batch) None None with
  | (None, _) => Err UnboundLocalError
  | (Some orientations, motors) => Ok (map (fun o => mmul o initial_orientation_offsets) orientations, motors)
  end.

(** Active surfaces of a group: per active heliostat its points and normals.  The surfaces before alignment are
    those set by the activation. *)
Record surfaces := { s_mask : list nat; s_points : list (list hvec); s_normals : list (list hvec) }.
(** [active_surface_points @ orientations.transpose(1, 2)], heliostat_group_rigid_body.py:216-221 and 264-269. *)
Definition transform_all (orientations : list mat) (rows : list (list hvec)) : list (list hvec) :=
  map (fun '(o, row) => map (fun x => vapply x (mtr o)) row) (combine orientations rows).
Definition apply_orientations (s : surfaces) (orientations : list mat) : surfaces :=
  {| s_mask := s_mask s; s_points := transform_all orientations (s_points s); s_normals := transform_all orientations (s_normals s) |}.
Definition list_nat_eqb (a b : list nat) : bool := if list_eq_dec Nat.eq_dec a b then true else false.
(** [align_surfaces_with_incident_ray_directions], heliostat_group_rigid_body.py:169-222 (four iterations,
    threshold 1e-4); also returns the stored motor positions. *)
Definition align_with_incident (s : surfaces) (mask : list nat) (batch : list request) : res (surfaces * list (R * R)) :=
  if list_nat_eqb (s_mask s) mask
  then bind (incident_ray_directions_to_orientations 4 (/ 10 ^ 4) batch)
         (fun '(orientations, motors) => Ok (apply_orientations s orientations, motors))
  else Err AssertionError.
(** [align_surfaces_with_motor_positions], heliostat_group_rigid_body.py:224-270. *)
Definition align_with_motors (s : surfaces) (mask : list nat) (heliostats : list kinematics) (motors : list (R * R)) : res surfaces :=
  if list_nat_eqb (s_mask s) mask
  then Ok (apply_orientations s (map (fun '(k, m) => motor_positions_to_orientation k m) (combine heliostats motors)))
  else Err AssertionError.

(** ** Histories of activations and alignments of one group *)
Record heliostat := { h_kinematics : kinematics; h_points : list hvec; h_normals : list hvec }.
Record group := { gr_heliostats : list heliostat; gr_active : list kinematics; gr_surfaces : surfaces; gr_motors : list (R * R) }.
Inductive operation :=
  | Activate (mask : list nat)
  | AlignMotors (mask : list nat) (motors : list (R * R))
  | AlignIncident (mask : list nat) (rays : list (point * point)).   (** incident direction and aim point *)
(** One call; an exception leaves the rest of the group as it is.  [Activate] is [activate_heliostats],
    artist/field/heliostat_group.py:225-315, reduced to the surfaces, the kinematics parameters and the motor
    positions (zero, kinematics_rigid_body.py:136-142); it stores the mask before a length mismatch raises. *)
Definition perform (g : group) (op : operation) : group * option error :=
  match op with
  | Activate mask =>
      match repeat_interleave (gr_heliostats g) mask with
      | Ok active =>
          ({| gr_heliostats := gr_heliostats g; gr_active := map h_kinematics active;
              gr_surfaces := {| s_mask := mask; s_points := map h_points active; s_normals := map h_normals active |};
              gr_motors := map (fun _ => (0, 0)) active |}, None)
      | Err e =>
          ({| gr_heliostats := gr_heliostats g; gr_active := gr_active g;
              gr_surfaces := {| s_mask := mask; s_points := s_points (gr_surfaces g); s_normals := s_normals (gr_surfaces g) |};
              gr_motors := gr_motors g |}, Some e)
      end
  | AlignMotors mask motors =>
      match align_with_motors (gr_surfaces g) mask (gr_active g) motors with
      | Ok s => ({| gr_heliostats := gr_heliostats g; gr_active := gr_active g; gr_surfaces := s; gr_motors := gr_motors g |}, None)
      | Err e => (g, Some e)
      end
  | AlignIncident mask rays =>
      match align_with_incident (gr_surfaces g) mask
              (map (fun '(k, (i, a)) => {| rq_kinematics := k; rq_incident := i; rq_aim := a |}) (combine (gr_active g) rays)) with
      | Ok (s, motors) => ({| gr_heliostats := gr_heliostats g; gr_active := gr_active g; gr_surfaces := s; gr_motors := motors |}, None)
      | Err e => (g, Some e)
      end
  end.
Fixpoint perform_all (g : group) (ops : list operation) : group :=
  match ops with [] => g | op :: rest => perform_all (fst (perform g op)) rest end.
