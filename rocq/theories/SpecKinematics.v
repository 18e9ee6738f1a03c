(** Vocabulary of the kinematics properties (C36-C41, C74, C75). *)
From Coq Require Import List Reals.
From Verif Require Import ModelVectors ModelTransforms ModelKinematics SpecIntersections SpecTransforms.
Import ListNotations.
Local Open Scope R_scope.

(** Where an orientation points the mirror that faces south in the reference position, and where it puts the
    concentrator. *)
Definition facing (o : mat) : point := enu (mapply o (as_direction south)).
Definition origin_of (o : mat) : point := enu (mapply o (as_point (vec 0 0 0))).

(** [normal] can be reached by some joint angles. *)
Definition reachable_normal (k : kinematics) (normal : point) : Prop :=
  exists a1 a2, facing (pose k a1 a2) = normal.
(** The direction of the first rotation axis. *)
Definition first_axis (k : kinematics) : point := enu (mapply (first_deviations k) (as_direction east)).

(** The drives turn the motor positions computed for the angles into these angles again. *)
Definition drives_follow (k : kinematics) (angles : R * R) : Prop :=
  to_angle (k_drive_1 k) (to_motor (k_drive_1 k) (fst angles)) = fst angles
  /\ to_angle (k_drive_2 k) (to_motor (k_drive_2 k) (snd angles)) = snd angles.
Definition drives_exact (k : kinematics) : Prop :=
  forall x, - PI < x <= PI -> to_angle (k_drive_1 k) (to_motor (k_drive_1 k) x) = x
                           /\ to_angle (k_drive_2 k) (to_motor (k_drive_2 k) x) = x.

Definition in_limits (k : kinematics) (m : R * R) : Prop :=
  motor_min (k_drive_1 k) <= fst m <= motor_max (k_drive_1 k)
  /\ motor_min (k_drive_2 k) <= snd m <= motor_max (k_drive_2 k).

(** No translation deviations: the concentrator stays at the heliostat's position. *)
Definition no_translations (k : kinematics) : Prop :=
  k_translation_1 k = vec 0 0 0 /\ k_translation_2 k = vec 0 0 0 /\ k_translation_c k = vec 0 0 0.

(** The direction from [a] to [b]. *)
Definition direction_to (a b : point) : point := smul (/ norm (vsub b a)) (vsub b a).

(** The drives deliver the chosen solution: joint angles that the returned motor positions stand for and that
    point the mirror at [n] are reproduced from these motor positions. *)
Definition drives_deliver (k : kinematics) (n : point) : Prop :=
  forall a b, - PI < a <= PI -> - PI < b <= PI ->
  to_motors k (a, b) = inverse k (as_direction n) ->
  norm (vsub (facing (pose k a b)) n) <= 2 / 10 ^ 4 ->
  drives_follow k (a, b).

(** Where a point fixed to the concentrator is for two joint angles: out from the heliostat's position, each joint is
    tilted, shifted along and turned, and the concentrator is shifted last.  Tilts about the north axis turn clockwise. *)
Definition mounted (k : kinematics) (angle_1 angle_2 : R) (p : point) : point :=
  let tilt_1 v := rotated north (- k_tilt_1n k) (rotated up (k_tilt_1u k) v) in
  let tilt_2 v := rotated east (k_tilt_2e k) (rotated north (- k_tilt_2n k) v) in
  let on_second := rotated up angle_2 (vadd p (k_translation_c k)) in
  let on_first := rotated east angle_1 (tilt_2 (vadd on_second (k_translation_2 k))) in
  vadd (tilt_1 (vadd on_first (k_translation_1 k))) (k_position k).
(** The first joint does not move; how far the concentrator can be from it. *)
Definition first_joint (k : kinematics) : point :=
  vadd (rotated north (- k_tilt_1n k) (rotated up (k_tilt_1u k) (k_translation_1 k))) (k_position k).
Definition arm_length (k : kinematics) : R := norm (k_translation_2 k) + norm (k_translation_c k).

(** The motor positions of a batch after [j] rounds: in each round every heliostat takes those for the normal that its
    present position asks for. *)
Definition next_motors (r : request) (m : R * R) : R * R := inverse (rq_kinematics r) (desired r (forward (rq_kinematics r) m)).
Fixpoint rounds (j : nat) (r : request) : R * R := match j with O => (0, 0) | S j' => next_motors r (rounds j' r) end.
(** The change of the misalignment of one heliostat in round [j]. *)
Definition misalignment (j : nat) (r : request) : R := request_loss r (forward (rq_kinematics r) (rounds j r)).
Definition settled (eps : R) (batch : list request) (j : nat) : Prop :=
  (1 <= j)%nat /\ forall r, In r batch -> Rabs (misalignment (j - 1) r - misalignment j r) <= eps.
