(** Model of [artist/field/actuators_linear.py] and [artist/field/actuators_ideal.py], for one actuator of one
    heliostat (all operations are element-wise).  [None] is NaN or infinity: the partial operations return it
    outside their domain. *)
From Coq Require Import Reals.
From Verif Require Import ModelTransforms.
Local Open Scope R_scope.

Definition obind {A B} (x : option A) (f : A -> option B) : option B := match x with Some a => f a | None => None end.
Definition div_opt (x y : R) : option R := if Req_EM_T y 0 then None else Some (x / y).
Definition sqrt_opt (x : R) : option R := if Rle_dec 0 x then Some (sqrt x) else None.
Definition acos_opt (x : R) : option R := if Rle_dec (-1) x then if Rle_dec x 1 then Some (acos x) else None else None.

(** The rows of the (non-)optimizable parameters for one actuator, util/indices.py:3-20. *)
Record actuator := {
  a_clockwise : R;          (** actuator_clockwise_movement *)
  a_min : R;                (** actuator_min_motor_position *)
  a_max : R;                (** actuator_max_motor_position *)
  a_increment : R; a_offset : R; a_radius : R;
  a_initial_angle : R; a_initial_stroke : R }.

(** [torch.nn.functional.softplus] with [threshold=20]. *)
Definition softplus (beta x : R) : R := if Rlt_dec 20 (x * beta) then x else ln (1 + exp (x * beta)) / beta.
Definition epsilon : R := / 10 ^ 6.
(** [_physics_informed_parameters], actuators_linear.py:79-178. *)
Definition positive (x : R) : R := softplus 100 x + epsilon.
Definition physics_informed (a : actuator) : actuator :=
  {| a_clockwise := a_clockwise a; a_min := a_min a; a_max := a_max a;
     a_increment := positive (a_increment a); a_offset := positive (a_offset a); a_radius := positive (a_radius a);
     a_initial_angle := a_initial_angle a; a_initial_stroke := positive (a_initial_stroke a) |}.

(** The clamping of strokes, actuators_linear.py:214-219 and 362-367. *)
Definition clamp_stroke (offset radius stroke : R) : R :=
  clamp (Rabs (offset - radius) + epsilon) (offset + radius - epsilon) stroke.

(** [_motor_positions_to_absolute_angles], actuators_linear.py:180-233. *)
Definition absolute_angle (a : actuator) (motor : R) : option R :=
  let p := physics_informed a in
  obind (div_opt motor (a_increment p)) (fun q =>
  let stroke := clamp_stroke (a_offset p) (a_radius p) (q + a_initial_stroke p) in
  obind (div_opt (a_offset p ^ 2 + a_radius p ^ 2 - stroke ^ 2) (2 * a_offset p * a_radius p)) (fun division =>
  acos_opt (clamp (-1 + / 10 ^ 6) (1 - / 10 ^ 6) division))).

(** [motor_positions_to_angles], actuators_linear.py:235-291. *)
Definition is (x y : R) : R := if Req_EM_T x y then 1 else 0.
Definition motor_to_angle (a : actuator) (motor : R) : option R :=
  obind (absolute_angle a motor) (fun absolute =>
  obind (absolute_angle a 0) (fun initial =>
  let delta := initial - absolute in
  Some (a_initial_angle (physics_informed a) + delta * is (a_clockwise a) 1 - delta * is (a_clockwise a) 0))).

(** [angles_to_motor_positions], actuators_linear.py:293-370. *)
Definition angle_to_motor (a : actuator) (angle : R) : option R :=
  let p := physics_informed a in
  let delta := if Req_EM_T (a_clockwise a) 1 then angle - a_initial_angle p else a_initial_angle p - angle in
  obind (absolute_angle a 0) (fun initial =>
  let cosine := clamp (-1 + / 10 ^ 6) (1 - / 10 ^ 6) (cos (initial - delta)) in
  obind (sqrt_opt (a_offset p ^ 2 + a_radius p ^ 2 - 2 * a_offset p * a_radius p * cosine)) (fun stroke =>
  Some ((clamp_stroke (a_offset p) (a_radius p) stroke - a_initial_stroke p) * a_increment p))).

(** [IdealActuators], actuators_ideal.py:66-111. *)
Definition ideal_motor_to_angle (motor : R) : option R := Some motor.
Definition ideal_angle_to_motor (angle : R) : option R := Some angle.
