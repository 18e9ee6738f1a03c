(** C34, C35: the conversions of the linear actuators. *)
From Coq Require Import Reals Lra.
From Verif Require Import ModelTransforms ModelActuators SpecActuators ProofsActuators.
Local Open Scope R_scope.

(** C34, motor positions to angles and back. *)
Theorem C34_motor_roundtrip : forall a m, direction_known a -> in_reach a m ->
  exists g, motor_to_angle a m = Some g /\ angle_to_motor a g = Some m.
Proof. exact motor_roundtrip. Qed.
Print Assumptions C34_motor_roundtrip.

(** C34, angles to motor positions and back: the joint angle is the initial one plus the turn from the triangle's
    angle [f0] at motor position zero to its angle [f] at stroke [s]. *)
Theorem C34_angle_roundtrip : forall a f0 f s, direction_known a ->
  reachable (a_offset (physics_informed a)) (a_radius (physics_informed a)) (stroke_of a 0) f0 ->
  reachable (a_offset (physics_informed a)) (a_radius (physics_informed a)) s f ->
  exists m, angle_to_motor a (a_initial_angle a + turning a * (f - f0)) = Some m /\ stroke_of a m = s
    /\ motor_to_angle a m = Some (a_initial_angle a + turning a * (f - f0)).
Proof. exact angle_roundtrip_reach. Qed.
Print Assumptions C34_angle_roundtrip.

(** Also when the initial stroke is out of reach: then it counts as the nearest reachable one. *)
Theorem C34_angle_roundtrip_any_start : forall a f0 f s, direction_known a ->
  absolute_angle a 0 = Some f0 ->
  reachable (a_offset (physics_informed a)) (a_radius (physics_informed a)) s f ->
  exists m, angle_to_motor a (a_initial_angle a + turning a * (f - f0)) = Some m /\ stroke_of a m = s
    /\ motor_to_angle a m = Some (a_initial_angle a + turning a * (f - f0)).
Proof. exact angle_roundtrip. Qed.
Print Assumptions C34_angle_roundtrip_any_start.

Theorem C34_ideal : forall x g m, ideal_motor_to_angle x = Some g -> ideal_angle_to_motor x = Some m ->
  ideal_angle_to_motor g = Some x /\ ideal_motor_to_angle m = Some x.
Proof. exact ideal_roundtrip. Qed.
Print Assumptions C34_ideal.

(** A triangle with offset 3, radius 4 and initial stroke 5; the other stroke gives an angle of 60 degrees. *)
Definition pythagoras (direction : R) : actuator :=
  {| a_clockwise := direction; a_min := 0; a_max := 60000; a_increment := 100 - / 10 ^ 6; a_offset := 3 - / 10 ^ 6;
     a_radius := 4 - / 10 ^ 6; a_initial_angle := 1; a_initial_stroke := 5 - / 10 ^ 6 |}.
Lemma pythagoras_values : forall d, a_offset (physics_informed (pythagoras d)) = 3 /\ a_radius (physics_informed (pythagoras d)) = 4
  /\ a_increment (physics_informed (pythagoras d)) = 100 /\ a_initial_stroke (physics_informed (pythagoras d)) = 5.
Proof. intros d. cbn [physics_informed pythagoras a_offset a_radius a_increment a_initial_stroke]. rewrite !positive_large by lra. unfold epsilon. lra. Qed.
Lemma pythagoras_start : reachable 3 4 5 (PI / 2).
Proof.
  pose proof PI_RGT_0. unfold reachable, triangle. rewrite cos_PI2. unfold Rabs. destruct (Rcase_abs (3 - 4)); lra.
Qed.
Lemma pythagoras_other : reachable 3 4 (sqrt 13) (PI / 3).
Proof.
  pose proof PI_RGT_0. unfold reachable, triangle. rewrite cos_PI3.
  assert (Q : sqrt 13 * sqrt 13 = 13) by (apply sqrt_sqrt; lra). pose proof (sqrt_pos 13).
  unfold Rabs. destruct (Rcase_abs (3 - 4)); [|lra].
  assert (3 < sqrt 13 < 4) by nra. lra.
Qed.
Example C34_case : exists m, angle_to_motor (pythagoras 1) (1 + PI / 6) = Some m /\ motor_to_angle (pythagoras 1) m = Some (1 + PI / 6)
  /\ m = 100 * (sqrt 13 - 5).
Proof.
  destruct (pythagoras_values 1) as (O & R & I & S).
  destruct (C34_angle_roundtrip (pythagoras 1) (PI / 2) (PI / 3) (sqrt 13)) as (m & A & B & C).
  - right. reflexivity.
  - unfold stroke_of. rewrite O, R, S. replace (0 / a_increment (physics_informed (pythagoras 1)) + 5) with 5 by (rewrite I; lra). exact pythagoras_start.
  - rewrite O, R. exact pythagoras_other.
  - cbn [a_initial_angle pythagoras] in *. unfold turning in *. cbn [a_clockwise pythagoras] in *.
    destruct (Req_EM_T 1 1) as [_|N]; [|lra].
    replace (1 + -1 * (PI / 3 - PI / 2)) with (1 + PI / 6) in * by field.
    exists m. repeat split; auto. unfold stroke_of in B. rewrite I, S in B. lra.
Qed.

(** C35, for all raw parameters. *)
Theorem C35_physical : forall a, let p := physics_informed a in
  0 < a_increment p /\ 0 < a_offset p /\ 0 < a_radius p /\ 0 < a_initial_stroke p
  /\ 0 < Rabs (a_offset p - a_radius p) + / 10 ^ 6 < a_offset p + a_radius p - / 10 ^ 6.
Proof. exact physical_parameters. Qed.
Print Assumptions C35_physical.

(** Ordinary values are kept up to the margin, and no value gets smaller. *)
Theorem C35_values_kept : forall a, let p := physics_informed a in
  (forall field, field = a_increment \/ field = a_offset \/ field = a_radius \/ field = a_initial_stroke ->
     field a + / 10 ^ 6 <= field p /\ (1 / 5 < field a -> field p = field a + / 10 ^ 6))
  /\ a_clockwise p = a_clockwise a /\ a_min p = a_min a /\ a_max p = a_max a /\ a_initial_angle p = a_initial_angle a.
Proof. exact values_kept. Qed.
Print Assumptions C35_values_kept.

(** Both conversions give a number, never NaN, for all inputs. *)
Theorem C35_defined : forall a x, (exists g, motor_to_angle a x = Some g) /\ (exists m, angle_to_motor a x = Some m).
Proof. exact angles_defined. Qed.
Print Assumptions C35_defined.

Theorem C35_monotone : forall a m n g h, direction_known a -> m <= n ->
  motor_to_angle a m = Some g -> motor_to_angle a n = Some h ->
  0 <= turning a * (h - g) <= PI.
Proof. exact angle_monotone. Qed.
Print Assumptions C35_monotone.

Theorem C35_strictly_monotone : forall a m n g h, direction_known a -> in_reach a m -> in_reach a n -> m < n ->
  motor_to_angle a m = Some g -> motor_to_angle a n = Some h -> 0 < turning a * (h - g).
Proof. exact angle_strict. Qed.
Print Assumptions C35_strictly_monotone.

Theorem C35_start : forall a, motor_to_angle a 0 = Some (a_initial_angle a).
Proof. exact zero_motor. Qed.
Print Assumptions C35_start.

Theorem C35_stroke_limits : forall a x m, angle_to_motor a x = Some m ->
  Rabs (a_offset (physics_informed a) - a_radius (physics_informed a)) + / 10 ^ 6 <= stroke_of a m
  <= a_offset (physics_informed a) + a_radius (physics_informed a) - / 10 ^ 6.
Proof. exact stroke_in_limits. Qed.
Print Assumptions C35_stroke_limits.

(** A negative raw offset, as gradient steps may produce, and the regular triangle. *)
Example C35_case :
  (exists g, motor_to_angle {| a_clockwise := 0; a_min := 0; a_max := 1; a_increment := -3; a_offset := -1; a_radius := 1 / 3; a_initial_angle := 0; a_initial_stroke := -2 |} 17 = Some g)
  /\ in_reach (pythagoras 0) 0 /\ in_reach (pythagoras 0) (100 * (sqrt 13 - 5))
  /\ forall g, motor_to_angle (pythagoras 0) (100 * (sqrt 13 - 5)) = Some g -> g < 1.
Proof.
  split; [apply C35_defined|].
  destruct (pythagoras_values 0) as (O & R & I & S).
  assert (R0 : in_reach (pythagoras 0) 0).
  { exists (PI / 2). unfold stroke_of. rewrite O, R, S, I. replace (0 / 100 + 5) with 5 by lra. exact pythagoras_start. }
  assert (R1 : in_reach (pythagoras 0) (100 * (sqrt 13 - 5))).
  { exists (PI / 3). unfold stroke_of. rewrite O, R, S, I. replace (100 * (sqrt 13 - 5) / 100 + 5) with (sqrt 13) by field. exact pythagoras_other. }
  repeat split; auto. intros g G.
  assert (L : 100 * (sqrt 13 - 5) < 0). { assert (Q : sqrt 13 * sqrt 13 = 13) by (apply sqrt_sqrt; lra). pose proof (sqrt_pos 13). nra. }
  pose proof (C35_strictly_monotone (pythagoras 0) _ 0 g 1 (or_introl eq_refl) R1 R0 L G (C35_start _)) as M.
  unfold turning in M. cbn [a_clockwise pythagoras] in M. destruct (Req_EM_T 0 1); lra.
Qed.
