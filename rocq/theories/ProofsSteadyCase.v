(** A mirror turned about the vertical: the hypotheses of C156. *)
From Coq Require Import List Arith Reals Lra Lia.
From Verif Require Import RealSums ModelField ModelVectors ProofsVectors ModelTransforms SpecTransforms ProofsTransforms ModelActuators ModelKinematics SpecKinematics ProofsKinematics
  ModelSplatting ModelIntersections SpecIntersections ProofsAlignment ProofsAlignHistory.
Import ListNotations.
Local Open Scope R_scope.

Definition north_screen : plane := {| plane_center := vec 0 (-10) 0; plane_normal := vec 0 1 0; plane_width := 16; plane_height := 6 |}.
Definition turn : R := asin (20 / 101).
Lemma turn_values : sin turn = 20 / 101 /\ cos turn = 99 / 101.
Proof.
  unfold turn. split; [apply sin_asin; lra|]. rewrite cos_asin by lra. replace (1 - Rsqr (20 / 101)) with (Rsqr (99 / 101)) by (unfold Rsqr; field). apply sqrt_Rsqr. lra.
Qed.
Lemma turn_positive : 0 < turn.
Proof.
  destruct turn_values as (TS & _). pose proof (asin_bound (20 / 101)) as B. fold turn in B. pose proof PI_RGT_0 as P. apply Rnot_le_lt. intros L.
  pose proof (sin_ge_0 (- turn)) as G. rewrite sin_neg in G. assert (0 <= - sin turn) by (apply G; lra). lra.
Qed.
Lemma turned_mirror : forall a, enu (mapply (motor_positions_to_orientation kb (0, a)) (as_point (vec 0 0 0))) = vec 0 0 0
  /\ enu (mapply (motor_positions_to_orientation kb (0, a)) (as_direction (vec 0 0 1))) = vec (sin a) (- cos a) 0.
Proof.
  intros a. assert (E : motor_positions_to_orientation kb (0, a) = mmul (rotate_u a) (rotate_e (PI / 2))).
  { unfold motor_positions_to_orientation, forward, pose, first_deviations, second_deviations. rewrite offsets_value.
    cbn [kb plain k_position k_translation_1 k_translation_2 k_translation_c k_tilt_1n k_tilt_1u k_tilt_2e k_tilt_2n k_drive_1 k_drive_2 ideal_drive to_angle fst snd ideal_motor_to_angle value].
    destruct rotate_zero as (Z1 & Z2 & Z3). rewrite !translate_zero, Z1, Z2, Z3, !mmul_eye_l, !mmul_eye_r. reflexivity. }
  rewrite E. clear E. rewrite !mapply_mmul.
  assert (A : mapply (rotate_e (PI / 2)) (as_point (vec 0 0 0)) = as_point (vec 0 0 0)) by (unfold rotate_e, as_point; apply hvec_eq; hunfold; vunfold; ring).
  assert (B : mapply (rotate_e (PI / 2)) (as_direction (vec 0 0 1)) = as_direction (vec 0 (-1) 0)).
  { unfold rotate_e, as_direction. rewrite sin_PI2, cos_PI2. apply hvec_eq; hunfold; vunfold; ring. }
  rewrite A, B. clear A B. split; unfold enu, as_point, as_direction, rotate_u; apply point_eq; hunfold; vunfold; ring.
Qed.

(** A mirror ten metres before a screen, turned by about 11.4 degrees. *)
Lemma screen_case : let i := vec 0 1 0 in
  let origin m x := enu (mapply (motor_positions_to_orientation kb m) (as_point x)) in
  let ray m v := reflect i (enu (mapply (motor_positions_to_orientation kb m) (as_direction v))) in
  sized north_screen /\ unit (plane_normal north_screen) /\ unit i
  /\ Rabs (to_angle (k_drive_1 kb) (fst (0, 0)) - to_angle (k_drive_1 kb) (fst (0, turn))) <= 0
  /\ Rabs (to_angle (k_drive_2 kb) (snd (0, 0)) - to_angle (k_drive_2 kb) (snd (0, turn))) <= turn
  /\ (0, 0) <> (0, turn)
  /\ forall x v t t' power, In (x, v, t, t', power) [(vec 0 0 0, vec 0 0 1, 10, 10 * 10201 / 9401, 5)] ->
     unit v /\ norm x <= 0 /\ 0 <= power
     /\ hits_area north_screen (origin (0, 0) x) (ray (0, 0) v) t /\ within_half_open north_screen (along (origin (0, 0) x) (ray (0, 0) v) t)
     /\ 1 <= - dot (ray (0, 0) v) (plane_normal north_screen)
     /\ hits_area north_screen (origin (0, turn) x) (ray (0, turn) v) t' /\ within_half_open north_screen (along (origin (0, turn) x) (ray (0, turn) v) t')
     /\ Rabs t' <= 11.
Proof.
  cbn zeta. destruct turn_values as (TS & TC).
  pose proof turn_positive as TP.
  split; [split; cbn; lra|]. split; [unfold unit, north_screen; cbn [plane_normal]; vunfold; lra|]. split; [unfold unit; vunfold; lra|].
  cbn [kb plain k_drive_1 k_drive_2 ideal_drive to_angle fst snd ideal_motor_to_angle value].
  split; [rewrite Rminus_0_r, Rabs_R0; lra|]. split; [rewrite Rminus_0_l, Rabs_Ropp, Rabs_pos_eq; lra|]. split; [intros E; injection E; lra|].
  intros x v t t' power [E|[]]. injection E as <- <- <- <- <-.
  destruct (turned_mirror 0) as (O0 & N0). destruct (turned_mirror turn) as (O1 & N1). rewrite sin_0, cos_0 in N0. rewrite TS, TC in N1. rewrite O0, O1, N0, N1.
  split; [unfold unit; vunfold; lra|]. split; [unfold norm; replace (dot (vec 0 0 0) (vec 0 0 0)) with 0 by (vunfold; ring); rewrite sqrt_0; lra|]. split; [lra|].
  unfold hits_area, within_half_open, on_plane, within_area, along, reflect, north_screen. cbn [plane_center plane_normal plane_width plane_height].
  rewrite (Rabs_pos_eq (10 * 10201 / 9401)) by lra. repeat split; vunfold; try lra; try (apply Rabs_le; lra).
Qed.
