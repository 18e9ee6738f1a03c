(** Where the concentrator is, and alignment of heliostats with translation deviations (C36, C39). *)
From Coq Require Import List Reals Lra Lia.
From Verif Require Import ModelField ModelVectors ProofsVectors ModelTransforms ModelIntersections ModelKinematics SpecIntersections SpecTransforms SpecKinematics
  ProofsTransforms ProofsKinematics ProofsAlignment.
Import ListNotations.
Local Open Scope R_scope.

Definition place (m : mat) (p : point) : point := enu (mapply m (as_point p)).
Lemma point_back : forall x, hw x = 1 -> as_point (enu x) = x.
Proof. intros [a b c d] H. cbn in H. subst. reflexivity. Qed.
Lemma place_mmul : forall a b p, rigid b -> place (mmul a b) p = place a (place b p).
Proof. intros a b p (P & _). unfold place. rewrite mapply_mmul, point_back; auto. Qed.
Lemma place_translate : forall t p, place (translate_by t) p = vadd p t.
Proof. intros. unfold place, translate_by, translate. apply point_eq; henu; ring. Qed.
Lemma place_e : forall a p, place (rotate_e a) p = rotated east a p.
Proof. intros. rewrite <- rotate_e_direction. unfold place, rotate_e. apply point_eq; henu; ring. Qed.
Lemma place_u : forall a p, place (rotate_u a) p = rotated up a p.
Proof. intros. rewrite <- rotate_u_direction. unfold place, rotate_u. apply point_eq; henu; ring. Qed.
Lemma place_n : forall a p, place (rotate_n a) p = rotated north (- a) p.
Proof. intros. rewrite <- rotate_n_direction. unfold place, rotate_n. apply point_eq; henu; ring. Qed.
Lemma place_eye : forall p, place eye p = p.
Proof. intros. unfold place, eye. apply point_eq; henu; ring. Qed.

Local Hint Resolve rigid_mmul rotate_e_rigid rotate_n_rigid rotate_u_rigid translate_by_rigid eye_rigid first_rigid second_rigid pose_rigid : rigid.
Lemma pose_mounted : forall k a b p, place (pose k a b) p = mounted k a b p.
Proof.
  intros. unfold pose, first_deviations, second_deviations.
  rewrite !place_mmul by auto 10 with rigid. rewrite !place_translate, !place_e, !place_u, !place_n, place_eye.
  rewrite ?place_translate. reflexivity.
Qed.
Theorem chain : forall k m p, enu (mapply (motor_positions_to_orientation k m) (as_point p))
  = mounted k (to_angle (k_drive_1 k) (fst m)) (to_angle (k_drive_2 k) (snd m)) (rotated east (PI / 2) p).
Proof.
  intros. unfold motor_positions_to_orientation, forward. fold (place (mmul (pose k (to_angle (k_drive_1 k) (fst m)) (to_angle (k_drive_2 k) (snd m))) initial_orientation_offsets) p).
  rewrite place_mmul by apply offsets_rigid. rewrite offsets_value, place_e. apply pose_mounted.
Qed.

Lemma rotated_norm : forall w a v, unit w -> norm (rotated w a v) = norm v.
Proof.
  intros w a v U. unfold norm. f_equal. unfold unit in U. unfold rotated.
  assert (C := sin2_cos2 a). unfold Rsqr in C.
  assert (X : dot v (cross w v) = 0) by (vunfold; ring).
  assert (Y : dot w (cross w v) = 0) by (vunfold; ring).
  assert (Z : dot (cross w v) (cross w v) = dot w w * dot v v - dot w v * dot w v) by (vunfold; ring).
  set (c := cross w v) in *. rewrite !dot_vadd_l, !dot_vadd_r, !dot_smul_l, !dot_smul_r, (dot_comm c v), (dot_comm c w), (dot_comm v w), X, Y, Z, U.
  assert (S : sin a * sin a = 1 - cos a * cos a) by lra.
  transitivity (cos a * cos a * dot v v + (sin a * sin a) * (dot v v - dot w v * dot w v) + (1 - cos a * cos a) * (dot w v * dot w v)); [ring|].
  rewrite S. ring.
Qed.
Lemma rotated_sub : forall w a v v', vsub (rotated w a v) (rotated w a v') = rotated w a (vsub v v').
Proof. intros. unfold rotated. vring. Qed.
Lemma east_unit : unit east. Proof. unfold unit, east. vunfold. ring. Qed.
Lemma north_unit : unit north. Proof. unfold unit, north. vunfold. ring. Qed.
Lemma up_unit : unit up. Proof. unfold unit, up. vunfold. ring. Qed.

(** The concentrator stays within the arm's length of the first joint. *)
Theorem within_arm : forall k a b, norm (vsub (mounted k a b (vec 0 0 0)) (first_joint k)) <= arm_length k.
Proof.
  intros. unfold mounted, first_joint, arm_length.
  set (v := rotated east a (rotated east (k_tilt_2e k) (rotated north (- k_tilt_2n k) (vadd (rotated up b (vadd (vec 0 0 0) (k_translation_c k))) (k_translation_2 k))))).
  replace (vsub (vadd (rotated north (- k_tilt_1n k) (rotated up (k_tilt_1u k) (vadd v (k_translation_1 k)))) (k_position k))
                (vadd (rotated north (- k_tilt_1n k) (rotated up (k_tilt_1u k) (k_translation_1 k))) (k_position k)))
    with (vsub (rotated north (- k_tilt_1n k) (rotated up (k_tilt_1u k) (vadd v (k_translation_1 k)))) (rotated north (- k_tilt_1n k) (rotated up (k_tilt_1u k) (k_translation_1 k)))) by vring.
  rewrite !rotated_sub. replace (vsub (vadd v (k_translation_1 k)) (k_translation_1 k)) with v by vring.
  rewrite (rotated_norm north), (rotated_norm up) by auto using north_unit, up_unit. unfold v.
  rewrite !(rotated_norm east), (rotated_norm north) by auto using east_unit, north_unit.
  eapply Rle_trans; [apply norm_triangle|]. rewrite (rotated_norm up) by apply up_unit.
  replace (vadd (vec 0 0 0) (k_translation_c k)) with (k_translation_c k) by vring. lra.
Qed.

(** Directions to a far point from two near points. *)
Lemma directions_near : forall u v d, 0 < d -> d <= norm u -> d <= norm v ->
  norm (vsub (smul (/ norm u) u) (smul (/ norm v) v)) <= norm (vsub u v) / d.
Proof.
  intros u v d D U V. set (a := norm u) in *. set (b := norm v) in *.
  assert (AA : a * a = dot u u) by apply norm_sq. assert (BB : b * b = dot v v) by apply norm_sq.
  pose proof (norm_nonneg (vsub u v)) as N. pose proof (norm_sq (vsub u v)) as NN. set (w := norm (vsub u v)) in *.
  assert (W : w * w = a * a + b * b - 2 * dot u v) by (rewrite NN, dot_vsub_l, !dot_vsub_r, (dot_comm v u), AA, BB; ring).
  set (x := vsub _ _). pose proof (norm_nonneg x) as X. pose proof (norm_sq x) as XX. set (y := norm x) in *.
  assert (Y : a * b * (y * y) = 2 * (a * b) - 2 * dot u v).
  { rewrite XX. unfold x. rewrite dot_vsub_l, !dot_vsub_r, !dot_smul_l, !dot_smul_r, (dot_comm v u), <- AA, <- BB. field. lra. }
  assert (Q : a * b * (y * y) <= w * w) by (rewrite Y, W; pose proof (Rle_0_sqr (a - b)) as S; unfold Rsqr in S; lra).
  assert (DD : d * d <= a * b) by (apply Rmult_le_compat; lra).
  assert (L : (d * y) * (d * y) <= w * w).
  { eapply Rle_trans; [|exact Q]. replace (d * y * (d * y)) with (d * d * (y * y)) by ring. apply Rmult_le_compat_r; [nra|auto]. }
  assert (L' : d * y <= w) by (apply Rsqr_incr_0; unfold Rsqr; auto; apply Rmult_le_pos; lra).
  apply (Rmult_le_reg_l d); auto. replace (d * (w / d)) with w by (field; lra). auto.
Qed.

Lemma step_of : forall j r m, (1 <= j)%nat -> exists m', repeat_step j r m = step r m'.
Proof.
  induction j as [|j IH]; intros r m J; [lia|]. cbn. destruct j as [|j]; [exists m; reflexivity|]. apply IH. lia.
Qed.
Lemma desired_bisecting : forall i aim o, / 10 ^ 8 <= norm (vsub aim o) -> / 10 ^ 8 <= norm (vsub (direction_to o aim) i) ->
  desired_normal i aim o = smul (/ norm (vsub (direction_to o aim) i)) (vsub (direction_to o aim) i).
Proof.
  intros i aim o A1 A2. unfold desired_normal. rewrite (normalize_eps_long _ (vsub _ _)) by auto. fold (direction_to o aim).
  replace (vadd (smul (-1) i) (direction_to o aim)) with (vsub (direction_to o aim) i) by vring.
  rewrite normalize_eps_long by auto. reflexivity.
Qed.
Lemma place_origin : forall k m, place (motor_positions_to_orientation k m) (vec 0 0 0) = origin_of (forward k m).
Proof.
  intros. unfold motor_positions_to_orientation. rewrite place_mmul by apply offsets_rigid. rewrite offsets_value, place_e.
  replace (rotated east (PI / 2) (vec 0 0 0)) with (vec 0 0 0) by (unfold rotated; vring). reflexivity.
Qed.

Theorem aligned_with_translations : forall n eps batch os ms i r distance, (2 <= n)%nat ->
  incident_ray_directions_to_orientations n eps batch = Ok (os, ms) ->
  nth_error batch i = Some r ->
  let k := rq_kinematics r in
  let bisecting q := let v := vsub (direction_to q (rq_aim r)) (rq_incident r) in smul (/ norm v) v in
  unit (rq_incident r) -> 0 < distance ->
  (forall q, norm (vsub q (first_joint k)) <= arm_length k ->
     distance <= norm (vsub (rq_aim r) q) /\ / 10 ^ 8 <= norm (vsub (rq_aim r) q) /\ / 10 ^ 8 <= norm (vsub (direction_to q (rq_aim r)) (rq_incident r))
     /\ reachable_normal k (bisecting q) /\ drives_deliver k (bisecting q)) ->
  exists o, nth_error os i = Some o
    /\ let centre := enu (mapply o (as_point (vec 0 0 0))) in
       norm (vsub centre (first_joint k)) <= arm_length k
       /\ norm (vsub (reflect (rq_incident r) (enu (mapply o (as_direction up)))) (direction_to centre (rq_aim r)))
          <= 8 / 10 ^ 4 + 2 * arm_length k / distance.
Proof.
  intros n eps batch os ms i r dist N H B k bis UI DP ALL.
  destruct (call_cases _ _ _ _ _ H) as (j & J & -> & D).
  assert (Z : nth_error (zeros batch) i = Some (0, 0)) by (eapply zero_nth; eauto).
  assert (J1 : (1 <= j)%nat) by (destruct D as [(_ & D)|(D & _)]; lia).
  destruct (step_of j r (0, 0) J1) as (m & M).
  exists (motor_positions_to_orientation k (step r m)). split.
  { rewrite nth_error_map, (poses_nth _ _ _ _ _ B (repeat_nth j _ _ _ _ _ B Z)), M. reflexivity. }
  fold (place (motor_positions_to_orientation k (step r m)) (vec 0 0 0)). rewrite place_origin.
  set (q' := origin_of (forward k (step r m))). set (q := origin_of (forward k m)).
  assert (IN : forall m', norm (vsub (origin_of (forward k m')) (first_joint k)) <= arm_length k).
  { intros m'. unfold forward. fold (place (pose k (to_angle (k_drive_1 k) (fst m')) (to_angle (k_drive_2 k) (snd m'))) (vec 0 0 0)).
    change (origin_of ?o) with (place o (vec 0 0 0)). rewrite pose_mounted. apply within_arm. }
  cbv zeta. split; [apply IN|].
  destruct (ALL q (IN m)) as (D1 & D2 & D3 & RE & DE). destruct (ALL q' (IN (step r m))) as (D1' & _).
  assert (DN := desired_bisecting (rq_incident r) (rq_aim r) q D2 D3).
  assert (ST : step r m = inverse k (as_direction (bis q))).
  { unfold step. rewrite desired_direction. fold k. fold q. rewrite DN. reflexivity. }
  unfold motor_positions_to_orientation. fold (dir (mmul (forward k (step r m)) initial_orientation_offsets) up). rewrite dir_of_orientation.
  pose proof (delivered k (bis q) RE DE) as X. rewrite <- ST in X.
  destruct (bisector (rq_incident r) (rq_aim r) q UI D2 D3) as (UD & RD). rewrite DN in UD, RD. fold (bis q) in UD, RD.
  assert (E1 : norm (vsub (reflect (rq_incident r) (facing (forward k (step r m)))) (direction_to q (rq_aim r))) <= 8 / 10 ^ 4).
  { rewrite <- RD. replace (8 / 10 ^ 4) with (4 * (2 / 10 ^ 4)) by field. apply reflect_error; auto. apply facing_unit. }
  assert (E2 : norm (vsub (direction_to q (rq_aim r)) (direction_to q' (rq_aim r))) <= 2 * arm_length k / dist).
  { unfold direction_to. eapply Rle_trans; [apply (directions_near _ _ dist); auto|].
    apply Rmult_le_compat_r; [left; apply Rinv_0_lt_compat; auto|].
    replace (vsub (vsub (rq_aim r) q) (vsub (rq_aim r) q')) with (vadd (vsub q' (first_joint k)) (smul (-1) (vsub q (first_joint k)))) by vring.
    eapply Rle_trans; [apply norm_triangle|]. rewrite norm_smul, Rabs_left by lra.
    pose proof (IN m) as I1. pose proof (IN (step r m)) as I2. fold q in I1. fold q' in I2. lra. }
  clear RD. set (f := reflect _ _) in *. set (d := direction_to q _) in *. set (d' := direction_to q' _) in *.
  replace (vsub f d') with (vadd (vsub f d) (vsub d d')) by vring.
  eapply Rle_trans; [apply norm_triangle|]. lra.
Qed.

(** ** An example: a mirror 30 cm before the axes, 100 m north of the tower, under the sun at the zenith *)
From Verif Require Import ProofsAlignHistory.
Definition kc := plain (vec 0 0 0) (vec 0 (-3 / 10) 0).
Definition rc := {| rq_kinematics := kc; rq_incident := vec 0 0 (-1); rq_aim := vec 0 (-100) 0 |}.
Lemma kc_joint : first_joint kc = vec 0 0 0 /\ arm_length kc = 3 / 10.
Proof.
  unfold first_joint, arm_length, kc, plain. cbn [k_tilt_1n k_tilt_1u k_translation_1 k_position k_translation_2 k_translation_c]. split.
  - rewrite Ropp_0. unfold rotated. rewrite cos_0, sin_0. apply point_eq; vunfold; ring.
  - rewrite (norm_of_sq (vec 0 0 0) 0), (norm_of_sq (vec 0 (-3 / 10) 0) (3 / 10)); try lra; vunfold; field.
Qed.
Lemma rc_far : forall q, norm (vsub q (first_joint kc)) <= arm_length kc ->
  99 <= norm (vsub (rq_aim rc) q) /\ / 10 ^ 8 <= norm (vsub (rq_aim rc) q)
  /\ / 10 ^ 8 <= norm (vsub (direction_to q (rq_aim rc)) (rq_incident rc))
  /\ (let v := vsub (direction_to q (rq_aim rc)) (rq_incident rc) in reachable_normal kc (smul (/ norm v) v) /\ drives_deliver kc (smul (/ norm v) v)).
Proof.
  intros q H. destruct kc_joint as (J & A). rewrite J, A in H. apply component_bound in H. destruct H as (HE & HN & HU).
  apply Rabs_le_inv in HE. apply Rabs_le_inv in HN. apply Rabs_le_inv in HU. cbn [vsub vec pe pn pu] in HE, HN, HU.
  assert (F : 99 <= norm (vsub (rq_aim rc) q)).
  { apply Rsqr_incr_0; [|lra|apply norm_nonneg]. unfold Rsqr. rewrite norm_sq. cbn [rq_aim rc]. vunfold. nra. }
  set (d := direction_to q (rq_aim rc)). assert (UD : unit d) by (apply unit_smul; lra).
  assert (DU : - (1 / 2) <= pu d).
  { unfold d, direction_to. change (pu (smul ?x ?y)) with (x * pu y). replace (pu (vsub (rq_aim rc) q)) with (- pu q) by (cbn [rq_aim rc]; vunfold; ring).
    set (l := norm _) in *. apply (Rmult_le_reg_l l); [lra|]. replace (l * (/ l * - pu q)) with (- pu q) by (field; lra). nra. }
  assert (V : 1 <= norm (vsub d (rq_incident rc))).
  { apply Rsqr_incr_0; [|lra|apply norm_nonneg]. unfold Rsqr. rewrite norm_sq. unfold unit in UD. cbn [rq_incident rc]. vunfold. nra. }
  split; [auto|]. split; [lra|]. split; [lra|]. cbv zeta. split; [apply plain_reachable, unit_smul; lra|apply plain_deliver].
Qed.
