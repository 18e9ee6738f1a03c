(** Proofs about repeated alignment (C41) and about batches (C75). *)
From Coq Require Import List Arith Reals Bool Lra Lia Psatz.
From Verif Require Import ModelField ModelVectors ProofsVectors ModelAngles ProofsAngles ModelTransforms ModelActuators ModelKinematics ModelIntersections
  SpecIntersections SpecTransforms SpecKinematics ProofsTransforms ProofsKinematics ProofsAlignment.
Import ListNotations.
Local Open Scope R_scope.

Lemma perform_all_app : forall a b g, perform_all g (a ++ b) = perform_all (perform_all g a) b.
Proof. induction a; intros; cbn; auto. Qed.
Lemma heliostats_kept : forall ops g, gr_heliostats (perform_all g ops) = gr_heliostats g.
Proof.
  induction ops as [|op ops IH]; intros g; auto. cbn [perform_all]. rewrite IH.
  destruct op; cbn [perform].
  - destruct (repeat_interleave (gr_heliostats g) mask); auto.
  - destruct (align_with_motors _ _ _ _); auto.
  - destruct (align_with_incident _ _ _) as [[s m]|]; auto.
Qed.

(** Whatever happened before, activating starts afresh. *)
Theorem activation_restores : forall g history mask,
  length mask = length (gr_heliostats g) ->
  perform (perform_all g history) (Activate mask) = perform g (Activate mask).
Proof.
  intros g history mask L. cbn [perform]. rewrite heliostats_kept.
  assert (E : exists a, repeat_interleave (gr_heliostats g) mask = Ok a).
  { revert L. generalize (gr_heliostats g). clear. induction mask as [|m mask IH]; intros [|h hs]; try discriminate; cbn.
    - eauto.
    - intros L. destruct (IH hs) as (a & ->); [lia|]. eauto. }
  destruct E as (a & ->). auto.
Qed.
Theorem realign : forall g history mask align,
  length mask = length (gr_heliostats g) ->
  perform_all g (history ++ [Activate mask; align]) = perform_all g [Activate mask; align].
Proof. intros. rewrite perform_all_app. cbn [perform_all]. rewrite activation_restores; auto. Qed.

(** Aligning again moves the already aligned surfaces once more. *)
Lemma transform_twice : forall os rows, length os = length rows ->
  transform_all os (transform_all os rows) = map (fun '(o, row) => map (fun x => mapply o (mapply o x)) row) (combine os rows).
Proof.
  unfold transform_all. induction os as [|o os IH]; intros [|r rows] L; try discriminate; auto. cbn in *. f_equal.
  - rewrite map_map. apply map_ext. intros x. rewrite !vapply_mtr. auto.
  - apply IH. lia.
Qed.
Lemma list_nat_eqb_eq : forall a b, list_nat_eqb a b = true <-> a = b.
Proof. intros. unfold list_nat_eqb. destruct (list_eq_dec Nat.eq_dec a b); split; intros; auto; discriminate. Qed.
Lemma transform_length : forall os rows, length os = length rows -> length (transform_all os rows) = length rows.
Proof. intros. unfold transform_all. rewrite map_length, combine_length. lia. Qed.

Theorem motors_aligned : forall s ks ms s', length ks = length (s_points s) -> length ms = length ks -> length (s_normals s) = length ks ->
  align_with_motors s (s_mask s) ks ms = Ok s' ->
  length (s_points s') = length (s_points s) /\ s_mask s' = s_mask s
  /\ forall i k m points normals, nth_error ks i = Some k -> nth_error ms i = Some m ->
     nth_error (s_points s) i = Some points -> nth_error (s_normals s) i = Some normals ->
     nth_error (s_points s') i = Some (map (mapply (motor_positions_to_orientation k m)) points)
     /\ nth_error (s_normals s') i = Some (map (mapply (motor_positions_to_orientation k m)) normals).
Proof.
  intros s ks ms s' L1 L2 L3 H. unfold align_with_motors in H.
  assert (E : list_nat_eqb (s_mask s) (s_mask s) = true) by (apply list_nat_eqb_eq; auto). rewrite E in H. injection H as <-.
  cbn [apply_orientations s_points s_normals s_mask]. split; [apply transform_length; rewrite map_length, combine_length; lia|]. split; auto.
  assert (G : forall rows i k m row, nth_error ks i = Some k -> nth_error ms i = Some m -> nth_error rows i = Some row ->
    nth_error (transform_all (map (fun '(k, m) => motor_positions_to_orientation k m) (combine ks ms)) rows) i = Some (map (mapply (motor_positions_to_orientation k m)) row)).
  { clear. intros rows i k m row. revert ks ms rows. unfold transform_all. induction i as [|i IH]; intros [|k' ks] [|m' ms] [|r rows] K M Q; try discriminate; cbn in *.
    - injection K as ->. injection M as ->. injection Q as ->. reflexivity.
    - auto. }
  intros i k m points normals K M P N. split; auto.
Qed.
Theorem mask_checked : forall s mask ks ms batch, s_mask s <> mask ->
  align_with_motors s mask ks ms = Err AssertionError /\ align_with_incident s mask batch = Err AssertionError.
Proof.
  intros s mask ks ms batch N. unfold align_with_motors, align_with_incident.
  destruct (list_nat_eqb (s_mask s) mask) eqn:E; auto. apply list_nat_eqb_eq in E. contradiction.
Qed.

(** ** An example: ideal drives without tilts *)
Definition plain (position concentrator : point) : kinematics :=
  {| k_position := position; k_initial_orientation := south; k_translation_1 := vec 0 0 0; k_translation_2 := vec 0 0 0;
     k_translation_c := concentrator; k_tilt_1n := 0; k_tilt_1u := 0; k_tilt_2e := 0; k_tilt_2n := 0;
     k_drive_1 := ideal_drive (-4) 4; k_drive_2 := ideal_drive (-4) 4 |}.
Lemma plain_reachable : forall q c n, unit n -> reachable_normal (plain q c) n.
Proof.
  intros q c n U. apply reachable_iff. split; auto. cbn [k_tilt_2n plain]. rewrite cos_0, (Rabs_right 1) by lra.
  apply Rabs_le. rewrite dot_comm. apply dot_unit_bound; apply norm_unit_dot; auto.
  apply dir_unit; [apply first_rigid|]. unfold unit, east. vunfold. ring.
Qed.
Lemma plain_deliver : forall q c n, drives_deliver (plain q c) n.
Proof. intros. apply (ideal_deliver _ _ (-4) 4 (-4) 4); reflexivity. Qed.
Lemma plain_pose : forall q c a b, pose (plain q c) a b = mmul (mmul (mmul (translate_by q) (rotate_e a)) (rotate_u b)) (translate_by c).
Proof.
  intros. unfold pose, first_deviations, second_deviations. cbn [k_position k_translation_1 k_translation_2 k_translation_c k_tilt_1n k_tilt_1u k_tilt_2e k_tilt_2n plain].
  destruct rotate_zero as (E & N & U). rewrite E, N, U, !translate_zero, !mmul_eye_l. auto.
Qed.
Lemma plain_zero : forall q c, forward (plain q c) (0, 0) = mmul (translate_by q) (translate_by c).
Proof.
  intros. unfold forward. cbn [fst snd]. change (to_angle (k_drive_1 (plain q c)) 0) with 0. change (to_angle (k_drive_2 (plain q c)) 0) with 0.
  rewrite plain_pose. destruct rotate_zero as (E & N & U). rewrite E, U, !mmul_eye_r. auto.
Qed.
Lemma plain_origin : forall q c a b, origin_of (pose (plain q c) a b) = vadd (dir (rotate_e a) (dir (rotate_u b) c)) q.
Proof.
  intros. rewrite plain_pose. unfold origin_of. rewrite !mapply_mmul.
  assert (T : mapply (translate_by c) (as_point (vec 0 0 0)) = as_point c).
  { apply hvec_eq; unfold translate_by, translate; henu; ring. }
  rewrite T. unfold dir, rotate_u, rotate_e, translate_by, translate. apply point_eq; henu; ring.
Qed.
Lemma plain_facing : forall q c a b, facing (pose (plain q c) a b) = dir (rotate_e a) (dir (rotate_u b) south).
Proof.
  intros. rewrite plain_pose. change (facing ?m) with (dir m south).
  rewrite !dir_mmul by (repeat apply rigid_mmul; auto using rotate_e_rigid, rotate_u_rigid, translate_by_rigid).
  rewrite !dir_translate. auto.
Qed.

(** Twice is not once. *)
Lemma twice_differs : let g := {| gr_heliostats := [{| h_kinematics := plain (vec 5 0 0) (vec 0 0 0); h_points := [as_point (vec 0 0 0)]; h_normals := [as_direction up] |}];
    gr_active := []; gr_surfaces := {| s_mask := []; s_points := []; s_normals := [] |}; gr_motors := [] |} in
  let once := perform_all g [Activate [1%nat]; AlignMotors [1%nat] [(0, 0)]] in
  s_points (gr_surfaces once) = [[as_point (vec 5 0 0)]]
  /\ s_points (gr_surfaces (perform_all once [AlignMotors [1%nat] [(0, 0)]])) = [[as_point (vec 10 0 0)]].
Proof.
  intros g once.
  assert (O : motor_positions_to_orientation (plain (vec 5 0 0) (vec 0 0 0)) (0, 0) = mmul (translate_by (vec 5 0 0)) (rotate_e (PI / 2))).
  { unfold motor_positions_to_orientation. rewrite plain_zero, translate_zero, mmul_eye_r, offsets_value. auto. }
  assert (M : forall x, mapply (mmul (translate_by (vec 5 0 0)) (rotate_e (PI / 2))) (as_point (vec x 0 0)) = as_point (vec (x + 5) 0 0)).
  { intros x. rewrite mapply_mmul. apply hvec_eq; unfold translate_by, translate, rotate_e; henu; ring. }
  assert (P1 : s_points (gr_surfaces once) = [[mapply (motor_positions_to_orientation (plain (vec 5 0 0) (vec 0 0 0)) (0, 0)) (as_point (vec 0 0 0))]]).
  { unfold once, g. cbn [perform_all perform gr_heliostats repeat_interleave repeat app map fst gr_surfaces gr_active h_kinematics h_points h_normals].
    unfold align_with_motors. cbn [s_mask list_nat_eqb]. unfold list_nat_eqb. destruct (list_eq_dec Nat.eq_dec [1%nat] [1%nat]) as [_|N]; [|contradiction].
    cbn [fst gr_surfaces apply_orientations s_points transform_all map combine]. rewrite vapply_mtr. auto. }
  rewrite O, M in P1. replace (0 + 5) with 5 in P1 by ring. split; auto.
  assert (ACT : gr_active once = [plain (vec 5 0 0) (vec 0 0 0)] /\ s_mask (gr_surfaces once) = [1%nat]).
  { unfold once, g. cbn [perform_all perform gr_heliostats repeat_interleave repeat app map fst gr_surfaces gr_active h_kinematics h_points h_normals].
    unfold align_with_motors. cbn [s_mask]. unfold list_nat_eqb. destruct (list_eq_dec Nat.eq_dec [1%nat] [1%nat]) as [_|N]; [|contradiction].
    cbn [fst gr_active gr_surfaces apply_orientations s_mask]. auto. }
  destruct ACT as (A1 & A2). cbn [perform_all perform]. rewrite A1. unfold align_with_motors. rewrite A2.
  unfold list_nat_eqb. destruct (list_eq_dec Nat.eq_dec [1%nat] [1%nat]) as [_|N]; [|contradiction].
  cbn [fst gr_surfaces apply_orientations s_points]. rewrite P1. cbn [combine map transform_all].
  rewrite vapply_mtr, O, M. do 4 f_equal. ring.
Qed.

(** ** One heliostat's alignment depends on the others of its batch *)
(** A: mirror one metre in front of the joints, aiming at a point 10 m to the south with the sun in the zenith. *)
Definition ka := plain (vec 0 0 0) south.
Definition ra := {| rq_kinematics := ka; rq_incident := vec 0 0 (-1); rq_aim := vec 0 (-10) 0 |}.
Definition d0 := vec 0 (- / sqrt 2) (/ sqrt 2).

Lemma s2 : 0 < sqrt 2 /\ sqrt 2 * sqrt 2 = 2 /\ 1 < sqrt 2 < 3 / 2.
Proof.
  assert (A : 0 < sqrt 2) by (apply sqrt_lt_R0; lra). assert (B : sqrt 2 * sqrt 2 = 2) by (apply sqrt_sqrt; lra).
  repeat split; auto; nra.
Qed.
Lemma norm_of_sq : forall v x, 0 <= x -> dot v v = x * x -> norm v = x.
Proof. intros v x X E. unfold norm. rewrite E. apply sqrt_square. exact X. Qed.

Lemma ka_origin : forall m, origin_of (forward ka m) = facing (forward ka m).
Proof.
  intros m. unfold forward, ka. rewrite plain_origin, plain_facing. apply point_eq; vunfold; ring.
Qed.
Lemma ka_start : facing (forward ka (0, 0)) = south.
Proof.
  unfold forward, ka. cbn [fst snd]. rewrite plain_facing. change (to_angle _ 0) with 0. 
  destruct rotate_zero as (E & _ & U). change (to_angle (k_drive_2 (plain (vec 0 0 0) south)) 0) with 0. rewrite E, U, !dir_eye. auto.
Qed.
Lemma d0_unit : unit d0.
Proof. destruct s2 as (A & B & C). unfold unit, d0. vunfold. assert (J : / sqrt 2 * / sqrt 2 = / 2) by (rewrite <- Rinv_mult, B; auto). lra. Qed.
Lemma d0_desired : desired_normal (rq_incident ra) (rq_aim ra) south = d0.
Proof.
  destruct s2 as (A & B & C). unfold desired_normal, ra. cbn [rq_incident rq_aim].
  assert (N9 : norm (vsub (vec 0 (-10) 0) south) = 9) by (apply norm_of_sq; [lra|]; unfold south; vunfold; ring).
  rewrite (normalize_eps_long _ (vsub (vec 0 (-10) 0) south)) by (rewrite N9; lra). rewrite N9.
  replace (vadd (smul (-1) (vec 0 0 (-1))) (smul (/ 9) (vsub (vec 0 (-10) 0) south))) with (vec 0 (-1) 1).
  2: { unfold south. apply point_eq; vunfold; field. }
  assert (N2 : norm (vec 0 (-1) 1) = sqrt 2) by (apply norm_of_sq; [lra|]; rewrite B; vunfold; ring).
  rewrite normalize_eps_long by (rewrite N2; lra). rewrite N2. unfold d0. apply point_eq; unfold smul, vec; cbn [pe pn pu]; ring.
Qed.

Definition m1 := step ra (0, 0).
Definition n1 := facing (forward ka m1).
Lemma m1_value : m1 = inverse ka (as_direction d0).
Proof. unfold m1, step. rewrite desired_direction. cbn [rq_kinematics ra]. fold ka. rewrite ka_origin, ka_start, d0_desired. auto. Qed.
Lemma n1_near : norm (vsub n1 d0) <= 2 / 10 ^ 4.
Proof. unfold n1. rewrite m1_value. apply delivered; [apply plain_reachable, d0_unit|apply plain_deliver]. Qed.
Lemma component_bound : forall v e, norm v <= e -> Rabs (pe v) <= e /\ Rabs (pn v) <= e /\ Rabs (pu v) <= e.
Proof.
  intros v e H. pose proof (norm_nonneg v). pose proof (norm_sq v) as Q. unfold dot in Q.
  repeat split; apply Rsqr_incr_0_var; try lra; rewrite <- Rsqr_abs; unfold Rsqr; nra.
Qed.

(** The next requested normal differs from the first one. *)
Definition o1 := n1.
Definition d1 := desired_normal (rq_incident ra) (rq_aim ra) o1.
Lemma o1_up : 1 / 2 <= pu o1 <= 1 /\ -1 <= pn o1 <= 0 /\ unit o1.
Proof.
  pose proof n1_near as N. apply component_bound in N. destruct N as (_ & NN & NU). apply Rabs_le_inv in NN. apply Rabs_le_inv in NU.
  destruct s2 as (A & B & C). 
  assert (I : 2 / 3 < / sqrt 2 < 3 / 4).
  { split; [apply (Rmult_lt_reg_r (sqrt 2)); auto; rewrite Rinv_l by lra; lra|].
    apply (Rmult_lt_reg_r (sqrt 2)); auto; rewrite Rinv_l by lra. assert (4 / 3 < sqrt 2) by nra. lra. }
  fold o1 in NN, NU. unfold d0 in NN, NU. vunfold. repeat split; try lra.
  unfold o1, n1. apply facing_unit.
Qed.
Lemma ray_unit_a : unit (rq_incident ra).
Proof. unfold unit, ra. cbn [rq_incident]. vunfold. ring. Qed.
Lemma d1_differs : 4 / 10 ^ 4 < norm (vsub d0 d1).
Proof.
  destruct o1_up as (OU & ON & U1). set (w := vsub (rq_aim ra) o1).
  unfold unit in U1.
  assert (WW : dot w w <= 11 * 11 /\ 8 * 8 <= dot w w).
  { unfold w, ra. cbn [rq_aim]. generalize dependent o1; intros [x y z]; intros. vunfold. split; nra. }
  assert (WN : 8 <= norm w <= 11).
  { pose proof (norm_nonneg w). pose proof (norm_sq w). split; nra. }
  assert (DI : direction_to o1 (rq_aim ra) = smul (/ norm w) w) by reflexivity.
  assert (PU : pu (direction_to o1 (rq_aim ra)) <= - / 22).
  { rewrite DI. unfold w at 2. unfold ra. cbn [rq_aim]. vunfold.
    assert (/ 11 <= / norm w) by (apply Rinv_le_contravar; lra). nra. }
  assert (UD : unit (direction_to o1 (rq_aim ra))) by (apply unit_smul; fold w; lra).
  assert (PU1 : -1 <= pu (direction_to o1 (rq_aim ra)) <= 1).
  { unfold unit, dot in UD. split; nra. }
  assert (PN : pn (direction_to o1 (rq_aim ra)) <= - (8 / 11)).
  { rewrite DI. unfold w at 2. unfold ra. cbn [rq_aim]. vunfold.
    assert (/ 11 <= / norm w) by (apply Rinv_le_contravar; lra). nra. }
  assert (G1 : / 10 ^ 8 <= norm (vsub (rq_aim ra) o1)) by (fold w; lra).
  assert (G2 : / 10 ^ 8 <= norm (vsub (direction_to o1 (rq_aim ra)) (rq_incident ra))).
  { set (q := vsub (direction_to o1 (rq_aim ra)) (rq_incident ra)).
    destruct (Rle_dec (/ 10 ^ 8) (norm q)) as [L|L]; auto. exfalso.
    assert (norm q <= / 10 ^ 8) as LL by lra. apply component_bound in LL. destruct LL as (_ & LN & _). apply Rabs_le_inv in LN.
    unfold q, ra in LN. cbn [rq_incident] in LN. fold ra in LN. clear - LN PN. vunfold. lra. }
  destruct (bisector _ _ _ ray_unit_a G1 G2) as (U1' & R1). fold d1 in U1', R1.
  assert (G3 : / 10 ^ 8 <= norm (vsub (rq_aim ra) south)).
  { assert (N9 : norm (vsub (rq_aim ra) south) = 9) by (apply norm_of_sq; [lra|]; unfold ra, south; cbn [rq_aim]; vunfold; ring). rewrite N9. lra. }
  assert (R0V : direction_to south (rq_aim ra) = south).
  { unfold direction_to. assert (N9 : norm (vsub (rq_aim ra) south) = 9) by (apply norm_of_sq; [lra|]; unfold ra, south; cbn [rq_aim]; vunfold; ring).
    rewrite N9. unfold ra, south. cbn [rq_aim]. apply point_eq; vunfold; field. }
  assert (G4 : / 10 ^ 8 <= norm (vsub (direction_to south (rq_aim ra)) (rq_incident ra))).
  { rewrite R0V. destruct s2 as (A & B & C).
    assert (N2 : norm (vsub south (rq_incident ra)) = sqrt 2) by (apply norm_of_sq; [lra|]; rewrite B; unfold south, ra; cbn [rq_incident]; vunfold; ring).
    rewrite N2. lra. }
  destruct (bisector _ _ _ ray_unit_a G3 G4) as (U0' & R0). rewrite d0_desired in U0', R0. rewrite R0V in R0.
  destruct (Rlt_dec (4 / 10 ^ 4) (norm (vsub d0 d1))) as [L|L]; auto. exfalso.
  assert (E : norm (vsub (reflect (rq_incident ra) d0) (reflect (rq_incident ra) d1)) <= 4 * (4 / 10 ^ 4)).
  { apply reflect_error; auto; [apply ray_unit_a|lra]. }
  rewrite R0, R1 in E. apply component_bound in E. destruct E as (_ & _ & E). apply Rabs_le_inv in E.
  unfold south in E. cbn [pu vsub vec] in E. lra.
Qed.
Lemma d1_unit : unit d1.
Proof.
  apply norm_unit_dot. unfold d1, desired_normal. apply normalize_eps_unit; [lra|].
  destruct o1_up as (OU & ON & U1).
  set (q := normalize_eps (/ 10 ^ 8) (vsub (rq_aim ra) o1)).
  assert (PN : pn q <= 0 /\ pn q <= - (1 / 20)).
  { unfold q, normalize_eps, ra. cbn [rq_aim]. set (w := vsub (vec 0 (-10) 0) o1).
    assert (WW : dot w w <= 11 * 11). { unfold w. unfold unit in U1. generalize dependent o1; intros [x y z]; intros. vunfold. nra. }
    assert (WN : norm w <= 11). { pose proof (norm_nonneg w). pose proof (norm_sq w). nra. }
    assert (MX : 0 < Rmax (norm w) (/ 10 ^ 8) <= 11). { split; [pose proof (Rmax_r (norm w) (/ 10 ^ 8)); lra|apply Rmax_lub; lra]. }
    assert (I : / 11 <= / Rmax (norm w) (/ 10 ^ 8)) by (apply Rinv_le_contravar; lra).
    assert (PW : pn w <= -9). { unfold w. vunfold. lra. }
    cbn [smul pn vec]. split; nra. }
  destruct PN as (_ & PN).
  destruct (Rle_dec (/ 10 ^ 8) (norm (vadd (smul (-1) (rq_incident ra)) q))) as [L|L]; auto. exfalso.
  assert (LL : norm (vadd (smul (-1) (rq_incident ra)) q) <= / 10 ^ 8) by lra. apply component_bound in LL. destruct LL as (_ & LN & _).
  apply Rabs_le_inv in LN. unfold ra in LN. cbn [rq_incident] in LN. clear - LN PN. vunfold. lra.
Qed.

Definition m2 := step ra m1.
Lemma poses_differ : facing (forward ka m2) <> facing (forward ka m1).
Proof.
  intros E. fold n1 in E.
  assert (M2 : m2 = inverse ka (as_direction d1)).
  { unfold m2, step. rewrite desired_direction. cbn [rq_kinematics ra]. fold ka. rewrite ka_origin. reflexivity. }
  pose proof n1_near as A.
  assert (B : norm (vsub (facing (forward ka m2)) d1) <= 2 / 10 ^ 4).
  { rewrite M2. apply delivered; [apply plain_reachable, d1_unit|apply plain_deliver]. }
  rewrite E in B. pose proof d1_differs as D.
  assert (T : norm (vsub d0 d1) <= norm (vsub d0 n1) + norm (vsub n1 d1)).
  { replace (vsub d0 d1) with (vadd (vsub d0 n1) (vsub n1 d1)) by vring. apply norm_triangle. }
  assert (SY : norm (vsub d0 n1) = norm (vsub n1 d0)) by (unfold norm; f_equal; vunfold; ring).
  lra.
Qed.

(** B: its mirror has to turn to the upper north-east. *)
Definition kb := plain (vec 0 0 0) (vec 0 0 0).
Definition q3 := / sqrt 3.
Definition db := vec q3 q3 q3.
Definition rb := {| rq_kinematics := kb; rq_incident := smul (-1) db; rq_aim := smul 100 db |}.
Lemma q3_facts : 0 < q3 /\ q3 * q3 = / 3 /\ 57 / 100 < q3 < 58 / 100.
Proof.
  assert (A : 0 < sqrt 3) by (apply sqrt_lt_R0; lra). assert (B : sqrt 3 * sqrt 3 = 3) by (apply sqrt_sqrt; lra).
  assert (P : 0 < q3) by (apply Rinv_0_lt_compat; auto).
  assert (Q : q3 * q3 = / 3). { unfold q3. rewrite <- Rinv_mult, B. auto. }
  repeat split; auto; nra.
Qed.
Lemma db_unit : unit db.
Proof. destruct q3_facts as (A & B & _). unfold unit, db. vunfold. lra. Qed.
Lemma db_desired : desired_normal (rq_incident rb) (rq_aim rb) (vec 0 0 0) = db.
Proof.
  pose proof db_unit as U. apply norm_unit_dot in U. unfold desired_normal, rb. cbn [rq_incident rq_aim].
  replace (vsub (smul 100 db) (vec 0 0 0)) with (smul 100 db) by vring.
  assert (N : norm (smul 100 db) = 100) by (rewrite norm_smul, U, Rabs_right; lra).
  rewrite (normalize_eps_long _ (smul 100 db)) by (rewrite N; lra). rewrite N.
  replace (vadd (smul (-1) (smul (-1) db)) (smul (/ 100) (smul 100 db))) with (smul 2 db) by (apply point_eq; vunfold; field).
  assert (N2 : norm (smul 2 db) = 2) by (rewrite norm_smul, U, Rabs_right; lra).
  rewrite normalize_eps_long by (rewrite N2; lra). rewrite N2. apply point_eq; vunfold; field.
Qed.
Lemma kb_still : no_translations kb.
Proof. repeat split. Qed.
Lemma kb_origin : forall m, origin_of (forward kb m) = vec 0 0 0.
Proof. intros. unfold forward. rewrite origin_fixed by apply kb_still. reflexivity. Qed.
Lemma b_desired : forall m, desired rb (forward kb m) = as_direction db.
Proof. intros. rewrite desired_direction, kb_origin, db_desired. auto. Qed.

Lemma loss_value : forall r o, request_loss r o
  = (Rabs (he (desired r o) - pe (facing o)) + Rabs (hn (desired r o) - pn (facing o)) + Rabs (hu (desired r o) - pu (facing o)) + Rabs (hw (desired r o) - hw (mapply o (as_direction south)))) / 4.
Proof. reflexivity. Qed.
Lemma loss_b0 : request_loss rb (forward kb (0, 0)) = (1 + 3 * q3) / 4.
Proof.
  rewrite loss_value, b_desired. assert (F : facing (forward kb (0, 0)) = south).
  { unfold forward, kb. cbn [fst snd]. rewrite plain_facing. change (to_angle _ 0) with 0.
    destruct rotate_zero as (E & _ & U). change (to_angle (k_drive_2 (plain (vec 0 0 0) (vec 0 0 0))) 0) with 0. rewrite E, U, !dir_eye. auto. }
  rewrite F. destruct (pose_rigid kb (to_angle (k_drive_1 kb) 0) (to_angle (k_drive_2 kb) 0)) as (_ & D & _).
  unfold forward. cbn [fst snd]. rewrite D. unfold db, south. cbn [he hn hu hw as_direction hv pe pn pu vec].
  destruct q3_facts as (P & _). rewrite !Rabs_right by lra. lra.
Qed.
Lemma loss_b1 : request_loss rb (forward kb (step rb (0, 0))) <= 3 * (2 / 10 ^ 4) / 4.
Proof.
  assert (S : step rb (0, 0) = inverse kb (as_direction db)). { unfold step. cbn [rq_kinematics rb]. rewrite b_desired. auto. }
  assert (N : norm (vsub (facing (forward kb (step rb (0, 0)))) db) <= 2 / 10 ^ 4).
  { rewrite S. apply delivered; [apply plain_reachable, db_unit|apply plain_deliver]. }
  rewrite loss_value, b_desired. set (m := step rb (0, 0)) in *.
  destruct (pose_rigid kb (to_angle (k_drive_1 kb) (fst m)) (to_angle (k_drive_2 kb) (snd m))) as (_ & D & _).
  unfold forward at 4. rewrite D. apply component_bound in N. destruct N as (A & B & C).
  cbn [he hn hu hw as_direction hv]. replace (0 - 0) with 0 by ring. rewrite Rabs_R0.
  cbn [vsub vec pe pn pu] in A, B, C. rewrite Rabs_minus_sym in A, B, C. lra.
Qed.
(** A's loss always changes by less than 13/20 in the second iteration. *)
Lemma loss_a0 : request_loss ra (forward ka (0, 0)) = 1 / 4.
Proof.
  rewrite loss_value, desired_direction, ka_origin, ka_start, d0_desired.
  destruct (pose_rigid ka (to_angle (k_drive_1 ka) 0) (to_angle (k_drive_2 ka) 0)) as (_ & D & _).
  unfold forward. cbn [fst snd]. rewrite D. unfold d0, south. cbn [he hn hu hw as_direction hv pe pn pu vec].
  destruct s2 as (A & B & C). assert (I : 0 < / sqrt 2 < 1).
  { split; [apply Rinv_0_lt_compat; auto|]. apply (Rmult_lt_reg_r (sqrt 2)); auto; rewrite Rinv_l by lra; lra. }
  replace (0 - 0) with 0 by ring. rewrite Rabs_R0, !Rabs_right by lra. lra.
Qed.
Lemma loss_a1 : 0 <= request_loss ra (forward ka m1) <= 87 / 100.
Proof.
  rewrite loss_value, desired_direction, ka_origin. fold n1. fold o1. fold d1.
  destruct (pose_rigid ka (to_angle (k_drive_1 ka) (fst m1)) (to_angle (k_drive_2 ka) (snd m1))) as (_ & D & _).
  unfold forward. rewrite D. cbn [he hn hu hw as_direction hv]. replace (0 - 0) with 0 by ring. rewrite Rabs_R0.
  destruct o1_up as (_ & _ & U1). pose proof d1_unit as U2. unfold o1 in *. clear D. revert U1 U2. generalize d1 n1.
  intros [a b c] [x y z] U1 U2. cbn [pe pn pu].
  assert (N : norm (vsub (vec a b c) (vec x y z)) <= 2).
  { replace (vsub (vec a b c) (vec x y z)) with (vadd (vec a b c) (smul (-1) (vec x y z))) by vring.
    eapply Rle_trans; [apply norm_triangle|]. rewrite norm_smul. apply norm_unit_dot in U1. apply norm_unit_dot in U2.
    fold (vec a b c) (vec x y z) in *. rewrite U1, U2. rewrite Rabs_left; lra. }
  pose proof (norm_sq (vsub (vec a b c) (vec x y z))) as Q. pose proof (norm_nonneg (vsub (vec a b c) (vec x y z))) as NN.
  set (nn := norm _) in *. clearbody nn. vunfold. clear U1 U2.
  pose proof (Rabs_pos (a - x)). pose proof (Rabs_pos (b - y)). pose proof (Rabs_pos (c - z)).
  assert (SA : Rabs (a - x) * Rabs (a - x) = (a - x) * (a - x)) by (rewrite <- Rabs_mult; apply Rabs_right, Rle_ge, Rle_0_sqr).
  assert (SB : Rabs (b - y) * Rabs (b - y) = (b - y) * (b - y)) by (rewrite <- Rabs_mult; apply Rabs_right, Rle_ge, Rle_0_sqr).
  assert (SC : Rabs (c - z) * Rabs (c - z) = (c - z) * (c - z)) by (rewrite <- Rabs_mult; apply Rabs_right, Rle_ge, Rle_0_sqr).
  set (p := Rabs (a - x)) in *. set (q := Rabs (b - y)) in *. set (r := Rabs (c - z)) in *. clearbody p q r.
  assert (T : p * p + q * q + r * r <= 4) by nra.
  assert (S12 : (p + q + r) * (p + q + r) <= 12) by
    (clear - T; pose proof (Rle_0_sqr (p - q)); pose proof (Rle_0_sqr (q - r)); pose proof (Rle_0_sqr (p - r)); unfold Rsqr in *; lra).
  split; [lra|]. assert (p + q + r <= 348 / 100) by nra. lra.
Qed.

Lemma Some_inj : forall (A : Type) (a b : A), Some a = Some b -> a = b.
Proof. congruence. Qed.
Theorem batch_dependent : exists r other o o2 m ms, incident_ray_directions_to_orientations 3 (13 / 20) [r] = Ok ([o], [m])
  /\ incident_ray_directions_to_orientations 3 (13 / 20) [r; other] = Ok (o2, ms)
  /\ nth_error o2 0 <> Some o.
Proof.
  exists ra, rb.
  assert (A : incident_ray_directions_to_orientations 3 (13 / 20) [ra] = Ok ([mmul (forward ka m1) initial_orientation_offsets], [m1])).
  { unfold incident_ray_directions_to_orientations. cbn [map]. cbn [align_loop combine map].
    change (rq_kinematics ra) with ka. fold (step ra (0, 0)). 
    change (inverse ka (desired ra (forward ka (0, 0)))) with m1.
    unfold all_close. cbn [combine forallb]. rewrite loss_a0.
    pose proof loss_a1. destruct (Rle_dec (Rabs (1 / 4 - request_loss ra (forward ka m1))) (13 / 20)) as [_|N]; [reflexivity|].
    exfalso. apply N. apply Rabs_le. lra. }
  assert (B : exists ms, incident_ray_directions_to_orientations 3 (13 / 20) [ra; rb]
    = Ok ([mmul (forward ka m2) initial_orientation_offsets; mmul (forward kb (step rb (step rb (0, 0)))) initial_orientation_offsets], ms)).
  { unfold incident_ray_directions_to_orientations. cbn [map]. cbn [align_loop combine map].
    change (rq_kinematics ra) with ka. change (rq_kinematics rb) with kb.
    change (inverse ka (desired ra (forward ka (0, 0)))) with m1.
    change (inverse kb (desired rb (forward kb (0, 0)))) with (step rb (0, 0)).
    change (inverse ka (desired ra (forward ka m1))) with m2.
    change (inverse kb (desired rb (forward kb (step rb (0, 0))))) with (step rb (step rb (0, 0))).
    assert (NC : all_close (13 / 20) [request_loss ra (forward ka (0, 0)); request_loss rb (forward kb (0, 0))]
        [request_loss ra (forward ka m1); request_loss rb (forward kb (step rb (0, 0)))] = false).
    { unfold all_close. cbn [combine forallb]. apply andb_false_intro2. rewrite andb_true_r.
      destruct (Rle_dec _ (13 / 20)) as [L|_]; auto. exfalso. apply Rabs_le_inv in L. rewrite loss_b0 in L.
      pose proof loss_b1. destruct q3_facts as (_ & _ & Q). lra. }
    rewrite NC. clear A NC.
    match goal with |- context [if ?b then _ else _] => generalize b end. intros b.
    destruct b; cbn [map]; eexists; f_equal. }
  destruct B as (ms & B). rewrite A, B. do 4 eexists. split; [reflexivity|]. split; [reflexivity|].
  cbn [nth_error]. intros E. apply poses_differ. apply Some_inj in E.
  rewrite <- (dir_of_orientation (forward ka m2)), <- (dir_of_orientation (forward ka m1)), E. reflexivity.
Qed.

(** ** Rigidity of all returned orientations (C36) *)
Theorem orientation_rigid : forall k m, rigid (motor_positions_to_orientation k m).
Proof.
  intros. unfold motor_positions_to_orientation. apply rigid_mmul; [|exact offsets_rigid]. unfold forward. exact (pose_rigid k _ _).
Qed.
Theorem alignment_rigid : forall n eps batch os ms o, incident_ray_directions_to_orientations n eps batch = Ok (os, ms) -> In o os -> rigid o.
Proof.
  intros n eps batch os ms o H I. destruct (call_cases _ _ _ _ _ H) as (j & _ & -> & _). rewrite poses_of_motors in I.
  unfold of_motors in I. apply in_map_iff in I. destruct I as ([r m] & <- & _). apply orientation_rigid.
Qed.
Theorem mirror_normal : forall k m, enu (mapply (motor_positions_to_orientation k m) (as_direction up)) = facing (forward k m).
Proof. intros. exact (dir_of_orientation (forward k m)). Qed.

(** ** One iteration leaves the orientation of the motors at zero (C40) *)
Theorem stored_motors_differ : exists r o m, incident_ray_directions_to_orientations 1 (/ 10 ^ 4) [r] = Ok ([o], [m])
  /\ in_limits (rq_kinematics r) m /\ o <> motor_positions_to_orientation (rq_kinematics r) m.
Proof.
  exists {| rq_kinematics := kb; rq_incident := smul (-1) db; rq_aim := smul 100 db |}. fold rb.
  destruct (one_iteration_inconsistent (/ 10 ^ 4) rb) as (o & m & E & D).
  - cbn [rq_kinematics rb]. rewrite kb_origin, db_desired. apply plain_reachable, db_unit.
  - cbn [rq_kinematics rb]. apply plain_deliver.
  - cbn [rq_kinematics rb]. rewrite kb_origin, db_desired.
    assert (F : facing (forward kb (0, 0)) = south).
    { unfold forward, kb. cbn [fst snd]. rewrite plain_facing. change (to_angle _ 0) with 0.
      destruct rotate_zero as (Z & _ & U). change (to_angle (k_drive_2 (plain (vec 0 0 0) (vec 0 0 0))) 0) with 0. rewrite Z, U, !dir_eye. auto. }
    rewrite F. destruct (Rlt_dec (2 / 10 ^ 4) (norm (vsub south db))) as [L|L]; auto. exfalso.
    assert (LL : norm (vsub south db) <= 2 / 10 ^ 4) by lra. apply component_bound in LL. destruct LL as (_ & LN & _). apply Rabs_le_inv in LN.
    unfold south, db in LN. cbn [pn vsub vec] in LN. destruct q3_facts as (_ & _ & Q). lra.
  - exists o, m. split; auto. split; auto.
    rewrite one_iteration in E. injection E as _ E. rewrite <- E. unfold step. cbn [rq_kinematics rb].
    destruct (inverse_reaches kb db (plain_reachable _ _ _ db_unit)) as (angles & I & (B1 & B2) & _).
    rewrite b_desired, I. unfold in_limits. cbn [to_motors fst snd]. pose proof PI_4. 
    assert (T1 : to_motor (k_drive_1 kb) (fst angles) = fst angles) by reflexivity.
    assert (T2 : to_motor (k_drive_2 kb) (snd angles) = snd angles) by reflexivity.
    rewrite T1, T2. cbn [kb plain k_drive_1 k_drive_2 ideal_drive motor_min motor_max]. 
    unfold kb, plain. cbn [k_drive_1 k_drive_2 ideal_drive motor_min motor_max]. lra.
Qed.

Theorem not_idempotent : exists g mask motors once, once = perform_all g [Activate mask; AlignMotors mask motors]
  /\ snd (perform once (AlignMotors mask motors)) = None
  /\ s_points (gr_surfaces once) = [[as_point (vec 5 0 0)]]
  /\ s_points (gr_surfaces (fst (perform once (AlignMotors mask motors)))) = [[as_point (vec 10 0 0)]].
Proof.
  destruct twice_differs as (A & B).
  do 4 eexists. split; [reflexivity|]. split; [|split; [exact A|exact B]].
  cbn [perform_all perform gr_heliostats repeat_interleave repeat app map fst gr_surfaces gr_active h_kinematics h_points h_normals].
  unfold align_with_motors. cbn [s_mask]. unfold list_nat_eqb. destruct (list_eq_dec Nat.eq_dec [1%nat] [1%nat]) as [_|N]; [|contradiction].
  cbn [fst gr_active gr_surfaces apply_orientations s_mask]. destruct (list_eq_dec Nat.eq_dec [1%nat] [1%nat]) as [_|N]; [|contradiction].
  reflexivity.
Qed.
Theorem twice_compounds : forall s ks ms once twice, length ks = length (s_points s) -> length ms = length ks -> length (s_normals s) = length ks ->
  align_with_motors s (s_mask s) ks ms = Ok once -> align_with_motors once (s_mask s) ks ms = Ok twice ->
  forall i k m points, nth_error ks i = Some k -> nth_error ms i = Some m -> nth_error (s_points s) i = Some points ->
  nth_error (s_points twice) i
  = Some (map (fun x => mapply (motor_positions_to_orientation k m) (mapply (motor_positions_to_orientation k m) x)) points).
Proof.
  intros s ks ms once twice L1 L2 L3 H1 H2 i k m points K M P.
  assert (N : exists normals, nth_error (s_normals s) i = Some normals).
  { destruct (nth_error (s_normals s) i) eqn:E; eauto. apply nth_error_None in E.
    assert (i < length ks)%nat by (apply nth_error_Some; congruence). lia. }
  destruct N as (normals & N). destruct (motors_aligned s ks ms once L1 L2 L3 H1) as (LE & MA & ROW).
  destruct (ROW _ _ _ _ _ K M P N) as (P1 & N1). rewrite <- MA in H2.
  assert (LN : length (s_normals once) = length ks).
  { unfold align_with_motors in H1. destruct (list_nat_eqb _ _); [|discriminate]. injection H1 as <-. cbn [apply_orientations s_normals].
    rewrite transform_length; auto. rewrite map_length, combine_length. lia. }
  destruct (motors_aligned once ks ms twice) as (_ & _ & ROW2); auto; [lia|].
  destruct (ROW2 _ _ _ _ _ K M P1 N1) as (P2 & _). rewrite P2, map_map. auto.
Qed.

Lemma lengths : forall n eps batch os ms, incident_ray_directions_to_orientations n eps batch = Ok (os, ms) ->
  length os = length batch /\ length ms = length batch.
Proof.
  intros n eps batch os ms H. destruct (call_cases _ _ _ _ _ H) as (j & _ & -> & D).
  assert (L : forall i, length (repeat_advance i batch (zeros batch)) = length batch) by (intros; apply repeat_length', zeros_length).
  split; [unfold poses; rewrite !map_length, combine_length, L; apply Nat.min_id|].
  destruct D as [(-> & _)|(_ & ->)]; apply L.
Qed.
Lemma single : forall n eps r, (1 <= n)%nat -> exists o m, incident_ray_directions_to_orientations n eps [r] = Ok ([o], [m]).
Proof.
  intros n eps r N. apply (call_defined n eps [r]) in N. destruct N as (os & ms & H). destruct (lengths _ _ _ _ _ H) as (A & B).
  destruct os as [|o [|? ?]]; try discriminate. destruct ms as [|m [|? ?]]; try discriminate. eauto.
Qed.
