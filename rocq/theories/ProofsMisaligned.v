(** Proofs about the effect of pointing errors (C154). *)
From Coq Require Import List Arith Reals Bool Lra Lia Psatz.
From Verif Require Import ModelField ModelVectors ProofsVectors ModelAngles ModelTransforms ModelActuators ModelKinematics ModelSplatting ModelIntersections
  SpecIntersections SpecTransforms SpecKinematics ProofsTransforms ProofsKinematics ProofsIntersections.
Local Open Scope R_scope.

(** ** Lengths *)
Lemma norm_le : forall v a, 0 <= a -> dot v v <= a * a -> norm v <= a.
Proof. intros v a A H. unfold norm. rewrite <- (sqrt_square a A). apply sqrt_le_1_alt. auto. Qed.
Lemma norm_triangle : forall a b, norm (vadd a b) <= norm a + norm b.
Proof.
  intros a b. pose proof (norm_nonneg a) as A. pose proof (norm_nonneg b) as B. apply norm_le; [lra|].
  replace (dot (vadd a b) (vadd a b)) with (dot a a + 2 * dot a b + dot b b) by (vunfold; ring).
  rewrite <- (norm_sq a), <- (norm_sq b). pose proof (dot_le_norm a b). pose proof (Rle_abs (dot a b)). nra.
Qed.
Lemma norm_between : forall a b c, norm (vsub a c) <= norm (vsub a b) + norm (vsub b c).
Proof. intros. replace (vsub a c) with (vadd (vsub a b) (vsub b c)) by vring. apply norm_triangle. Qed.
Lemma norm_swap : forall a b, norm (vsub a b) = norm (vsub b a).
Proof. intros. unfold norm. f_equal. vunfold. ring. Qed.
Lemma norm_cross : forall a b, norm (cross a b) <= norm a * norm b.
Proof.
  intros a b. apply norm_le; [apply Rmult_le_pos; apply norm_nonneg|]. pose proof (gram a b).
  replace (norm a * norm b * (norm a * norm b)) with ((norm a * norm a) * (norm b * norm b)) by ring. rewrite !norm_sq.
  pose proof (Rle_0_sqr (dot a b)) as Q. unfold Rsqr in Q. lra.
Qed.

(** ** Small turns *)
Lemma sin_small : forall x, sin x * sin x <= x * x.
Proof.
  intros x. assert (P : forall y, 0 <= y -> sin y * sin y <= y * y).
  { intros y Y. destruct (Req_dec y 0) as [->|N]; [rewrite sin_0; lra|].
    pose proof (sin_lt_x y ltac:(lra)). pose proof (SIN_bound y).
    destruct (Rle_lt_dec y 1) as [L|L].
    - assert (0 <= sin y) by (apply sin_ge_0; [lra|pose proof PI2_1; lra]). nra.
    - assert (0 <= (1 - sin y) * (1 + sin y)) by (apply Rmult_le_pos; lra). nra. }
  destruct (Rle_lt_dec 0 x) as [L|L]; [apply P; auto|]. pose proof (P (- x) ltac:(lra)) as Q. rewrite sin_neg in Q. lra.
Qed.
Lemma chord_small : forall x, 2 - 2 * cos x <= x * x.
Proof. intros x. replace x with (2 * (x / 2)) at 1 by lra. rewrite cos_2a_sin. pose proof (sin_small (x / 2)). lra. Qed.
Lemma turn_small : forall a b x y z, 0 <= z ->
  (cos a * x - sin a * y - (cos b * x - sin b * y)) ^ 2 + (sin a * x + cos a * y - (sin b * x + cos b * y)) ^ 2 <= (a - b) * (a - b) * (x * x + y * y + z).
Proof.
  intros a b x y z Z.
  replace ((cos a * x - sin a * y - (cos b * x - sin b * y)) ^ 2 + (sin a * x + cos a * y - (sin b * x + cos b * y)) ^ 2)
    with ((2 - 2 * cos (a - b)) * (x * x + y * y)).
  - pose proof (chord_small (a - b)) as C. assert (0 <= x * x + y * y) by nra. assert (0 <= (a - b) * (a - b)) by apply Rle_0_sqr.
    apply Rle_trans with ((a - b) * (a - b) * (x * x + y * y)); [apply Rmult_le_compat_r; auto|apply Rmult_le_compat_l; lra].
  - rewrite cos_minus. pose proof (sin2_cos2 a) as A. pose proof (sin2_cos2 b) as B. unfold Rsqr in A, B.
    assert (E : 2 = (sin a * sin a + cos a * cos a) + (sin b * sin b + cos b * cos b)) by lra. rewrite E at 1. ring.
Qed.
Lemma turn_e : forall a b v, norm (vsub (dir (rotate_e a) v) (dir (rotate_e b) v)) <= Rabs (a - b) * norm v.
Proof.
  intros a b [x y z]. apply norm_le; [apply Rmult_le_pos; [apply Rabs_pos|apply norm_nonneg]|].
  replace (Rabs (a - b) * norm {| pe := x; pn := y; pu := z |} * (Rabs (a - b) * norm {| pe := x; pn := y; pu := z |}))
    with ((Rabs (a - b) * Rabs (a - b)) * (norm {| pe := x; pn := y; pu := z |} * norm {| pe := x; pn := y; pu := z |})) by ring.
  rewrite norm_sq, <- Rabs_mult, Rabs_pos_eq by apply Rle_0_sqr. pose proof (turn_small a b y z (x * x) (Rle_0_sqr x)) as T.
  unfold dir, rotate_e. henu. vunfold. eapply Rle_trans; [|eapply Rle_trans; [exact T|]]; apply Req_le; ring.
Qed.
Lemma turn_n : forall a b v, norm (vsub (dir (rotate_n a) v) (dir (rotate_n b) v)) <= Rabs (a - b) * norm v.
Proof.
  intros a b [x y z]. apply norm_le; [apply Rmult_le_pos; [apply Rabs_pos|apply norm_nonneg]|].
  replace (Rabs (a - b) * norm {| pe := x; pn := y; pu := z |} * (Rabs (a - b) * norm {| pe := x; pn := y; pu := z |}))
    with ((Rabs (a - b) * Rabs (a - b)) * (norm {| pe := x; pn := y; pu := z |} * norm {| pe := x; pn := y; pu := z |})) by ring.
  rewrite norm_sq, <- Rabs_mult, Rabs_pos_eq by apply Rle_0_sqr. pose proof (turn_small a b x z (y * y) (Rle_0_sqr y)) as T.
  unfold dir, rotate_n. henu. vunfold. eapply Rle_trans; [|eapply Rle_trans; [exact T|]]; apply Req_le; ring.
Qed.
Lemma turn_u : forall a b v, norm (vsub (dir (rotate_u a) v) (dir (rotate_u b) v)) <= Rabs (a - b) * norm v.
Proof.
  intros a b [x y z]. apply norm_le; [apply Rmult_le_pos; [apply Rabs_pos|apply norm_nonneg]|].
  replace (Rabs (a - b) * norm {| pe := x; pn := y; pu := z |} * (Rabs (a - b) * norm {| pe := x; pn := y; pu := z |}))
    with ((Rabs (a - b) * Rabs (a - b)) * (norm {| pe := x; pn := y; pu := z |} * norm {| pe := x; pn := y; pu := z |})) by ring.
  rewrite norm_sq, <- Rabs_mult, Rabs_pos_eq by apply Rle_0_sqr. pose proof (turn_small a b x y (z * z) (Rle_0_sqr z)) as T.
  unfold dir, rotate_u. henu. vunfold. eapply Rle_trans; [|eapply Rle_trans; [exact T|]]; apply Req_le; ring.
Qed.
(** Errors of two consecutive turns add up. *)
Lemma turn_after : forall m m' v w d e, rigid m -> rigid m' -> (forall u, norm (vsub (dir m u) (dir m' u)) <= d * norm u) ->
  norm (vsub v w) <= e -> norm (vsub (dir m v) (dir m' w)) <= d * norm w + e.
Proof.
  intros m m' v w d e M M' D E. eapply Rle_trans; [apply (norm_between _ (dir m w))|].
  rewrite <- dir_sub, dir_norm by auto. specialize (D w). lra.
Qed.

(** * Results *)
Theorem turned_twice : forall i n n', unit i -> unit n -> unit n' ->
  dot (reflect i n) (reflect i n') = 2 * (dot n n' * dot n n') - 1 + 2 * (dot i (cross n n') * dot i (cross n n')).
Proof.
  intros i n n' I N N'. unfold unit in *.
  assert (G : dot i (cross n n') * dot i (cross n n') = dot i i * (dot n n * dot n' n' - dot n n' * dot n n')
    - dot i n * dot i n * dot n' n' - dot i n' * dot i n' * dot n n + 2 * (dot i n * dot i n' * dot n n')) by (vunfold; ring).
  rewrite G, I, N, N'.
  replace (dot (reflect i n) (reflect i n')) with (dot i i - 2 * (dot i n * dot i n) - 2 * (dot i n' * dot i n') + 4 * (dot i n * dot i n' * dot n n')).
  - rewrite I. ring.
  - unfold reflect. vunfold. ring.
Qed.
Theorem turned_angle : forall i n n' theta, unit i -> unit n -> unit n' -> 0 <= theta <= PI / 2 -> dot n n' = cos theta ->
  exists phi, 0 <= phi <= 2 * theta /\ dot (reflect i n) (reflect i n') = cos phi /\ (phi = 2 * theta <-> dot i (cross n n') = 0).
Proof.
  intros i n n' theta I N N' T C. pose proof (turned_twice i n n' I N N') as E. rewrite C in E.
  set (s := dot i (cross n n')) in *. clearbody s.
  assert (D : dot (reflect i n) (reflect i n') = cos (2 * theta) + 2 * (s * s)) by (rewrite E, cos_2a_cos; ring).
  assert (U : forall m, unit m -> unit (reflect i m)).
  { intros m M. unfold unit in *. replace (dot (reflect i m) (reflect i m)) with (dot i i - 4 * (dot i m * dot i m) + 4 * (dot i m * dot i m) * dot m m) by (unfold reflect; vunfold; ring).
    rewrite I, M. ring. }
  pose proof (dot_unit_bound _ _ (proj2 (norm_unit_dot _) (U n N)) (proj2 (norm_unit_dot _) (U n' N'))) as B.
  exists (acos (dot (reflect i n) (reflect i n'))).
  assert (COS : cos (acos (dot (reflect i n) (reflect i n'))) = dot (reflect i n) (reflect i n')) by (apply cos_acos; lra).
  pose proof (acos_bound (dot (reflect i n) (reflect i n'))) as AB.
  assert (LE : acos (dot (reflect i n) (reflect i n')) <= 2 * theta).
  { apply Rnot_lt_le. intros L. assert (cos (acos (dot (reflect i n) (reflect i n'))) < cos (2 * theta)) by (apply cos_decreasing_1; lra). nra. }
  split; [lra|]. split; [auto|]. split; intros H.
  - rewrite H in COS. nra.
  - subst s. rewrite Rmult_0_l, Rmult_0_r, Rplus_0_r in D. rewrite D. apply acos_cos. lra.
Qed.
Theorem turned_chord : forall i n n', unit i -> unit n -> unit n' -> norm (vsub (reflect i n) (reflect i n')) <= 2 * norm (vsub n n').
Proof.
  intros i n n' I N N'. apply norm_le; [pose proof (norm_nonneg (vsub n n')); lra|].
  replace (2 * norm (vsub n n') * (2 * norm (vsub n n'))) with (4 * (norm (vsub n n') * norm (vsub n n'))) by ring. rewrite norm_sq.
  pose proof (turned_twice i n n' I N N') as E.
  assert (R1 : forall m, unit m -> dot (reflect i m) (reflect i m) = 1).
  { intros m M. unfold unit in *. replace (dot (reflect i m) (reflect i m)) with (dot i i - 4 * (dot i m * dot i m) + 4 * (dot i m * dot i m) * dot m m) by (unfold reflect; vunfold; ring).
    rewrite I, M. ring. }
  replace (dot (vsub (reflect i n) (reflect i n')) (vsub (reflect i n) (reflect i n')))
    with (dot (reflect i n) (reflect i n) + dot (reflect i n') (reflect i n') - 2 * dot (reflect i n) (reflect i n')) by (generalize (reflect i n) (reflect i n'); intros; vunfold; ring).
  rewrite (R1 n N), (R1 n' N'), E.
  replace (dot (vsub n n') (vsub n n')) with (dot n n + dot n' n' - 2 * dot n n') by (vunfold; ring). unfold unit in N, N'. rewrite N, N'.
  pose proof (dot_unit_bound n n' (proj2 (norm_unit_dot _) N) (proj2 (norm_unit_dot _) N')). nra.
Qed.

Theorem normals_turned : forall k k' m m' v,
  norm (vsub (enu (mapply (motor_positions_to_orientation k m) (as_direction v))) (enu (mapply (motor_positions_to_orientation k' m') (as_direction v))))
  <= (Rabs (k_tilt_1n k - k_tilt_1n k') + Rabs (k_tilt_1u k - k_tilt_1u k') + Rabs (k_tilt_2e k - k_tilt_2e k') + Rabs (k_tilt_2n k - k_tilt_2n k')
      + Rabs (to_angle (k_drive_1 k) (fst m) - to_angle (k_drive_1 k') (fst m')) + Rabs (to_angle (k_drive_2 k) (snd m) - to_angle (k_drive_2 k') (snd m'))) * norm v.
Proof.
  intros k k' m m' v. fold (dir (motor_positions_to_orientation k m) v). fold (dir (motor_positions_to_orientation k' m') v).
  assert (F : forall k m, dir (motor_positions_to_orientation k m) v = dir (rotate_n (k_tilt_1n k)) (dir (rotate_u (k_tilt_1u k)) (dir (rotate_e (to_angle (k_drive_1 k) (fst m)))
    (dir (rotate_e (k_tilt_2e k)) (dir (rotate_n (k_tilt_2n k)) (dir (rotate_u (to_angle (k_drive_2 k) (snd m))) (dir initial_orientation_offsets v))))))).
  { clear. intros k m. unfold motor_positions_to_orientation, forward, pose, first_deviations, second_deviations.
    rewrite !dir_mmul by (repeat (apply rigid_mmul || apply rotate_e_rigid || apply rotate_n_rigid || apply rotate_u_rigid || apply translate_by_rigid || apply eye_rigid || apply offsets_rigid)).
    rewrite !dir_translate, dir_eye. reflexivity. }
  rewrite !F. set (w := dir initial_orientation_offsets v).
  assert (W : norm w = norm v) by (apply dir_norm, offsets_rigid).
  set (a := to_angle (k_drive_1 k) (fst m)). set (a' := to_angle (k_drive_1 k') (fst m')).
  set (b := to_angle (k_drive_2 k) (snd m)). set (b' := to_angle (k_drive_2 k') (snd m')).
  pose proof (turn_u b b' w) as T1. rewrite W in T1.
  pose proof (turn_after (rotate_n (k_tilt_2n k)) (rotate_n (k_tilt_2n k')) _ _ _ _ (rotate_n_rigid _) (rotate_n_rigid _) (turn_n _ _) T1) as T2.
  pose proof (turn_after (rotate_e (k_tilt_2e k)) (rotate_e (k_tilt_2e k')) _ _ _ _ (rotate_e_rigid _) (rotate_e_rigid _) (turn_e _ _) T2) as T3.
  pose proof (turn_after (rotate_e a) (rotate_e a') _ _ _ _ (rotate_e_rigid _) (rotate_e_rigid _) (turn_e _ _) T3) as T4.
  pose proof (turn_after (rotate_u (k_tilt_1u k)) (rotate_u (k_tilt_1u k')) _ _ _ _ (rotate_u_rigid _) (rotate_u_rigid _) (turn_u _ _) T4) as T5.
  pose proof (turn_after (rotate_n (k_tilt_1n k)) (rotate_n (k_tilt_1n k')) _ _ _ _ (rotate_n_rigid _) (rotate_n_rigid _) (turn_n _ _) T5) as T6.
  rewrite !dir_norm in T6 by (apply rotate_e_rigid || apply rotate_n_rigid || apply rotate_u_rigid). rewrite W in T6. lra.
Qed.

(** The hits of two rays on a plane. *)
Lemma hits_apart : forall p o d d' t t', unit (plane_normal p) -> unit d' -> dot d (plane_normal p) < 0 -> dot d' (plane_normal p) < 0 ->
  on_plane p (along o d t) -> on_plane p (along o d' t') ->
  norm (vsub (along o d t) (along o d' t')) <= Rabs t' / - dot d (plane_normal p) * norm (vsub d d').
Proof.
  intros p o d d' t t' N U F F' O O'. set (n := plane_normal p) in *.
  assert (E : t * dot d n = t' * dot d' n).
  { unfold on_plane, along in O, O'. fold n in O, O'.
    replace (dot (vsub (vadd o (smul t d)) (plane_center p)) n) with (dot (vsub o (plane_center p)) n + t * dot d n) in O by (vunfold; ring).
    replace (dot (vsub (vadd o (smul t' d')) (plane_center p)) n) with (dot (vsub o (plane_center p)) n + t' * dot d' n) in O' by (vunfold; ring). lra. }
  assert (X : vsub (along o d t) (along o d' t') = smul (t' / dot d n) (cross n (cross d d'))).
  { assert (T : t = t' / dot d n * dot d' n) by (apply (Rmult_eq_reg_r (dot d n)); [rewrite E; field; lra|lra]).
    replace (vsub (along o d t) (along o d' t')) with (vsub (smul t d) (smul t' d')) by (unfold along; vring). rewrite T.
    replace (cross n (cross d d')) with (vsub (smul (dot d' n) d) (smul (dot d n) d')) by vring.
    assert (Q : t' = t' / dot d n * dot d n) by (field; lra). rewrite Q at 2. generalize (t' / dot d n) as q. intros. vring. }
  rewrite X, norm_smul. unfold Rdiv at 1. rewrite Rabs_mult, Rabs_inv, (Rabs_left (dot d n)) by lra.
  fold (Rabs t' / - dot d n). apply Rmult_le_compat_l.
  - apply Rmult_le_pos; [apply Rabs_pos|]. left. apply Rinv_0_lt_compat. lra.
  - eapply Rle_trans; [apply norm_cross|]. rewrite (proj2 (norm_unit_dot n) N), Rmult_1_l.
    replace (cross d d') with (cross (vsub d d') d') by vring. eapply Rle_trans; [apply norm_cross|].
    rewrite (proj2 (norm_unit_dot d') U). lra.
Qed.
Lemma hits_parallel : forall p o o' d t t', unit (plane_normal p) -> unit d -> dot d (plane_normal p) < 0 ->
  on_plane p (along o d t) -> on_plane p (along o' d t') ->
  norm (vsub (along o d t) (along o' d t')) <= (1 + / - dot d (plane_normal p)) * norm (vsub o o').
Proof.
  intros p o o' d t t' N U F O O'. set (n := plane_normal p) in *.
  assert (E : (t - t') * dot d n = - dot (vsub o o') n).
  { unfold on_plane, along in O, O'. fold n in O, O'. vunfold. lra. }
  replace (vsub (along o d t) (along o' d t')) with (vadd (vsub o o') (smul (t - t') d)) by (unfold along; vring).
  eapply Rle_trans; [apply norm_triangle|]. rewrite norm_smul, (proj2 (norm_unit_dot d) U), Rmult_1_r, Rmult_plus_distr_r, Rmult_1_l. apply Rplus_le_compat_l.
  apply (Rmult_le_reg_r (- dot d n)); [lra|].
  replace (/ - dot d n * norm (vsub o o') * - dot d n) with (norm (vsub o o')) by (field; lra).
  rewrite <- (Rabs_left (dot d n)) by lra. rewrite <- Rabs_mult, E, Rabs_Ropp.
  pose proof (dot_le_norm (vsub o o') n) as C. rewrite (proj2 (norm_unit_dot n) N) in C. lra.
Qed.
Theorem spots_apart : forall p o o' d d' t t', unit (plane_normal p) -> unit d -> unit d' -> hits_area p o d t -> hits_area p o' d' t' ->
  norm (vsub (along o d t) (along o' d' t')) <= (1 + / - dot d (plane_normal p)) * norm (vsub o o') + Rabs t' / - dot d (plane_normal p) * norm (vsub d d').
Proof.
  intros p o o' d d' t t' N U U' (F & O & _) (F' & O' & _).
  set (t'' := dot (vsub (plane_center p) o') (plane_normal p) / dot d (plane_normal p)).
  assert (O'' : on_plane p (along o' d t'')).
  { unfold on_plane, along. replace (dot (vsub (vadd o' (smul t'' d)) (plane_center p)) (plane_normal p))
      with (t'' * dot d (plane_normal p) - dot (vsub (plane_center p) o') (plane_normal p)) by (vunfold; ring). unfold t''. field. lra. }
  eapply Rle_trans; [apply (norm_between _ (along o' d t''))|]. apply Rplus_le_compat; [apply hits_parallel; auto|apply hits_apart; auto].
Qed.
Lemma component : forall v, Rabs (pe v) <= norm v /\ Rabs (pu v) <= norm v.
Proof.
  intros v. assert (H : forall x, x * x <= dot v v -> Rabs x <= norm v).
  { intros x X. unfold norm. rewrite <- (sqrt_Rsqr_abs x). apply sqrt_le_1_alt. unfold Rsqr. auto. }
  split; apply H; vunfold; nra.
Qed.
Theorem pixels_apart : forall width height p o o' d d' m m' t t' delta, (2 <= width)%nat -> (2 <= height)%nat -> sized p ->
  hits_area p o d t -> hits_area p o' d' t' -> norm (vsub (along o d t) (along o' d' t')) <= delta ->
  Rabs (i_e (line_plane width height p o d m) - i_e (line_plane width height p o' d' m')) <= (INR width - 1) * delta / plane_width p
  /\ Rabs (i_u (line_plane width height p o d m) - i_u (line_plane width height p o' d' m')) <= (INR height - 1) * delta / plane_height p.
Proof.
  intros width height p o o' d d' m m' t t' delta W H S HA HA' D.
  rewrite (plane_hit width height p W H S o d m t HA), (plane_hit width height p W H S o' d' m' t' HA'). cbn [i_e i_u].
  pose proof (le_INR 2 width W) as W'. pose proof (le_INR 2 height H) as H'. cbn [INR] in W', H'. destruct S as (SW & SH).
  destruct (component (vsub (along o d t) (along o' d' t'))) as (C1 & C2).
  set (q := along o d t) in *. set (q' := along o' d' t') in *. clearbody q q'. split.
  - replace ((INR width - 1) * (1 / 2 - (pe q - pe (plane_center p)) / plane_width p) - (INR width - 1) * (1 / 2 - (pe q' - pe (plane_center p)) / plane_width p))
      with (- ((INR width - 1) / plane_width p * pe (vsub q q'))) by (vunfold; field; lra).
    rewrite Rabs_Ropp, Rabs_mult, Rabs_pos_eq by (apply Rmult_le_pos; [lra|left; apply Rinv_0_lt_compat; lra]).
    replace ((INR width - 1) * delta / plane_width p) with ((INR width - 1) / plane_width p * delta) by (field; lra).
    apply Rmult_le_compat_l; [apply Rmult_le_pos; [lra|left; apply Rinv_0_lt_compat; lra]|lra].
  - replace ((INR height - 1) * (1 / 2 + (pu q - pu (plane_center p)) / plane_height p) - (INR height - 1) * (1 / 2 + (pu q' - pu (plane_center p)) / plane_height p))
      with ((INR height - 1) / plane_height p * pu (vsub q q')) by (vunfold; field; lra).
    rewrite Rabs_mult, Rabs_pos_eq by (apply Rmult_le_pos; [lra|left; apply Rinv_0_lt_compat; lra]).
    replace ((INR height - 1) * delta / plane_height p) with ((INR height - 1) / plane_height p * delta) by (field; lra).
    apply Rmult_le_compat_l; [apply Rmult_le_pos; [lra|left; apply Rinv_0_lt_compat; lra]|lra].
Qed.

(** A mirror ten metres in front of a target area, and the same mirror turned by the angle with cosine 99 / 101. *)
Definition south_area : plane := {| plane_center := vec 0 0 50; plane_normal := vec 0 (-1) 0; plane_width := 16; plane_height := 6 |}.
Lemma misaligned_case : let i := vec 0 (-1) 0 in let n := vec 0 1 0 in let n' := vec (20 / 101) (99 / 101) 0 in let o := vec 0 (-10) 50 in
  unit i /\ unit n /\ unit n' /\ unit (plane_normal south_area) /\ dot i (cross n n') = 0
  /\ hits_area south_area o (reflect i n) 10 /\ hits_area south_area o (reflect i n') (10 * 10201 / 9401)
  /\ 42 / 10 < norm (vsub (along o (reflect i n) 10) (along o (reflect i n') (10 * 10201 / 9401)))
  /\ norm (vsub (along o (reflect i n) 10) (along o (reflect i n') (10 * 10201 / 9401))) <= 44 / 10.
Proof.
  intros i n n' o. assert (I : unit i) by (unfold unit, i; vunfold; lra). assert (N : unit n) by (unfold unit, n; vunfold; lra).
  assert (N' : unit n') by (unfold unit, n'; vunfold; lra). assert (P : unit (plane_normal south_area)) by (unfold unit, south_area; cbn [plane_normal]; vunfold; lra).
  assert (H1 : hits_area south_area o (reflect i n) 10).
  { unfold hits_area, on_plane, within_area, along, south_area, reflect, i, n, o. cbn [plane_center plane_normal plane_width plane_height]. vunfold.
    split; [lra|]. split; [lra|]. split; apply Rabs_le; lra. }
  assert (H2 : hits_area south_area o (reflect i n') (10 * 10201 / 9401)).
  { unfold hits_area, on_plane, within_area, along, south_area, reflect, i, n', o. cbn [plane_center plane_normal plane_width plane_height]. vunfold.
    split; [lra|]. split; [lra|]. split; apply Rabs_le; lra. }
  assert (E : vsub (along o (reflect i n) 10) (along o (reflect i n') (10 * 10201 / 9401)) = vec (- 39600 / 9401) 0 0).
  { apply point_eq; unfold along, reflect, i, n, n', o; vunfold; lra. }
  repeat split; auto; try (unfold i, n, n'; vunfold; lra); try apply H1; try apply H2.
  - rewrite E. eapply Rlt_le_trans; [|apply (proj1 (component (vec (- 39600 / 9401) 0 0)))]. cbn [pe vec]. rewrite Rabs_left; lra.
  - rewrite E. apply norm_le; [lra|]. vunfold. lra.
Qed.
