(** Polar coordinates. *)
From Coq Require Import Reals Lra Psatz.
From Verif Require Import ModelAngles.
Local Open Scope R_scope.

Lemma cos_atan_pos : forall z, 0 < cos (atan z).
Proof. intros. pose proof (atan_bound z). apply cos_gt_0; lra. Qed.
Lemma sin_atan_cos : forall z, sin (atan z) = z * cos (atan z).
Proof.
  intros. pose proof (tan_atan z) as T. unfold tan in T. pose proof (cos_atan_pos z).
  rewrite <- T at 2. field. lra.
Qed.
Lemma cos_atan_sq : forall z, cos (atan z) * cos (atan z) * (1 + z * z) = 1.
Proof. intros. pose proof (sin2_cos2 (atan z)) as Q. unfold Rsqr in Q. rewrite sin_atan_cos in Q. nra. Qed.

Lemma sqrt_polar : forall a b, 0 <= a -> a * a = b -> sqrt b = a.
Proof. intros. rewrite <- H0. apply sqrt_square. auto. Qed.

Lemma atan_polar_pos : forall x y, 0 < x -> let r := sqrt (x * x + y * y) in
  r * cos (atan (y / x)) = x /\ r * sin (atan (y / x)) = y.
Proof.
  intros x y X r. pose proof (cos_atan_sq (y / x)) as Q. pose proof (cos_atan_pos (y / x)) as P.
  set (c := cos (atan (y / x))) in *.
  assert (R : r = x / c).
  { apply sqrt_polar; [left; apply Rdiv_lt_0_compat; auto|].
    assert (Q' : c * c * (x * x + y * y) = x * x).
    { replace (x * x + y * y) with ((1 + y / x * (y / x)) * (x * x)) by (field; lra). rewrite <- Rmult_assoc, Q. ring. }
    assert (c * c <> 0) by nra.
    apply (Rmult_eq_reg_l (c * c)); auto. rewrite Q'. field. lra. }
  rewrite sin_atan_cos. fold c. rewrite R. split; field; lra.
Qed.

Lemma atan2_polar : forall y x, let r := sqrt (x * x + y * y) in r * cos (atan2 y x) = x /\ r * sin (atan2 y x) = y.
Proof.
  intros y x r. unfold atan2. destruct (Rlt_dec 0 x) as [X|X]; [apply atan_polar_pos; auto|].
  destruct (Rlt_dec x 0) as [X'|X'].
  - destruct (atan_polar_pos (- x) (- y)) as (A & B); [lra|].
    replace (- y / - x) with (y / x) in * by (field; lra).
    replace (- x * - x + - y * - y) with (x * x + y * y) in * by ring. fold r in A, B.
    destruct (Rle_dec 0 y).
    + rewrite neg_cos, neg_sin. lra.
    + unfold Rminus. rewrite cos_plus, sin_plus, cos_neg, sin_neg, cos_PI, sin_PI. split; lra.
  - assert (x = 0) by lra. subst x.
    destruct (Rlt_dec 0 y).
    + rewrite cos_PI2, sin_PI2. assert (r = y) by (apply sqrt_polar; [lra|ring]). rewrite H. lra.
    + destruct (Rlt_dec y 0).
      * rewrite cos_neg, sin_neg, cos_PI2, sin_PI2. assert (r = - y) by (apply sqrt_polar; [lra|ring]). rewrite H. lra.
      * assert (y = 0) by lra. subst y. assert (r = 0) by (apply sqrt_polar; [lra|ring]). rewrite H. lra.
Qed.

Lemma atan2_bound : forall y x, - PI < atan2 y x <= PI.
Proof.
  intros. unfold atan2. pose proof (atan_bound (y / x)). pose proof PI_RGT_0.
  destruct (Rlt_dec 0 x); [lra|]. destruct (Rlt_dec x 0) as [X|X].
  - destruct (Rle_dec 0 y) as [Y|Y].
    + assert (atan (y / x) <= 0).
      { rewrite <- atan_0. destruct (Req_dec y 0) as [-> |]; [unfold Rdiv; rewrite Rmult_0_l; lra|].
        left. apply atan_increasing. assert (0 < y * - / x) by (apply Rmult_lt_0_compat; [lra|]; pose proof (Rinv_lt_0_compat x X); lra). unfold Rdiv. lra. }
      lra.
    + assert (0 < atan (y / x)).
      { rewrite <- atan_0. apply atan_increasing. replace (y / x) with (- y * / - x) by (field; lra).
        apply Rmult_lt_0_compat; [lra|]. apply Rinv_0_lt_compat. lra. }
      lra.
  - destruct (Rlt_dec 0 y); [lra|]. destruct (Rlt_dec y 0); lra.
Qed.

(** Two angles in a half-open turn with equal sine and cosine are equal. *)
Lemma angle_unique : forall a b, - PI < a <= PI -> - PI < b <= PI -> cos a = cos b -> sin a = sin b -> a = b.
Proof.
  intros a b A B C S.
  assert (D : cos (a - b) = 1).
  { rewrite cos_minus, C, S. pose proof (sin2_cos2 b) as Q. unfold Rsqr in Q. lra. }
  assert (H : sin ((a - b) / 2) = 0).
  { replace (a - b) with (2 * ((a - b) / 2)) in D by field. rewrite cos_2a_sin in D.
    assert (sin ((a - b) / 2) * sin ((a - b) / 2) = 0) by lra. destruct (Rmult_integral _ _ H); auto. }
  set (h := (a - b) / 2) in *. assert (HB : - PI < h < PI) by (unfold h; lra).
  destruct (Req_dec h 0) as [E|E]; [unfold h in E; lra|]. exfalso.
  destruct (Rlt_dec 0 h).
  - pose proof (sin_gt_0 h). lra.
  - assert (0 < sin (- h)) by (apply sin_gt_0; lra). rewrite sin_neg in H0. lra.
Qed.
Lemma atan2_unique : forall y x t r, 0 < r -> - PI < t <= PI -> x = r * cos t -> y = r * sin t -> atan2 y x = t.
Proof.
  intros y x t r R T X Y. destruct (atan2_polar y x) as (A & B).
  assert (E : sqrt (x * x + y * y) = r).
  { apply sqrt_polar; [lra|]. rewrite X, Y. pose proof (sin2_cos2 t) as Q. unfold Rsqr in Q.
    replace (r * cos t * (r * cos t) + r * sin t * (r * sin t)) with (r * r * (sin t * sin t + cos t * cos t)) by ring. rewrite Q. ring. }
  rewrite E in A, B. apply angle_unique; auto; [apply atan2_bound|apply (Rmult_eq_reg_l r)|apply (Rmult_eq_reg_l r)]; lra.
Qed.
