(** Deviation of scattered rays. *)
From Coq Require Import List Reals Lra Lia.
From Verif Require Import RealSums ModelVectors ModelTransforms ModelTrace SpecTrace SpecSunShape.
Import ListNotations.
Local Open Scope R_scope.

Lemma deviation_is : forall d u e, deviation d (u, e) =
  pe d * (cos u * pe d - sin u * pn d) + pn d * (cos e * sin u * pe d + cos e * cos u * pn d - sin e * pu d) + pu d * (sin e * sin u * pe d + sin e * cos u * pn d + cos e * pu d).
Proof. intros d u e. unfold deviation, scatter_ray, rotate_distortion, dot. cbn. unfold hdot. cbn. ring. Qed.
Lemma unit_sum : forall d, norm d = 1 -> pe d * pe d + pn d * pn d + pu d * pu d = 1.
Proof.
  intros d N. change (dot d d = 1). assert (P : 0 <= dot d d) by (unfold dot; nra). unfold norm in N. rewrite <- (sqrt_sqrt (dot d d) P), N. ring.
Qed.
Theorem north_deviation : forall d u e, norm d = 1 -> pe d = 0 -> pu d = 0 -> deviation d (u, e) = cos u * cos e.
Proof. intros d u e N E U. apply unit_sum in N. rewrite E, U in N. rewrite deviation_is, E, U. transitivity (pn d * pn d * (cos u * cos e)); [ring|]. replace (pn d * pn d) with 1 by lra. ring. Qed.
Lemma only_east : forall d e, norm d = 1 -> deviation d (0, e) = cos e + pe d * pe d * (1 - cos e).
Proof. intros d e N. apply unit_sum in N. rewrite deviation_is, cos_0, sin_0. transitivity (pe d * pe d + (pn d * pn d + pu d * pu d) * cos e); [ring|]. replace (pn d * pn d + pu d * pu d) with (1 - pe d * pe d) by lra. ring. Qed.
Lemma only_up : forall d u, norm d = 1 -> deviation d (u, 0) = cos u + pu d * pu d * (1 - cos u).
Proof. intros d e N. apply unit_sum in N. rewrite deviation_is, cos_0, sin_0. transitivity (pu d * pu d + (pn d * pn d + pe d * pe d) * cos e); [ring|]. replace (pn d * pn d + pe d * pe d) with (1 - pu d * pu d) by lra. ring. Qed.
Lemma norm_north : norm north = 1.
Proof. unfold norm, north, dot. cbn. replace (0 * 0 + 1 * 1 + 0 * 0) with 1 by ring. apply sqrt_1. Qed.
Theorem single_angles : forall d a, norm d = 1 -> cos a <> 1 ->
  (deviation d (0, a) = deviation north (0, a) <-> pe d = 0) /\ (deviation d (a, 0) = deviation north (a, 0) <-> pu d = 0).
Proof.
  intros d a N C. rewrite !only_east, !only_up by (auto using norm_north). cbn [north vec pe pu]. assert (1 - cos a <> 0) by lra.
  split; split; intros H0.
  - assert (pe d * pe d * (1 - cos a) = 0) by lra. apply Rmult_integral in H1 as [H1|]; [|contradiction]. nra.
  - rewrite H0. ring.
  - assert (pu d * pu d * (1 - cos a) = 0) by lra. apply Rmult_integral in H1 as [H1|]; [|contradiction]. nra.
  - rewrite H0. ring.
Qed.
Theorem unmoved : forall d a, norm d = 1 -> (pn d = 0 -> pu d = 0 -> scatter_ray d 0 a = d) /\ (pe d = 0 -> pn d = 0 -> scatter_ray d a 0 = d).
Proof.
  intros d a N. split; intros A B; destruct d as [x y z]; cbn in A, B; subst; unfold scatter_ray, rotate_distortion; cbn; unfold hdot; cbn; rewrite cos_0, sin_0; unfold vec; f_equal; ring.
Qed.
Theorem mean_deviation : forall d a b, norm d = 1 ->
  mean (map (deviation d) (equally_likely a b)) = (cos a + cos b) / 2 - pn d * pn d * ((cos a + cos b) / 2 - cos a * cos b).
Proof.
  intros d a b N. apply unit_sum in N. unfold mean, equally_likely. cbn [map length]. rewrite !deviation_is, !cos_neg, !sin_neg.
  replace (INR 8) with 8 by (cbn; lra). unfold Rsum. cbn [fold_right].
  transitivity ((pe d * pe d + pu d * pu d) * ((cos a + cos b) / 2) + pn d * pn d * (cos a * cos b)); [field|].
  replace (pe d * pe d + pu d * pu d) with (1 - pn d * pn d) by lra. ring.
Qed.
Theorem mean_narrower : forall d d' a b, norm d = 1 -> norm d' = 1 -> Rabs (pn d) < Rabs (pn d') -> 0 < Rabs a < PI / 2 -> 0 < Rabs b < PI / 2 ->
  mean (map (deviation d') (equally_likely a b)) < mean (map (deviation d) (equally_likely a b)).
Proof.
  intros d d' a b N N' L A B. rewrite !mean_deviation by auto.
  assert (CB : forall x, 0 < Rabs x < PI / 2 -> 0 < cos x < 1).
  { intros x X. assert (E : cos x = cos (Rabs x)) by (unfold Rabs; destruct (Rcase_abs x); [now rewrite cos_neg|auto]). rewrite E. split.
    - apply cos_gt_0; lra.
    - rewrite <- cos_0. apply cos_decreasing_1; lra. }
  pose proof (CB a A). pose proof (CB b B). assert (0 < (cos a + cos b) / 2 - cos a * cos b) by nra.
  assert (pn d * pn d < pn d' * pn d').
  { change (Rsqr (pn d) < Rsqr (pn d')). now apply Rsqr_lt_abs_1. }
  nra.
Qed.
