(** C136: the shape of the sun. *)
From Coq Require Import List Reals Lra.
From Verif Require Import RealSums ModelVectors ModelTrace SpecSunShape ProofsSunShape.
Import ListNotations.
Local Open Scope R_scope.

(** C136 (full statement: the shape of the sun spreads all reflected rays equally: the angle between a reflected ray and the scattered ray
    depends on the drawn angles only, and not on the direction of the reflected ray).  For all rays that go exactly north or south the
    cosine of this angle is the product of the cosines of the drawn angles. *)
Theorem C136_north_partial : forall d u e, norm d = 1 -> pe d = 0 -> pu d = 0 -> deviation d (u, e) = cos u * cos e.
Proof. exact north_deviation. Qed.
Print Assumptions C136_north_partial.

(** For all other directions the mean of the cosines over the equally likely draws is given by the northern component of the ray. *)
Theorem C136_mean_partial : forall d a b, norm d = 1 ->
  mean (map (deviation d) (equally_likely a b)) = (cos a + cos b) / 2 - pn d * pn d * ((cos a + cos b) / 2 - cos a * cos b).
Proof. exact mean_deviation. Qed.
Print Assumptions C136_mean_partial.

(** The angle drawn for the east axis alone moves a ray as far as a ray to the north only if the ray has no eastern component, and the angle
    drawn for the up axis only if it has no vertical component. *)
Theorem C136_single_refuted : forall d a, norm d = 1 -> cos a <> 1 ->
  (deviation d (0, a) = deviation north (0, a) <-> pe d = 0) /\ (deviation d (a, 0) = deviation north (a, 0) <-> pu d = 0).
Proof. exact single_angles. Qed.
Print Assumptions C136_single_refuted.

(** Rays to the east or west are not moved at all by the first, and vertical rays not at all by the second. *)
Theorem C136_unmoved_refuted : forall d a, norm d = 1 -> (pn d = 0 -> pu d = 0 -> scatter_ray d 0 a = d) /\ (pe d = 0 -> pn d = 0 -> scatter_ray d a 0 = d).
Proof. exact unmoved. Qed.
Print Assumptions C136_unmoved_refuted.

(** On average over equally likely draws, the sun is the narrower the less a ray goes north or south. *)
Theorem C136_mean_refuted : forall d d' a b, norm d = 1 -> norm d' = 1 -> Rabs (pn d) < Rabs (pn d') -> 0 < Rabs a < PI / 2 -> 0 < Rabs b < PI / 2 ->
  mean (map (deviation d') (equally_likely a b)) < mean (map (deviation d) (equally_likely a b)).
Proof. exact mean_narrower. Qed.
Print Assumptions C136_mean_refuted.

Example C136_case : norm north = 1 /\ norm (vec (3 / 5) (4 / 5) 0) = 1 /\ Rabs (pn (vec (3 / 5) (4 / 5) 0)) < Rabs (pn north)
  /\ 0 < Rabs 1 < PI / 2 /\ cos 1 <> 1 /\ norm (vec 1 0 0) = 1 /\ norm (vec 0 0 1) = 1.
Proof.
  pose proof PI2_1 as P. assert (C : cos 1 < cos 0) by (apply cos_decreasing_1; lra). rewrite cos_0 in C.
  unfold norm, north, dot. cbn [vec pe pn pu]. rewrite (Rabs_pos_eq (4 / 5)), (Rabs_pos_eq 1) by lra.
  replace (0 * 0 + 1 * 1 + 0 * 0) with 1 by ring. replace (3 / 5 * (3 / 5) + 4 / 5 * (4 / 5) + 0 * 0) with 1 by field.
  replace (1 * 1 + 0 * 0 + 0 * 0) with 1 by ring. replace (0 * 0 + 0 * 0 + 1 * 1) with 1 by ring. rewrite sqrt_1. repeat split; lra.
Qed.
