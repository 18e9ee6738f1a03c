(** C144: undoing the canting of a facet. *)
From Coq Require Import Reals Lra.
From Verif Require Import ModelField ModelVectors ModelTransforms ModelInverseCanting SpecIntersections SpecTransforms SpecInverseCanting ProofsVectors ProofsTransforms ProofsInverseCanting.
Local Open Scope R_scope.

(** C144 (full statement: undoing the canting and translation of a facet gives back the points and normals of the facet as they were before, for all canting vectors that span a facet).
    Proved: for perpendicular canting vectors; for all others the east and up coordinates, and with them the stored angle of the normals, are right.  Refuted: if the canting vectors are not perpendicular, the north coordinate
    of every point east or west of the middle of the facet is wrong, by its east coordinate times the cosine of the angle between the vectors. *)
Theorem C144_perpendicular_partial : forall c_e c_n t p, spanning c_e c_n -> dot c_e c_n = 0 ->
  inverse_canting t c_e c_n (on_heliostat c_e c_n t p) = p /\ inverse_canting t c_e c_n (perform_canting false c_e c_n (as_direction p)) = p.
Proof.
  intros c_e c_n t p (E & N & C & C') D. destruct (sine_perpendicular c_e c_n E N D) as (S1 & S0). split.
  - unfold on_heliostat. rewrite (inverse_point c_e c_n t E N C C'), S1, S0. destruct p. apply point_eq; cbn; ring.
  - rewrite (inverse_direction c_e c_n E N C C'), S1, S0. destruct p. apply point_eq; cbn; ring.
Qed.
Print Assumptions C144_perpendicular_partial.

Theorem C144_all_partial : forall c_e c_n t p, spanning c_e c_n ->
  let restored := vec (pe p) (pe p * cosine_of c_e c_n + pn p * sine_of c_e c_n) (pu p) in
  inverse_canting t c_e c_n (on_heliostat c_e c_n t p) = restored
  /\ inverse_canting t c_e c_n (perform_canting false c_e c_n (as_direction p)) = restored
  /\ stored_angle (inverse_canting t c_e c_n (perform_canting false c_e c_n (as_direction p))) = stored_angle p.
Proof.
  intros c_e c_n t p (E & N & C & C') restored. split; [apply inverse_point; auto|]. assert (D := inverse_direction c_e c_n E N C C' p t). split; [exact D|].
  rewrite D. unfold stored_angle. f_equal. f_equal. f_equal. unfold dot, vec. cbn [pe pn pu]. ring.
Qed.
Print Assumptions C144_all_partial.

Theorem C144_skew_refuted : forall c_e c_n t p, spanning c_e c_n -> dot c_e c_n <> 0 -> pe p <> 0 -> pn p = 0 ->
  pn (inverse_canting t c_e c_n (on_heliostat c_e c_n t p)) = pe p * cosine_of c_e c_n /\ pe p * cosine_of c_e c_n <> pn p.
Proof.
  intros c_e c_n t p SP D P0 N0. rewrite (proj1 (C144_all_partial c_e c_n t p SP)). cbn [pn vec]. rewrite N0. split; [ring|]. destruct SP as (E & N & _).
  unfold cosine_of. intros Z. apply Rmult_integral in Z. destruct Z as [Z|Z]; [contradiction|]. apply D. apply Rmult_eq_reg_r with (/ (norm c_e * norm c_n)); [unfold Rdiv in Z; rewrite Z; ring|].
  apply Rinv_neq_0_compat. apply Rmult_integral_contrapositive_currified; lra.
Qed.
Print Assumptions C144_skew_refuted.

(** A perpendicular pair that is turned by 90 degrees, and a skew pair. *)
Example C144_case : spanning (vec 0 2 0) (vec (-1) 0 0) /\ dot (vec 0 2 0) (vec (-1) 0 0) = 0
  /\ spanning (vec 5 0 0) (vec 3 4 0) /\ dot (vec 5 0 0) (vec 3 4 0) <> 0 /\ cosine_of (vec 5 0 0) (vec 3 4 0) = 3 / 5.
Proof.
  assert (N1 : norm (vec 0 2 0) = 2). { unfold norm, dot, vec; cbn [pe pn pu]. replace (0 * 0 + 2 * 2 + 0 * 0) with (2 * 2) by ring. apply sqrt_square. lra. }
  assert (N2 : norm (vec (-1) 0 0) = 1). { unfold norm, dot, vec; cbn [pe pn pu]. replace (-1 * -1 + 0 * 0 + 0 * 0) with 1 by ring. apply sqrt_1. }
  assert (N3 : norm (cross (vec 0 2 0) (vec (-1) 0 0)) = 2). { unfold norm, dot, cross, vec; cbn [pe pn pu]. match goal with |- sqrt ?x = _ => replace x with (2 * 2) by ring end. apply sqrt_square. lra. }
  assert (N4 : norm (vec 5 0 0) = 5). { unfold norm, dot, vec; cbn [pe pn pu]. match goal with |- sqrt ?x = _ => replace x with (5 * 5) by ring end. apply sqrt_square. lra. }
  assert (N5 : norm (vec 3 4 0) = 5). { unfold norm, dot, vec; cbn [pe pn pu]. match goal with |- sqrt ?x = _ => replace x with (5 * 5) by ring end. apply sqrt_square. lra. }
  assert (N6 : norm (cross (vec 5 0 0) (vec 3 4 0)) = 20). { unfold norm, dot, cross, vec; cbn [pe pn pu]. match goal with |- sqrt ?x = _ => replace x with (20 * 20) by ring end. apply sqrt_square. lra. }
  unfold spanning, cosine_of. rewrite N1, N2, N3, N4, N5, N6. unfold dot, vec; cbn [pe pn pu]. repeat split; lra.
Qed.
