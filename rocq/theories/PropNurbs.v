(** C42-C47: knot vectors, knot spans, basis functions, surface points, normals and facet placement. *)
From Coq Require Import List Arith ZArith Reals Lra Lia.
From Verif Require Import RealSums ModelVectors ProofsVectors ModelTransforms ModelActuators ModelNurbs SpecTransforms SpecNurbs
  ProofsBasis ProofsKnots ProofsSurface ProofsNurbsCases.
Import ListNotations.
Local Open Scope R_scope.

(** C42. *)
Theorem C42_knot_vector : forall n p, (1 <= p < n)%nat ->
  length (knot_vector n p) = (n + p + 1)%nat
  /\ (forall i, (i <= p)%nat -> knot_of (knot_vector n p) i = 0)
  /\ (forall i, (n <= i < n + p + 1)%nat -> knot_of (knot_vector n p) i = 1)
  /\ non_decreasing (knot_vector n p)
  /\ forall i, (p <= i <= n)%nat -> knot_of (knot_vector n p) i = INR (i - p) / INR (n - p).
Proof. exact knot_vector_all. Qed.
Print Assumptions C42_knot_vector.
Example C42_case : (1 <= 2 < 4)%nat /\ map (knot_of (knot_vector 4 2)) (seq 0 7) = [0; 0; 0; / 2; 1; 1; 1].
Proof. exact knots_case. Qed.

(** C43. *)
Theorem C43_span_partial : forall n p x, (1 <= p < n)%nat -> 0 <= x < 1 ->
  exists i, uniform_span (knot_vector n p) p x = Z.of_nat i /\ (p <= i < n)%nat
  /\ knot_of (knot_vector n p) i <= x < knot_of (knot_vector n p) (S i).
Proof. exact uniform_contains. Qed.
Print Assumptions C43_span_partial.
Theorem C43_agree_partial : forall n p x, (1 <= p < n)%nat -> INR (n - p) <= 5 * 10 ^ 4 -> 0 <= x < 1 ->
  general_span (knot_vector n p) p x = uniform_span (knot_vector n p) p x.
Proof. exact spans_agree. Qed.
Print Assumptions C43_agree_partial.
(** The general search, for any non-decreasing or other knots. *)
Theorem C43_general_partial : forall knots p n x, length knots = (n + p + 1)%nat -> (p < n)%nat ->
  knot_of knots p <= x < knot_of knots n -> / 10 ^ 5 + / 10 ^ 5 * Rabs (knot_of knots n) < knot_of knots n - x ->
  exists i, general_span knots p x = Z.of_nat i /\ (p <= i < n)%nat /\ knot_of knots i <= x < knot_of knots (S i).
Proof. exact general_contains. Qed.
Print Assumptions C43_general_partial.
Theorem C43_general_end_partial : forall n p, (1 <= p < n)%nat -> general_span (knot_vector n p) p 1 = Z.of_nat (n - 1).
Proof. exact general_at_one. Qed.
Print Assumptions C43_general_end_partial.
(** The uniform shortcut does not handle the end of the range; no surface can be evaluated there. *)
Theorem C43_end_refuted : forall n p, (1 <= p < n)%nat -> uniform_span (knot_vector n p) p 1 = Z.of_nat n.
Proof. exact uniform_at_one. Qed.
Print Assumptions C43_end_refuted.
Theorem C43_evaluation_end_refuted : forall c p q y, fits c p q -> evaluate c p q 1 y = None.
Proof. exact end_undefined. Qed.
Print Assumptions C43_evaluation_end_refuted.
(** The general search works for several facets or surfaces only when its shapes happen to be broadcastable. *)
Theorem C43_shape_refuted : forall s f p, (1 <= s)%nat -> (1 <= f)%nat -> (1 <= p)%nat ->
  general_shape s f p = Some (s, f, p) <-> ((s = f \/ s = 1) /\ (f = p \/ f = 1))%nat.
Proof. exact general_shapes. Qed.
Print Assumptions C43_shape_refuted.
Example C43_case : uniform_span (knot_vector 4 2) 2 (3 / 4) = 3%Z /\ general_shape 1 4 100 = None /\ INR (4 - 2) <= 5 * 10 ^ 4.
Proof. exact span_case. Qed.

(** C44. *)
Theorem C44_cox_de_boor : forall knots p i x, non_decreasing knots -> (p <= i)%nat -> (i + p + 1 < length knots)%nat ->
  knot_of knots i <= x < knot_of knots (S i) ->
  exists values derivatives, basis_functions knots p (Z.of_nat i) x = Some (values, derivatives)
  /\ length values = S p /\ length derivatives = S p
  /\ (forall r, (r <= p)%nat -> nth r values 0 = cox_de_boor (knot_of knots) p (i - p + r) x
        /\ nth r derivatives 0 = cox_de_boor' (knot_of knots) p (i - p + r) x)
  /\ (forall r, (r <= p)%nat -> 0 <= nth r values 0)
  /\ Rsum values = 1 /\ Rsum derivatives = 0.
Proof. exact basis_all. Qed.
Print Assumptions C44_cox_de_boor.
(** The derivatives are the derivatives: on the span the value with index [k] is differentiable. *)
Theorem C44_derivative : forall knots p i x k, non_decreasing knots -> (k + p + 1 < length knots)%nat -> (S i < length knots)%nat ->
  knot_of knots i < x < knot_of knots (S i) ->
  derivable_pt_lim (cox_de_boor (knot_of knots) p k) x (cox_de_boor' (knot_of knots) p k x).
Proof. exact cox_derivative. Qed.
Print Assumptions C44_derivative.
(** All other basis functions vanish. *)
Theorem C44_support : forall knots p i x k, non_decreasing knots -> (k + p + 1 < length knots)%nat -> (S i < length knots)%nat ->
  knot_of knots i <= x < knot_of knots (S i) -> (k < i - p \/ i < k)%nat -> cox_de_boor (knot_of knots) p k x = 0.
Proof. exact cox_outside. Qed.
Print Assumptions C44_support.
Example C44_case : non_decreasing (knot_vector 4 2) /\ knot_of (knot_vector 4 2) 2 <= / 4 < knot_of (knot_vector 4 2) 3
  /\ basis_functions (knot_vector 4 2) 2 2 (/ 4) = Some ([/ 4; 5 / 8; / 8], [- 2; 1; 1]).
Proof. exact basis_case. Qed.

(** C45: the surface point and normal of the textbook, and its consequences. *)
Theorem C45_textbook : forall c p q x y, fits c p q -> 0 <= x < 1 -> 0 <= y < 1 ->
  let N a := cox_de_boor (knot_of (knot_vector (n_u c) p)) p a x in
  let N' a := cox_de_boor' (knot_of (knot_vector (n_u c) p)) p a x in
  let M b := cox_de_boor (knot_of (knot_vector (n_v c) q)) q b y in
  let M' b := cox_de_boor' (knot_of (knot_vector (n_v c) q)) q b y in
  evaluate c p q x y = Some (as_point (tensor (n_u c) (n_v c) N M (control c)),
    as_direction (normalize (cross (tensor (n_u c) (n_v c) N' M (control c)) (tensor (n_u c) (n_v c) N M' (control c))))).
Proof. exact evaluate_textbook. Qed.
Print Assumptions C45_textbook.
Theorem C45_weights : forall n p x, (1 <= p < n)%nat -> 0 <= x < 1 ->
  (forall a, (a < n)%nat -> 0 <= cox_de_boor (knot_of (knot_vector n p)) p a x)
  /\ Rsum (map (fun a => cox_de_boor (knot_of (knot_vector n p)) p a x) (seq 0 n)) = 1
  /\ Rsum (map (fun a => cox_de_boor' (knot_of (knot_vector n p)) p a x) (seq 0 n)) = 0.
Proof. exact weights. Qed.
Print Assumptions C45_weights.
Theorem C45_half_spaces : forall c p q x y point normal a bound, fits c p q -> 0 <= x < 1 -> 0 <= y < 1 ->
  evaluate c p q x y = Some (point, normal) ->
  (forall i j, (i < n_u c)%nat -> (j < n_v c)%nat -> dot a (control c i j) <= bound) -> dot a (enu point) <= bound.
Proof. exact hull. Qed.
Print Assumptions C45_half_spaces.
Theorem C45_affine : forall c p q x y a b d t, fits c p q -> 0 <= x < 1 -> 0 <= y < 1 ->
  exists point normal normal', evaluate c p q x y = Some (as_point point, normal)
  /\ evaluate {| n_u := n_u c; n_v := n_v c; control := fun i j => affine a b d t (control c i j) |} p q x y
     = Some (as_point (affine a b d t point), normal').
Proof. exact affine_surface. Qed.
Print Assumptions C45_affine.
Theorem C45_flat : forall c p q x y point normal h, fits c p q -> 0 <= x < 1 -> 0 <= y < 1 ->
  evaluate c p q x y = Some (point, normal) ->
  (forall i j, (i < n_u c)%nat -> (j < n_v c)%nat -> pu (control c i j) = h) -> hu point = h.
Proof. exact flat. Qed.
Print Assumptions C45_flat.
Theorem C45_corner : forall c p q, fits c p q -> exists normal, evaluate c p q 0 0 = Some (as_point (control c 0%nat 0%nat), normal).
Proof. exact corner. Qed.
Print Assumptions C45_corner.
Example C45_case : fits (planar_net 4 5 2 3) 2 3
  /\ exists n, evaluate (planar_net 4 5 2 3) 2 3 0 0 = Some (as_point (vec (-2) (-3) 0), n).
Proof. exact surface_case. Qed.

(** C46. *)
Theorem C46_normals : forall c p q x y, fits c p q -> 0 <= x < 1 -> 0 <= y < 1 ->
  exists point normal along_u along_v, evaluate c p q x y = Some (as_point point, as_direction normal)
  /\ slope (fun z => point_at (evaluate c p q z y)) (fun z => x <= z) x along_u
  /\ slope (fun z => point_at (evaluate c p q x z)) (fun z => y <= z) y along_v
  /\ (knot_free (n_u c) p x -> slope (fun z => point_at (evaluate c p q z y)) (fun _ => True) x along_u)
  /\ (knot_free (n_v c) q y -> slope (fun z => point_at (evaluate c p q x z)) (fun _ => True) y along_v)
  /\ dot normal along_u = 0 /\ dot normal along_v = 0
  /\ (/ 10 ^ 12 <= norm (cross along_u along_v) -> norm normal = 1 /\ 0 < dot normal (cross along_u along_v)).
Proof. exact normals. Qed.
Print Assumptions C46_normals.
(** A flat upright facet has the upward normal. *)
Example C46_case : exists point, evaluate (planar_net 2 2 2 3) 1 1 (/ 2) (/ 2) = Some (as_point point, as_direction (vec 0 0 1)).
Proof. exact normal_case. Qed.

(** C47. *)
Theorem C47_rigid : forall c_e c_n t, / 10 ^ 12 <= norm c_e -> / 10 ^ 8 * norm c_e <= norm (cross c_e c_n) -> hw t = 0 ->
  exists action, rigid_action action
  /\ forall pt nm, place (Some (c_e, c_n, t)) (as_point pt, as_direction nm) = (action (as_point pt), action (as_direction nm)).
Proof. exact (fun c_e c_n t a b c => ex_intro _ _ (placement_rigid c_e c_n t a b c)). Qed.
Print Assumptions C47_rigid.
Theorem C47_homogeneous : forall c p q c_e c_n t x y, fits c p q -> 0 <= x < 1 -> 0 <= y < 1 ->
  / 10 ^ 12 <= norm c_e -> / 10 ^ 8 * norm c_e <= norm (cross c_e c_n) -> hw t = 0 ->
  exists point normal, evaluate c p q x y = Some (as_point point, as_direction normal)
  /\ calculate c p q (Some (c_e, c_n, t)) x y
     = Some (as_point (vadd (enu (perform_canting false c_e c_n (as_point point))) (enu t)),
             as_direction (enu (perform_canting false c_e c_n (as_direction normal)))).
Proof. exact placed. Qed.
Print Assumptions C47_homogeneous.
(** All facets of a heliostat: every evaluation point is inside the valid range, so nothing is NaN. *)
Theorem C47_all_facets : forall p q facets n_e n_n, Forall (fun f => fits (fst f) p q) facets ->
  exists rows, surface_points_and_normals p q facets n_e n_n = Some rows /\ length rows = length facets
  /\ Forall (fun row => length row = (n_e * n_n)%nat) rows
  /\ forall i c c_e c_n t, nth_error facets i = Some (c, (c_e, c_n, t)) ->
     / 10 ^ 12 <= norm c_e -> / 10 ^ 8 * norm c_e <= norm (cross c_e c_n) -> hw t = 0 ->
     exists row, nth_error rows i = Some row /\ forall s, In s row -> hw (fst s) = 1 /\ hw (snd s) = 0.
Proof. exact surface_defined. Qed.
Print Assumptions C47_all_facets.
(** Facets are placed when all heights are zero, and otherwise taken as placed already. *)
Theorem C47_placed_when_flat : forall p q facets n_e n_n,
  ((forall c i j, In c (map fst facets) -> (i < n_u c)%nat -> (j < n_v c)%nat -> pu (control c i j) = 0) ->
   surface_points_and_normals p q facets n_e n_n
   = collect (map (fun f => collect (map (fun xy => calculate (fst f) p q (Some (snd f)) (fst xy) (snd xy)) (evaluation_grid (/ 10 ^ 7) n_e n_n))) facets))
  /\ ((exists c i j, In c (map fst facets) /\ (i < n_u c)%nat /\ (j < n_v c)%nat /\ pu (control c i j) <> 0) ->
   surface_points_and_normals p q facets n_e n_n
   = collect (map (fun f => collect (map (fun xy => evaluate (fst f) p q (fst xy) (snd xy)) (evaluation_grid (/ 10 ^ 7) n_e n_n))) facets)).
Proof. exact placed_when_flat. Qed.
Print Assumptions C47_placed_when_flat.
Example C47_case : / 10 ^ 12 <= norm (vec 1 0 0) /\ / 10 ^ 8 * norm (vec 1 0 0) <= norm (cross (vec 1 0 0) (vec 0 1 0))
  /\ hw (hv 1 2 3 0) = 0 /\ Forall (fun f => fits (fst f) 1 1) [(planar_net 2 2 1 1, (vec 1 0 0, vec 0 1 0, hv 1 2 3 0))].
Proof. exact placement_case. Qed.
