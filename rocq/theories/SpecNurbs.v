(** Vocabulary of the NURBS properties (C42-C47): the Cox-de Boor basis and slopes of curves. *)
From Coq Require Import List Arith Reals.
From Verif Require Import RealSums ModelVectors ModelTransforms ModelNurbs SpecTransforms.
Import ListNotations.
Local Open Scope R_scope.

(** [/ (b - a)], with the convention of the NURBS book that quotients with denominator 0 are 0. *)
Definition inverse_gap (a b : R) : R := if Req_EM_T a b then 0 else / (b - a).
(** The B-spline basis function number [k] of degree [p] for the knots [U] (Cox-de Boor). *)
Fixpoint cox_de_boor (U : nat -> R) (p k : nat) (x : R) : R :=
  match p with
  | O => if Rle_dec (U k) x then if Rlt_dec x (U (S k)) then 1 else 0 else 0
  | S q => (x - U k) * inverse_gap (U k) (U (k + p)%nat) * cox_de_boor U q k x
         + (U (S k + p)%nat - x) * inverse_gap (U (S k)) (U (S k + p)%nat) * cox_de_boor U q (S k) x
  end.
(** The derivative of the basis function according to the NURBS book (2.7). *)
Definition cox_de_boor' (U : nat -> R) (p k : nat) (x : R) : R :=
  match p with
  | O => 0
  | S q => INR p * (inverse_gap (U k) (U (k + p)%nat) * cox_de_boor U q k x
                    - inverse_gap (U (S k)) (U (S k + p)%nat) * cox_de_boor U q (S k) x)
  end.
(** A list of knots as a function of the index. *)
Definition knot_of (knots : list R) (i : nat) : R := nth i knots 0.
Definition non_decreasing (knots : list R) : Prop :=
  forall i j, (i <= j < length knots)%nat -> knot_of knots i <= knot_of knots j.

(** [t] is the slope of the curve [f] at [x], approached from the admissible parameters. *)
Definition slope (f : R -> option point) (admissible : R -> Prop) (x : R) (t : point) : Prop :=
  forall eps, 0 < eps -> exists delta, 0 < delta /\ forall h, h <> 0 -> Rabs h < delta -> admissible (x + h) ->
  exists p q, f x = Some p /\ f (x + h) = Some q /\ norm (vsub (smul (/ h) (vsub q p)) t) <= eps.

(** The tensor-product combination of a net of points (first index below [n], second below [m]) with weights
    [f] and [g]. *)
Definition tensor (n m : nat) (f g : nat -> R) (c : nat -> nat -> point) : point :=
  let sum (component : point -> R) :=
    Rsum (map (fun a => Rsum (map (fun b => f a * g b * component (c a b)) (seq 0 m))) (seq 0 n)) in
  vec (sum pe) (sum pn) (sum pu).
(** An affine map of the space. *)
Definition affine (a b c t p : point) : point := vadd (vec (dot a p) (dot b p) (dot c p)) t.

(** There are more control points than the degree, in both directions. *)
Definition fits (c : net) (p_u p_v : nat) : Prop := (1 <= p_u < n_u c)%nat /\ (1 <= p_v < n_v c)%nat.
(** The position part of an evaluation. *)
Definition point_at (s : option (hvec * hvec)) : option point := option_map (fun '(p, _) => enu p) s.
(** The parameter is no knot. *)
Definition knot_free (n p : nat) (x : R) : Prop := forall i, (i < n + p + 1)%nat -> knot_of (knot_vector n p) i <> x.
