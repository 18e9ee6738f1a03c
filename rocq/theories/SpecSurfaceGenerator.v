(** Vocabulary of the surface generation properties (C90-C92). *)
From Coq Require Import List Arith Reals.
From Verif Require Import ModelVectors ModelTransforms ModelNurbs SpecTransforms.
Import ListNotations.
Local Open Scope R_scope.

(** The point of the rectangle with centre [t] and half sides [c_e] and [c_n]. *)
Definition rectangle_point (t : hvec) (c_e c_n : point) (a b : R) : point := vadd (enu t) (vadd (smul a c_e) (smul b c_n)).
(** The upper unit normal of the rectangle. *)
Definition rectangle_normal (c_e c_n : point) : point := smul (/ norm (cross c_e c_n)) (cross c_e c_n).
(** Orthogonal half sides, not too short for the numbers of control points. *)
Definition proper_canting (n_u n_v : nat) (c_e c_n : point) : Prop :=
  dot c_e c_n = 0 /\ / 10 ^ 8 <= norm c_e /\ / 10 ^ 8 <= norm c_n /\ INR (n_u - 1) * INR (n_v - 1) <= 4 * 10 ^ 12 * (norm c_e * norm c_n).
(** A facet without canting. *)
Definition upright (c_e c_n : point) (a b : R) : Prop := c_e = vec a 0 0 /\ c_n = vec 0 b 0.
(** [w] is the largest difference of the coordinate [f] between two of the points. *)
Definition extent (f : point -> R) (points : list point) (w : R) : Prop :=
  (exists a b, In a points /\ In b points /\ w = f a - f b) /\ forall a b, In a points -> In b points -> f a - f b <= w.
(** [n] is the smallest length of a row. *)
Definition fewest {A} (rows : list (list A)) (n : nat) : Prop := (exists row, In row rows /\ length row = n) /\ forall row, In row rows -> (n <= length row)%nat.
(** Every [k]-th of the first [n] entries. *)
Definition every_kth {A} (k n : nat) (l taken : list A) : Prop :=
  forall j, nth_error taken j = if (j * k <? n)%nat then nth_error l (j * k) else None.
