(** Vocabulary of the property about the shape of the sun (C136). *)
From Coq Require Import List Reals.
From Verif Require Import RealSums ModelVectors ModelTrace.
Import ListNotations.
Local Open Scope R_scope.

(** Cosine of the angle between a reflected ray and the ray scattered by the drawn angles (up, east). *)
Definition deviation (d : point) (angles : R * R) : R := dot d (scatter_ray d (fst angles) (snd angles)).
Definition north : point := vec 0 1 0.
Definition mean (l : list R) : R := Rsum l / INR (length l).
(** The draws that are equally likely as (a, b), if both angles are drawn independently from the same distribution around zero. *)
Definition equally_likely (a b : R) : list (R * R) :=
  [(a, b); (a, - b); (- a, b); (- a, - b); (b, a); (b, - a); (- b, a); (- b, - a)].
