(** Specification of rays in the filter of blocking mirrors (C150). *)
From Coq Require Import Reals.
From Verif Require Import ModelField ModelVectors.
Local Open Scope R_scope.

(** The direction of a ray with 1e-12 added to each component, which the filter uses in place of the direction. *)
Definition nudged (direction : point) : point := vadd direction {| pe := / 10 ^ 12; pn := / 10 ^ 12; pu := / 10 ^ 12 |}.
