(** Vocabulary of the properties of the results of optimizations (C101-C104). *)
From Coq Require Import List Arith.
Local Open Scope nat_scope.

(** The parameters after the first [n] optimizer steps. *)
Fixpoint after {P} (step : nat -> P -> P) (n : nat) (p : P) : P :=
  match n with 0 => p | S n' => step n' (after step n' p) end.
