(** Vocabulary of the properties about learning rates (C116, C117). *)
From Coq Require Import List Arith Reals.
Import ListNotations.
Local Open Scope R_scope.

(** A triangle wave between zero and one that rises for [up] steps and falls for [up] steps. *)
Definition triangle (up n : nat) : R :=
  let k := (n mod (2 * up))%nat in
  if (k <=? up)%nat then INR k / INR up else INR (2 * up - k) / INR up.

(** The last [count] losses of a history did not improve on some earlier loss by the relative threshold. *)
Definition stagnates (threshold : R) (history : list R) (count : nat) : Prop :=
  exists before recent b, history = before ++ recent /\ length recent = count /\ In b before /\ forall l, In l recent -> b * (1 - threshold) <= l.
