(** Vocabulary of C129. *)
From Coq Require Import Reals.
From Verif Require Import ModelFitting.
Local Open Scope R_scope.

(** The loss [now] is smaller than the loss [before] by more than the threshold of the scheduler. *)
Definition gains (t : threshold) (before now : R) : Prop :=
  match t with Relative x => now < before * (1 - x) | Absolute x => now < before - x end.
Definition sensible (t : threshold) : Prop := match t with Relative x => 0 <= x < 1 | Absolute x => 0 <= x end.
