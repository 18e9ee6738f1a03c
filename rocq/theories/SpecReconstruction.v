(** Vocabulary of the reconstruction properties (C69, C86). *)
From Coq Require Import List Arith Reals.
Import ListNotations.

(** Every heliostat of a group has the same number of samples or none, and there are enough for training and testing. *)
Definition usable_mask (test_of_count : nat -> nat) (mask : list nat) : Prop :=
  exists per, 2 <= per /\ test_of_count per < per /\ forall m, In m mask -> m = 0 \/ m = per.
(** The reported loss of a heliostat with [m] samples: [None] (infinity) without samples, otherwise the reduction of the losses
    of its training samples, which are all but the last [max 1 (test_of_count m)]. *)
Definition reported (test_of_count : nat -> nat) (reduction : list R -> R) (sample_loss : nat -> R) (m : nat) : option R :=
  if m =? 0 then None else Some (reduction (map sample_loss (seq 0 (m - Nat.max 1 (test_of_count m))))).
