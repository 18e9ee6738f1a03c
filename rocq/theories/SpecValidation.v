(** Vocabulary of the validation property (C115). *)
From Coq Require Import List Arith.
Import ListNotations.

(** The heliostats of a group that have samples, in the order of the group. *)
Definition heliostats_with_samples (mask : list nat) : list nat := filter (fun i => 0 <? nth i mask 0) (seq 0 (length mask)).
(** The samples of a heliostat with [m] samples that are not used for training: the last [max 1 (test_of_count m)] ones. *)
Definition held_out (test_of_count : nat -> nat) (m : nat) : list nat := seq (m - Nat.max 1 (test_of_count m)) (Nat.max 1 (test_of_count m)).
