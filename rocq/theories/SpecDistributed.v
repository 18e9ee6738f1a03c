(** Vocabulary of the distribution properties (C01-C05), independent of the model. *)
From Coq Require Import List Arith Bool Permutation.
Import ListNotations.

(** A family of work lists, one per rank [0..world-1], is an exact partition of [0..total-1]: every
    item is processed by some rank, no item is processed twice, nothing else is processed. *)
Definition exact_partition (work : nat -> list nat) (world total : nat) : Prop :=
  Permutation (concat (map work (seq 0 world))) (seq 0 total).

(** The ranks among [0..world-1] whose work list contains [item]. *)
Definition ranks_processing (work : nat -> list nat) (world item : nat) : list nat :=
  filter (fun rank => existsb (Nat.eqb item) (work rank)) (seq 0 world).
