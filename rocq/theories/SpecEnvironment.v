(** Vocabulary of the property about started processes (C118). *)
From Coq Require Import List Arith.
From Verif Require Import ModelEnvironment.
Import ListNotations.

(** Process [rank] of [world] processes that found each other. *)
Definition joined (e : environment) (rank world : nat) : Prop := forall b, init_process_group e b = Some (rank, world).
(** The rendezvous of the process failed. *)
Definition isolated (e : environment) : Prop := forall b, init_process_group e b = None.

(** Ranks of the processes on node [node]: launchers number them node by node ... *)
Definition block_ranks (per_node node : nat) : list nat := map (fun i => node * per_node + i) (seq 0 per_node).
(** ... or deal them to the nodes in turn. *)
Definition cyclic_ranks (nodes per_node node : nat) : list nat := map (fun i => i * nodes + node) (seq 0 per_node).
(** A CUDA device was requested, or none was and CUDA is available on a system that supports it. *)
Definition wants_cuda (e : environment) (requested : option device) : Prop :=
  (exists i, requested = Some (Cuda i)) \/ (requested = None /\ (system e = Linux \/ system e = Windows) /\ cuda_available e = true).
