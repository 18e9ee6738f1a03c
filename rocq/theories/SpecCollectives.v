(** Vocabulary of the properties of distributed aim point optimizations (C105, C106). *)
From Coq Require Import List Arith Reals.
From Verif Require Import RealSums.
Import ListNotations.
Local Open Scope nat_scope.

(** The mean over [ranks] of tensors with [size] entries. *)
Definition mean_tensor (ranks size : nat) (tensor : nat -> list R) : list R :=
  map (fun j => (Rsum (map (fun r => nth j (tensor r) 0%R) (seq 0 ranks)) / INR ranks)%R) (seq 0 size).
