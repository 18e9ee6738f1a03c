(** Vocabulary of C10, C11, C68. *)
From Coq Require Import List Arith Reals.
Import ListNotations.
Local Open Scope nat_scope.

(** Improvement from the first to the last loss of the last [w] losses of a history. *)
Definition window_improvement (w : nat) (rel : bool) (eps : R) (h : list R) : R :=
  let first := nth (List.length h - w) h 0%R in
  let latest := nth (List.length h - 1) h 0%R in
  if rel then ((first - latest) / Rmax (Rabs first) eps)%R else (first - latest)%R.

(** A history is stale if it fills a window and the window shows no sufficient improvement. *)
Definition stale (w : nat) (threshold : R) (rel : bool) (eps : R) (h : list R) : Prop :=
  w <= List.length h /\ (window_improvement w rel eps h <= threshold)%R.
