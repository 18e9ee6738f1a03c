(** Vocabulary of the weights of constraints (C126). *)
From Coq Require Import List Arith Reals.
From Verif Require Import RealSums.
Import ListNotations.
Local Open Scope R_scope.

(** Sum of [f] over the epochs from [j] up to, but not including, [n]. *)
Definition sum_from (f : nat -> R) (j n : nat) : R := Rsum (map f (seq j (n - j))).
(** [w] is [rho] times the largest sum of [f] over the last epochs before epoch [n]: over however many of them make it largest,
    possibly none. *)
Definition largest_run (rho : R) (f : nat -> R) (n : nat) (w : R) : Prop :=
  (exists j, (j <= n)%nat /\ w = rho * sum_from f j n) /\ forall j, (j <= n)%nat -> rho * sum_from f j n <= w.
(** The share of [before] that is missing in [after]; negative if [after] is larger. *)
Definition share_lost (eps before after : R) : R := (before - after) / (before + eps).
(** [m] is the largest share by which a value of the list is above the bound, negative if all are below. *)
Definition largest_excess (eps bound : R) (values : list R) (m : R) : Prop :=
  (exists x, In x values /\ m = (x - bound) / (bound + eps)) /\ forall x, In x values -> (x - bound) / (bound + eps) <= m.
(** The mean of the shares lost, entry by entry. *)
Definition mean_share_lost (eps : R) (before after : list R) : R :=
  Rsum (map (fun i => share_lost eps (nth i before 0) (nth i after 0)) (seq 0 (length before))) / INR (length before).
(** By how much the [k] samples of heliostat [i] lost, on average, more than the tolerated share of their flux. *)
Definition energy_violation (tolerance eps : R) (k i : nat) (before after : list R) : R :=
  Rsum (map (fun j => Rmax 0 (share_lost eps (nth (i * k + j) before 0) (nth (i * k + j) after 0) - tolerance)) (seq 0 k)) / INR k.
(** The term an augmented Lagrangian adds to the loss for a constraint with weight [w] that is violated by [v]; a negative [v] is no
    violation. *)
Definition augmented (w rho v : R) : R := w * Rmax 0 v + 1/2 * rho * Rmax 0 v ^ 2.
