(** Vocabulary of the optimization properties (C62-C64, C84, C85). *)
From Coq Require Import List Arith Reals.
From Verif Require Import RealSums.
Import ListNotations.
Local Open Scope R_scope.

(** A motor position respects its limits. *)
Definition within_limits (minimum maximum position : R) : Prop := minimum <= position <= maximum.
(** Position of heliostat [i] of group [g] when the heliostats of all groups are numbered one after the other. *)
Definition field_index (sizes : list nat) (g i : nat) : nat := (list_sum (firstn g sizes) + i)%nat.
(** Flux of all heliostats of the given groups in one pixel. *)
Definition flux_of_groups (sizes : list nat) (flux : nat -> nat -> R) (groups : list nat) : R :=
  Rsum (map (fun g => Rsum (map (flux g) (seq 0 (nth g sizes 0%nat)))) groups).
(** A control point of a facet with [height] rows and [width] columns is on the border. *)
Definition on_border (height width i j : nat) : Prop := i = 0%nat \/ j = 0%nat \/ S i = height \/ S j = width.
(** Every heliostat's factor is at least the reference. *)
Definition none_below (reference values : list R) : Prop := forall i r x, nth_error reference i = Some r -> nth_error values i = Some x -> r <= x.
(** No sample of heliostat [i] (of [k] samples per heliostat) lost more than the tolerated share of its flux. *)
Definition energy_kept (tolerance epsilon : R) (k i : nat) (references integrals : list R) : Prop :=
  forall j, (j < k)%nat -> nth (i * k + j) references 0 - tolerance * (nth (i * k + j) references 0 + epsilon) <= nth (i * k + j) integrals 0.
(** The mean of the gradients of one entry over the ranks. *)
Definition mean_gradient (l : list R) : R := Rsum l / INR (length l).
