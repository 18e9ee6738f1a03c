(** Model of the control points the regularizers of [artist/optim/surface_reconstructor.py] compare. *)
From Coq Require Import List Arith Bool.
From Verif Require Import ModelField ModelDistributed ModelReconstruction.
Import ListNotations.
Local Open Scope nat_scope.

(** [current i] and [original i] are the control points of heliostat [i] of the group now and before the reconstruction.
    The originals are kept for [active_heliostats_mask > 0], surface_reconstructor.py:421-427; the active control points have one
    row per training sample (activation with the training mask, 515-519, heliostat_group.py:245-275); the local indices are those
    of lines 585-589, and the pairs those of 726-741. *)
Definition regularized_pairs {A} (mask : list nat) (test_of_count : nat -> nat) (current original : nat -> A) (members rank_in_group : nat)
  : res (list (A * A)) :=
  bind (train_test_split mask test_of_count) (fun split =>
  let train := sr_number_of_train split in
  let originals := map original (active_indices mask) in
  let active := map (fun '(i, _) => current i) (sample_rows (sr_mask_train split)) in
  let sampler := tracer_sampler_indices (sr_mask_train split) members rank_in_group in
  bind (every train sampler) (fun first_samples =>
  let local_indices := map (fun s => s / train) first_samples in
  bind (every train active) (fun per_heliostat =>
  bind (select_rows per_heliostat local_indices) (fun now =>
  bind (select_rows originals local_indices) (fun before => Ok (combine now before)))))).
