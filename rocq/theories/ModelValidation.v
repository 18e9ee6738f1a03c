(** Model of the validation on held-out samples in [artist/optim/kinematics_reconstructor.py] and
    [artist/optim/surface_reconstructor.py]. *)
From Coq Require Import List Arith Reals Bool.
From Verif Require Import ModelField ModelDistributed ModelLosses ModelReconstruction.
Import ListNotations.
Local Open Scope nat_scope.

Section Validation.
(** [I]: what a sample is predicted from (motor positions or aim point, incident ray direction, target area), [P]: predicted and
    [M]: measured fluxes.  [predict i x] is the flux of heliostat [i] for the inputs [x]; [unwritten s]: uninitialised memory in row [s] of
    the fluxes; [input i k] and [measured i k] belong to sample [k] of heliostat [i]. *)
Context {I P M : Type}.
Variables (predict : nat -> I -> P) (unwritten : nat -> P) (loss_definition : P -> M -> R) (reduction : list R -> R).
Variables (input : nat -> nat -> I) (measured : nat -> nat -> M).

(** [_validate] for one group whose calibration data have the given mask, for one of its losses.  The group is activated with the
    test mask, so the row of a heliostat is repeated for its test samples; inputs and measurements are selected with the test
    indices (training.py:351-356).  A number of inputs that differs from the number of active rows is rejected by the alignment.
    The tracer writes the rows of its sampler, and the measurements of these rows are compared with all rows.  Cropping of the
    fluxes (surfaces only, C52) is part of [loss_definition]. *)
Definition validate (mask : list nat) (test_of_count : nat -> nat) (members rank_in_group : nat) : res (list R) :=
  bind (train_test_split mask test_of_count) (fun split =>
  bind (select_rows (map (fun '(i, k) => input i k) (sample_rows mask)) (sr_test_indices split)) (fun inputs =>
  bind (select_rows (map (fun '(i, k) => measured i k) (sample_rows mask)) (sr_test_indices split)) (fun measured_test =>
  let heliostats := map fst (sample_rows (sr_mask_test split)) in
  if negb (length inputs =? length heliostats) then Err RuntimeError
  else
    let sampler := tracer_sampler_indices (sr_mask_test split) members rank_in_group in
    let rows := map (fun '(s, (i, x)) => if existsb (Nat.eqb s) sampler then predict i x else unwritten s) (combine (seq 0 (length inputs)) (combine heliostats inputs)) in
    bind (select_rows measured_test sampler) (fun truth =>
    bind (broadcast_loss loss_definition rows truth) (fun loss_per_sample =>
    reduce_loss_per_sample loss_per_sample (sr_number_of_test split) reduction))))).

(** kinematics_reconstructor.py:184-295: the tracer is created without a world size and rank, whose defaults are 1 and 0, so every
    rank traces all test samples. *)
Definition validate_kinematics (mask : list nat) (test_of_count : nat -> nat) : res (list R) := validate mask test_of_count 1 0.
(** surface_reconstructor.py:157-303: the tracer handles the share of this rank within the ranks of the group. *)
Definition validate_surfaces (mask : list nat) (test_of_count : nat -> nat) (members rank_in_group : nat) : res (list R) :=
  validate mask test_of_count members rank_in_group.
End Validation.
