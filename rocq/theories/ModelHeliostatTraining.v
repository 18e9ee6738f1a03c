(** Model of the reconstruction of all heliostats of one group by one process as the heliostats see it: [kinematics_reconstructor.py]
    (both methods).  The loop is that of ModelEpochs, the steps of optimizer and scheduler those of ModelOptimization and
    ModelSchedulers. *)
From Coq Require Import List Arith Reals Bool.
From Verif Require Import RealSums ModelField ModelTraining ModelOptimization ModelSchedulers ModelLearning ModelEpochs.
Import ListNotations.
Local Open Scope R_scope.

(** Parameters of all heliostats of the group with the optimizer's state for them: heliostat and number of the parameter. *)
Definition group_state : Type := nat -> nat -> adam.
Definition parameters_of (f : group_state) (heliostat : nat) : nat -> R := fun j => a_value (f heliostat j).

Section Group.
(** [own_loss h p]: the loss of heliostat [h] over its training samples when its parameters are [p], [own_gradient h p]: its
    derivatives (automatic differentiation); both are arbitrary.  They use the measurements, motor positions and sun positions of [h]
    and nothing of the other heliostats: motors give the orientation of each row (C36), the rows are traced without blocking, and
    losses are reduced per heliostat (C50, C66). *)
Variables (own_loss : nat -> (nat -> R) -> R) (own_gradient : nat -> (nat -> R) -> nat -> R).
(** The heliostats with measurements. *)
Variables (s : scheduler) (active : list nat).

(** [loss_per_heliostat], kinematics_reconstructor.py:523-527 and 614-618. *)
Definition losses_of (state : scheduler_state * group_state) : list R := map (fun h => own_loss h (parameters_of (snd state) h)) active.
(** [loss.backward()] with the mean over the heliostats, lines 529 and 620: parameters of heliostats without measurements do not occur
    in the loss. *)
Definition gradient_of (f : group_state) (h j : nat) : R :=
  if existsb (Nat.eqb h) active then own_gradient h (parameters_of f h) j / INR (length active) else 0.
(** Steps of optimizer and scheduler, lines 828-834 and 995-1001. *)
Definition group_epoch (state : scheduler_state * group_state) : scheduler_state * group_state :=
  let '(st, f) := state in
  (scheduler_step s st (mean (losses_of state)),
   fun h j => adam_step (rate st) (momentum s (steps st)) (f h j) (gradient_of f h j)).
(** The optimization of one group, lines 371-419 and 779-859 or 949-1033; [initial] are the parameters before, for all heliostats. *)
Definition train_group {T} (cfg : loop_config) (validate : scheduler_state * group_state -> T) (st : scheduler_state) (initial : nat -> nat -> R)
  : outcome (reconstruction (scheduler_state * group_state) T) :=
  reconstruct_parameters cfg (fun _ => losses_of) validate (fun _ => group_epoch) (st, fun h j => fresh (initial h j)).
End Group.
