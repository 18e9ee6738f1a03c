(** Model of what the optimization loops of [artist/optim/aim_point_optimizer.py], [artist/optim/kinematics_reconstructor.py] and
    [artist/optim/surface_reconstructor.py] leave behind: parameters, motor positions, losses and test losses.  The control flow is
    that of ModelTraining; here the parameters are followed as well. *)
From Coq Require Import List Arith Reals Bool.
From Verif Require Import ModelField ModelTraining ModelOptimization.
Import ListNotations.
Local Open Scope nat_scope.

Definition log_interval (cfg : loop_config) : nat := if log_step cfg =? 0 then max_epoch cfg else log_step cfg.
Definition above_tolerance (cfg : loop_config) (loss : option R) : bool := match loss with None => true | Some l => Rgtb l (tolerance cfg) end.

(** ** Aim points *)
(** [loss_definition] is an instance of [KLDivergenceLoss] or of another subclass of [Loss]. *)
Inductive loss_kind := KullbackLeibler | OtherLoss.
Record aim_result {M F : Type} := { aim_executed : nat; aim_loss : option R; aim_history : list R; aim_factors : F; aim_motors : M }.
Arguments aim_result : clear implicits.
Inductive outcome (A : Type) := Done (a : A) | Failed (e : error) | NoFuel.
Arguments Done {A} a. Arguments Failed {A} e. Arguments NoFuel {A}.

Section AimPoints.
(** [P]: the parameters of the optimizer, [M]: motor positions of the field, [F]: the fractions of rays of all heliostats.
    [motors] is the reparametrization (C62), [factors] the tracing, [loss_at e] the total loss in epoch [e] (it depends on the
    multipliers of earlier epochs, C63) and [step e] the optimizer and scheduler step of epoch [e]; all are arbitrary. *)
Context {P M F : Type}.
Variables (cfg : loop_config) (kind : loss_kind) (motors : P -> M) (factors : M -> F) (loss_at : nat -> M -> R) (step : nat -> P -> P).

(** The loop of [optimize], aim_point_optimizer.py:826-960.  [stored] are the motor positions in the scenario.  [loss] is [None]
    while it is the constant [torch.tensor(torch.inf)] of line 832, whose [backward] raises a RuntimeError (line 897).  If no
    epoch is executed the factors are unbound at line 972. *)
Fixpoint aim_loop (fuel epoch : nat) (loss : option R) (st : stopper_state) (hist : list R) (p : P) (stored : M) (seen : option F)
  : outcome (aim_result M F) :=
  match fuel with
  | 0 => NoFuel
  | S fuel' =>
    if above_tolerance cfg loss && (epoch <=? max_epoch cfg) then
      let stored := motors p in
      let seen := factors stored in
      let loss := match kind with KullbackLeibler => Some (loss_at epoch stored) | OtherLoss => loss end in
      match loss with
      | None => Failed RuntimeError
      | Some l =>
        let p := step epoch p in
        if log_interval cfg =? 0 then Failed ZeroDivisionError
        else
          let hist := hist ++ [l] in
          match stopper_step (stopper cfg) st l with
          | Err e => Failed e
          | Ok (true, _) => Done {| aim_executed := S epoch; aim_loss := Some l; aim_history := hist; aim_factors := seen; aim_motors := stored |}
          | Ok (false, st) => aim_loop fuel' (S epoch) (Some l) st hist p stored (Some seen)
          end
      end
    else match seen with
         | None => Failed UnboundLocalError
         | Some f => Done {| aim_executed := epoch; aim_loss := loss; aim_history := hist; aim_factors := f; aim_motors := stored |}
         end
  end.
Definition optimize_aim_points (p : P) : outcome (aim_result M F) :=
  aim_loop (max_epoch cfg + 2) 0 None new_stopper [] p (motors p) None.
End AimPoints.

(** ** Reconstructions *)
Record reconstruction {P T : Type} := { rec_executed : nat; rec_losses : list R; rec_history : list R; rec_test : T; rec_parameters : P }.
Arguments reconstruction : clear implicits.

Section Reconstruction.
(** [losses_at e p]: the losses of the heliostats in epoch [e] for parameters [p]; [validate p]: the losses on the test data. *)
Context {P T : Type}.
Variables (cfg : loop_config) (losses_at : nat -> P -> list R) (validate : P -> T) (step : nat -> P -> P).

(** The loops of the reconstructors for one group, kinematics_reconstructor.py:788-859 and 961-1033,
    surface_reconstructor.py:948-1127: the losses are computed, then the optimizer changes the parameters, then the validation
    sees the changed parameters.  [is_last_epoch] is [epoch == max_epoch - 1], an integer comparison. *)
Fixpoint reconstruction_loop (fuel epoch : nat) (loss : option R) (losses : list R) (st : stopper_state) (hist : list R) (p : P) (test : option T)
  : outcome (reconstruction P T) :=
  match fuel with
  | 0 => NoFuel
  | S fuel' =>
    let finish executed losses hist p test :=
      match test with
      | None => Failed UnboundLocalError
      | Some t => Done {| rec_executed := executed; rec_losses := losses; rec_history := hist; rec_test := t; rec_parameters := p |}
      end in
    if above_tolerance cfg loss && (epoch <=? max_epoch cfg) then
      let losses := losses_at epoch p in
      let l := mean losses in
      let p := step epoch p in
      match stopper_step (stopper cfg) st l with
      | Err e => Failed e
      | Ok (stop, st) =>
        if log_interval cfg =? 0 then Failed ZeroDivisionError
        else
          let test := if (epoch mod log_interval cfg =? 0) || (S epoch =? max_epoch cfg) || stop then Some (validate p) else test in
          if stop then finish (S epoch) losses hist p test
          else reconstruction_loop fuel' (S epoch) (Some l) losses st (hist ++ [l]) p test
      end
    else finish epoch losses hist p test
  end.
Definition reconstruct_parameters (p : P) : outcome (reconstruction P T) :=
  reconstruction_loop (max_epoch cfg + 2) 0 None [] new_stopper [] p None.
End Reconstruction.
