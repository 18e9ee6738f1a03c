(** Model of the epochs of an optimization as one entry of its parameters sees them: steps of the optimizer and of the scheduler. *)
From Coq Require Import List Arith Reals.
From Verif Require Import ModelField ModelSchedulers ModelOptimization.
Import ListNotations.
Local Open Scope R_scope.

(** The first of the [betas] of [torch.optim.Adam] in an epoch.  [training.cyclic] leaves [cycle_momentum] of [CyclicLR] at its default,
    training.py:56-61: it moves down from 0.9 to 0.8 while the learning rate moves up and back.  The other schedulers do not change it. *)
Definition momentum (s : scheduler) (n : nat) : R :=
  match s with
  | Cyclic _ _ up => cyclic_rate (9 / 10) (8 / 10) up n
  | _ => 9 / 10
  end.

(** [optimizer.step()] and then [scheduler.step()], kinematics_reconstructor.py:828-834 and 995-1001, surface_reconstructor.py:1068-1074,
    aim_point_optimizer.py:910-914.  Gradients and losses of the epochs are arbitrary. *)
Definition learning_epoch (s : scheduler) (state : scheduler_state * adam) (epoch : R * R) : scheduler_state * adam :=
  let '(st, a) := state in
  let '(gradient, loss) := epoch in
  (scheduler_step s st loss, adam_step (rate st) (momentum s (steps st)) a gradient).
Definition learning (s : scheduler) (st : scheduler_state) (start : R) (epochs : list (R * R)) : scheduler_state * adam :=
  fold_left (learning_epoch s) epochs (st, fresh start).
(** The learning rate of the next epoch and the present value of the entry. *)
Definition next_rate (s : scheduler) (st : scheduler_state) (start : R) (epochs : list (R * R)) : R := rate (fst (learning s st start epochs)).
Definition trained (s : scheduler) (st : scheduler_state) (start : R) (epochs : list (R * R)) : R := a_value (snd (learning s st start epochs)).
