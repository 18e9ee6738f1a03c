(** Model of early stopping ([artist/optim/training.py]) and of the optimization loops of
    [artist/optim/kinematics_reconstructor.py], [artist/optim/surface_reconstructor.py] and
    [artist/optim/aim_point_optimizer.py]. *)
From Coq Require Import List Arith Reals Bool.
From Verif Require Import ModelField.
Import ListNotations.
Local Open Scope nat_scope.

(** [a > b] on floats (NaN is not modelled). *)
Definition Rgtb (a b : R) : bool := if Rlt_dec b a then true else false.

(** [EarlyStopping.__init__], artist/optim/training.py:123-156: configuration and state. *)
Record stopper_config := {
  window_size : nat; patience : nat; min_improvement : R; relative : bool; stopper_eps : R;
}.
Record stopper_state := { loss_window : list R; counter : nat }.
Definition new_stopper : stopper_state := {| loss_window := []; counter := 0 |}.

(** [deque(maxlen=m).append(x)]: the oldest entries are dropped from the left. *)
Definition deque_append (maxlen : nat) (d : list R) (x : R) : list R :=
  let d' := d ++ [x] in skipn (List.length d' - maxlen) d'.

(** [EarlyStopping.step], artist/optim/training.py:158-185. An empty deque (window_size 0) makes
    [self.loss_history[0]] raise an IndexError. *)
Definition stopper_step (cfg : stopper_config) (st : stopper_state) (loss : R)
  : res (bool * stopper_state) :=
  let window := deque_append (window_size cfg) (loss_window st) loss in
  if List.length window <? window_size cfg
  then Ok (false, {| loss_window := window; counter := counter st |})
  else
    match window with
    | [] => Err IndexError
    | first :: _ =>
      let improvement := (first - last window first)%R in
      let improvement :=
        if relative cfg then (improvement / Rmax (Rabs first) (stopper_eps cfg))%R else improvement in
      let c := if Rgtb improvement (min_improvement cfg) then 0 else S (counter st) in
      Ok (patience cfg <=? c, {| loss_window := window; counter := c |})
    end.

(** A history of steps; the result is the state after the last one. *)
Fixpoint stopper_run (cfg : stopper_config) (st : stopper_state) (losses : list R) : res stopper_state :=
  match losses with
  | [] => Ok st
  | l :: losses' =>
    match stopper_step cfg st l with
    | Ok (_, st') => stopper_run cfg st' losses'
    | Err e => Err e
    end
  end.

(** ** Optimization loops *)

(** Where an epoch's loss is recorded: the aim point optimizer appends before the early-stopping test
    (artist/optim/aim_point_optimizer.py:917-951), the reconstructors after it
    (artist/optim/kinematics_reconstructor.py:849-855, 1024-1030,
    artist/optim/surface_reconstructor.py:1079-1110). *)
Inductive recording := RecordBeforeStopTest | RecordAfterStopTest.

Record loop_config := {
  tolerance : R; max_epoch : nat; log_step : nat; stopper : stopper_config; record : recording;
}.

Record loop_result := {
  executed : nat;             (* number of executed epochs = number of gradient synchronizations *)
  history : list R;           (* recorded losses *)
  final_loss : option R;      (* [None] is the initial infinity *)
  stopped_early : bool;
}.

Inductive loop_outcome := Finished (r : loop_result) | Raised (e : error) | OutOfFuel.

(** The common loop, artist/optim/aim_point_optimizer.py:826-953,
    artist/optim/kinematics_reconstructor.py:797-855 and 971-1030,
    artist/optim/surface_reconstructor.py:960-1112.
    [losses e] is the loss computed in epoch [e]; it is arbitrary, so it covers every optimizer,
    scheduler and ray tracing result.  [loss] is [None] for the initial [torch.inf].  The logging test
    [epoch % log_step] raises ZeroDivisionError if the effective log step is zero. *)
Fixpoint optimization_loop (fuel : nat) (cfg : loop_config) (losses : nat -> R)
  (epoch : nat) (loss : option R) (st : stopper_state) (hist : list R) : loop_outcome :=
  match fuel with
  | 0 => OutOfFuel
  | S fuel' =>
    let above := match loss with None => true | Some l => Rgtb l (tolerance cfg) end in
    if above && (epoch <=? max_epoch cfg) then
      let l := losses epoch in
      let effective_log_step := if log_step cfg =? 0 then max_epoch cfg else log_step cfg in
      if effective_log_step =? 0 then Raised ZeroDivisionError
      else
        match stopper_step (stopper cfg) st l with
        | Err e => Raised e
        | Ok (stop, st') =>
          if stop then
            Finished {| executed := S epoch;
                        history := match record cfg with
                                   | RecordBeforeStopTest => hist ++ [l]
                                   | RecordAfterStopTest => hist
                                   end;
                        final_loss := Some l; stopped_early := true |}
          else optimization_loop fuel' cfg losses (S epoch) (Some l) st' (hist ++ [l])
        end
    else Finished {| executed := epoch; history := hist; final_loss := loss; stopped_early := false |}
  end.

Definition run_loop (cfg : loop_config) (losses : nat -> R) : loop_outcome :=
  optimization_loop (max_epoch cfg + 2) cfg losses 0 None new_stopper [].

(** ** Nested data parallel runs *)

(** In nested mode every executed epoch of the reconstructors performs the same collective gradient
    reductions over the ranks of the group (artist/optim/kinematics_reconstructor.py:624-648,
    artist/optim/surface_reconstructor.py:767-777), while the loop condition and the early stopping of a
    rank look at the rank's own loss.  A collective operation completes only when all ranks of the
    subgroup issue it, so the group leaves the loop without blocking exactly when all its ranks execute
    the same number of epochs.  [losses r e] is the local loss of rank [r] in epoch [e]. *)
Definition epochs_of_rank (cfg : loop_config) (losses : nat -> nat -> R) (rank : nat) : option nat :=
  match run_loop cfg (losses rank) with
  | Finished r => Some (executed r)
  | _ => None
  end.
