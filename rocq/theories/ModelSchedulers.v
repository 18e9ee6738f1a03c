(** Model of the learning rate schedulers of [artist/optim/training.py] and of their use by ranks that share a heliostat group.
    The schedulers are those of [torch.optim.lr_scheduler]; what is modelled here is their documented behaviour with the parameters
    the source gives them and the defaults for all others. *)
From Coq Require Import List Arith Reals Bool.
From Verif Require Import RealSums ModelField.
Import ListNotations.
Local Open Scope R_scope.

(** The three functions a configuration may name, training.py:13-90; [getattr] of another name is not modelled. *)
Inductive scheduler :=
| Exponential (gamma : R)
| Cyclic (lr_min lr_max : R) (step_size_up : nat)
| ReduceOnPlateau (factor : R) (patience : nat) (threshold : R) (cooldown : nat) (lr_min : R).

(** [last_epoch], the learning rate in the optimizer, and the state of the plateau scheduler; [None] is infinity. *)
Record scheduler_state := { steps : nat; rate : R; best : option R; bad_epochs : nat; cooling : nat }.

(** Learning rate of [CyclicLR] in mode "triangular" with equal step sizes up and down. *)
Definition cyclic_rate (lr_min lr_max : R) (step_size_up n : nat) : R :=
  let total := INR (step_size_up + step_size_up) in
  let ratio := INR step_size_up / total in
  let position := 1 + INR n / total in
  let cycle := IZR (Int_part position) in
  let x := 1 + INR n / total - cycle in
  let scale := if Rle_dec x ratio then x / ratio else (x - 1) / (ratio - 1) in
  lr_min + (lr_max - lr_min) * scale.

(** Creation of optimizer and scheduler, kinematics_reconstructor.py:393-410, surface_reconstructor.py:448-465,
    aim_point_optimizer.py:280-294.  [CyclicLR] overwrites the learning rate of the optimizer with its lower bound.
    [ReduceLROnPlateau] rejects factors of one or more. *)
Definition create_scheduler (s : scheduler) (initial_rate : R) : res scheduler_state :=
  let state r := {| steps := 0; rate := r; best := None; bad_epochs := 0; cooling := 0 |} in
  match s with
  | Exponential _ => Ok (state initial_rate)
  | Cyclic lr_min lr_max up => if (up =? 0)%nat then Err ZeroDivisionError else Ok (state (cyclic_rate lr_min lr_max up 0))
  | ReduceOnPlateau factor _ _ _ _ => if Rlt_dec factor 1 then Ok (state initial_rate) else Err ValueError
  end.

(** [is_better] with mode "min" and threshold mode "rel". *)
Definition is_better (threshold loss : R) (best : option R) : bool :=
  match best with
  | None => if Rlt_dec threshold 1 then true else false
  | Some b => if Rlt_dec loss (b * (1 - threshold)) then true else false
  end.

(** [scheduler.step()] or [scheduler.step(loss)], kinematics_reconstructor.py:829-834 and 996-1001, surface_reconstructor.py:1069-1074,
    aim_point_optimizer.py:911-914: the loss is only used by the plateau scheduler.  Reductions of at most [eps = 1e-8] are not made. *)
Definition scheduler_step (s : scheduler) (st : scheduler_state) (loss : R) : scheduler_state :=
  let n := S (steps st) in
  match s with
  | Exponential gamma => {| steps := n; rate := rate st * gamma; best := best st; bad_epochs := bad_epochs st; cooling := cooling st |}
  | Cyclic lr_min lr_max up => {| steps := n; rate := cyclic_rate lr_min lr_max up n; best := best st; bad_epochs := bad_epochs st; cooling := cooling st |}
  | ReduceOnPlateau factor patience threshold cooldown lr_min =>
    let better := is_better threshold loss (best st) in
    let best' := if better then Some loss else best st in
    let bad := if better then 0%nat else S (bad_epochs st) in
    let cooling' := (cooling st - 1)%nat in
    let bad := if (0 <? cooling st)%nat then 0%nat else bad in
    if (patience <? bad)%nat
    then let reduced := Rmax (rate st * factor) lr_min in
         {| steps := n; rate := if Rlt_dec (/ 10 ^ 8) (rate st - reduced) then reduced else rate st; best := best'; bad_epochs := 0; cooling := cooldown |}
    else {| steps := n; rate := rate st; best := best'; bad_epochs := bad; cooling := cooling' |}
  end.
Definition scheduler_run (s : scheduler) (st : scheduler_state) (losses : list R) : scheduler_state := fold_left (scheduler_step s) losses st.

(** ** Ranks that share a group *)
Section Shared.
(** [P]: parameters of the group, [Q]: state of the optimizer (with what [CyclicLR] does to the momentum); a gradient has as many entries as the parameters.  [adam] is the
    optimizer step with the synchronized gradient and the learning rate, [gradient r p] and [loss r p] are what rank [r] computes
    from its samples; all are arbitrary. *)
Context {P Q : Type}.
Variables (s : scheduler) (adam : Q -> R -> list R -> P -> Q * P) (gradient : nat -> P -> list R) (loss : nat -> P -> R).
Record rank_state := { parameters : P; optimizer : Q; schedule : scheduler_state }.

(** The mean over the ranks, kinematics_reconstructor.py:638-648, surface_reconstructor.py:768-777. *)
Definition mean_gradient (gradients : list (list R)) : list R :=
  map (fun j => Rsum (map (fun g => nth j g 0) gradients) / INR (length gradients)) (seq 0 (length (hd [] gradients))).
(** One epoch of all ranks of a group, kinematics_reconstructor.py:976-1001, surface_reconstructor.py:1054-1077. *)
Definition shared_epoch (states : list rank_state) : list rank_state :=
  let mean := mean_gradient (map (fun '(r, st) => gradient r (parameters st)) (combine (seq 0 (length states)) states)) in
  map (fun '(r, st) =>
    let '(q, p) := adam (optimizer st) (rate (schedule st)) mean (parameters st) in
    {| parameters := p; optimizer := q; schedule := scheduler_step s (schedule st) (loss r (parameters st)) |}) (combine (seq 0 (length states)) states).
Fixpoint shared_epochs (n : nat) (states : list rank_state) : list rank_state :=
  match n with O => states | S n' => shared_epochs n' (shared_epoch states) end.
End Shared.
Arguments rank_state : clear implicits.
