(** C101-C104: what the optimization loops report and what they leave in the scenario. *)
From Coq Require Import List Arith Reals Bool Lia Lra.
From Verif Require Import ModelField ModelTraining ModelOptimization ModelEpochs SpecEpochs ProofsEpochs.
Import ListNotations.
Local Open Scope nat_scope.

(** C101.  The optimization with a Kullback-Leibler loss ends after at least one and at most [max_epoch + 1] epochs.  The motor
    positions it leaves in the scenario are those of the last executed epoch; the loss and the fractions of rays it returns are the
    loss and the fractions of exactly these motor positions, and the history has the losses of all executed epochs in order. *)
Theorem C101_results_of_stored_motors : forall (P M F : Type) cfg (motors : P -> M) (factors : M -> F) (loss_at : nat -> M -> R) step p0,
  1 <= window_size (stopper cfg) -> 1 <= log_interval cfg ->
  exists r, optimize_aim_points cfg KullbackLeibler motors factors loss_at step p0 = Done r
  /\ 1 <= aim_executed r <= max_epoch cfg + 1
  /\ aim_motors r = motors (after step (aim_executed r - 1) p0)
  /\ aim_loss r = Some (loss_at (aim_executed r - 1) (aim_motors r))
  /\ aim_factors r = factors (aim_motors r)
  /\ aim_history r = map (fun e => loss_at e (motors (after step e p0))) (seq 0 (aim_executed r)).
Proof. intros P M F. exact aim_reported. Qed.
Print Assumptions C101_results_of_stored_motors.

Definition example_config (epochs logs window : nat) : loop_config :=
  {| tolerance := 0%R; max_epoch := epochs; log_step := logs;
     stopper := {| window_size := window; patience := 1; min_improvement := 0%R; relative := false; stopper_eps := 0%R |}; record := RecordAfterStopTest |}.

Example C101_case : exists r, optimize_aim_points (example_config 2 1 3) KullbackLeibler (fun p : nat => p) (fun m => 2 * m) (fun _ m => 5 - INR m)%R (fun _ p => S p) 0 = Done r
  /\ aim_factors r = 2 * aim_motors r /\ aim_loss r = Some (5 - INR (aim_motors r))%R.
Proof.
  destruct (C101_results_of_stored_motors nat nat nat (example_config 2 1 3) (fun p => p) (fun m => 2 * m) (fun _ m => 5 - INR m)%R (fun _ p => S p) 0) as (r & E & X & MO & LO & FA & _);
    [cbn; lia | cbn; lia |]. exists r. auto.
Qed.

(** C102 (full statement: the losses returned by a reconstruction are the losses of the parameters left in the scenario).  Whenever
    a step changes the losses, it fails: the losses are those before the last step. *)
Theorem C102_losses_of_stored_parameters_refuted : forall (P T : Type) cfg (losses : P -> list R) (validate : P -> T) step p0,
  1 <= window_size (stopper cfg) -> 1 <= log_interval cfg -> (forall e p, losses (step e p) <> losses p) ->
  exists r, reconstruct_parameters cfg (fun _ => losses) validate step p0 = Done r /\ rec_losses r <> losses (rec_parameters r).
Proof. exact reported_before_last_step. Qed.
Print Assumptions C102_losses_of_stored_parameters_refuted.

Theorem C102_one_step_behind_partial : forall (P T : Type) cfg (losses_at : nat -> P -> list R) (validate : P -> T) step p0,
  1 <= window_size (stopper cfg) -> 1 <= log_interval cfg ->
  exists r, reconstruct_parameters cfg losses_at validate step p0 = Done r
  /\ 1 <= rec_executed r <= max_epoch cfg + 1
  /\ rec_losses r = losses_at (rec_executed r - 1) (after step (rec_executed r - 1) p0)
  /\ rec_parameters r = after step (rec_executed r) p0.
Proof. exact one_step_behind. Qed.
Print Assumptions C102_one_step_behind_partial.

Example C102_case : exists r, reconstruct_parameters (example_config 2 1 3) (fun _ p => [INR p]) (fun p : nat => p) (fun _ p => S p) 7 = Done r
  /\ rec_losses r <> [INR (rec_parameters r)].
Proof.
  apply (C102_losses_of_stored_parameters_refuted nat nat (example_config 2 1 3) (fun p => [INR p]) (fun p => p) (fun _ p => S p) 7); try (cbn; lia).
  intros e p Q. assert (INR (S p) = INR p) as Q2 by congruence. apply INR_eq in Q2. lia.
Qed.

(** C103 (full statement: the test loss returned by a reconstruction is the loss of the parameters left in the scenario on the test
    data).  It holds if the run was stopped early or the last executed epoch was logged, or if the run has exactly [max_epoch]
    epochs; in any case the test loss is that of the parameters at most [log_interval - 1] steps earlier. *)
Theorem C103_test_losses_partial : forall (P T : Type) cfg (losses_at : nat -> P -> list R) (validate : P -> T) step p0,
  1 <= window_size (stopper cfg) -> 1 <= log_interval cfg ->
  exists r, reconstruct_parameters cfg losses_at validate step p0 = Done r
  /\ (length (rec_history r) < rec_executed r \/ (rec_executed r - 1) mod log_interval cfg = 0 \/ rec_executed r = max_epoch cfg ->
      rec_test r = validate (rec_parameters r))
  /\ exists k, 1 <= k <= rec_executed r /\ rec_executed r < k + log_interval cfg /\ rec_test r = validate (after step k p0).
Proof. exact test_losses. Qed.
Print Assumptions C103_test_losses_partial.

(** The loop has [max_epoch + 1] epochs, but the epoch validated as the last one is the one before: a run through all epochs reports
    a test loss that misses the last step, unless [log_step] divides [max_epoch]. *)
Theorem C103_last_epoch_refuted : forall (P T : Type) cfg (losses_at : nat -> P -> list R) (validate : P -> T) step p0,
  max_epoch cfg + 1 < window_size (stopper cfg) -> 1 <= log_step cfg -> max_epoch cfg mod log_step cfg <> 0 ->
  (forall e p, (tolerance cfg < mean (losses_at e p))%R) -> (forall e p, validate (step e p) <> validate p) ->
  exists r, reconstruct_parameters cfg losses_at validate step p0 = Done r /\ rec_test r <> validate (rec_parameters r).
Proof. exact test_loss_stale. Qed.
Print Assumptions C103_last_epoch_refuted.

Example C103_case : exists r, reconstruct_parameters (example_config 5 3 9) (fun _ _ => [1%R]) (fun p : nat => p) (fun _ p => S p) 7 = Done r
  /\ rec_test r <> rec_parameters r.
Proof.
  apply (C103_last_epoch_refuted nat nat (example_config 5 3 9) (fun _ _ => [1%R]) (fun p => p) (fun _ p => S p) 7); try (cbn; lia).
  intros e p. cbn. unfold mean. cbn. lra.
Qed.

(** C104 (full statement: aim points can be optimized with every loss).  With a loss other than the Kullback-Leibler loss the first
    epoch raises an exception. *)
Theorem C104_other_losses_refuted : forall (P M F : Type) cfg (motors : P -> M) (factors : M -> F) (loss_at : nat -> M -> R) step p0,
  optimize_aim_points cfg OtherLoss motors factors loss_at step p0 = Failed RuntimeError.
Proof. intros P M F. exact other_losses_fail. Qed.
Print Assumptions C104_other_losses_refuted.

Theorem C104_kullback_leibler_partial : forall (P M F : Type) cfg (motors : P -> M) (factors : M -> F) (loss_at : nat -> M -> R) step p0,
  1 <= window_size (stopper cfg) -> 1 <= log_interval cfg ->
  exists r, optimize_aim_points cfg KullbackLeibler motors factors loss_at step p0 = Done r.
Proof. exact kullback_leibler_works. Qed.
Print Assumptions C104_kullback_leibler_partial.

Example C104_case : optimize_aim_points (example_config 2 1 3) OtherLoss (fun p : nat => p) (fun m => 2 * m) (fun _ m => 5 - INR m)%R (fun _ p => S p) 0 = Failed RuntimeError
  /\ exists r, optimize_aim_points (example_config 2 1 3) KullbackLeibler (fun p : nat => p) (fun m => 2 * m) (fun _ m => 5 - INR m)%R (fun _ p => S p) 0 = Done r.
Proof. split; [apply C104_other_losses_refuted|]. apply C104_kullback_leibler_partial; cbn; lia. Qed.
