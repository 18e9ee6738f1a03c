(** C130, C131: what the reconstruction of one heliostat depends on. *)
From Coq Require Import List Arith Reals Bool Lra Lia.
From Verif Require Import RealSums ModelField ModelTraining ModelOptimization ModelSchedulers ModelLearning ModelEpochs ModelHeliostatTraining ProofsHeliostatTraining.
Import ListNotations.
Local Open Scope R_scope.

(** C130 (full statement: the parameters found for a heliostat only depend on its own measurements and initial parameters, not on the
    other heliostats that are reconstructed together with it).  With exponential and cyclic learning rates they are the same in all
    reconstructions with the same number of heliostats and epochs, whatever the other heliostats and their measurements are and wherever
    the heliostat stands in the group; so is the reported loss. *)
Theorem C130_own_measurements_partial : forall T T' own_loss own_loss' own_gradient own_gradient' s active active' h h' cfg cfg' (validate : _ -> T) (validate' : _ -> T') st initial initial' r r',
  (forall factor patience threshold cooldown lr_min, s <> ReduceOnPlateau factor patience threshold cooldown lr_min) ->
  length active = length active' -> In h active -> In h' active' ->
  (forall p j, own_gradient h p j = own_gradient' h' p j) -> (forall p, own_loss h p = own_loss' h' p) -> (forall j, initial h j = initial' h' j) ->
  train_group own_loss own_gradient s active cfg validate st initial = Done r -> train_group own_loss' own_gradient' s active' cfg' validate' st initial' = Done r' ->
  rec_executed r = rec_executed r' ->
  (forall j, parameters_of (snd (rec_parameters r)) h j = parameters_of (snd (rec_parameters r')) h' j)
  /\ forall i i', nth_error active i = Some h -> nth_error active' i' = Some h' -> nth_error (rec_losses r) i = nth_error (rec_losses r') i'.
Proof. exact only_own. Qed.
Print Assumptions C130_own_measurements_partial.

(** With another number of heliostats they are different: already the first epoch gives every parameter with a gradient another value,
    because the gradient is divided by the number of heliostats and the optimizer adds 1e-8 to its size. *)
Theorem C130_number_refuted : forall T T' own_loss own_loss' own_gradient s active active' h j cfg cfg' (validate : _ -> T) (validate' : _ -> T') st initial r r' lr,
  create_scheduler s lr = Ok st -> rate st <> 0 -> momentum s (steps st) <> 1 -> In h active -> In h active' -> length active <> length active' ->
  own_gradient h (initial h) j <> 0 ->
  train_group own_loss own_gradient s active cfg validate st initial = Done r -> train_group own_loss' own_gradient s active' cfg' validate' st initial = Done r' ->
  rec_executed r = 1%nat -> rec_executed r' = 1%nat ->
  parameters_of (snd (rec_parameters r)) h j <> parameters_of (snd (rec_parameters r')) h j.
Proof. exact number_matters. Qed.
Print Assumptions C130_number_refuted.

(** The other heliostats also end the training: tolerance and early stopping look at the mean loss.  A heliostat that would be
    trained on is left as it is after one epoch if the loss of another is small enough. *)
Theorem C130_stopping_refuted : forall T own_loss own_gradient s cfg (validate : _ -> T) st initial h h2, h <> h2 ->
  (2 <= window_size (stopper cfg))%nat -> (1 <= max_epoch cfg)%nat ->
  tolerance cfg < own_loss h (initial h) -> own_loss h2 (initial h2) <= 2 * tolerance cfg - own_loss h (initial h) ->
  (forall r, train_group own_loss own_gradient s [h] cfg validate st initial = Done r -> (2 <= rec_executed r)%nat)
  /\ exists r, train_group own_loss own_gradient s [h; h2] cfg validate st initial = Done r /\ rec_executed r = 1%nat.
Proof. exact others_stop. Qed.
Print Assumptions C130_stopping_refuted.

(** Two heliostats with the losses 3 and 1 and the tolerance 2. *)
Definition two_losses (h : nat) (p : nat -> R) : R := if (h =? 0)%nat then 3 - p 0%nat else 1.
Definition two_gradients (h : nat) (p : nat -> R) (j : nat) : R := if (h =? 0)%nat then -1 else 0.
Definition short (epochs : nat) : loop_config :=
  {| tolerance := 2; max_epoch := epochs; log_step := 1; record := RecordAfterStopTest;
     stopper := {| window_size := 10; patience := 5; min_improvement := 0; relative := true; stopper_eps := 1 |} |}.
Example C130_case : exists st, create_scheduler (Exponential (9 / 10)) (1 / 10) = Ok st /\ rate st <> 0 /\ momentum (Exponential (9 / 10)) (steps st) <> 1
  /\ (forall active, exists r, train_group two_losses two_gradients (Exponential (9 / 10)) active (short 0) (fun _ => tt) st (fun _ _ => 0) = Done r /\ rec_executed r = 1%nat)
  /\ two_gradients 0 (fun _ => 0) 0 <> 0 /\ (2 <= window_size (stopper (short 5)))%nat
  /\ tolerance (short 5) < two_losses 0 (fun _ => 0) /\ two_losses 1 (fun _ => 0) <= 2 * tolerance (short 5) - two_losses 0 (fun _ => 0).
Proof.
  eexists. split; [reflexivity|]. cbn [rate]. split; [lra|]. split; [cbn; lra|]. split; [intros active; apply one_epoch_done; cbn; lia|].
  unfold two_gradients, two_losses. cbn. repeat split; try lra; try lia.
Qed.

(** C131. A heliostat without measurements keeps its parameters exactly, however long the others of its group are trained, for every
    scheduler and all losses; ... *)
Theorem C131_kinematics : forall T own_loss own_gradient s active cfg (validate : _ -> T) st initial r,
  train_group own_loss own_gradient s active cfg validate st initial = Done r ->
  forall h j, ~ In h active -> parameters_of (snd (rec_parameters r)) h j = initial h j.
Proof. exact untrained_unchanged. Qed.
Print Assumptions C131_kinematics.
(** ... and so do all control points the losses of all ranks do not depend on. *)
Theorem C131_surfaces : forall height width control_points history h f i j c,
  (forall lr beta members g, In (lr, beta, members) history -> In g members -> g h f i j c = 0) ->
  train_control_points height width control_points history h f i j c = control_points h f i j c.
Proof. exact untrained_surface. Qed.
Print Assumptions C131_surfaces.
(** The trained heliostat of the example above moves, the one beside it does not. *)
Example C131_case : exists st r, create_scheduler (Exponential (9 / 10)) (1 / 10) = Ok st
  /\ train_group two_losses two_gradients (Exponential (9 / 10)) [0%nat] (short 0) (fun _ => tt) st (fun _ _ => 7) = Done r
  /\ parameters_of (snd (rec_parameters r)) 0 0 <> 7 /\ parameters_of (snd (rec_parameters r)) 1 0 = 7.
Proof.
  eexists. destruct (one_epoch_done _ two_losses two_gradients (Exponential (9 / 10)) [0%nat] (short 0) (fun _ => tt)
    {| steps := 0; rate := 1 / 10; best := None; bad_epochs := 0; cooling := 0 |} (fun _ _ => 7) ltac:(cbn; lia) eq_refl ltac:(cbn; lia)) as (r & E & X).
  exists r. split; [reflexivity|]. split; [exact E|]. split.
  - apply train_result in E. destruct E as (P & _). rewrite P, X. change (Nat.iter 1 ?f ?x) with (f x). rewrite first_value; [|cbn; lra|left; auto].
    cbn [rate length INR]. unfold two_gradients. cbn [Nat.eqb]. replace (-1 / 1) with (-1) by lra. rewrite Rabs_left by lra.
    set (x := / 10 ^ 8). assert (0 < x) by (apply Rinv_0_lt_compat; lra). intros C. assert (Z : -1 / (- -1 + x) = 0) by lra. apply (f_equal (fun z => z * (- -1 + x))) in Z. unfold Rdiv in Z. rewrite Rmult_assoc, Rinv_l in Z by lra. lra.
  - apply (untrained_unchanged _ _ _ _ _ _ _ _ _ _ E 1 0). intros [C|[]]. discriminate.
Qed.
