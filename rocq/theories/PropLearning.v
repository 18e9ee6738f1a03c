(** C123: how far an optimization moves its parameters. *)
From Coq Require Import List Arith Reals Lia Lra.
From Verif Require Import ModelField ModelSchedulers ModelOptimization ModelLearning ProofsSchedulers ProofsLearning.
Import ListNotations.
Local Open Scope R_scope.

(** C123. With every scheduler and after every history of gradients and losses, no gradient moves an entry of the parameters in an
    epoch by more than eleven times the learning rate of that epoch ... *)
Theorem C123_epoch : forall s initial st start epochs gradient loss, create_scheduler s initial = Ok st ->
  Rabs (trained s st start (epochs ++ [(gradient, loss)]) - trained s st start epochs) <= 11 * Rabs (next_rate s st start epochs).
Proof. exact epoch_bound. Qed.
Print Assumptions C123_epoch.

(** ... and the first epoch moves it against the gradient by the learning rate, whatever the size of the gradient is, as long as it
    is large compared to 1e-8.  ... *)
Theorem C123_first : forall s initial st start gradient loss, create_scheduler s initial = Ok st ->
  trained s st start [(gradient, loss)] = start - next_rate s st start [] * (gradient / (Rabs gradient + / 10 ^ 8)).
Proof. exact first_epoch. Qed.
Print Assumptions C123_first.

(** ... With the exponential scheduler the whole optimization stays near its start, however many epochs it has. *)
Theorem C123_exponential : forall gamma initial st start epochs, 0 <= gamma < 1 -> 0 <= initial -> create_scheduler (Exponential gamma) initial = Ok st ->
  Rabs (trained (Exponential gamma) st start epochs - start) <= 11 * initial * (1 - gamma ^ length epochs) / (1 - gamma)
  /\ Rabs (trained (Exponential gamma) st start epochs - start) <= 11 * initial / (1 - gamma).
Proof.
  intros gamma initial st x h G I E. pose proof (exponential_reach gamma initial st x h G I E) as B. split; auto. eapply Rle_trans; [exact B|].
  unfold Rdiv. apply Rmult_le_compat_r; [left; apply Rinv_0_lt_compat; lra|]. rewrite <- (Rmult_1_r (11 * initial)) at 2. apply Rmult_le_compat_l; [lra|].
  pose proof (pow_le gamma (length h) ltac:(lra)). lra.
Qed.
Print Assumptions C123_exponential.

(** The cyclic scheduler lowers the momentum of the optimizer by up to 0.1 in proportion to how far it has raised the learning rate. *)
Theorem C123_momentum : forall lr_min lr_max up initial st start epochs, create_scheduler (Cyclic lr_min lr_max up) initial = Ok st ->
  (9 / 10 - momentum (Cyclic lr_min lr_max up) (steps (fst (learning (Cyclic lr_min lr_max up) st start epochs)))) * (lr_max - lr_min)
  = (next_rate (Cyclic lr_min lr_max up) st start epochs - lr_min) / 10.
Proof. exact momentum_follows. Qed.
Print Assumptions C123_momentum.

(** With a learning rate of 0.0001 that is multiplied by 0.9 after every epoch, a parameter that starts at zero stays below 0.011 for
    ever, although the first epoch moves it by almost the learning rate. *)
Example C123_case : exists st, create_scheduler (Exponential (9 / 10)) (/ 10000) = Ok st
  /\ (forall epochs, Rabs (trained (Exponential (9 / 10)) st 0 epochs) <= 11 / 1000)
  /\ trained (Exponential (9 / 10)) st 0 [(- 5, 3)] > 99 / 1000000.
Proof.
  eexists. split; [reflexivity|]. split.
  - intros epochs. rewrite <- (Rminus_0_r (trained _ _ _ _)). eapply Rle_trans; [apply (C123_exponential (9 / 10) (/ 10000)); auto; lra|]. lra.
  - rewrite (C123_first (Exponential (9 / 10)) (/ 10000)); [|reflexivity]. unfold next_rate, learning. cbn [fold_left fst rate]. rewrite Rabs_left by lra.
    assert (A : -5 / (- -5 + / 10 ^ 8) < - 99 / 100); [|lra].
    apply Rmult_lt_reg_r with (- -5 + / 10 ^ 8); [lra|]. unfold Rdiv at 1. rewrite Rmult_assoc, Rinv_l; lra.
Qed.
