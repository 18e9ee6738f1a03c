(** C116, C117: learning rates of the optimizations. *)
From Coq Require Import List Arith Reals Bool Lia Lra.
From Verif Require Import RealSums ModelField ModelSchedulers SpecSchedulers ProofsSchedulers.
Import ListNotations.
Local Open Scope R_scope.

(** C116 (full statement: the learning rate starts with the configured initial one and then follows the configured schedule, whatever
    the losses are).  The exponential scheduler multiplies it by the factor after every epoch, ... *)
Theorem C116_exponential_partial : forall gamma initial losses st, create_scheduler (Exponential gamma) initial = Ok st ->
  rate (scheduler_run (Exponential gamma) st losses) = initial * gamma ^ length losses.
Proof. exact exponential_rate. Qed.
Print Assumptions C116_exponential_partial.

(** ... the plateau scheduler only reduces it, never below the lower bound (or the initial rate, if that is lower), and only if as
    many losses as the patience and one more did not improve on some earlier loss by the relative threshold, ... *)
Theorem C116_plateau_partial : forall factor patience threshold cooldown lr_min initial, threshold < 1 ->
  forall losses loss st, create_scheduler (ReduceOnPlateau factor patience threshold cooldown lr_min) initial = Ok st ->
  let rate_after l := rate (scheduler_run (ReduceOnPlateau factor patience threshold cooldown lr_min) st l) in
  rate_after [] = initial /\ Rmin initial lr_min <= rate_after (losses ++ [loss]) <= rate_after losses /\ rate_after losses <= initial
  /\ (rate_after (losses ++ [loss]) <> rate_after losses -> stagnates threshold (losses ++ [loss]) (S patience)).
Proof.
  intros f p t c m i T losses loss st E. cbv zeta. split; [exact (proj2 (plateau_start f p t c m i st E))|]. exact (plateau_rates f p t c m i T losses loss st E).
Qed.
Print Assumptions C116_plateau_partial.

(** ... and the cyclic scheduler moves it up and down between its bounds. *)
Theorem C116_cyclic_partial : forall lr_min lr_max up initial losses st, (1 <= up)%nat -> create_scheduler (Cyclic lr_min lr_max up) initial = Ok st ->
  rate (scheduler_run (Cyclic lr_min lr_max up) st losses) = lr_min + (lr_max - lr_min) * triangle up (length losses)
  /\ 0 <= triangle up (length losses) <= 1.
Proof. intros a b up i l st U E. split; [exact (cyclic_run a b up i l st U E)|exact (triangle_range up (length l) U)]. Qed.
Print Assumptions C116_cyclic_partial.

(** The cyclic scheduler ignores the configured initial learning rate: the first epoch uses the lower bound, whatever was configured. *)
Theorem C116_initial_refuted : forall lr_min lr_max up initial st, (1 <= up)%nat -> create_scheduler (Cyclic lr_min lr_max up) initial = Ok st -> rate st = lr_min.
Proof.
  intros a b up i st U E. etransitivity; [exact (cyclic_run a b up i [] st U E)|]. unfold triangle. cbn [length]. rewrite Nat.mod_0_l by lia. cbn [Nat.leb INR]. unfold Rdiv. ring.
Qed.
Print Assumptions C116_initial_refuted.

Example C116_case : let s := ReduceOnPlateau (1 / 2) 1 (1 / 10) 0 (1 / 1000) in
  (exists st, create_scheduler s 1 = Ok st /\ rate (scheduler_run s st [10; 8; 8]) = 1 /\ rate (scheduler_run s st [10; 8; 8; 8]) = 1 / 2)
  /\ stagnates (1 / 10) [10; 8; 8; 8] 2 /\ triangle 2 1 = 1 / 2 /\ triangle 2 2 = 1 /\ triangle 2 3 = 1 / 2 /\ triangle 2 4 = 0
  /\ (exists st, create_scheduler (Cyclic 1 3 2) 7 = Ok st) /\ (exists st, create_scheduler (Exponential (1 / 2)) 7 = Ok st).
Proof.
  cbv zeta. split.
  - exists {| steps := 0; rate := 1; best := None; bad_epochs := 0; cooling := 0 |}. split; [unfold create_scheduler; destruct (Rlt_dec (1 / 2) 1); [reflexivity|lra]|].
    assert (E : forall x y : R, x < y -> exists p, Rlt_dec x y = left p) by (intros x y L; destruct (Rlt_dec x y) as [p|p]; [exists p; reflexivity|contradiction]).
    assert (N : forall x y : R, ~ x < y -> exists p, Rlt_dec x y = right p) by (intros x y L; destruct (Rlt_dec x y) as [p|p]; [contradiction|exists p; reflexivity]).
    destruct (E (1 / 10) 1 ltac:(lra)) as (p1 & E1). destruct (E 8 (10 * (1 - 1 / 10)) ltac:(lra)) as (p2 & E2). destruct (N 8 (8 * (1 - 1 / 10)) ltac:(lra)) as (p3 & E3).
    split; unfold scheduler_run; cbn [fold_left]; unfold scheduler_step, is_better; cbn [steps rate best bad_epochs cooling]; rewrite E1; cbn [steps rate best bad_epochs cooling Nat.ltb Nat.leb Nat.sub];
      rewrite E2; cbn [steps rate best bad_epochs cooling Nat.ltb Nat.leb Nat.sub]; rewrite E3; cbn [steps rate best bad_epochs cooling Nat.ltb Nat.leb Nat.sub].
    + reflexivity.
    + rewrite E3. cbn [steps rate best bad_epochs cooling Nat.ltb Nat.leb Nat.sub]. rewrite Rmax_left by lra. destruct (Rlt_dec (/ 10 ^ 8) (1 - 1 * (1 / 2))) as [_|C]; [lra|exfalso; apply C; lra].
  - split; [exists [10; 8], [8; 8], 8; repeat split; auto; [right; left; auto|intros l [<-|[<-|[]]]; lra]|].
    unfold triangle. cbn. repeat split; try (field; lra); try lra; eexists; reflexivity.
Qed.

(** C117 (full statement: ranks that share a heliostat group and average their gradients have the same parameters after every
    epoch).  With exponential and cyclic learning rates they have the same parameters, learning rates and optimizer states, for every
    optimizer, all gradients and all losses. *)
Theorem C117_same_parameters_partial : forall (P Q : Type) s (adam : Q -> R -> list R -> P -> Q * P) gradient loss members n st,
  (forall factor patience threshold cooldown lr_min, s <> ReduceOnPlateau factor patience threshold cooldown lr_min) ->
  exists st', shared_epochs s adam gradient loss n (repeat st members) = repeat st' members.
Proof. exact same_parameters. Qed.
Print Assumptions C117_same_parameters_partial.

(** The plateau scheduler of a rank only sees the losses of this rank: for every configuration that reduces the rate at all, there are
    losses with which two ranks have different parameters after as many epochs as the patience and three more. *)
Theorem C117_plateau_refuted : forall factor patience threshold cooldown lr_min initial, factor < 1 -> 0 <= threshold < 1 -> 0 < initial ->
  / 10 ^ 8 < initial - Rmax (initial * factor) lr_min ->
  exists (adam : unit -> R -> list R -> R -> unit * R) gradient loss st, create_scheduler (ReduceOnPlateau factor patience threshold cooldown lr_min) initial = Ok st
  /\ exists a b, shared_epochs (ReduceOnPlateau factor patience threshold cooldown lr_min) adam gradient loss (patience + 3)
       (repeat {| parameters := 0; optimizer := tt; schedule := st |} 2) = [a; b] /\ parameters a <> parameters b.
Proof. exact plateau_diverges. Qed.
Print Assumptions C117_plateau_refuted.

Example C117_case : (forall factor patience threshold cooldown lr_min, Exponential (9 / 10) <> ReduceOnPlateau factor patience threshold cooldown lr_min)
  /\ / 10 ^ 8 < 3 / 10 ^ 4 - Rmax (3 / 10 ^ 4 * (1 / 10)) (1 / 10 ^ 6).
Proof. split; [discriminate|]. rewrite Rmax_left by lra. lra. Qed.
