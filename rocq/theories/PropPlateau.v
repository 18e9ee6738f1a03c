(** C116: when the plateau scheduler reduces the learning rate. *)
From Coq Require Import List Arith Reals Bool Lia Lra.
From Verif Require Import RealSums ModelField ModelSchedulers SpecSchedulers ProofsSchedulers ProofsPlateau ModelFitting.
Import ListNotations.
Local Open Scope R_scope.

(** A reduction of the plateau scheduler is one by the configured factor, but not below the lower bound, and two reductions are more
    epochs apart than cooldown and patience together. *)
Theorem C116_reductions_partial : forall factor patience threshold cooldown lr_min initial losses st,
  create_scheduler (ReduceOnPlateau factor patience threshold cooldown lr_min) initial = Ok st ->
  let rate_after k := rate (scheduler_run (ReduceOnPlateau factor patience threshold cooldown lr_min) st (firstn k losses)) in
  (forall k, (k < length losses)%nat -> rate_after (S k) <> rate_after k -> rate_after (S k) = Rmax (rate_after k * factor) lr_min)
  /\ forall i j, (i < j < length losses)%nat -> rate_after (S i) <> rate_after i -> rate_after (S j) <> rate_after j -> (cooldown + patience < j - i)%nat.
Proof. exact reductions. Qed.
Print Assumptions C116_reductions_partial.

(** It does not wait longer either: if that many losses and one more do not improve on any loss before, the rate is reduced (unless the
    reduction is smaller than 1e-8). *)
Theorem C116_reduced_partial : forall factor patience threshold cooldown lr_min initial, threshold < 1 -> forall before recent st,
  create_scheduler (ReduceOnPlateau factor patience threshold cooldown lr_min) initial = Ok st -> before <> [] -> length recent = (cooldown + patience + 1)%nat ->
  (forall b l, In b before -> In l recent -> b * (1 - threshold) <= l) ->
  let current := rate (scheduler_run (ReduceOnPlateau factor patience threshold cooldown lr_min) st before) in / 10 ^ 8 < current - Rmax (current * factor) lr_min ->
  rate (scheduler_run (ReduceOnPlateau factor patience threshold cooldown lr_min) st (before ++ recent)) <= Rmax (current * factor) lr_min.
Proof. exact reduced_in_time. Qed.
Print Assumptions C116_reduced_partial.

(** A plateau scheduler given to the fit of a facet gives the same learning rates as in the reconstructions, so that all of the above
    holds for fits too. *)
Theorem C116_fits_partial : forall p t losses initial st, tolerated p = Relative t ->
  create_scheduler (ReduceOnPlateau (factor p) (patience p) t (cooldown p) (lowest p)) initial = Ok st ->
  snd (fold_left (plateau_step p) losses (blank, initial)) = rate (scheduler_run (ReduceOnPlateau (factor p) (patience p) t (cooldown p) (lowest p)) st losses).
Proof. exact fit_rates. Qed.
Print Assumptions C116_fits_partial.

(** Patience 1, no cooldown, and losses that do not fall below 8: the rate is halved after two of them. *)
Example C116_reductions_case : let s := ReduceOnPlateau (1 / 2) 1 0 0 (1 / 1000) in
  (exists st, create_scheduler s 1 = Ok st /\ rate (scheduler_run s st [8]) = 1) /\ (forall b l, In b [8] -> In l [9; 8] -> b * (1 - 0) <= l)
  /\ / 10 ^ 8 < 1 - Rmax (1 * (1 / 2)) (1 / 1000)
  /\ tolerated {| factor := 1 / 2; patience := 1; tolerated := Relative 0; cooldown := 0; lowest := 1 / 1000 |} = Relative 0.
Proof.
  cbv zeta. split; [|split; [|split]].
  - eexists. split; [unfold create_scheduler; destruct (Rlt_dec (1 / 2) 1); [reflexivity|lra]|]. unfold scheduler_run. cbn [fold_left]. unfold scheduler_step, is_better. cbn [best steps rate bad_epochs cooling].
    destruct (Rlt_dec 0 1); [reflexivity|lra].
  - intros b l [<-|[]] [<-|[<-|[]]]; lra.
  - rewrite Rmax_left by lra. lra.
  - reflexivity.
Qed.
