(** C10, C11, C68: early stopping and the optimization loops. *)
From Coq Require Import List Arith Reals Bool Lia Lra.
From Verif Require Import ModelField ModelTraining SpecTraining ProofsTraining.
Import ListNotations.
Local Open Scope nat_scope.

(** C10. After any history of losses the stop decision is taken exactly when each of the last
    [patience] prefixes of the history fills a window without sufficient improvement, hence never
    before [window_size + patience - 1] steps. *)
Theorem C10_early_stopping : forall cfg (before : list R) (loss : R),
  1 <= window_size cfg -> 1 <= patience cfg ->
  exists st stop st',
    stopper_run cfg new_stopper before = Ok st
    /\ stopper_step cfg st loss = Ok (stop, st')
    /\ (stop = true <->
        forall k, k < patience cfg ->
          stale (window_size cfg) (min_improvement cfg) (relative cfg) (stopper_eps cfg)
            (firstn (List.length (before ++ [loss]) - k) (before ++ [loss])))
    /\ (stop = true -> window_size cfg + patience cfg - 1 <= List.length (before ++ [loss])).
Proof. exact early_stopping_exact. Qed.
Print Assumptions C10_early_stopping.

(** Three equal losses with a window of two and a patience of two stop; the second one does not. *)
Example C10_case :
  let cfg := {| window_size := 2; patience := 2; min_improvement := 0; relative := false; stopper_eps := 1 |} in
  stale 2 0 false 1 (firstn 3 [1; 1; 1]%R) /\ stale 2 0 false 1 (firstn 2 [1; 1; 1]%R)
  /\ ~ stale 2 0 false 1 (firstn 1 [1; 1; 1]%R)
  /\ exists st, stopper_run cfg new_stopper [1; 1]%R = Ok st
     /\ exists st', stopper_step cfg st 1%R = Ok (true, st').
Proof.
  intros cfg.
  assert (A : stale 2 0 false 1 (firstn 3 [1; 1; 1]%R)) by (split; simpl; [lia|unfold window_improvement; simpl; lra]).
  assert (B : stale 2 0 false 1 (firstn 2 [1; 1; 1]%R)) by (split; simpl; [lia|unfold window_improvement; simpl; lra]).
  split; auto. split; auto. split.
  - intros [H _]. simpl in H. lia.
  - destruct (C10_early_stopping cfg [1; 1]%R 1%R) as (st & stop & st' & S1 & S2 & S3 & _); simpl; try lia.
    exists st. split; auto. exists st'. rewrite S2. f_equal. f_equal. apply S3.
    intros k Hk. simpl in Hk. destruct k as [|[|k]]; simpl; auto. lia.
Qed.

(** C11 for the aim point optimizer: it finishes after between one and [max_epoch + 1] epochs, no
    earlier epoch's loss was at or below the tolerance, it ends for one of the three reasons, and the
    history holds the losses of all executed epochs in order. *)
Theorem C11_aim_point_loop : forall cfg (losses : nat -> R),
  record cfg = RecordBeforeStopTest ->
  1 <= window_size (stopper cfg) -> 1 <= log_step cfg \/ 1 <= max_epoch cfg ->
  exists r, run_loop cfg losses = Finished r
    /\ 1 <= executed r <= max_epoch cfg + 1
    /\ final_loss r = Some (losses (executed r - 1))
    /\ (forall e, e + 1 < executed r -> (tolerance cfg < losses e)%R)
    /\ (stopped_early r = true \/ (losses (executed r - 1)%nat <= tolerance cfg)%R
        \/ executed r = max_epoch cfg + 1)
    /\ history r = map losses (seq 0 (executed r)).
Proof. exact aim_point_loop. Qed.
Print Assumptions C11_aim_point_loop.

(** C11 for the reconstructors: the full statement about the history is false, the loss of the epoch
    that triggers early stopping is not recorded. *)
Theorem C11_reconstruction_history_refuted :
  ~ (forall cfg (losses : nat -> R) r, record cfg = RecordAfterStopTest -> run_loop cfg losses = Finished r ->
       history r = map losses (seq 0 (executed r))).
Proof. exact reconstruction_history_refuted. Qed.
Print Assumptions C11_reconstruction_history_refuted.

(** Everything else holds, and only that one loss is missing. *)
Theorem C11_reconstruction_loop_partial : forall cfg (losses : nat -> R),
  record cfg = RecordAfterStopTest ->
  1 <= window_size (stopper cfg) -> 1 <= log_step cfg \/ 1 <= max_epoch cfg ->
  exists r, run_loop cfg losses = Finished r
    /\ 1 <= executed r <= max_epoch cfg + 1
    /\ final_loss r = Some (losses (executed r - 1))
    /\ (forall e, e + 1 < executed r -> (tolerance cfg < losses e)%R)
    /\ (stopped_early r = true \/ (losses (executed r - 1)%nat <= tolerance cfg)%R
        \/ executed r = max_epoch cfg + 1)
    /\ (stopped_early r = false -> history r = map losses (seq 0 (executed r)))
    /\ (stopped_early r = true -> history r ++ [losses (executed r - 1)] = map losses (seq 0 (executed r))).
Proof. exact reconstruction_loop. Qed.
Print Assumptions C11_reconstruction_loop_partial.

(** The loop stops early exactly in the first epoch in which the C10 condition holds. *)
Theorem C11_early_stop_exact : forall cfg (losses : nat -> R) r,
  1 <= window_size (stopper cfg) -> 1 <= log_step cfg \/ 1 <= max_epoch cfg ->
  1 <= patience (stopper cfg) ->
  run_loop cfg losses = Finished r ->
  let stale_for e := forall k, k < patience (stopper cfg) ->
      stale (window_size (stopper cfg)) (min_improvement (stopper cfg)) (relative (stopper cfg))
        (stopper_eps (stopper cfg)) (map losses (seq 0 (S e - k))) in
  (stopped_early r = true <-> stale_for (executed r - 1))
  /\ forall e, e + 1 < executed r -> ~ stale_for e.
Proof. exact loop_early_stop. Qed.
Print Assumptions C11_early_stop_exact.

(** Losses 4, 2, 1, ... with tolerance 1: the loop ends after the third epoch. *)
Example C11_case :
  let cfg := {| tolerance := 1; max_epoch := 10; log_step := 0;
                stopper := {| window_size := 20; patience := 1; min_improvement := 0;
                              relative := false; stopper_eps := 1 |};
                record := RecordBeforeStopTest |} in
  exists r, run_loop cfg (fun e => nth e [4; 2; 1] 0)%R = Finished r /\ executed r = 3
            /\ history r = [4; 2; 1]%R.
Proof.
  intros cfg.
  destruct (C11_aim_point_loop cfg (fun e => nth e [4; 2; 1] 0)%R) as (r & A & B & C & D & E & F);
    simpl; auto; try lia.
  assert (X : executed r = 3).
  { simpl in *. destruct (Nat.lt_ge_cases (executed r) 3) as [L|L].
    - exfalso. destruct E as [E|[E|E]].
      + destruct (C11_early_stop_exact cfg (fun e => nth e [4; 2; 1] 0)%R r) as [[Z _] _]; simpl; auto; try lia.
        destruct (Z E 0 ltac:(simpl; lia)) as [Q _]. rewrite map_length, seq_length in Q. simpl in Q. lia.
      + destruct (executed r) as [|[|[|n]]]; simpl in E; try lia; lra.
      + lia.
    - destruct (Nat.eq_dec (executed r) 3); auto.
      specialize (D 2 ltac:(lia)). simpl in D. lra. }
  exists r. rewrite F, X. auto.
Qed.

(** C68 (full statement): all ranks execute the same number of epochs.  False: each rank decides with
    its own loss. *)
Theorem C68_ranks_leave_together_refuted :
  ~ (forall cfg (losses : nat -> nat -> R), 1 <= window_size (stopper cfg) -> 1 <= patience (stopper cfg) -> 1 <= log_step cfg ->
       forall r1 r2, epochs_of_rank cfg losses r1 = epochs_of_rank cfg losses r2).
Proof. exact ranks_leave_together_refuted. Qed.
Print Assumptions C68_ranks_leave_together_refuted.

(** More generally: whenever some rank meets the tolerance in an epoch up to which another rank neither
    met it nor used up its patience, the first one leaves the loop before the second one. *)
Theorem C68_first_rank_leaves_refuted : forall cfg (losses : nat -> nat -> R) r1 r2 e,
  1 <= window_size (stopper cfg) -> 1 <= patience (stopper cfg) -> 1 <= log_step cfg ->
  e < max_epoch cfg ->
  (losses r1 e <= tolerance cfg)%R ->
  (forall e', e' <= e -> (tolerance cfg < losses r2 e')%R
     /\ exists k, k < patience (stopper cfg) /\
          ~ stale (window_size (stopper cfg)) (min_improvement (stopper cfg)) (relative (stopper cfg))
              (stopper_eps (stopper cfg)) (map (losses r2) (seq 0 (S e' - k)))) ->
  exists n1 n2, epochs_of_rank cfg losses r1 = Some n1 /\ epochs_of_rank cfg losses r2 = Some n2
    /\ n1 <= e + 1 < n2.
Proof. exact first_rank_leaves. Qed.
Print Assumptions C68_first_rank_leaves_refuted.

(** The exact number of epochs of every rank: it leaves after the first epoch that meets the tolerance
    or ends the patience, and after the last epoch if there is none.  So the ranks leave together
    exactly when these epochs agree. *)
Theorem C68_epochs_of_a_rank_partial : forall cfg (losses : nat -> nat -> R) rank n,
  1 <= window_size (stopper cfg) -> 1 <= patience (stopper cfg) -> 1 <= log_step cfg ->
  let ends e := (losses rank e <= tolerance cfg)%R
    \/ forall k, k < patience (stopper cfg) ->
         stale (window_size (stopper cfg)) (min_improvement (stopper cfg)) (relative (stopper cfg))
           (stopper_eps (stopper cfg)) (map (losses rank) (seq 0 (S e - k))) in
  epochs_of_rank cfg losses rank = Some n <->
    1 <= n <= max_epoch cfg + 1 /\ (forall e, e + 1 < n -> ~ ends e)
    /\ (ends (n - 1) \/ n = max_epoch cfg + 1).
Proof. exact epochs_of_rank_exact. Qed.
Print Assumptions C68_epochs_of_a_rank_partial.

(** They do if all ranks see the same losses, or if neither tolerance nor early stopping can end the
    loop.  Missing: runs in which some rank reaches the tolerance or stops early. *)
Theorem C68_ranks_leave_together_partial : forall cfg (losses : nat -> nat -> R),
  1 <= window_size (stopper cfg) -> 1 <= patience (stopper cfg) -> 1 <= log_step cfg ->
  (forall r1 r2 e, losses r1 e = losses r2 e)
  \/ (max_epoch cfg + 1 < window_size (stopper cfg) + patience (stopper cfg) - 1
      /\ forall r e, (tolerance cfg < losses r e)%R) ->
  forall r1 r2, epochs_of_rank cfg losses r1 = epochs_of_rank cfg losses r2
    /\ exists n, epochs_of_rank cfg losses r1 = Some n.
Proof. exact ranks_leave_together. Qed.
Print Assumptions C68_ranks_leave_together_partial.

Example C68_case : forall r1 r2,
  epochs_of_rank c68_config (fun r e => 1 + INR r)%R r1 = epochs_of_rank c68_config (fun r e => 1 + INR r)%R r2.
Proof.
  intros. apply C68_ranks_leave_together_partial; simpl; try lia.
  right. split; [lia|]. intros r _. pose proof (pos_INR r). lra.
Qed.
