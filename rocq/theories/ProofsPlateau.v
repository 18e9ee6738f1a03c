(** When the plateau scheduler reduces the learning rate (C116). *)
From Coq Require Import List Arith Reals Bool Lia Lra.
From Verif Require Import RealSums ModelField ModelSchedulers SpecSchedulers ProofsSchedulers.
Import ListNotations.
Local Open Scope R_scope.

Section Plateau.
Variables (factor : R) (patience : nat) (threshold : R) (cooldown : nat) (lr_min initial : R).
Hypothesis thr : threshold < 1.
Let s := ReduceOnPlateau factor patience threshold cooldown lr_min.

Lemma changes_to : forall st l, rate (scheduler_step s st l) <> rate st -> rate (scheduler_step s st l) = Rmax (rate st * factor) lr_min.
Proof.
  intros st l. unfold s, scheduler_step. cbv zeta. set (bad := if (0 <? cooling st)%nat then _ else _). destruct (Nat.ltb_spec patience bad) as [_|_]; cbn [rate]; [|intros C; contradiction].
  destruct (Rlt_dec _ _); [auto|intros C; contradiction].
Qed.

(** Steps until the next reduction if no loss improves. *)
Definition wait (st : scheduler_state) : nat := if (0 <? cooling st)%nat then (cooling st + patience + 1)%nat else (patience + 1 - bad_epochs st)%nat.
Definition sane (st : scheduler_state) : Prop := (bad_epochs st <= patience)%nat /\ (cooling st <= cooldown)%nat.
(** A step either reduces the rate (as far as it may be reduced) and starts a cooldown, or waits. *)
Lemma step_cases : forall st l, sane st -> let st' := scheduler_step s st l in
  sane st' /\ ((wait st = 1%nat /\ is_better threshold l (best st) = false /\ wait st' = (cooldown + patience + 1)%nat
                /\ rate st' = if Rlt_dec (/ 10 ^ 8) (rate st - Rmax (rate st * factor) lr_min) then Rmax (rate st * factor) lr_min else rate st)
               \/ (rate st' = rate st /\ (wait st <= S (wait st'))%nat
                   /\ (is_better threshold l (best st) = false -> wait st = S (wait st') /\ best st' = best st))).
Proof.
  intros st l (B & C). unfold s, scheduler_step, sane, wait. cbv zeta. destruct (is_better threshold l (best st)) eqn:E; destruct (Nat.ltb_spec 0 (cooling st)) as [P|P].
  - destruct (Nat.ltb_spec patience 0); [lia|]. cbn [rate best bad_epochs cooling]. split; [lia|]. right. split; auto. split; [|discriminate]. destruct (Nat.ltb_spec 0 (cooling st - 1)); lia.
  - destruct (Nat.ltb_spec patience 0); [lia|]. cbn [rate best bad_epochs cooling]. split; [lia|]. right. split; auto. split; [|discriminate]. destruct (Nat.ltb_spec 0 (cooling st - 1)); lia.
  - destruct (Nat.ltb_spec patience 0); [lia|]. cbn [rate best bad_epochs cooling]. split; [lia|]. right. split; auto. destruct (Nat.ltb_spec 0 (cooling st - 1)); (split; [lia|]); intros _; split; auto; lia.
  - destruct (Nat.ltb_spec patience (S (bad_epochs st))); cbn [rate best bad_epochs cooling].
    + split; [lia|]. left. split; [lia|]. split; auto. split; auto. destruct (Nat.ltb_spec 0 cooldown); lia.
    + split; [lia|]. right. split; auto. destruct (Nat.ltb_spec 0 (cooling st - 1)); (split; [lia|]); intros _; split; auto; lia.
Qed.

Lemma run_sane : forall losses st, sane st -> sane (scheduler_run s st losses).
Proof. induction losses as [|l losses IH]; intros st H; [exact H|]. apply (IH (scheduler_step s st l)), step_cases, H. Qed.
Lemma start_sane : forall st, create_scheduler s initial = Ok st -> sane st /\ rate st = initial.
Proof. intros st E. unfold s, create_scheduler in E. destruct (Rlt_dec factor 1); [|discriminate]. injection E as <-. split; [split; cbn; lia|reflexivity]. Qed.

(** No reduction before the wait is over. *)
Lemma waits : forall losses st, sane st -> (length losses < wait st)%nat -> rate (scheduler_run s st losses) = rate st /\ (wait st <= length losses + wait (scheduler_run s st losses))%nat.
Proof.
  induction losses as [|l losses IH]; intros st H L; [split; [reflexivity|cbn; lia]|]. cbn [length] in L. change (scheduler_run s st (l :: losses)) with (scheduler_run s (scheduler_step s st l) losses).
  destruct (step_cases st l H) as (H' & [(W & _)|(E & W & _)]); [lia|]. destruct (IH _ H' ltac:(lia)) as (A & B). split; [congruence|cbn [length]; lia].
Qed.

Lemma run_firstn : forall losses st k, (k < length losses)%nat -> scheduler_run s st (firstn (S k) losses) = scheduler_step s (scheduler_run s st (firstn k losses)) (nth k losses 0).
Proof.
  intros losses st k K. unfold scheduler_run. replace (firstn (S k) losses) with (firstn k losses ++ [nth k losses 0]); [rewrite fold_left_app; reflexivity|].
  revert k K. induction losses as [|l losses IH]; intros [|k] K; cbn in *; try lia; auto. f_equal. apply IH. lia.
Qed.
Lemma firstn_split : forall (losses : list R) i j, (i <= j)%nat -> firstn j losses = firstn i losses ++ firstn (j - i) (skipn i losses).
Proof.
  intros losses i. revert losses. induction i as [|i IH]; intros losses j H; [cbn; f_equal; lia|]. destruct j as [|j]; [lia|]. destruct losses as [|l losses]; [destruct (S j - S i)%nat; reflexivity|].
  cbn [firstn skipn app Nat.sub]. f_equal. apply IH. lia.
Qed.

Theorem reductions : forall losses st, create_scheduler s initial = Ok st ->
  let rate_after k := rate (scheduler_run s st (firstn k losses)) in
  (forall k, (k < length losses)%nat -> rate_after (S k) <> rate_after k -> rate_after (S k) = Rmax (rate_after k * factor) lr_min)
  /\ forall i j, (i < j < length losses)%nat -> rate_after (S i) <> rate_after i -> rate_after (S j) <> rate_after j -> (cooldown + patience < j - i)%nat.
Proof.
  intros losses st E rate_after. destruct (start_sane st E) as (H & _). split.
  - intros k K. unfold rate_after. rewrite run_firstn by auto. apply changes_to.
  - intros i j (IJ & J) CI CJ. unfold rate_after in *. rewrite run_firstn in CI, CJ by lia.
    destruct (step_cases _ (nth i losses 0) (run_sane (firstn i losses) st H)) as (H' & [(_ & _ & W & _)|(C & _)]); [|contradiction].
    rewrite <- run_firstn in W, H' by lia. set (st1 := scheduler_run s st (firstn (S i) losses)) in *.
    assert (SP : scheduler_run s st (firstn j losses) = scheduler_run s st1 (firstn (j - S i) (skipn (S i) losses))).
    { unfold st1, scheduler_run. rewrite <- fold_left_app. f_equal. apply firstn_split. lia. }
    rewrite SP in CJ. set (mid := firstn (j - S i) (skipn (S i) losses)) in *. assert (LM : length mid = (j - S i)%nat) by (unfold mid; rewrite firstn_length, skipn_length; lia).
    destruct (Nat.le_gt_cases (cooldown + patience) (j - S i)) as [G|G]; [lia|]. destruct (waits mid st1 H' ltac:(lia)) as (A & B).
    destruct (step_cases _ (nth j losses 0) (run_sane mid st1 H')) as (_ & [(W2 & _)|(C & _)]); [lia|contradiction].
Qed.

(** The best loss is one of the losses before. *)
Lemma best_known : forall losses st, create_scheduler s initial = Ok st -> match best (scheduler_run s st losses) with Some b => In b losses | None => losses = [] end.
Proof.
  intros losses st E. unfold s, create_scheduler in E. destruct (Rlt_dec factor 1); [|discriminate]. injection E as <-.
  induction losses as [|l losses IH] using rev_ind; [reflexivity|]. unfold scheduler_run in *. rewrite fold_left_app. cbn [fold_left]. set (st := fold_left _ losses _) in *. clearbody st.
  assert (F : best (scheduler_step s st l) = if is_better threshold l (best st) then Some l else best st).
  { unfold s, scheduler_step. cbv zeta. destruct (_ <? _)%nat; reflexivity. }
  rewrite F. destruct (best st) as [b|] eqn:B; cbn [is_better].
  - destruct (Rlt_dec _ _); apply in_or_app; [right; left; auto|left; auto].
  - destruct (Rlt_dec threshold 1); [apply in_or_app; right; left; auto|lra].
Qed.

Lemma falls : forall losses st, sane st -> (forall l, In l losses -> is_better threshold l (best st) = false) -> length losses = wait st -> / 10 ^ 8 < rate st - Rmax (rate st * factor) lr_min ->
  rate (scheduler_run s st losses) = Rmax (rate st * factor) lr_min.
Proof.
  induction losses as [|l losses IH]; intros st H NB L G.
  - exfalso. cbn in L. unfold wait in L. destruct H. destruct (_ <? _)%nat; lia.
  - cbn [length] in L. change (scheduler_run s st (l :: losses)) with (scheduler_run s (scheduler_step s st l) losses).
    destruct (step_cases st l H) as (H' & [(W & _ & _ & E)|(E & _ & W)]).
    + assert (losses = []) as -> by (destruct losses; [reflexivity|cbn in L; lia]). unfold scheduler_run. cbn [fold_left]. rewrite E. destruct (Rlt_dec _ _); [reflexivity|contradiction].
    + destruct (W (NB l (or_introl eq_refl))) as (W1 & W2). rewrite IH; rewrite ?E; auto; [|lia]. rewrite W2. intros x I. apply NB. right. exact I.
Qed.

Theorem reduced_in_time : forall before recent st, create_scheduler s initial = Ok st -> before <> [] -> length recent = (cooldown + patience + 1)%nat ->
  (forall b l, In b before -> In l recent -> b * (1 - threshold) <= l) ->
  let current := rate (scheduler_run s st before) in / 10 ^ 8 < current - Rmax (current * factor) lr_min ->
  rate (scheduler_run s st (before ++ recent)) <= Rmax (current * factor) lr_min.
Proof.
  intros before recent st E N L B current G. destruct (start_sane st E) as (H & _). apply (run_sane before) in H. set (st1 := scheduler_run s st before) in *.
  assert (BK := best_known before st E). fold st1 in BK.
  assert (NB : forall l, In l recent -> is_better threshold l (best st1) = false).
  { intros l I. destruct (best st1) as [b|]; [|contradiction]. unfold is_better. destruct (Rlt_dec _ _) as [C|]; [|reflexivity]. pose proof (B b l BK I). lra. }
  assert (W : (wait st1 <= cooldown + patience + 1)%nat) by (unfold wait; destruct H; destruct (_ <? _)%nat; lia).
  replace recent with (firstn (wait st1) recent ++ skipn (wait st1) recent) by apply firstn_skipn. unfold scheduler_run. rewrite app_assoc, fold_left_app. fold (scheduler_run s st (before ++ firstn (wait st1) recent)).
  assert (F : rate (scheduler_run s st (before ++ firstn (wait st1) recent)) = Rmax (current * factor) lr_min).
  { unfold scheduler_run. rewrite fold_left_app. fold (scheduler_run s st before). fold st1. apply falls; auto.
    - intros l I. apply NB. apply (firstn_In _ _ _ I) || (rewrite <- (firstn_skipn (wait st1) recent); apply in_or_app; left; exact I).
    - rewrite firstn_length. lia. }
  rewrite <- F. generalize (scheduler_run s st (before ++ firstn (wait st1) recent)) as x. generalize (skipn (wait st1) recent) as r. clear.
  assert (D : forall st l, rate (scheduler_step s st l) <= rate st).
  { intros st l. unfold s, scheduler_step. cbv zeta. destruct (patience <? _)%nat; cbn [rate]; [|lra]. destruct (Rlt_dec _ _) as [L|]; [|lra]. assert (0 < / 10 ^ 8) by (apply Rinv_0_lt_compat, pow_lt; lra). lra. }
  induction r as [|l r IH]; intros x; [cbn; lra|]. cbn [fold_left]. pose proof (IH (scheduler_step s x l)). pose proof (D x l). lra.
Qed.
End Plateau.

(** ** The scheduler of the fits of facets *)
From Verif Require Import ModelFitting.
Theorem fit_rates : forall p t losses initial st, tolerated p = Relative t ->
  create_scheduler (ReduceOnPlateau (factor p) (patience p) t (cooldown p) (lowest p)) initial = Ok st ->
  snd (fold_left (plateau_step p) losses (blank, initial)) = rate (scheduler_run (ReduceOnPlateau (factor p) (patience p) t (cooldown p) (lowest p)) st losses).
Proof.
  intros p t losses initial st T E. unfold create_scheduler in E. destruct (Rlt_dec (factor p) 1) as [_|]; [|discriminate]. injection E as <-.
  set (s := ReduceOnPlateau _ _ _ _ _). unfold scheduler_run.
  assert (G : forall losses m r n, snd (fold_left (plateau_step p) losses (m, r))
    = rate (fold_left (scheduler_step s) losses {| steps := n; rate := r; best := best_loss m; bad_epochs := without m; cooling := rest m |})); [|apply (G losses blank initial 0%nat)].
  clear losses. induction losses as [|l losses IH]; intros m r n; [reflexivity|]. cbn [fold_left].
  unfold plateau_step at 2, s at 2, scheduler_step at 2. cbn [steps rate best bad_epochs cooling]. rewrite T.
  replace (is_better t l (best_loss m)) with (improves (Relative t) l (best_loss m)) by (destruct (best_loss m); reflexivity).
  cbv zeta. destruct (patience p <? _)%nat; rewrite IH with (n := S n); reflexivity.
Qed.
