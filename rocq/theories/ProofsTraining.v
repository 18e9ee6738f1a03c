From Coq Require Import List Arith Reals Bool Lia Lra.
From Verif Require Import ModelField ModelTraining SpecTraining.
Import ListNotations.
Local Open Scope nat_scope.

Lemma skipn_cons_nth : forall {A} (d : A) l k, k < List.length l -> skipn k l = nth k l d :: skipn (S k) l.
Proof.
  induction l; intros k H; [inversion H|]. destruct k; auto. change (skipn k l = nth k l d :: skipn (S k) l). apply IHl. simpl in H. lia.
Qed.

Lemma skipn_skipn : forall {A} x y (l : list A), skipn x (skipn y l) = skipn (x + y) l.
Proof.
  intros A x y. induction y; intros l.
  - rewrite Nat.add_0_r. reflexivity.
  - rewrite Nat.add_succ_r. destruct l; simpl; auto. apply skipn_nil.
Qed.

Lemma last_nth : forall {A} (d d' : A) l, l <> [] -> last l d = nth (List.length l - 1) l d'.
Proof.
  induction l as [|x l IH]; intros H; [congruence|]. destruct l as [|y l]; auto.
  change (last (x :: y :: l) d) with (last (y :: l) d). rewrite IH by congruence.
  simpl. rewrite Nat.sub_0_r. destruct (List.length l) eqn:E; auto.
Qed.

Lemma last_skipn : forall (d : R) l k, k < List.length l ->
  last (skipn k l) d = nth (List.length l - 1) l 0%R.
Proof.
  intros. rewrite (last_nth d 0%R).
  - rewrite skipn_length.
    assert (E : nth (List.length l - 1) (firstn k l ++ skipn k l) 0%R = nth (List.length l - k - 1) (skipn k l) 0%R).
    { rewrite app_nth2; rewrite firstn_length_le by lia; [|lia]. f_equal. lia. }
    rewrite firstn_skipn in E. auto.
  - intros E. apply (f_equal (@List.length R)) in E. rewrite skipn_length in E. simpl in E. lia.
Qed.

Lemma deque_append_window : forall w h x,
  deque_append w (skipn (List.length h - w) h) x
  = skipn (List.length (h ++ [x]) - w) (h ++ [x]).
Proof.
  intros. unfold deque_append.
  assert (E : skipn (List.length h - w) h ++ [x] = skipn (List.length h - w) (h ++ [x])).
  { rewrite skipn_app. replace (List.length h - w - List.length h) with 0 by lia. reflexivity. }
  rewrite E, skipn_skipn. f_equal. rewrite skipn_length, app_length. simpl. lia.
Qed.

Section Stopper.
Variable cfg : stopper_config.
Hypothesis Hw : 1 <= window_size cfg.
Notation w := (window_size cfg).
Notation is_stale := (stale w (min_improvement cfg) (relative cfg) (stopper_eps cfg)).

Definition stopper_inv (h : list R) (st : stopper_state) : Prop :=
  loss_window st = skipn (List.length h - w) h
  /\ (forall k, k < counter st -> is_stale (firstn (List.length h - k) h))
  /\ ~ is_stale (firstn (List.length h - counter st) h)
  /\ counter st <= List.length h.

Lemma not_stale_nil : ~ is_stale [].
Proof. intros [H _]. simpl in H. lia. Qed.

Lemma stopper_inv_init : stopper_inv [] new_stopper.
Proof.
  split; [|split; [|split]]; simpl; auto; try lia.
  apply not_stale_nil.
Qed.

Lemma firstn_snoc : forall (h : list R) x k, k <= List.length h ->
  firstn k (h ++ [x]) = firstn k h.
Proof. intros. rewrite firstn_app. replace (k - List.length h) with 0 by lia. simpl. apply app_nil_r. Qed.

Lemma stopper_step_inv : forall h st x, stopper_inv h st ->
  exists st', stopper_step cfg st x = Ok ((w <=? List.length (h ++ [x])) && (patience cfg <=? counter st'), st')
    /\ stopper_inv (h ++ [x]) st'.
Proof.
  intros h st x (I1 & I2 & I3 & I4). unfold stopper_step. rewrite I1, deque_append_window.
  set (h' := h ++ [x]).
  assert (L' : List.length h' = S (List.length h)) by (unfold h'; rewrite app_length; simpl; lia).
  rewrite skipn_length.
  destruct (Nat.ltb_spec (List.length h' - (List.length h' - w)) w) as [Hs|Hs].
  - assert (List.length h' < w) by lia.
    eexists. split; [|].
    + destruct (Nat.leb_spec w (List.length h')); [lia|]. simpl. reflexivity.
    + assert (C0 : counter st = 0).
      { destruct (counter st) eqn:C; auto. exfalso.
        destruct (I2 0 ltac:(lia)) as [A _]. rewrite firstn_length in A. lia. }
      split; [|split; [|split]]; simpl; try lia; auto.
      rewrite C0, Nat.sub_0_r, firstn_all. intros [A _]. lia.
  - assert (Hfull : w <= List.length h') by lia.
    destruct (Nat.leb_spec w (List.length h')); [|lia]. simpl.
    rewrite (skipn_cons_nth 0%R) by lia.
    set (f := nth (List.length h' - w) h' 0%R).
    assert (EL : last (f :: skipn (S (List.length h' - w)) h') f = nth (List.length h' - 1) h' 0%R).
    { unfold f. rewrite <- skipn_cons_nth by lia. apply last_skipn. lia. }
    rewrite EL.
    change (if relative cfg
            then ((f - nth (List.length h' - 1) h' 0) / Rmax (Rabs f) (stopper_eps cfg))%R
            else (f - nth (List.length h' - 1) h' 0)%R)
      with (window_improvement w (relative cfg) (stopper_eps cfg) h').
    match goal with |- context [Ok (_, ?s)] => exists s end.
    split; [reflexivity|]. unfold stopper_inv. cbn [loss_window counter].
    assert (EW : f :: skipn (S (List.length h' - w)) h' = skipn (List.length h' - w) h')
      by (unfold f; rewrite <- skipn_cons_nth by lia; reflexivity).
    unfold Rgtb.
    destruct (Rlt_dec (min_improvement cfg) (window_improvement w (relative cfg) (stopper_eps cfg) h')) as [Hr|Hr].
    + split; [auto|]. split; [intros; lia|]. split; [|lia].
      rewrite Nat.sub_0_r, firstn_all. intros [_ A]. lra.
    + split; [auto|]. split; [|split; [|lia]].
      * intros k Hk. destruct k.
        -- rewrite Nat.sub_0_r, firstn_all. split; auto. lra.
        -- rewrite L'. simpl. unfold h'. rewrite firstn_snoc by lia. apply I2. lia.
      * rewrite L'. simpl. unfold h'. rewrite firstn_snoc by lia. auto.
Qed.

Lemma stopper_run_app : forall h1 h2 st,
  stopper_run cfg st (h1 ++ h2) =
  match stopper_run cfg st h1 with Ok st' => stopper_run cfg st' h2 | Err e => Err e end.
Proof.
  induction h1; simpl; intros; auto. destruct (stopper_step cfg st a) as [[? ?]|]; auto.
Qed.

Lemma stopper_run_inv : forall h, exists st, stopper_run cfg new_stopper h = Ok st /\ stopper_inv h st.
Proof.
  induction h using rev_ind.
  - exists new_stopper. split; auto. apply stopper_inv_init.
  - destruct IHh as (st & R1 & R2). rewrite stopper_run_app, R1. simpl.
    destruct (stopper_step_inv h st x R2) as (st' & S1 & S2). rewrite S1. eauto.
Qed.

Lemma stop_spec : forall h x, 1 <= patience cfg ->
  exists st stop st',
    stopper_run cfg new_stopper h = Ok st
    /\ stopper_step cfg st x = Ok (stop, st')
    /\ (stop = true <->
        forall k, k < patience cfg -> is_stale (firstn (List.length (h ++ [x]) - k) (h ++ [x])))
    /\ (stop = true -> w + patience cfg - 1 <= List.length (h ++ [x])).
Proof.
  intros h x Hp. destruct (stopper_run_inv h) as (st & R1 & R2).
  destruct (stopper_step_inv h st x R2) as (st' & S1 & (I1 & I2 & I3 & I4)).
  exists st. eexists. exists st'. split; auto. split; [exact S1|].
  set (h' := h ++ [x]) in *.
  assert (E : ((w <=? List.length h') && (patience cfg <=? counter st') = true <->
     (forall k, k < patience cfg -> is_stale (firstn (List.length h' - k) h')))).
  { rewrite andb_true_iff, !Nat.leb_le. split.
    - intros [A B] k Hk. apply I2. lia.
    - intros H. split.
      + destruct (H 0 ltac:(lia)) as [A _]. rewrite Nat.sub_0_r, firstn_all in A. auto.
      + destruct (Nat.le_gt_cases (patience cfg) (counter st')); auto.
        exfalso. apply I3. apply H. auto. }
  split; auto. intros Hs. rewrite E in Hs.
  destruct (Hs (patience cfg - 1) ltac:(lia)) as [A _]. rewrite firstn_length in A. lia.
Qed.
End Stopper.

(** * Loops *)
Section Loop.
Variable cfg : loop_config.
Variable losses : nat -> R.

(** The early-stopping decision taken in epoch [e] of an uninterrupted run. *)
Definition stop_at (e : nat) : bool :=
  match stopper_run (stopper cfg) new_stopper (map losses (seq 0 e)) with
  | Ok st => match stopper_step (stopper cfg) st (losses e) with Ok (b, _) => b | Err _ => false end
  | Err _ => false
  end.

Hypothesis Hw : 1 <= window_size (stopper cfg).
Hypothesis Hlog : 1 <= log_step cfg \/ 1 <= max_epoch cfg.

Definition loss_before (e : nat) : option R := match e with 0 => None | S e' => Some (losses e') end.

Lemma loop_spec : forall fuel e st,
  stopper_run (stopper cfg) new_stopper (map losses (seq 0 e)) = Ok st ->
  e <= max_epoch cfg + 1 -> max_epoch cfg + 2 - e <= fuel ->
  (forall i, i < e -> stop_at i = false) ->
  (forall i, i + 1 < e -> (tolerance cfg < losses i)%R) ->
  exists r, optimization_loop fuel cfg losses e (loss_before e) st (map losses (seq 0 e)) = Finished r
    /\ executed r <= max_epoch cfg + 1 /\ 1 <= executed r
    /\ final_loss r = Some (losses (executed r - 1))
    /\ (forall i, i + 1 < executed r -> (tolerance cfg < losses i)%R /\ stop_at i = false)
    /\ stopped_early r = stop_at (executed r - 1)
    /\ (stopped_early r = true \/ (losses (executed r - 1)%nat <= tolerance cfg)%R
        \/ executed r = max_epoch cfg + 1)
    /\ history r = map losses (seq 0 (match record cfg with
                                      | RecordBeforeStopTest => executed r
                                      | RecordAfterStopTest =>
                                        if stopped_early r then executed r - 1 else executed r end)).
Proof.
  induction fuel; intros e st Hst He Hf Hns Htol; [lia|]. simpl.
  destruct (match loss_before e with Some l => Rgtb l (tolerance cfg) | None => true end
            && (e <=? max_epoch cfg)) eqn:C.
  - apply andb_true_iff in C. destruct C as [C1 C2]. apply Nat.leb_le in C2.
    destruct ((if log_step cfg =? 0 then max_epoch cfg else log_step cfg) =? 0) eqn:EL.
    { exfalso. apply Nat.eqb_eq in EL. destruct (Nat.eqb_spec (log_step cfg) 0); lia. }
    destruct (stopper_run_inv (stopper cfg) Hw (map losses (seq 0 e))) as (st0 & R1 & R2).
    rewrite R1 in Hst. injection Hst as ->.
    destruct (stopper_step_inv (stopper cfg) Hw _ _ (losses e) R2) as (st' & S1 & S2).
    rewrite S1.
    set (stop := (_ && _)) in *.
    assert (SA : stop_at e = stop) by (unfold stop_at; rewrite R1, S1; reflexivity).
    assert (Htol' : forall i, i < e -> (tolerance cfg < losses i)%R).
    { intros i Hi. destruct (Nat.eq_dec (i + 1) e).
      - subst e. rewrite Nat.add_1_r in C1. simpl in C1. unfold Rgtb in C1.
        destruct (Rlt_dec (tolerance cfg) (losses i)); [auto|discriminate].
      - apply Htol. lia. }
    destruct stop eqn:ES.
    + eexists. split; [reflexivity|]. simpl. rewrite Nat.sub_0_r.
      split; [lia|]. split; [lia|]. split; auto. split.
      { intros i Hi. split; [apply Htol'; lia|apply Hns; lia]. }
      split; auto. split; auto.
      destruct (record cfg); auto.
      change (map losses (seq 0 e) ++ [losses e] = map losses (seq 0 (S e))).
      rewrite seq_S, map_app. reflexivity.
    + destruct (IHfuel (S e) st') as (r & IH).
      * rewrite seq_S, map_app. simpl. rewrite stopper_run_app, R1. simpl. rewrite S1. reflexivity.
      * lia.
      * lia.
      * intros i Hi. destruct (Nat.eq_dec i e); [subst; auto|apply Hns; lia].
      * intros i Hi. apply Htol'. lia.
      * rewrite seq_S, map_app in IH. simpl in IH. exists r. exact IH.
  - assert (He1 : 1 <= e).
    { destruct e; [|lia]. simpl in C. discriminate. }
    destruct e as [|e']; [lia|]. simpl loss_before.
    eexists. split; [reflexivity|]. cbn [executed final_loss history stopped_early].
    replace (S e' - 1) with e' by lia.
    split; [lia|]. split; [lia|]. split; auto. split; [|split; [|split]].
    + intros i Hi. split; [apply Htol; lia|apply Hns; lia].
    + symmetry. apply Hns. lia.
    + right. apply andb_false_iff in C. destruct C as [C|C].
      * left. simpl in C. unfold Rgtb in C. destruct (Rlt_dec (tolerance cfg) (losses e')); [discriminate|lra].
      * right. apply Nat.leb_gt in C. lia.
    + destruct (record cfg); reflexivity.
Qed.

Lemma run_loop_spec :
  exists r, run_loop cfg losses = Finished r
    /\ executed r <= max_epoch cfg + 1 /\ 1 <= executed r
    /\ final_loss r = Some (losses (executed r - 1))
    /\ (forall i, i + 1 < executed r -> (tolerance cfg < losses i)%R /\ stop_at i = false)
    /\ stopped_early r = stop_at (executed r - 1)
    /\ (stopped_early r = true \/ (losses (executed r - 1)%nat <= tolerance cfg)%R
        \/ executed r = max_epoch cfg + 1)
    /\ history r = map losses (seq 0 (match record cfg with
                                      | RecordBeforeStopTest => executed r
                                      | RecordAfterStopTest =>
                                        if stopped_early r then executed r - 1 else executed r end)).
Proof.
  unfold run_loop. apply (loop_spec (max_epoch cfg + 2) 0 new_stopper); auto; try lia.
Qed.
End Loop.

Lemma run_loop_zero_log_step : forall cfg (losses : nat -> R),
  log_step cfg = 0 -> max_epoch cfg = 0 -> run_loop cfg losses = Raised ZeroDivisionError.
Proof. intros cfg losses H1 H2. unfold run_loop. rewrite H2. simpl. rewrite H1, H2. reflexivity. Qed.

(** * Statements *)
Lemma early_stopping_exact : forall cfg (before : list R) (loss : R),
  1 <= window_size cfg -> 1 <= patience cfg ->
  exists st stop st',
    stopper_run cfg new_stopper before = Ok st
    /\ stopper_step cfg st loss = Ok (stop, st')
    /\ (stop = true <->
        forall k, k < patience cfg ->
          stale (window_size cfg) (min_improvement cfg) (relative cfg) (stopper_eps cfg)
            (firstn (List.length (before ++ [loss]) - k) (before ++ [loss])))
    /\ (stop = true -> window_size cfg + patience cfg - 1 <= List.length (before ++ [loss])).
Proof. intros cfg before loss Hw Hp. apply stop_spec; auto. Qed.

Lemma loop_bounded : forall cfg (losses : nat -> R),
  1 <= window_size (stopper cfg) -> 1 <= log_step cfg \/ 1 <= max_epoch cfg ->
  exists r, run_loop cfg losses = Finished r
    /\ 1 <= executed r <= max_epoch cfg + 1
    /\ final_loss r = Some (losses (executed r - 1))
    /\ (forall e, e + 1 < executed r -> (tolerance cfg < losses e)%R)
    /\ (stopped_early r = true \/ (losses (executed r - 1)%nat <= tolerance cfg)%R
        \/ executed r = max_epoch cfg + 1)
    /\ history r = map losses (seq 0 (match record cfg with
                                      | RecordBeforeStopTest => executed r
                                      | RecordAfterStopTest =>
                                        if stopped_early r then executed r - 1 else executed r end)).
Proof.
  intros cfg losses Hw Hl. destruct (run_loop_spec cfg losses Hw Hl) as (r & A & B & C & D & E & F & G & H).
  exists r. repeat split; auto. intros e He. apply E. auto.
Qed.

(** Early stop happens only when the stopper says so; used by C11 and C68. *)
Lemma loop_early_stop : forall cfg (losses : nat -> R) r,
  1 <= window_size (stopper cfg) -> 1 <= log_step cfg \/ 1 <= max_epoch cfg ->
  1 <= patience (stopper cfg) ->
  run_loop cfg losses = Finished r ->
  let stale_for e := forall k, k < patience (stopper cfg) ->
      stale (window_size (stopper cfg)) (min_improvement (stopper cfg)) (relative (stopper cfg))
        (stopper_eps (stopper cfg)) (map losses (seq 0 (S e - k))) in
  (stopped_early r = true <-> stale_for (executed r - 1))
  /\ forall e, e + 1 < executed r -> ~ stale_for e.
Proof.
  intros cfg losses r Hw Hl Hp Hr stale_for.
  destruct (run_loop_spec cfg losses Hw Hl) as (r' & A & B & C & D & E & F & G & H).
  rewrite A in Hr. injection Hr as ->.
  assert (S : forall e, stop_at cfg losses e = true <-> stale_for e).
  { intros e. destruct (early_stopping_exact (stopper cfg) (map losses (seq 0 e)) (losses e) Hw Hp)
      as (st & stop & st' & S1 & S2 & S3 & _).
    unfold stop_at. rewrite S1, S2, S3. unfold stale_for.
    assert (EQ : map losses (seq 0 e) ++ [losses e] = map losses (seq 0 (S e)))
      by (rewrite seq_S, map_app; reflexivity).
    rewrite EQ. rewrite map_length, seq_length.
    assert (FN : forall n m, n <= m -> firstn n (map losses (seq 0 m)) = map losses (seq 0 n)).
    { intros n m Hnm. rewrite firstn_map. f_equal. replace m with (n + (m - n)) by lia.
      rewrite seq_app, firstn_app, seq_length, Nat.sub_diag. simpl. rewrite app_nil_r.
      rewrite <- (seq_length n 0) at 1. apply firstn_all. }
    split; intros Q k Hk; specialize (Q k Hk); rewrite FN in * by lia; auto. }
  split.
  - rewrite F. apply S.
  - intros e He Hst. apply S in Hst. destruct (E e He). congruence.
Qed.

Definition c68_config : loop_config :=
  {| tolerance := 1/2; max_epoch := 3; log_step := 1;
     stopper := {| window_size := 10; patience := 5; min_improvement := 0; relative := false; stopper_eps := 1 |};
     record := RecordAfterStopTest |}.
Definition c68_losses (rank epoch : nat) : R := match rank with 0 => 1%R | _ => 0%R end.

Lemma run_single : forall cfg (losses : nat -> R), 2 <= window_size (stopper cfg) -> 1 <= log_step cfg ->
  (losses 0%nat <= tolerance cfg)%R ->
  exists r, run_loop cfg losses = Finished r /\ executed r = 1.
Proof.
  intros cfg losses H1 H2 H3.
  destruct (loop_bounded cfg losses) as (r & A & B & C & D & E & F); try lia.
  exists r. split; auto. destruct (Nat.eq_dec (executed r) 1) as [|N]; auto.
  specialize (D 0 ltac:(lia)). lra.
Qed.

Lemma run_full : forall cfg (losses : nat -> R), 1 <= patience (stopper cfg) ->
  max_epoch cfg + 1 < window_size (stopper cfg) -> 1 <= log_step cfg ->
  (forall e, (tolerance cfg < losses e)%R) ->
  exists r, run_loop cfg losses = Finished r /\ executed r = max_epoch cfg + 1.
Proof.
  intros cfg losses Hp H1 H2 H3.
  destruct (loop_bounded cfg losses) as (r & A & B & C & D & E & F); try lia.
  exists r. split; auto. destruct E as [E|[E|E]]; auto.
  - destruct (loop_early_stop cfg losses r ltac:(lia) ltac:(lia) Hp A) as [[Z _] _]. specialize (Z E). clear E. rename Z into E.
    destruct (E 0 ltac:(lia)) as [Q _]. rewrite map_length, seq_length in Q. lia.
  - specialize (H3 (executed r - 1)%nat). lra.
Qed.

Lemma ranks_leave_together_refuted :
  ~ (forall cfg (losses : nat -> nat -> R), 1 <= window_size (stopper cfg) -> 1 <= patience (stopper cfg) -> 1 <= log_step cfg ->
       forall r1 r2, epochs_of_rank cfg losses r1 = epochs_of_rank cfg losses r2).
Proof.
  intros H. specialize (H c68_config c68_losses ltac:(simpl; lia) ltac:(simpl; lia) ltac:(simpl; lia) 0 1).
  unfold epochs_of_rank in H.
  destruct (run_full c68_config (c68_losses 0)) as (r & A & B); simpl; try lia.
  { intros; lra. }
  destruct (run_single c68_config (c68_losses 1)) as (r' & A' & B'); simpl; try lia; try lra.
  rewrite A, A' in H. injection H as H. simpl in B. lia.
Qed.

Lemma ranks_leave_together : forall cfg (losses : nat -> nat -> R),
  1 <= window_size (stopper cfg) -> 1 <= patience (stopper cfg) -> 1 <= log_step cfg ->
  (forall r1 r2 e, losses r1 e = losses r2 e)
  \/ (max_epoch cfg + 1 < window_size (stopper cfg) + patience (stopper cfg) - 1
      /\ forall r e, (tolerance cfg < losses r e)%R) ->
  forall r1 r2, epochs_of_rank cfg losses r1 = epochs_of_rank cfg losses r2
    /\ exists n, epochs_of_rank cfg losses r1 = Some n.
Proof.
  intros cfg losses Hw Hp Hl HH.
  assert (G : forall r, exists res, run_loop cfg (losses r) = Finished res) by
    (intros r; destruct (loop_bounded cfg (losses r)) as (x & A & _); eauto).
  intros r1 r2. split.
  2: { unfold epochs_of_rank. destruct (G r1) as (x & ->). eauto. }
  destruct HH as [HH|[H1 H2]].
  - assert (EQ : forall fuel e l st h,
        optimization_loop fuel cfg (losses r1) e l st h = optimization_loop fuel cfg (losses r2) e l st h).
    { induction fuel; intros; simpl; auto. rewrite (HH r1 r2).
      destruct (_ && _); auto. destruct (_ =? 0); auto.
      destruct (stopper_step _ _ _) as [[[|] ?]|]; auto. }
    unfold epochs_of_rank, run_loop. rewrite EQ. reflexivity.
  - assert (N : forall r, epochs_of_rank cfg losses r = Some (max_epoch cfg + 1)).
    { intros r. unfold epochs_of_rank.
      destruct (loop_bounded cfg (losses r)) as (x & A & B & C & D & E & F); try lia.
      rewrite A. f_equal. destruct E as [E|[E|E]]; auto.
      - destruct (loop_early_stop cfg (losses r) x ltac:(lia) ltac:(lia) Hp A) as [[Z _] _]. specialize (Z E). clear E. rename Z into E.
        destruct (E (patience (stopper cfg) - 1) ltac:(lia)) as [Q _].
        rewrite map_length, seq_length in Q. lia.
      - specialize (H2 r (executed x - 1)). lra. }
    rewrite !N. reflexivity.
Qed.

(** A rank leaves the loop in the first epoch that meets the tolerance or ends the patience. *)
Lemma epochs_of_rank_exact : forall cfg (losses : nat -> nat -> R) rank n,
  1 <= window_size (stopper cfg) -> 1 <= patience (stopper cfg) -> 1 <= log_step cfg ->
  let ends e := (losses rank e <= tolerance cfg)%R
    \/ forall k, k < patience (stopper cfg) ->
         stale (window_size (stopper cfg)) (min_improvement (stopper cfg)) (relative (stopper cfg))
           (stopper_eps (stopper cfg)) (map (losses rank) (seq 0 (S e - k))) in
  epochs_of_rank cfg losses rank = Some n <->
    1 <= n <= max_epoch cfg + 1 /\ (forall e, e + 1 < n -> ~ ends e)
    /\ (ends (n - 1) \/ n = max_epoch cfg + 1).
Proof.
  intros cfg losses rank n Hw Hp Hl ends. unfold epochs_of_rank.
  destruct (loop_bounded cfg (losses rank)) as (x & A & B & C & D & E & F); try lia.
  rewrite A. destruct (loop_early_stop cfg (losses rank) x ltac:(lia) ltac:(lia) Hp A) as [Z1 Z2].
  assert (P1 : forall e, e + 1 < executed x -> ~ ends e).
  { intros e He [Q|Q]; [specialize (D e He); lra|exact (Z2 e He Q)]. }
  assert (P2 : ends (executed x - 1) \/ executed x = max_epoch cfg + 1).
  { destruct E as [E|[E|E]]; auto.
    - left. right. apply Z1. exact E.
    - left. left. exact E. }
  split.
  - intros H. injection H as <-. auto.
  - intros (N1 & N2 & N3). f_equal.
    destruct (Nat.lt_trichotomy (executed x) n) as [L|[L|L]]; auto; exfalso.
    + destruct P2 as [P2|P2]; [|lia]. apply (N2 (executed x - 1)); auto. lia.
    + destruct N3 as [N3|N3]; [|lia]. apply (P1 (n - 1)); auto. lia.
Qed.

(** A rank that meets the tolerance while another one has no reason to stop leaves it behind. *)
Lemma first_rank_leaves : forall cfg (losses : nat -> nat -> R) r1 r2 e,
  1 <= window_size (stopper cfg) -> 1 <= patience (stopper cfg) -> 1 <= log_step cfg ->
  e < max_epoch cfg ->
  (losses r1 e <= tolerance cfg)%R ->
  (forall e', e' <= e -> (tolerance cfg < losses r2 e')%R
     /\ exists k, k < patience (stopper cfg) /\
          ~ stale (window_size (stopper cfg)) (min_improvement (stopper cfg)) (relative (stopper cfg))
              (stopper_eps (stopper cfg)) (map (losses r2) (seq 0 (S e' - k)))) ->
  exists n1 n2, epochs_of_rank cfg losses r1 = Some n1 /\ epochs_of_rank cfg losses r2 = Some n2
    /\ n1 <= e + 1 < n2.
Proof.
  intros cfg losses r1 r2 e Hw Hp Hl He T1 T2.
  destruct (loop_bounded cfg (losses r1)) as (x & A & _); try lia.
  destruct (loop_bounded cfg (losses r2)) as (y & B & _); try lia.
  assert (E1 : epochs_of_rank cfg losses r1 = Some (executed x)) by (unfold epochs_of_rank; rewrite A; auto).
  assert (E2 : epochs_of_rank cfg losses r2 = Some (executed y)) by (unfold epochs_of_rank; rewrite B; auto).
  exists (executed x), (executed y). split; auto. split; auto.
  apply epochs_of_rank_exact in E1; auto. apply epochs_of_rank_exact in E2; auto.
  destruct E1 as (N1 & M1 & _). destruct E2 as (N2 & _ & M2).
  split.
  - destruct (Nat.le_gt_cases (executed x) (e + 1)) as [L|L]; auto. exfalso. apply (M1 e); auto.
  - destruct (Nat.lt_ge_cases (e + 1) (executed y)) as [L|L]; auto. exfalso.
    destruct M2 as [[M2|M2]|M2]; [| |lia].
    + destruct (T2 (executed y - 1) ltac:(lia)) as [Q _]. lra.
    + destruct (T2 (executed y - 1) ltac:(lia)) as [_ (k & K1 & K2)]. apply K2. apply M2. exact K1.
Qed.

(** A reconstruction that stops early in its second epoch records only one loss. *)
Definition c11_config : loop_config :=
  {| tolerance := 0; max_epoch := 5; log_step := 0;
     stopper := {| window_size := 2; patience := 1; min_improvement := 0; relative := false; stopper_eps := 1 |};
     record := RecordAfterStopTest |}.
Lemma reconstruction_history_refuted :
  ~ (forall cfg (losses : nat -> R) r, record cfg = RecordAfterStopTest -> run_loop cfg losses = Finished r ->
       history r = map losses (seq 0 (executed r))).
Proof.
  intros H. specialize (H c11_config (fun _ => 1%R)).
  assert (E : run_loop c11_config (fun _ => 1%R)
     = Finished {| executed := 2; history := [1%R]; final_loss := Some 1%R; stopped_early := true |}).
  { unfold run_loop. simpl. unfold Rgtb, stopper_step, Rgtb. simpl.
    repeat (destruct (Rlt_dec _ _); try lra; simpl). reflexivity. }
  specialize (H _ eq_refl E). simpl in H. discriminate.
Qed.

Lemma aim_point_loop : forall cfg (losses : nat -> R),
  record cfg = RecordBeforeStopTest ->
  1 <= window_size (stopper cfg) -> 1 <= log_step cfg \/ 1 <= max_epoch cfg ->
  exists r, run_loop cfg losses = Finished r
    /\ 1 <= executed r <= max_epoch cfg + 1
    /\ final_loss r = Some (losses (executed r - 1))
    /\ (forall e, e + 1 < executed r -> (tolerance cfg < losses e)%R)
    /\ (stopped_early r = true \/ (losses (executed r - 1)%nat <= tolerance cfg)%R
        \/ executed r = max_epoch cfg + 1)
    /\ history r = map losses (seq 0 (executed r)).
Proof.
  intros cfg losses Hr Hw Hl. destruct (loop_bounded cfg losses Hw Hl) as (r & H). exists r.
  rewrite Hr in H. exact H.
Qed.

Lemma reconstruction_loop : forall cfg (losses : nat -> R),
  record cfg = RecordAfterStopTest ->
  1 <= window_size (stopper cfg) -> 1 <= log_step cfg \/ 1 <= max_epoch cfg ->
  exists r, run_loop cfg losses = Finished r
    /\ 1 <= executed r <= max_epoch cfg + 1
    /\ final_loss r = Some (losses (executed r - 1))
    /\ (forall e, e + 1 < executed r -> (tolerance cfg < losses e)%R)
    /\ (stopped_early r = true \/ (losses (executed r - 1)%nat <= tolerance cfg)%R
        \/ executed r = max_epoch cfg + 1)
    /\ (stopped_early r = false -> history r = map losses (seq 0 (executed r)))
    /\ (stopped_early r = true -> history r ++ [losses (executed r - 1)] = map losses (seq 0 (executed r))).
Proof.
  intros cfg losses Hr Hw Hl. destruct (loop_bounded cfg losses Hw Hl) as (r & A & B & C & D & E & F).
  exists r. rewrite Hr in F. repeat split; auto; try lia; intros Hs; rewrite Hs in F; rewrite F; auto.
  destruct (executed r) as [|n]; [lia|]. simpl. rewrite Nat.sub_0_r.
  change (map losses (seq 0 n) ++ [losses n] = map losses (seq 0 (S n))).
  rewrite seq_S, map_app. reflexivity.
Qed.
