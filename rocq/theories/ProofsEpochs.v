From Coq Require Import List Arith Reals Bool Lia Lra.
From Verif Require Import ModelField ModelTraining SpecTraining ProofsTraining ModelOptimization ModelEpochs SpecEpochs.
Import ListNotations.
Local Open Scope nat_scope.

Section Aim.
Context {P M F : Type}.
Variables (cfg : loop_config) (motors : P -> M) (factors : M -> F) (loss_at : nat -> M -> R) (step : nat -> P -> P) (p0 : P).
Hypothesis W : 1 <= window_size (stopper cfg).
Hypothesis I : 1 <= log_interval cfg.
Let losses e := loss_at e (motors (after step e p0)).

Lemma aim_loop_step : forall kind fuel epoch loss st hist p stored seen,
  aim_loop cfg kind motors factors loss_at step (S fuel) epoch loss st hist p stored seen =
  if above_tolerance cfg loss && (epoch <=? max_epoch cfg) then
    match (match kind with KullbackLeibler => Some (loss_at epoch (motors p)) | OtherLoss => loss end) with
    | None => Failed RuntimeError
    | Some l =>
      if log_interval cfg =? 0 then Failed ZeroDivisionError
      else match stopper_step (stopper cfg) st l with
           | Err e => Failed e
           | Ok (true, _) => Done {| aim_executed := S epoch; aim_loss := Some l; aim_history := hist ++ [l]; aim_factors := factors (motors p); aim_motors := motors p |}
           | Ok (false, st) => aim_loop cfg kind motors factors loss_at step fuel (S epoch) (Some l) st (hist ++ [l]) (step epoch p) (motors p) (Some (factors (motors p)))
           end
    end
  else match seen with
       | None => Failed UnboundLocalError
       | Some f => Done {| aim_executed := epoch; aim_loss := loss; aim_history := hist; aim_factors := f; aim_motors := stored |}
       end.
Proof. reflexivity. Qed.

Definition aim_spec (r : aim_result M F) : Prop :=
  1 <= aim_executed r <= max_epoch cfg + 1
  /\ aim_motors r = motors (after step (aim_executed r - 1) p0)
  /\ aim_loss r = Some (loss_at (aim_executed r - 1) (aim_motors r))
  /\ aim_factors r = factors (aim_motors r)
  /\ aim_history r = map losses (seq 0 (aim_executed r)).

Lemma aim_inv : forall fuel epoch loss st hist stored seen,
  max_epoch cfg + 2 <= fuel + epoch -> epoch <= max_epoch cfg + 1 -> stopper_inv (stopper cfg) hist st -> hist = map losses (seq 0 epoch) ->
  (epoch = 0 /\ loss = None \/ 1 <= epoch /\ loss = Some (losses (epoch - 1)) /\ stored = motors (after step (epoch - 1) p0) /\ seen = Some (factors stored)) ->
  exists r, aim_loop cfg KullbackLeibler motors factors loss_at step fuel epoch loss st hist (after step epoch p0) stored seen = Done r /\ aim_spec r.
Proof.
  induction fuel as [|fuel IH]; intros epoch loss st hist stored seen FU EM SI H ST; [lia|]. rewrite aim_loop_step.
  destruct (above_tolerance cfg loss && (epoch <=? max_epoch cfg)) eqn:C.
  - apply andb_prop in C. destruct C as [_ C]. apply Nat.leb_le in C.
    destruct (Nat.eqb_spec (log_interval cfg) 0) as [Z|_]; [lia|].
    change (loss_at epoch (motors (after step epoch p0))) with (losses epoch).
    destruct (stopper_step_inv (stopper cfg) W hist st (losses epoch) SI) as (st' & E & SI'). rewrite E.
    assert (HH : hist ++ [losses epoch] = map losses (seq 0 (S epoch))) by (rewrite seq_S, map_app, H; reflexivity).
    destruct (_ && _).
    + eexists. split; [reflexivity|]. unfold aim_spec. cbn. rewrite Nat.sub_0_r. repeat split; try lia; auto.
    + change (step epoch (after step epoch p0)) with (after step (S epoch) p0). apply IH; try lia; auto.
      right. cbn. rewrite Nat.sub_0_r. repeat split; auto; lia.
  - destruct ST as [[Z L]|(Z & L & S & N)].
    + subst. cbn in C. discriminate.
    + subst seen. eexists. split; [reflexivity|]. unfold aim_spec. cbn. subst stored loss. repeat split; auto; lia.
Qed.

Lemma aim_reported : exists r, optimize_aim_points cfg KullbackLeibler motors factors loss_at step p0 = Done r /\ aim_spec r.
Proof.
  unfold optimize_aim_points. apply (aim_inv (max_epoch cfg + 2) 0 None new_stopper [] (motors p0) None); auto; try lia.
  apply stopper_inv_init; auto.
Qed.

Lemma other_losses_fail : optimize_aim_points cfg OtherLoss motors factors loss_at step p0 = Failed RuntimeError.
Proof. clear W I. unfold optimize_aim_points. replace (max_epoch cfg + 2) with (S (S (max_epoch cfg))) by lia. rewrite aim_loop_step. reflexivity. Qed.
End Aim.

Section Rec.
Context {P T : Type}.
Variables (cfg : loop_config) (losses_at : nat -> P -> list R) (validate : P -> T) (step : nat -> P -> P) (p0 : P).
Hypothesis W : 1 <= window_size (stopper cfg).
Hypothesis I : 1 <= log_interval cfg.
Let interval := log_interval cfg.

Definition finish (executed : nat) (losses hist : list R) (p : P) (test : option T) : outcome (reconstruction P T) :=
  match test with
  | None => Failed UnboundLocalError
  | Some t => Done {| rec_executed := executed; rec_losses := losses; rec_history := hist; rec_test := t; rec_parameters := p |}
  end.
Lemma reconstruction_loop_step : forall fuel epoch loss losses st hist p test,
  reconstruction_loop cfg losses_at validate step (S fuel) epoch loss losses st hist p test =
  if above_tolerance cfg loss && (epoch <=? max_epoch cfg) then
    match stopper_step (stopper cfg) st (mean (losses_at epoch p)) with
    | Err e => Failed e
    | Ok (stop, st) =>
      if log_interval cfg =? 0 then Failed ZeroDivisionError
      else
        let test := if (epoch mod log_interval cfg =? 0) || (S epoch =? max_epoch cfg) || stop then Some (validate (step epoch p)) else test in
        if stop then finish (S epoch) (losses_at epoch p) hist (step epoch p) test
        else reconstruction_loop cfg losses_at validate step fuel (S epoch) (Some (mean (losses_at epoch p))) (losses_at epoch p) st (hist ++ [mean (losses_at epoch p)]) (step epoch p) test
    end
  else finish epoch losses hist p test.
Proof. reflexivity. Qed.

(** Epochs with a validation, apart from an early stop. *)
Definition validated (e : nat) : Prop := e mod interval = 0 \/ S e = max_epoch cfg.
Definition last_validated (n e : nat) : Prop := e < n /\ validated e /\ forall e', e < e' < n -> ~ validated e'.
Definition stopped (r : reconstruction P T) : Prop := length (rec_history r) < rec_executed r.

Definition rec_spec (r : reconstruction P T) : Prop :=
  1 <= rec_executed r <= max_epoch cfg + 1
  /\ rec_parameters r = after step (rec_executed r) p0
  /\ rec_losses r = losses_at (rec_executed r - 1) (after step (rec_executed r - 1) p0)
  /\ (stopped r -> rec_test r = validate (rec_parameters r))
  /\ (~ stopped r -> exists e, last_validated (rec_executed r) e /\ rec_test r = validate (after step (S e) p0)).

Lemma rec_inv : forall fuel epoch loss losses st hist test,
  max_epoch cfg + 2 <= fuel + epoch -> epoch <= max_epoch cfg + 1 -> stopper_inv (stopper cfg) hist st -> length hist = epoch ->
  (epoch = 0 /\ loss = None \/ 1 <= epoch /\ losses = losses_at (epoch - 1) (after step (epoch - 1) p0)
    /\ exists e, last_validated epoch e /\ test = Some (validate (after step (S e) p0))) ->
  exists r, reconstruction_loop cfg losses_at validate step fuel epoch loss losses st hist (after step epoch p0) test = Done r /\ rec_spec r.
Proof.
  induction fuel as [|fuel IH]; intros epoch loss losses st hist test FU EM SI H ST; [lia|]. rewrite reconstruction_loop_step.
  destruct (above_tolerance cfg loss && (epoch <=? max_epoch cfg)) eqn:C.
  - apply andb_prop in C. destruct C as [_ C]. apply Nat.leb_le in C.
    destruct (stopper_step_inv (stopper cfg) W hist st (mean (losses_at epoch (after step epoch p0))) SI) as (st' & E & SI'). rewrite E.
    destruct (Nat.eqb_spec (log_interval cfg) 0) as [Z|_]; [lia|]. cbv zeta.
    change (step epoch (after step epoch p0)) with (after step (S epoch) p0).
    destruct (_ && _).
    + rewrite orb_true_r. eexists. split; [reflexivity|]. unfold rec_spec, stopped. cbn [rec_executed rec_parameters rec_losses rec_test rec_history].
      cbn [Nat.sub]. rewrite Nat.sub_0_r. repeat split; auto; try lia.
    + rewrite orb_false_r. apply IH; try lia; auto. { rewrite app_length. cbn. lia. }
      right. cbn [Nat.sub]. rewrite Nat.sub_0_r. split; [lia|]. split; [reflexivity|].
      destruct ((epoch mod log_interval cfg =? 0) || (S epoch =? max_epoch cfg)) eqn:V.
      * exists epoch. split; [|reflexivity]. split; [lia|]. split; [|intros; lia]. apply orb_prop in V. unfold validated, interval.
        destruct V as [V|V]; apply Nat.eqb_eq in V; auto.
      * apply orb_false_elim in V. destruct V as [V1 V2]. apply Nat.eqb_neq in V1, V2.
        destruct ST as [[Z L]|(Z & L & e & (A & B & D) & TE)].
        -- exfalso. apply V1. rewrite Z. apply Nat.mod_0_l. lia.
        -- exists e. split; auto. split; [lia|]. split; auto. intros e' Q V. destruct (Nat.eq_dec e' epoch) as [->|NE].
           ++ destruct V; auto.
           ++ apply (D e'); auto; lia.
  - destruct ST as [[Z L]|(Z & L & e & LV & TE)].
    + rewrite L, Z in C. cbn in C. discriminate.
    + subst test. eexists. split; [reflexivity|]. unfold rec_spec, stopped. cbn [rec_executed rec_parameters rec_losses rec_test rec_history].
      repeat split; auto; try lia. intros _. exists e. auto.
Qed.

Lemma rec_reported : exists r, reconstruct_parameters cfg losses_at validate step p0 = Done r /\ rec_spec r.
Proof.
  unfold reconstruct_parameters. apply (rec_inv (max_epoch cfg + 2) 0 None [] new_stopper [] None); auto; try lia.
  apply stopper_inv_init; auto.
Qed.
End Rec.

Lemma reported_before_last_step : forall P T cfg (losses : P -> list R) (validate : P -> T) step p0,
  1 <= window_size (stopper cfg) -> 1 <= log_interval cfg -> (forall e p, losses (step e p) <> losses p) ->
  exists r, reconstruct_parameters cfg (fun _ => losses) validate step p0 = Done r /\ rec_losses r <> losses (rec_parameters r).
Proof.
  intros P T cfg losses validate step p0 W I D. destruct (rec_reported cfg (fun _ => losses) validate step p0 W I) as (r & E & (X & PA & LO & _)).
  exists r. split; auto. rewrite LO, PA. destruct (rec_executed r) as [|n]; [lia|]. cbn. rewrite Nat.sub_0_r. intros Q. exact (D n (after step n p0) (eq_sym Q)).
Qed.

Lemma test_losses : forall P T cfg (losses_at : nat -> P -> list R) (validate : P -> T) step p0,
  1 <= window_size (stopper cfg) -> 1 <= log_interval cfg ->
  exists r, reconstruct_parameters cfg losses_at validate step p0 = Done r
  /\ (length (rec_history r) < rec_executed r \/ (rec_executed r - 1) mod log_interval cfg = 0 \/ rec_executed r = max_epoch cfg ->
      rec_test r = validate (rec_parameters r))
  /\ exists k, 1 <= k <= rec_executed r /\ rec_executed r < k + log_interval cfg /\ rec_test r = validate (after step k p0).
Proof.
  intros P T cfg losses_at validate step p0 W I. destruct (rec_reported cfg losses_at validate step p0 W I) as (r & E & (X & PA & LO & ST & NS)).
  exists r. split; auto.
  destruct (Nat.lt_ge_cases (length (rec_history r)) (rec_executed r)) as [L|L].
  - split; [intros _; auto|]. exists (rec_executed r). rewrite <- PA. split; [lia|]. split; [lia|]. auto.
  - destruct NS as (e & (A & B & D) & TE); [unfold stopped; lia|]. split.
    + intros V. rewrite TE, PA. f_equal. f_equal. destruct (Nat.eq_dec (S e) (rec_executed r)) as [|NE]; auto. exfalso.
      apply (D (rec_executed r - 1) ltac:(lia)). unfold validated. destruct V as [V|[V|V]]; [lia|auto|right; lia].
    + exists (S e). split; [lia|]. split; auto. destruct (Nat.lt_ge_cases (rec_executed r) (S e + log_interval cfg)) as [|G]; auto. exfalso.
      set (i := log_interval cfg) in *. pose proof (Nat.div_mod e i ltac:(lia)) as DM. pose proof (Nat.mod_upper_bound e i ltac:(lia)) as UB.
      apply (D (i * (e / i + 1))); [nia|]. left. fold i. rewrite Nat.mul_comm. apply Nat.mod_mul. lia.
Qed.

Lemma test_loss_old : forall P T cfg (losses_at : nat -> P -> list R) (validate : P -> T) step p0,
  1 <= window_size (stopper cfg) -> 1 <= log_step cfg -> max_epoch cfg mod log_step cfg <> 0 ->
  exists r, reconstruct_parameters cfg losses_at validate step p0 = Done r
  /\ (rec_executed r = max_epoch cfg + 1 -> length (rec_history r) = rec_executed r ->
      rec_parameters r = after step (max_epoch cfg + 1) p0 /\ rec_test r = validate (after step (max_epoch cfg) p0)).
Proof.
  intros P T cfg losses_at validate step p0 W L N.
  assert (IE : log_interval cfg = log_step cfg) by (unfold log_interval; destruct (Nat.eqb_spec (log_step cfg) 0); lia).
  destruct (rec_reported cfg losses_at validate step p0 W ltac:(lia)) as (r & E & (X & PA & LO & ST & NS)).
  exists r. split; auto. intros X1 H1. split; [rewrite PA, X1; reflexivity|].
  destruct NS as (e & (A & B & D) & TE); [unfold stopped; lia|]. rewrite TE. f_equal. f_equal. rewrite X1 in *.
  assert (M1 : 1 <= max_epoch cfg). { destruct (max_epoch cfg); [|lia]. exfalso. apply N. apply Nat.mod_0_l. lia. }
  destruct (Nat.lt_total (S e) (max_epoch cfg)) as [Q|[Q|Q]]; auto; exfalso.
  - apply (D (max_epoch cfg - 1) ltac:(lia)). right. lia.
  - assert (e = max_epoch cfg) by lia. subst e. destruct B as [B|B]; [|lia]. rewrite IE in B. auto.
Qed.

(** A run that is not stopped early and whose losses stay above the tolerance executes all epochs. *)
Lemma full_run : forall P T cfg (losses_at : nat -> P -> list R) (validate : P -> T) step p0,
  max_epoch cfg + 1 < window_size (stopper cfg) -> 1 <= log_interval cfg -> (forall e p, (tolerance cfg < mean (losses_at e p))%R) ->
  forall r, reconstruct_parameters cfg losses_at validate step p0 = Done r -> rec_executed r = max_epoch cfg + 1 /\ length (rec_history r) = rec_executed r.
Proof.
  intros P T cfg losses_at validate step p0 W I AB r. unfold reconstruct_parameters.
  assert (G : forall fuel epoch loss losses st hist p test, max_epoch cfg + 2 <= fuel + epoch -> epoch <= max_epoch cfg + 1 -> length hist = epoch ->
    length (loss_window st) = epoch -> above_tolerance cfg loss = true ->
    reconstruction_loop cfg losses_at validate step fuel epoch loss losses st hist p test = Done r -> rec_executed r = max_epoch cfg + 1 /\ length (rec_history r) = rec_executed r).
  { induction fuel as [|fuel IH]; intros epoch loss losses st hist p test FU EM LH LW AT; [lia|]. rewrite reconstruction_loop_step. rewrite AT. cbn [andb].
    destruct (Nat.leb_spec epoch (max_epoch cfg)) as [LE|LE].
    - unfold stopper_step. assert (DA : deque_append (window_size (stopper cfg)) (loss_window st) (mean (losses_at epoch p)) = loss_window st ++ [mean (losses_at epoch p)]).
      { unfold deque_append. cbv zeta. rewrite app_length, LW. cbn [length]. replace (epoch + 1 - window_size (stopper cfg)) with 0 by lia. reflexivity. }
      rewrite DA, app_length, LW. cbn [length]. destruct (Nat.ltb_spec (epoch + 1) (window_size (stopper cfg))); [|lia].
      destruct (Nat.eqb_spec (log_interval cfg) 0); [lia|]. cbv zeta. apply IH; try lia.
      + rewrite app_length. cbn [length]. lia.
      + cbn [loss_window]. rewrite app_length. cbn [length]. lia.
      + unfold above_tolerance, Rgtb. specialize (AB epoch p). destruct (Rlt_dec _ _) as [|N]; auto.
    - assert (epoch = max_epoch cfg + 1) by lia. unfold finish. destruct test as [t|]; [|discriminate]. intros Q. injection Q as <-. cbn [rec_executed rec_history]. lia. }
  apply G; auto; lia.
Qed.
Lemma test_loss_stale : forall P T cfg (losses_at : nat -> P -> list R) (validate : P -> T) step p0,
  max_epoch cfg + 1 < window_size (stopper cfg) -> 1 <= log_step cfg -> max_epoch cfg mod log_step cfg <> 0 ->
  (forall e p, (tolerance cfg < mean (losses_at e p))%R) -> (forall e p, validate (step e p) <> validate p) ->
  exists r, reconstruct_parameters cfg losses_at validate step p0 = Done r /\ rec_test r <> validate (rec_parameters r).
Proof.
  intros P T cfg losses_at validate step p0 W L N AB D.
  destruct (test_loss_old P T cfg losses_at validate step p0 ltac:(lia) L N) as (r & E & H).
  assert (IE : log_interval cfg = log_step cfg) by (unfold log_interval; destruct (Nat.eqb_spec (log_step cfg) 0); lia).
  destruct (full_run P T cfg losses_at validate step p0 W ltac:(lia) AB r E) as (X & Y). exists r. split; auto.
  destruct (H X Y) as (A & B). rewrite A, B. rewrite Nat.add_1_r. cbn [after]. intros Q. exact (D _ _ (eq_sym Q)).
Qed.
Lemma one_step_behind : forall P T cfg (losses_at : nat -> P -> list R) (validate : P -> T) step p0,
  1 <= window_size (stopper cfg) -> 1 <= log_interval cfg ->
  exists r, reconstruct_parameters cfg losses_at validate step p0 = Done r
  /\ 1 <= rec_executed r <= max_epoch cfg + 1
  /\ rec_losses r = losses_at (rec_executed r - 1) (after step (rec_executed r - 1) p0)
  /\ rec_parameters r = after step (rec_executed r) p0.
Proof.
  intros P T cfg losses_at validate step p0 W I. destruct (rec_reported cfg losses_at validate step p0 W I) as (r & E & (X & PA & LO & _)).
  exists r. auto.
Qed.
Lemma kullback_leibler_works : forall P M F cfg (motors : P -> M) (factors : M -> F) (loss_at : nat -> M -> R) step p0,
  1 <= window_size (stopper cfg) -> 1 <= log_interval cfg ->
  exists r, optimize_aim_points cfg KullbackLeibler motors factors loss_at step p0 = Done r.
Proof. intros P M F cfg motors factors loss_at step p0 W I. destruct (aim_reported cfg motors factors loss_at step p0 W I) as (r & E & _). exists r. auto. Qed.
