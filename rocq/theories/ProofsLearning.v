(** Proofs about the distance parameters move in an optimization. *)
From Coq Require Import List Arith Reals Lia Lra Psatz.
From Verif Require Import RealSums ModelField ModelSchedulers SpecSchedulers ModelOptimization ModelLearning ProofsSchedulers.
Import ListNotations.
Local Open Scope R_scope.

Lemma quadratic : forall a b c m g, 0 < a -> b * b <= a * c -> 0 <= a * (m * m) - 2 * b * (m * g) + c * (g * g).
Proof.
  intros a b c m g A D. assert (P : 0 <= a * (a * (m * m) - 2 * b * (m * g) + c * (g * g))).
  { replace (a * (a * (m * m) - 2 * b * (m * g) + c * (g * g))) with ((a * m - b * g) * (a * m - b * g) + (a * c - b * b) * (g * g)) by ring.
    pose proof (Rle_0_sqr (a * m - b * g)). pose proof (Rle_0_sqr g). unfold Rsqr in *. assert (0 <= (a * c - b * b) * (g * g)) by (apply Rmult_le_pos; lra). lra. }
  destruct (Rle_lt_dec 0 (a * (m * m) - 2 * b * (m * g) + c * (g * g))); auto. exfalso. nra.
Qed.
Lemma moments : forall beta m v g, 8 / 10 <= beta <= 9 / 10 -> m * m <= 112 * v ->
  (beta * m + (1 - beta) * g) * (beta * m + (1 - beta) * g) <= 112 * (999 / 1000 * v + (1 - 999 / 1000) * g ^ 2).
Proof.
  intros beta m v g B I.
  assert (Q : 0 <= (999 / 1000 - beta * beta) * (m * m) - 2 * (beta * (1 - beta)) * (m * g) + (112 / 1000 - (1 - beta) * (1 - beta)) * (g * g)).
  { apply quadratic; nra. }
  nra.
Qed.
Lemma power_between : forall t, (1 <= t)%nat -> 1 - (999 / 1000) ^ t <= (1 - (9 / 10) ^ t) * (1 - (9 / 10) ^ t).
Proof.
  intros t T. assert (G : forall n, 2 * (9 / 10) ^ (7 + n) <= (999 / 1000) ^ (7 + n)).
  { induction n as [|n IH]; [cbn [Nat.add pow]; lra|]. rewrite Nat.add_succ_r. cbn [pow]. assert (0 < (9 / 10) ^ (7 + n)) by (apply pow_lt; lra). lra. }
  destruct (le_lt_dec 7 t) as [L|L].
  - replace t with (7 + (t - 7))%nat by lia. specialize (G (t - 7)%nat). pose proof (Rle_0_sqr ((9 / 10) ^ (7 + (t - 7)))). unfold Rsqr in *. lra.
  - destruct t as [|[|[|[|[|[|[|t]]]]]]]; try lia; cbn [pow]; lra.
Qed.
Lemma corrected : forall beta t, (1 <= t)%nat -> 8 / 10 <= beta <= 9 / 10 -> 0 < 1 - (999 / 1000) ^ t <= (1 - beta ^ t) * (1 - beta ^ t) /\ 0 < 1 - beta ^ t.
Proof.
  intros beta t T B. assert (P : forall x, 0 < x < 1 -> 0 < 1 - x ^ t).
  { intros x X. destruct t as [|t]; [lia|]. pose proof (pow_lt_1_compat x (S t) ltac:(lra) ltac:(lia)). lra. }
  pose proof (P (999 / 1000) ltac:(lra)). pose proof (P beta ltac:(lra)). pose proof (P (9 / 10) ltac:(lra)).
  assert (beta ^ t <= (9 / 10) ^ t) by (apply pow_incr; lra). pose proof (power_between t T). split; auto. split; auto. nra.
Qed.

Definition sound_moments (a : adam) : Prop := a_m a * a_m a <= 112 * a_v a /\ 0 <= a_v a.
Lemma fresh_sound : forall x, sound_moments (fresh x).
Proof. intros x. unfold sound_moments, fresh. cbn [a_m a_v]. lra. Qed.
Lemma step_sound : forall lr beta a g, 8 / 10 <= beta <= 9 / 10 -> sound_moments a -> sound_moments (adam_step lr beta a g).
Proof.
  intros lr beta a g B (I & V). unfold sound_moments, adam_step. cbn [a_m a_v]. split; [apply moments; auto|].
  pose proof (Rle_0_sqr g). unfold Rsqr in *. cbn [pow]. nra.
Qed.
Lemma step_bound : forall lr beta a g, 8 / 10 <= beta <= 9 / 10 -> sound_moments a -> Rabs (a_value (adam_step lr beta a g) - a_value a) <= 11 * Rabs lr.
Proof.
  intros lr beta a g B HS. destruct (step_sound lr beta a g B HS) as (I & V). revert I V. unfold adam_step. cbn [a_m a_v a_value].
  set (m := beta * a_m a + (1 - beta) * g). set (v := 999 / 1000 * a_v a + (1 - 999 / 1000) * g ^ 2). set (t := S (a_step a)). intros I V.
  destruct (corrected beta t ltac:(unfold t; lia) B) as ((C1 & C2) & C3). set (p := 1 - beta ^ t) in *. set (q := 1 - (999 / 1000) ^ t) in *.
  assert (W : 0 <= v / q) by (apply Rmult_le_pos; [auto|left; apply Rinv_0_lt_compat; auto]).
  assert (D : 0 < sqrt (v / q) + / 10 ^ 8) by (pose proof (sqrt_pos (v / q)); lra).
  assert (H : Rabs (m / p) <= 11 * sqrt (v / q)).
  { apply Rsqr_incr_0_var; [|pose proof (sqrt_pos (v / q)); lra]. rewrite <- Rsqr_abs, Rsqr_mult, Rsqr_sqrt by auto.
    assert (E1 : Rsqr (m / p) = m * m / (p * p)) by (unfold Rsqr; field; lra). rewrite E1.
    apply Rle_trans with (112 * v / q); [|unfold Rsqr, Rdiv in *; lra].
    apply Rle_trans with (112 * v / (p * p)).
    - apply Rmult_le_compat_r; auto. left. apply Rinv_0_lt_compat. nra.
    - unfold Rdiv. apply Rmult_le_compat_l; [lra|]. apply Rinv_le_contravar; auto. }
  replace (a_value a - lr * (m / p / (sqrt (v / q) + / 10 ^ 8)) - a_value a) with (- (lr * (m / p / (sqrt (v / q) + / 10 ^ 8)))) by ring.
  rewrite Rabs_Ropp, Rabs_mult, (Rmult_comm 11). apply Rmult_le_compat_l; [apply Rabs_pos|].
  unfold Rdiv at 1. rewrite Rabs_mult, Rabs_inv, (Rabs_pos_eq (sqrt (v / q) + _)) by lra.
  apply Rmult_le_reg_r with (sqrt (v / q) + / 10 ^ 8); auto. rewrite Rmult_assoc, Rinv_l, Rmult_1_r by lra. lra.
Qed.

Lemma momentum_range : forall s initial st, create_scheduler s initial = Ok st -> forall n, 8 / 10 <= momentum s n <= 9 / 10.
Proof.
  intros s initial st E n. destruct s as [gamma|a b up|f p t c m]; cbn [momentum]; try lra.
  cbn [create_scheduler] in E. destruct (Nat.eqb_spec up 0); [discriminate|]. rewrite cyclic_triangle by lia. pose proof (triangle_range up n ltac:(lia)). lra.
Qed.
Lemma learning_app : forall s st x h e, learning s st x (h ++ [e]) = learning_epoch s (learning s st x h) e.
Proof. intros. unfold learning. rewrite fold_left_app. reflexivity. Qed.
Lemma learning_sound : forall s initial st x h, create_scheduler s initial = Ok st -> sound_moments (snd (learning s st x h)).
Proof.
  intros s initial st x h E. induction h as [|e h IH] using rev_ind; [apply fresh_sound|]. rewrite learning_app.
  destruct (learning s st x h) as (st1 & a). destruct e as (g & l). cbn [learning_epoch snd] in *. apply step_sound; auto. eapply momentum_range; eauto.
Qed.
Theorem epoch_bound : forall s initial st x h g l, create_scheduler s initial = Ok st ->
  Rabs (trained s st x (h ++ [(g, l)]) - trained s st x h) <= 11 * Rabs (next_rate s st x h).
Proof.
  intros s initial st x h g l E. unfold trained, next_rate. rewrite learning_app. pose proof (learning_sound s initial st x h E) as HS.
  destruct (learning s st x h) as (st1 & a). cbn [learning_epoch fst snd] in *. apply step_bound; auto. eapply momentum_range; eauto.
Qed.
Lemma next_rate_run : forall s st x h, next_rate s st x h = rate (scheduler_run s st (map snd h)).
Proof.
  intros s st x h. unfold next_rate. f_equal. induction h as [|(g & l) h IH] using rev_ind; auto. rewrite learning_app, map_app. unfold scheduler_run in *. rewrite fold_left_app. cbn [fold_left map snd].
  rewrite <- IH. destruct (learning s st x h). reflexivity.
Qed.
Theorem exponential_reach : forall gamma initial st x h, 0 <= gamma < 1 -> 0 <= initial -> create_scheduler (Exponential gamma) initial = Ok st ->
  Rabs (trained (Exponential gamma) st x h - x) <= 11 * initial * (1 - gamma ^ length h) / (1 - gamma).
Proof.
  intros gamma initial st x h G I E. induction h as [|(g & l) h IH] using rev_ind.
  - cbn [length pow]. unfold trained, learning. cbn [fold_left snd fresh a_value]. rewrite Rminus_diag_eq, Rabs_R0 by auto. unfold Rdiv. rewrite Rminus_diag_eq by auto. lra.
  - pose proof (epoch_bound (Exponential gamma) initial st x h g l E) as B. rewrite next_rate_run, (exponential_rate gamma initial _ st E), map_length in B.
    assert (P : 0 <= initial * gamma ^ length h) by (apply Rmult_le_pos; auto; apply pow_le; lra). rewrite (Rabs_pos_eq _ P) in B.
    rewrite app_length, Nat.add_1_r. cbn [length pow].
    replace (11 * initial * (1 - gamma * gamma ^ length h) / (1 - gamma)) with (11 * initial * (1 - gamma ^ length h) / (1 - gamma) + 11 * (initial * gamma ^ length h)) by (field; lra).
    replace (trained (Exponential gamma) st x (h ++ [(g, l)]) - x) with ((trained (Exponential gamma) st x (h ++ [(g, l)]) - trained (Exponential gamma) st x h) + (trained (Exponential gamma) st x h - x)) by ring.
    eapply Rle_trans; [apply Rabs_triang|]. lra.
Qed.
Theorem first_epoch : forall s initial st x g l, create_scheduler s initial = Ok st ->
  trained s st x [(g, l)] = x - next_rate s st x [] * (g / (Rabs g + / 10 ^ 8)).
Proof.
  intros s initial st x g l E. unfold trained, next_rate, learning. cbn [fold_left learning_epoch fst snd]. pose proof (momentum_range s initial st E (steps st)) as B.
  unfold adam_step, fresh. cbn [a_m a_v a_step a_value pow]. do 2 f_equal.
  replace ((999 / 1000 * 0 + (1 - 999 / 1000) * (g * (g * 1))) / (1 - 999 / 1000 * 1)) with (Rsqr g) by (unfold Rsqr; field). rewrite sqrt_Rsqr_abs.
  pose proof (Rabs_pos g). field. lra.
Qed.

(** The momentum in the epochs of the cyclic scheduler. *)
Lemma steps_counted : forall s epochs st start, steps (fst (learning s st start epochs)) = (steps st + length epochs)%nat.
Proof.
  intros s epochs st start. unfold learning. generalize (fresh start). revert st. induction epochs as [|(g, l) h IH]; intros st a; cbn [fold_left length]; [cbn; lia|].
  cbn [learning_epoch]. rewrite IH. replace (steps (scheduler_step s st l)) with (S (steps st)); [lia|].
  destruct s; cbn [scheduler_step]; try reflexivity. cbv zeta. destruct (_ <? _)%nat; reflexivity.
Qed.
Lemma rate_counted : forall lr_min lr_max up initial st start epochs, create_scheduler (Cyclic lr_min lr_max up) initial = Ok st ->
  next_rate (Cyclic lr_min lr_max up) st start epochs = cyclic_rate lr_min lr_max up (length epochs).
Proof.
  intros lr_min lr_max up initial st start epochs E. cbn [create_scheduler] in E. destruct (Nat.eqb_spec up 0); [discriminate|]. injection E as <-.
  destruct epochs as [|e h] using rev_ind; [reflexivity|]. clear IHh. unfold next_rate. pose proof (steps_counted (Cyclic lr_min lr_max up) h
    {| steps := 0; rate := cyclic_rate lr_min lr_max up 0; best := None; bad_epochs := 0; cooling := 0 |} start) as C. unfold learning in *. rewrite fold_left_app. cbn [fold_left].
  destruct (fold_left _ h _) as (st1 & a). destruct e as (g & l). cbn [learning_epoch fst scheduler_step rate steps] in *. rewrite C, app_length. cbn [length]. f_equal. lia.
Qed.
Lemma momentum_follows : forall lr_min lr_max up initial st start epochs, create_scheduler (Cyclic lr_min lr_max up) initial = Ok st ->
  (9 / 10 - momentum (Cyclic lr_min lr_max up) (steps (fst (learning (Cyclic lr_min lr_max up) st start epochs)))) * (lr_max - lr_min)
  = (next_rate (Cyclic lr_min lr_max up) st start epochs - lr_min) / 10.
Proof.
  intros lr_min lr_max up initial st start epochs E. rewrite (rate_counted _ _ _ _ _ _ _ E), steps_counted. cbn [create_scheduler] in E.
  destruct (Nat.eqb_spec up 0); [discriminate|]. injection E as <-. cbn [steps momentum]. rewrite !cyclic_triangle by lia. cbn [Nat.add]. field.
Qed.
