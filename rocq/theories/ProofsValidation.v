From Coq Require Import List Arith Reals Lra Lia Bool.
From Verif Require Import RealSums ModelField ModelDistributed ModelLBVH ModelLosses ModelOptimization ModelReconstruction ModelValidation SpecDistributed SpecOptimization SpecReconstruction SpecValidation ProofsDistributed ProofsField ProofsLosses ProofsOptimization ProofsReconstruction.
Import ListNotations.
Local Open Scope nat_scope.

Lemma with_samples : forall mask, heliostats_with_samples mask = active_indices mask.
Proof. intros mask. unfold heliostats_with_samples, active_indices. apply filter_ext. intros i. destruct (nth i mask 0); auto. Qed.

Lemma select_test : forall {A B} (f : A -> nat -> B) per a t (l : list A), a + t <= per ->
  select_rows (flat_map (fun i => map (f i) (seq 0 per)) l) (flat_map (fun h => map (fun o => h * per + o) (seq a t)) (seq 0 (length l)))
  = Ok (flat_map (fun i => map (fun k => f i (a + k)) (seq 0 t)) l).
Proof.
  intros A B f per a t l T.
  assert (G : forall post pre, l = pre ++ post -> select_rows (flat_map (fun i => map (f i) (seq 0 per)) l) (flat_map (fun h => map (fun o => h * per + o) (seq a t)) (seq (length pre) (length post)))
     = Ok (flat_map (fun i => map (fun k => f i (a + k)) (seq 0 t)) post)).
  { induction post as [|x post IH]; intros pre E; auto. cbn [length seq map flat_map]. rewrite select_rows_app.
    rewrite (select_all_some _ _ (map (fun k => f x (a + k)) (seq 0 t))).
    - cbn [bind]. specialize (IH (pre ++ [x])). rewrite <- app_assoc in IH. specialize (IH E). rewrite app_length in IH. cbn [length] in IH. rewrite Nat.add_1_r in IH. rewrite IH. auto.
    - rewrite !map_length, !seq_length. auto.
    - intros j i N. assert (J : j < t) by (rewrite <- (seq_length t a), <- (map_length (fun o => length pre * per + o)); apply nth_error_Some; congruence).
      rewrite nth_error_map, (nth_error_nth' _ 0), seq_nth in N by (rewrite ?seq_length; auto). cbn in N. injection N as <-.
      rewrite nth_error_map, (nth_error_nth' _ 0), seq_nth by (rewrite ?seq_length; auto). cbn [option_map]. apply nth_error_flat_blocks; [|lia].
      rewrite E, nth_error_app2, Nat.sub_diag by auto. auto. }
  exact (G l [] eq_refl).
Qed.

Lemma combine_blocks : forall {A B} (f : A -> nat -> B) n (l : list A),
  combine (flat_map (fun i => map (fun _ => i) (seq 0 n)) l) (flat_map (fun i => map (f i) (seq 0 n)) l) = flat_map (fun i => map (fun k => (i, f i k)) (seq 0 n)) l.
Proof.
  intros A B f n l. rewrite <- (map_id (combine _ _)). rewrite <- (combine_flat_blocks (fun i _ => i) f (fun x y => (x, y))). apply map_ext. intros []. auto.
Qed.

Section Validation.
Context {I P M : Type}.
Variables (predict : nat -> I -> P) (unwritten : nat -> P) (loss_definition : P -> M -> R) (reduction : list R -> R).
Variables (input : nat -> nat -> I) (measured : nat -> nat -> M).
Variables (mask : list nat) (test_of_count : nat -> nat).
Hypothesis usable : usable_mask test_of_count mask.
Hypothesis some : exists i, nth i mask 0 <> 0.

(** The validation up to the comparison. *)
Lemma validate_start : exists per, 2 <= per /\ test_of_count per < per /\ (forall m, In m mask -> m = 0 \/ m = per)
  /\ forall members rank, validate predict unwritten loss_definition reduction input measured mask test_of_count members rank
     = let t := Nat.max 1 (test_of_count per) in let act := active_indices mask in
       let sampler := sampler_indices (length act * t) (length act) members rank in
       bind (select_rows (flat_map (fun i => map (fun k => measured i (per - t + k)) (seq 0 t)) act) sampler) (fun truth =>
       bind (broadcast_loss loss_definition (map (fun '(s, (i, x)) => if existsb (Nat.eqb s) sampler then predict i x else unwritten s)
               (combine (seq 0 (length act * t)) (flat_map (fun i => map (fun k => (i, input i (per - t + k))) (seq 0 t)) act))) truth) (fun losses =>
       reduce_loss_per_sample losses t reduction)).
Proof.
  destruct usable as (per & P2 & T & E). exists per. split; auto. split; auto. split; auto. intros members rank. cbv zeta. set (t := Nat.max 1 (test_of_count per)). set (act := active_indices mask).
  assert (TP : 1 <= t <= per - 1) by (unfold t; lia).
  assert (H : mask_active mask <> 0).
  { destruct some as (i & N). rewrite <- active_count. intros Z. apply length_zero_iff_nil in Z. assert (X : In i (active_indices mask)); [|rewrite Z in X; destruct X].
    apply active_in. split; auto. destruct (Nat.lt_ge_cases i (length mask)); auto. rewrite nth_overflow in N by auto. contradiction. }
  unfold validate, train_test_split. fold (mask_active mask). rewrite (mask_even_samples per) by auto. fold (mask_active mask).
  destruct (Nat.eqb_spec (mask_active mask) 0); [contradiction|]. rewrite (Nat.mul_comm (mask_active mask) per), Nat.div_mul by auto.
  fold t. destruct (Nat.ltb_spec per t); [lia|]. cbn [bind sr_test_indices sr_mask_test sr_number_of_test]. rewrite <- !active_count. fold act.
  assert (SR : sample_rows mask = flat_map (fun i => map (fun k => (i, k)) (seq 0 per)) act).
  { rewrite <- (map_id mask) at 1. rewrite (sample_rows_even _ _ per per) by (auto; lia). auto. }
  rewrite SR, !map_flat_blocks. rewrite !(select_test _ per (per - t) t) by lia. cbn [bind].
  rewrite (sample_rows_even _ _ per t) by (auto; lia). rewrite map_flat_blocks. cbn [fst]. fold act. rewrite !flat_blocks_length, Nat.eqb_refl. cbn [negb].
  assert (SA : tracer_sampler_indices (map (fun m => m - (per - t)) mask) members rank = sampler_indices (length act * t) (length act) members rank).
  { unfold tracer_sampler_indices, mask_samples. rewrite (mask_even_samples t).
    - fold (mask_active (map (fun m => m - (per - t)) mask)). rewrite (mask_active_train _ per) by (auto; lia). unfold act. rewrite active_count. auto.
    - intros m J. apply in_map_iff in J. destruct J as (m' & <- & J). destruct (E m' J) as [->| ->]; [left|right]; lia. }
  rewrite SA. rewrite combine_blocks. reflexivity.
Qed.

Theorem validation_single : exists losses, validate predict unwritten loss_definition reduction input measured mask test_of_count 1 0 = Ok losses
  /\ length losses = length (heliostats_with_samples mask)
  /\ forall j i, nth_error (heliostats_with_samples mask) j = Some i ->
     nth_error losses j = Some (reduction (map (fun k => loss_definition (predict i (input i k)) (measured i k)) (held_out test_of_count (nth i mask 0)))).
Proof.
  destruct validate_start as (per & P2 & T & E & V). rewrite V. cbv zeta. rewrite with_samples. set (t := Nat.max 1 (test_of_count per)). set (act := active_indices mask).
  assert (TP : 1 <= t <= per - 1) by (unfold t; lia).
  assert (SQ : sampler_indices (length act * t) (length act) 1 0 = seq 0 (length act * t)).
  { assert (X := tracer_single (repeat t (length act)) t ltac:(intros m J; apply repeat_spec in J; auto) ltac:(lia)).
    assert (MA : forall n, mask_active (repeat t n) = n).
    { clear - TP. unfold mask_active. induction n as [|n IH]; auto. cbn [repeat filter]. destruct (Nat.ltb_spec 0 t); [|lia]. cbn [length]. f_equal. exact IH. }
    unfold tracer_sampler_indices, mask_samples in X. rewrite MA in X. rewrite <- X.
    assert (LSUM : forall n, list_sum (repeat t n) = n * t) by (induction n as [|n IH]; auto; cbn [repeat]; change (list_sum (t :: repeat t n)) with (t + list_sum (repeat t n)); lia).
    rewrite LSUM. auto. }
  rewrite SQ. pose proof (flat_blocks_length (fun i k => measured i (per - t + k)) t act) as LM. rewrite <- LM, select_seq. cbn [bind]. rewrite LM.
  match goal with |- context [broadcast_loss _ ?r _] => assert (ROWS : r = flat_map (fun i => map (fun k => predict i (input i (per - t + k))) (seq 0 t)) act) end.
  { set (pairs := flat_map _ act). assert (LP : length pairs = length act * t) by (unfold pairs; apply (flat_blocks_length (fun i k => (i, input i (per - t + k))))).
    assert (Q : forall s l, s + length l <= length act * t -> map (fun '(s, (i, x)) => if existsb (Nat.eqb s) (seq 0 (length act * t)) then predict i x else unwritten s) (combine (seq s (length l)) l) = map (fun '(i, x) => predict i x) l).
    { intros s l. revert s. induction l as [|[i k] l IH]; intros s B; auto. cbn [length seq combine map] in *. rewrite IH by lia. f_equal.
      replace (existsb (Nat.eqb s) (seq 0 (length act * t))) with true; auto. symmetry. apply existsb_exists. exists s. rewrite Nat.eqb_refl. split; auto. apply in_seq. lia. }
    rewrite <- LP at 1. rewrite (Q 0 pairs) by lia. unfold pairs. rewrite map_flat_blocks. auto. }
  rewrite ROWS. unfold broadcast_loss. rewrite !flat_blocks_length, Nat.eqb_refl. cbn [bind].
  rewrite (combine_flat_blocks (fun i k => predict i (input i (per - t + k))) (fun i k => measured i (per - t + k))). rewrite reduce_blocks by lia.
  eexists. split; [reflexivity|]. rewrite map_length. split; auto. intros j i J. rewrite nth_error_map, J. cbn [option_map]. do 2 f_equal.
  assert (A : In i act) by (eapply nth_error_In; eauto). apply active_in in A. destruct A as (A & N). destruct (E (nth i mask 0)) as [Z|Z]; [apply nth_In; auto|contradiction|]. rewrite Z.
  unfold held_out. fold t. generalize (per - t). clear. intros a. revert a. induction t as [|t IH]; intros a; auto. cbn [seq map]. rewrite Nat.add_0_r. f_equal. rewrite <- seq_shift, map_map.
  rewrite <- (IH (S a)). apply map_ext. intros k. rewrite Nat.add_succ_r. auto.
Qed.

Theorem validation_shared_fails : 2 <= length (heliostats_with_samples mask) -> (forall m, In m mask -> m <> 0 -> 2 <= test_of_count m) ->
  forall members rank, 2 <= members -> exists e, validate predict unwritten loss_definition reduction input measured mask test_of_count members rank = Err e.
Proof.
  rewrite with_samples. intros H TT members rank ME. destruct validate_start as (per & P2 & T & E & V). rewrite V. cbv zeta. set (t := Nat.max 1 (test_of_count per)). set (act := active_indices mask) in *.
  assert (T2 : 2 <= t).
  { destruct some as (i & N). assert (L : i < length mask) by (destruct (Nat.lt_ge_cases i (length mask)); auto; rewrite nth_overflow in N by auto; contradiction).
    specialize (TT (nth i mask 0) (nth_In _ _ L) N). destruct (E _ (nth_In _ 0 L)) as [Z|Z]; [contradiction|]. rewrite Z in TT. unfold t. lia. }
  destruct (sampler_share_blocks (length act) t members rank H ltac:(lia) ME) as (c & LS & C). set (sampler := sampler_indices _ _ _ _) in *.
  destruct (select_rows _ sampler) as [truth|e] eqn:TR; cbn [bind]; [|exists e; auto]. apply select_length in TR. rewrite LS in TR.
  set (rows := map _ (combine _ _)). assert (LR : length rows = length act * t).
  { unfold rows. rewrite map_length, combine_length, seq_length, (flat_blocks_length (fun i k => (i, input i (per - t + k)))), Nat.min_id. auto. }
  clearbody rows. unfold broadcast_loss. rewrite LR, TR. destruct (Nat.eqb_spec (length act * t) (c * t)) as [Q|Q]; [exfalso; nia|].
  assert (GE : 4 <= length act * t) by (apply (Nat.mul_le_mono 2 _ 2); auto). destruct rows as [|x [|y rows]]; [cbn [length] in LR; lia|cbn [length] in LR; lia|]. destruct truth as [|u [|w truth]]; [exists RuntimeError; auto| |exists RuntimeError; auto]. exfalso. cbn [length] in TR. symmetry in TR. apply Nat.eq_mul_1 in TR. lia.
Qed.
End Validation.
