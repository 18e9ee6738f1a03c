(** Proofs of C126. *)
From Coq Require Import List Arith ZArith Reals Lra Lia Bool.
From Verif Require Import RealSums ModelField ModelLosses SpecLosses ProofsLosses ModelOptimization SpecOptimization ProofsConstraints ProofsSurfaceTraining SpecConstraints.
Import ListNotations.
Local Open Scope R_scope.

Lemma sum_from_last : forall f j n, (j <= n)%nat -> sum_from f j (S n) = sum_from f j n + f n.
Proof.
  intros f j n J. unfold sum_from. replace (S n - j)%nat with (S (n - j)) by lia. rewrite seq_S, map_app, Rsum_app. cbn [map].
  rewrite Rsum_cons. replace (j + (n - j))%nat with n by lia. change (Rsum []) with 0. lra.
Qed.
Lemma sum_from_empty : forall f n, sum_from f n n = 0.
Proof. intros. unfold sum_from. rewrite Nat.sub_diag. reflexivity. Qed.
Lemma sum_from_ext : forall f g j n, (forall e, (j <= e < n)%nat -> f e = g e) -> sum_from f j n = sum_from g j n.
Proof. intros f g j n H. unfold sum_from. f_equal. apply map_ext_in. intros e I. apply in_seq in I. apply H. lia. Qed.
Lemma largest_run_start : forall rho f, largest_run rho f 0 0.
Proof.
  intros rho f. split.
  - exists 0%nat. split; auto. rewrite sum_from_empty. ring.
  - intros j J. replace j with 0%nat by lia. rewrite sum_from_empty. lra.
Qed.
Lemma largest_run_step : forall rho f n w, largest_run rho f n w -> largest_run rho f (S n) (clamp0 (w + rho * f n)).
Proof.
  intros rho f n w ((j & J & E) & U). unfold clamp0. split.
  - unfold Rmax. destruct Rle_dec.
    + exists (S n). split; auto. rewrite sum_from_empty. ring.
    + exists j. split; [lia|]. rewrite sum_from_last by auto. rewrite E. ring.
  - intros i I. destruct (Nat.eq_dec i (S n)) as [->|].
    + rewrite sum_from_empty, Rmult_0_r. apply Rmax_r.
    + rewrite sum_from_last by lia. specialize (U i ltac:(lia)). eapply Rle_trans; [|apply Rmax_l]. lra.
Qed.
Lemma largest_run_grows : forall rho f n w delta j, largest_run rho f n w -> 0 <= rho -> (j <= n)%nat -> (forall e, (j <= e < n)%nat -> delta <= f e) ->
  rho * (INR (n - j) * delta) <= w.
Proof.
  intros rho f n w delta j (_ & U) P J F. eapply Rle_trans; [|apply (U j J)]. apply Rmult_le_compat_l; auto. unfold sum_from.
  assert (G : forall k s, (forall e, (s <= e < s + k)%nat -> delta <= f e) -> INR k * delta <= Rsum (map f (seq s k))).
  { clear. induction k as [|k IH]; intros s H; [cbn [seq map]; change (Rsum []) with 0; rewrite Rmult_0_l; lra|]. rewrite S_INR. cbn [seq map]. rewrite Rsum_cons.
    assert (delta <= f s) by (apply H; lia). specialize (IH (S s) ltac:(intros; apply H; lia)). lra. }
  apply G. intros e E. apply F. lia.
Qed.

(** ** Aim points *)
Lemma mean_combine : forall (f : R -> R -> R) (a b : list R), length a = length b ->
  mean (map (fun '(x, y) => f x y) (combine a b)) = Rsum (map (fun i => f (nth i a 0) (nth i b 0)) (seq 0 (length a))) / INR (length a).
Proof.
  intros f a b L. unfold mean. rewrite map_length, combine_length, <- L, Nat.min_id. f_equal. f_equal. revert b L.
  induction a as [|x a IH]; intros [|y b] L; try discriminate; auto. cbn [combine map length seq]. cbn [nth]. f_equal.
  injection L as L. rewrite (IH b L). rewrite <- seq_shift, map_map. reflexivity.
Qed.
Section Aim.
Variables (p : penalties) (n : nat) (d0 : epoch_data) (history : list epoch_data).
Definition in_epoch (e : nat) : epoch_data := nth e (d0 :: history) d0.
Hypothesis valid : forall d, In d (d0 :: history) -> e_flux d <> [] /\ length (e_intercepts d) = n.
Variable excess : nat -> R.
Hypothesis excess_ok : forall e d, nth_error (d0 :: history) e = Some d -> largest_excess (eps p) (max_density p) (e_flux d) (excess e).
Definition lost (e : nat) : R := share_lost (eps p) (Rsum (e_flux d0)) (Rsum (e_flux (in_epoch e))).
Definition mean_lost (e : nat) : R := mean_share_lost (eps p) (e_intercepts d0) (e_intercepts (in_epoch e)).
Definition weights_after (k : nat) (m : multipliers) : Prop :=
  largest_run (rho_flux p) lost k (lambda_flux m) /\ largest_run (rho_intercept p) mean_lost k (lambda_intercept m) /\ largest_run (rho_local p) excess k (lambda_local m).
Definition terms_with (d : epoch_data) (m : multipliers) (k : nat) (o : epoch_terms) : Prop :=
  o_flux_term o = augmented (lambda_flux m) (rho_flux p) (lost k)
  /\ o_intercept_term o = Rsum (map (fun i => augmented (lambda_intercept m) (rho_intercept p) (share_lost (eps p) (nth i (e_intercepts d0) 0) (nth i (e_intercepts d) 0)))
                                    (seq 0 (length (e_intercepts d0)))) / INR (length (e_intercepts d0))
  /\ (0 <= rho_local p -> o_local_term o = augmented (lambda_local m) (rho_local p) (excess k)).
Lemma excess_value : forall e d, nth_error (d0 :: history) e = Some d -> excess e = maximum (map (fun x => (x - max_density p) / (max_density p + eps p)) (e_flux d)).
Proof.
  intros e d E. destruct (excess_ok e d E) as ((x & X & EX) & U). destruct (valid d) as (NE & _); [eapply nth_error_In; eauto|].
  set (l := map _ (e_flux d)). destruct (maximum_spec l) as (MI & MU); [unfold l; destruct (e_flux d); [congruence|discriminate]|].
  apply Rle_antisym.
  - apply MU. rewrite EX. unfold l. apply in_map_iff. eauto.
  - unfold l in MI at 2. apply in_map_iff in MI. destruct MI as (y & <- & Y). auto.
Qed.
Lemma weights_epoch : forall k d m o m', nth_error (d0 :: history) k = Some d -> weights_after k m ->
  (k <> 0%nat -> reference_flux m = Rsum (e_flux d0) /\ reference_intercepts m = e_intercepts d0) ->
  compute_kl_constraints p k d m = (o, m') ->
  weights_after (S k) m' /\ reference_flux m' = Rsum (e_flux d0) /\ reference_intercepts m' = e_intercepts d0
  /\ terms_with d m k o.
Proof.
  intros k d m o m' K WW RF C. assert (LN : 0 <= rho_local p -> 0 <= lambda_local m).
  { intros _. destruct WW as (_ & _ & (_ & U)). specialize (U k (Nat.le_refl k)). rewrite sum_from_empty in U. lra. }
  destruct WW as (W1 & W2 & W3). unfold compute_kl_constraints in C.
  assert (D : in_epoch k = d) by (unfold in_epoch; apply nth_error_nth; auto).
  assert (Z : k = 0%nat -> d = d0) by (intros ->; injection K as <-; auto).
  assert (E1 : (if (k =? 0)%nat then Rsum (e_flux d) else reference_flux m) = Rsum (e_flux d0)) by (destruct (Nat.eqb_spec k 0); [rewrite Z; auto|apply RF; auto]).
  assert (E2 : (if (k =? 0)%nat then e_intercepts d else reference_intercepts m) = e_intercepts d0) by (destruct (Nat.eqb_spec k 0); [rewrite Z; auto|apply RF; auto]).
  rewrite E1, E2 in C. injection C as <- <-. cbn [reference_flux reference_intercepts o_flux_term].
  assert (L1 : lost k = (Rsum (e_flux d0) - Rsum (e_flux d)) / (Rsum (e_flux d0) + eps p)) by (unfold lost, share_lost; rewrite D; auto).
  assert (L2 : mean_lost k = mean (map (fun '(r, x) => (r - x) / (r + eps p)) (combine (e_intercepts d0) (e_intercepts d)))).
  { unfold mean_lost, mean_share_lost. rewrite D. rewrite mean_combine; auto. destruct (valid d0) as (_ & ->); [left; auto|]. destruct (valid d) as (_ & ->); [eapply nth_error_In; eauto|auto]. }
  split; [|split; auto; split; auto].
  - unfold weights_after. cbn [lambda_flux lambda_intercept lambda_local]. split; [rewrite <- L1|split; [rewrite <- L2|rewrite <- (excess_value k d K)]]; apply largest_run_step; auto.
  - unfold terms_with. cbn [o_flux_term o_intercept_term o_local_term]. split; [|split].
    + rewrite <- L1. unfold penalty, augmented, clamp0. rewrite (Rmax_comm 0). ring.
    + set (f := fun r x => penalty (lambda_intercept m) (rho_intercept p) (clamp0 ((r - x) / (r + eps p)))).
      replace (map _ (map _ _)) with (map (fun '(r, x) => f r x) (combine (e_intercepts d0) (e_intercepts d))).
      * rewrite mean_combine; [|destruct (valid d0) as (_ & ->); [left; auto|]; destruct (valid d) as (_ & ->); [eapply nth_error_In; eauto|auto]].
        f_equal. f_equal. apply map_ext. intros i. unfold f, penalty, augmented, clamp0, share_lost. rewrite (Rmax_comm 0). ring.
      * rewrite map_map. apply map_ext. intros (r & x). reflexivity.
    + intros RL. rewrite (excess_value k d K). set (l := map (fun x => (x - max_density p) / (max_density p + eps p)) (e_flux d)).
      assert (NL : l <> []) by (unfold l; destruct (valid d) as (NE & _); [eapply nth_error_In; eauto|destruct (e_flux d); [congruence|discriminate]]).
      destruct (maximum_spec l NL) as (MI & MU). set (g := fun x => penalty (lambda_local m) (rho_local p) (clamp0 x)).
      destruct (maximum_spec (map g l)) as (GI & GU); [destruct l; [congruence|discriminate]|].
      change (augmented (lambda_local m) (rho_local p) (maximum l)) with (lambda_local m * Rmax 0 (maximum l) + 1/2 * rho_local p * Rmax 0 (maximum l) ^ 2).
      assert (MON : forall x y, x <= y -> g x <= g y).
      { intros x y XY. unfold g, penalty. assert (0 <= clamp0 x <= clamp0 y) by (split; [apply clamp0_nonneg|unfold clamp0; apply Rle_max_compat_r; auto]).
        assert (clamp0 x ^ 2 <= clamp0 y ^ 2) by (apply pow_incr; auto). specialize (LN RL). apply Rplus_le_compat; [apply Rmult_le_compat_l; lra|]. rewrite !Rmult_assoc. apply Rmult_le_compat_l; [lra|]. apply Rmult_le_compat_l; auto. }
      transitivity (g (maximum l)); [|unfold g, penalty, clamp0; rewrite (Rmax_comm 0); ring]. apply Rle_antisym.
      * apply in_map_iff in GI. destruct GI as (x & <- & X). apply MON. auto.
      * apply GU. apply in_map. auto.
Qed.
Theorem weights_history : forall k d o m, nth_error (d0 :: history) k = Some d -> nth_error (run_constraints p 0 (d0 :: history) initial_multipliers) k = Some (o, m) ->
  weights_after (S k) m /\ exists before, (k = 0%nat /\ before = initial_multipliers \/ exists k' o', k = S k' /\ nth_error (run_constraints p 0 (d0 :: history) initial_multipliers) k' = Some (o', before))
  /\ terms_with d before k o.
Proof.
  assert (G : forall l k0 m0, (forall e, nth_error l e = nth_error (d0 :: history) (k0 + e)) -> weights_after k0 m0 ->
    (k0 <> 0%nat -> reference_flux m0 = Rsum (e_flux d0) /\ reference_intercepts m0 = e_intercepts d0) ->
    forall k d o m, nth_error l k = Some d -> nth_error (run_constraints p k0 l m0) k = Some (o, m) -> weights_after (S (k0 + k)) m
      /\ exists before, (k = 0%nat /\ before = m0 \/ exists k' o', k = S k' /\ nth_error (run_constraints p k0 l m0) k' = Some (o', before)) /\ terms_with d before (k0 + k) o).
  { induction l as [|d l IH]; intros k0 m0 SUB W RF k d' o m KD K; [destruct k; discriminate|]. cbn [run_constraints] in K |- *.
    destruct (compute_kl_constraints p k0 d m0) as (o1 & m1) eqn:C. pose proof (SUB 0%nat) as S0. rewrite Nat.add_0_r in S0.
    destruct (weights_epoch k0 d m0 o1 m1) as (W' & R1 & R2 & T); auto. destruct k as [|k]; cbn [nth_error snd] in K, KD.
    - injection K as <- <-. injection KD as <-. rewrite Nat.add_0_r. split; auto. exists m0. auto.
    - replace (k0 + S k)%nat with (S k0 + k)%nat by lia. destruct (IH (S k0) m1) with (k := k) (d := d') (o := o) (m := m) as (A & before & B & T'); auto.
      { intros e. pose proof (SUB (S e)) as SE. cbn [nth_error] in SE. rewrite SE. f_equal. lia. }
      split; auto. exists before. split; auto. right. destruct B as [(-> & ->)|(k' & o' & -> & B)].
      + exists 0%nat, o1. auto.
      + exists (S k'), o'. auto. }
  intros k d o m KD K. apply (G (d0 :: history) 0%nat initial_multipliers); auto; try lia.
  unfold weights_after, initial_multipliers. cbn [lambda_flux lambda_intercept lambda_local]. auto using largest_run_start.
Qed.
Theorem defined_history : forall k, (k < length (d0 :: history))%nat -> exists o m, nth_error (run_constraints p 0 (d0 :: history) initial_multipliers) k = Some (o, m).
Proof.
  clear. generalize (d0 :: history) 0%nat initial_multipliers. induction l as [|d l IH]; intros e m k K; [cbn in K; lia|]. cbn [run_constraints].
  destruct (compute_kl_constraints p e d m) as (o & m') eqn:C. destruct k as [|k]; cbn [nth_error]; [eauto|]. apply IH. cbn in K. lia.
Qed.
End Aim.

Lemma constraints_length : forall p l e m, length (run_constraints p e l m) = length l.
Proof. intros p. induction l as [|y l IH]; intros; auto. cbn [run_constraints length]. rewrite IH. auto. Qed.
Theorem weights_grow : forall p n d0 history delta j k o m, 0 <= rho_flux p -> 0 <= rho_local p ->
  (forall d, In d (d0 :: history) -> e_flux d <> [] /\ length (e_intercepts d) = n) ->
  (j <= k)%nat -> nth_error (run_constraints p 0 (d0 :: history) initial_multipliers) k = Some (o, m) ->
  ((forall e d, (j <= e <= k)%nat -> nth_error (d0 :: history) e = Some d -> delta <= share_lost (eps p) (Rsum (e_flux d0)) (Rsum (e_flux d))) ->
     rho_flux p * (INR (S k - j) * delta) <= lambda_flux m)
  /\ ((forall e d, (j <= e <= k)%nat -> nth_error (d0 :: history) e = Some d -> exists x, In x (e_flux d) /\ delta <= (x - max_density p) / (max_density p + eps p)) ->
     rho_local p * (INR (S k - j) * delta) <= lambda_local m).
Proof.
  intros p n d0 history delta j k o m R1 R2 V J K.
  assert (KL : (k < length (d0 :: history))%nat) by (rewrite <- (constraints_length p (d0 :: history) 0%nat initial_multipliers); apply nth_error_Some; congruence).
  assert (AT : forall e, (e <= k)%nat -> exists d, nth_error (d0 :: history) e = Some d) by (intros e E; destruct (nth_error (d0 :: history) e) eqn:N; eauto; apply nth_error_None in N; lia).
  destruct (AT k (Nat.le_refl k)) as (dk & KD).
  set (excess := fun e => maximum (map (fun x => (x - max_density p) / (max_density p + eps p)) (e_flux (nth e (d0 :: history) d0)))).
  assert (EX : forall e d, nth_error (d0 :: history) e = Some d -> largest_excess (eps p) (max_density p) (e_flux d) (excess e)).
  { intros e d E. unfold excess. rewrite (nth_error_nth _ _ d0 E). destruct (V d) as (NE & _); [eapply nth_error_In; eauto|].
    destruct (maximum_spec (map (fun x => (x - max_density p) / (max_density p + eps p)) (e_flux d))) as (MI & MU); [destruct (e_flux d); [congruence|discriminate]|].
    split; [apply in_map_iff in MI; destruct MI as (x & <- & X); eauto|]. intros x X. apply MU, in_map_iff. eauto. }
  destruct (weights_history p n d0 history V excess EX k dk o m KD K) as ((W1 & _ & W3) & _). split; intros H.
  - apply (largest_run_grows _ _ _ _ delta j W1); auto; try lia. intros e E. destruct (AT e) as (d & N); [lia|]. unfold lost, in_epoch. rewrite (nth_error_nth _ _ d0 N). apply (H e); auto. lia.
  - apply (largest_run_grows _ _ _ _ delta j W3); auto; try lia. intros e E. destruct (AT e) as (d & N); [lia|]. destruct (H e d) as (x & X & LE); auto; [lia|].
    destruct (EX e d N) as (_ & U). specialize (U x X). lra.
Qed.
(** One heliostat loses half of its intercept factor for good, the other one gains as much: the weight stays zero. *)
Lemma balanced_intercepts : forall p extra, 0 < eps p -> let d0 := {| e_flux_loss := 0; e_flux := [1]; e_intercepts := [1/2; 1/2] |} in
  let d := {| e_flux_loss := 0; e_flux := [1]; e_intercepts := [1/4; 3/4] |} in
  forall k o m, nth_error (run_constraints p 0 (d0 :: repeat d extra) initial_multipliers) k = Some (o, m) -> lambda_intercept m = 0.
Proof.
  intros p extra P d0 d k o m K.
  pose proof (weights_history p 2 d0 (repeat d extra)) as W.
  assert (KD : exists x, nth_error (d0 :: repeat d extra) k = Some x).
  { clear - K. assert (GL : forall l e m0, length (run_constraints p e l m0) = length l) by (induction l as [|y l IH]; intros; auto; cbn [run_constraints length]; rewrite IH; auto).
    destruct (nth_error (d0 :: repeat d extra) k) eqn:N; eauto. apply nth_error_None in N. rewrite <- (GL (d0 :: repeat d extra) 0%nat initial_multipliers) in N. apply nth_error_None in N. congruence. }
  destruct KD as (x & KD).
  destruct (W) with (excess := fun _ : nat => (1 - max_density p) / (max_density p + eps p)) (k := k) (d := x) (o := o) (m := m) as ((_ & ((j & J & E) & _) & _) & _); auto.
  - intros y [<-|I]; [split; [discriminate|auto]|]. apply repeat_spec in I. subst y. split; [discriminate|auto].
  - intros e z NE. assert (F : e_flux z = [1]) by (apply nth_error_In in NE; destruct NE as [<-|I]; auto; apply repeat_spec in I; subst; auto).
    rewrite F. split; [exists 1; split; [left; auto|auto]|]. intros y [<-|[]]. lra.
  - rewrite E. replace (sum_from _ j (S k)) with 0; [ring|]. symmetry. unfold sum_from.
    assert (Z : forall e, mean_lost p d0 (repeat d extra) e = 0).
    { intros e. unfold mean_lost, in_epoch. assert (C : nth e (d0 :: repeat d extra) d0 = d0 \/ nth e (d0 :: repeat d extra) d0 = d).
      { destruct (nth_in_or_default e (d0 :: repeat d extra) d0) as [[I|I]|I]; auto. apply repeat_spec in I. auto. }
      destruct C as [-> | ->]; unfold mean_share_lost, share_lost, d0, d; cbn [e_intercepts length seq map nth]; rewrite !Rsum_cons; change (Rsum []) with 0; cbn [INR]; field; lra. }
    generalize (seq j (S k - j)). induction l as [|e l IH]; auto. cbn [map]. rewrite Rsum_cons, IH, Z. ring.
Qed.

(** ** Surfaces *)
Section Surface.
Variables (c : surface_config) (n : nat) (d0 : surface_epoch) (history : list surface_epoch).
Hypothesis rho : 0 <= c_rho c.
Hypothesis epsilon : 0 < c_epsilon c.
Hypothesis count : (0 < c_samples c)%nat.
Hypothesis weights : 0 <= c_weight_smoothness c /\ 0 <= c_weight_ideal c.
Hypothesis some : (0 < n)%nat.
Hypothesis valid : forall d, In d (d0 :: history) -> valid_surface c n d.
Definition violated (i e : nat) : R := energy_violation (c_tolerance c) (c_epsilon c) (c_samples c) i (s_integrals d0) (s_integrals (nth e (d0 :: history) d0)).
Lemma violated_nonneg : forall i e, 0 <= violated i e.
Proof.
  intros i e. unfold violated, energy_violation, Rdiv. apply Rmult_le_pos; [|left; apply Rinv_0_lt_compat, lt_0_INR; auto].
  apply Rsum_nonneg. intros x I. apply in_map_iff in I. destruct I as (j & <- & _). apply Rmax_l.
Qed.
Lemma violations_value : forall e d, nth_error (d0 :: history) e = Some d ->
  exists v, violations (c_epsilon c) (c_tolerance c) (c_samples c) (s_integrals d) (s_integrals d0) = Ok v /\ length v = n /\ forall i, (i < n)%nat -> nth_error v i = Some (violated i e).
Proof.
  intros e d E. destruct (valid d0) as (R1 & _); [left; auto|]. destruct (valid d) as (V1 & _); [eapply nth_error_In; eauto|].
  unfold violations. set (per_sample := map (fun '(s, r) => clamp0 (- c_tolerance c - (s - r) / (r + c_epsilon c))) (combine (s_integrals d) (s_integrals d0))).
  assert (PL : length per_sample = (n * c_samples c)%nat) by (unfold per_sample; rewrite map_length, combine_length; lia).
  destruct (reduce_all R per_sample (c_samples c) mean count) as (v & EV & VL & VN). rewrite PL, Nat.div_mul in VL, VN by lia.
  exists v. split; auto. split; auto. intros i I. destruct (VN i I) as (VN1 & VN2). rewrite VN1. f_equal. unfold violated, energy_violation. rewrite (nth_error_nth _ _ d0 E).
  unfold mean. rewrite VN2. f_equal. f_equal. unfold samples_of.
  assert (FS : forall k a (l : list R), (a + k <= length l)%nat -> firstn k (skipn a l) = map (fun j => nth (a + j) l 0) (seq 0 k)).
  { clear. induction k as [|k IH]; intros a l H; auto. assert (SK : skipn a l = nth a l 0 :: skipn (S a) l).
    { clear IH. revert l H. induction a as [|a IH]; intros [|x l] H; cbn in H; try lia; auto. cbn [skipn nth]. rewrite IH by lia. auto. }
    rewrite SK. cbn [firstn seq map]. rewrite Nat.add_0_r. f_equal. rewrite IH by lia. rewrite <- seq_shift, map_map. apply map_ext. intros j. f_equal. lia. }
  rewrite FS by nia. apply map_ext_in. intros j J. apply in_seq in J. unfold per_sample.
  assert (B : (i * c_samples c + j < n * c_samples c)%nat) by nia.
  set (f := fun '(s, r) => clamp0 (- c_tolerance c - (s - r) / (r + c_epsilon c))).
  rewrite (nth_indep _ 0 (f (0, 0))) by (unfold f; rewrite map_length, combine_length; lia). rewrite (map_nth f), combine_nth by lia.
  unfold f, clamp0, share_lost. rewrite Rmax_comm. f_equal. unfold Rdiv. ring.
Qed.
Theorem surface_weights : exists outs, train_surface c n (d0 :: history) = Ok outs
  /\ forall k totals constraint lambdas, nth_error outs k = Some (totals, constraint, lambdas) -> forall i, (i < n)%nat ->
     nth_error lambdas i = Some (c_rho c * sum_from (violated i) 0 (S k))
     /\ nth_error constraint i = Some (augmented (c_rho c * sum_from (violated i) 0 k) (c_rho c) (violated i k)).
Proof.
  destruct (surface_history c rho epsilon count weights n d0 history some valid) as (outs & T & L & _). exists outs. split; auto. cbn [train_surface] in T.
  assert (G : forall l k0 lambdas0 outs, (forall e, nth_error l e = nth_error (d0 :: history) (k0 + e)) -> length lambdas0 = n ->
    (forall i, (i < n)%nat -> nth_error lambdas0 i = Some (c_rho c * sum_from (violated i) 0 k0)) -> run_surface c (s_integrals d0) lambdas0 l = Ok outs ->
    forall k totals constraint lambdas, nth_error outs k = Some (totals, constraint, lambdas) -> forall i, (i < n)%nat ->
     nth_error lambdas i = Some (c_rho c * sum_from (violated i) 0 (S (k0 + k)))
     /\ nth_error constraint i = Some (augmented (c_rho c * sum_from (violated i) 0 (k0 + k)) (c_rho c) (violated i (k0 + k)))).
  { clear outs T L. induction l as [|d l IH]; intros k0 lambdas0 outs SUB LL W T k totals constraint lambdas K i I; cbn [run_surface] in T.
    { injection T as <-. destruct k; discriminate. }
    unfold surface_step in T. pose proof (SUB 0%nat) as S0. rewrite Nat.add_0_r in S0. destruct (violations_value k0 d (eq_sym S0)) as (v & EV & VL & VN). rewrite EV in T. cbn [bind] in T.
    destruct (regularization (c_weight_smoothness c) _ _ _) as (alpha & smooth). destruct (regularization (c_weight_ideal c) _ _ _) as (beta & ideal).
    cbn [bind snd] in T. destruct (run_surface c (s_integrals d0) (update_lambdas (c_rho c) lambdas0 v) l) as [outs'|] eqn:RS; [|discriminate]. cbn [bind] in T. injection T as <-.
    assert (UP : forall i, (i < n)%nat -> nth_error (update_lambdas (c_rho c) lambdas0 v) i = Some (c_rho c * sum_from (violated i) 0 (S k0))).
    { intros i' I'. unfold update_lambdas. rewrite nth_error_map, (combine_nth_error _ _ _ _ _ (W i' I') (VN i' I')). cbn [option_map]. f_equal.
      rewrite sum_from_last by lia. unfold clamp0. rewrite Rmax_left; [ring|]. pose proof (violated_nonneg i' k0).
      assert (0 <= sum_from (violated i') 0 k0) by (apply Rsum_nonneg; intros x X; apply in_map_iff in X; destruct X as (e & <- & _); apply violated_nonneg). nra. }
    destruct k as [|k]; cbn [nth_error] in K.
    - injection K as _ <- <-. rewrite Nat.add_0_r. split; [auto|]. unfold integral_constraint. rewrite nth_error_map, (combine_nth_error _ _ _ _ _ (W i I) (VN i I)). cbn [option_map].
      f_equal. unfold penalty, augmented. rewrite Rmax_right by apply violated_nonneg. ring.
    - replace (k0 + S k)%nat with (S k0 + k)%nat by lia. apply (IH (S k0) (update_lambdas (c_rho c) lambdas0 v) outs') with (totals := totals); auto.
      + intros e. pose proof (SUB (S e)) as SE. cbn [nth_error] in SE. rewrite SE. f_equal. lia.
      + unfold update_lambdas. rewrite map_length, combine_length. lia. }
  intros k totals constraint lambdas K i I. apply (G (d0 :: history) 0%nat (repeat 0 n) outs) with (totals := totals); auto; [apply repeat_length|].
  intros i' I'. rewrite sum_from_empty, Rmult_0_r. clear - I'. revert i' I'. induction n as [|m IH]; intros [|i'] I'; try lia; auto. cbn [repeat nth_error]. apply IH. lia.
Qed.
End Surface.
