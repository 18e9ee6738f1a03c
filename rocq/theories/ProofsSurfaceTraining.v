From Coq Require Import List Arith ZArith Reals Lra Lia Bool.
From Verif Require Import RealSums ModelField ModelDistributed ModelLBVH ModelSplatting ModelActuators ModelLosses SpecLosses ProofsLosses ModelOptimization SpecOptimization ProofsConstraints.
Import ListNotations.
Local Open Scope R_scope.

Lemma combine_nth_error : forall {A B} (a : list A) (b : list B) i x y, nth_error a i = Some x -> nth_error b i = Some y -> nth_error (combine a b) i = Some (x, y).
Proof. induction a as [|u a IH]; intros [|v b] [|i] x y P Q; cbn in *; try discriminate; [congruence|]. apply IH; auto. Qed.
Lemma nth_error_some : forall {A} (l : list A) i, (i < length l)%nat -> exists x, nth_error l i = Some x /\ In x l.
Proof. intros A l i H. destruct (nth_error l i) as [x|] eqn:E; [exists x; split; auto; eapply nth_error_In; eauto|]. apply nth_error_None in E. lia. Qed.
Section Surface.
Variable c : surface_config.
Hypothesis rho : 0 <= c_rho c.
Hypothesis epsilon : 0 < c_epsilon c.
Hypothesis count : (0 < c_samples c)%nat.
Hypothesis weights : 0 <= c_weight_smoothness c /\ 0 <= c_weight_ideal c.
Definition all_nonneg (l : list R) := forall x, In x l -> 0 <= x.
Definition valid_surface (n : nat) (d : surface_epoch) :=
  length (s_integrals d) = (n * c_samples c)%nat /\ length (s_flux_losses d) = n /\ length (s_smoothness d) = n /\ length (s_ideal d) = n
  /\ all_nonneg (s_integrals d) /\ all_nonneg (s_flux_losses d) /\ all_nonneg (s_smoothness d) /\ all_nonneg (s_ideal d).
Definition promised_surface (n : nat) (references : list R) (d : surface_epoch) (out : list R * list R * list R) :=
  let '(totals, constraint, lambdas) := out in
  length totals = n /\ length constraint = n /\ length lambdas = n /\
  forall i, (i < n)%nat ->
    nth i (s_flux_losses d) 0 <= nth i totals 0 /\ 0 <= nth i constraint 0 /\ 0 <= nth i lambdas 0
    /\ (energy_kept (c_tolerance c) (c_epsilon c) (c_samples c) i references (s_integrals d) -> nth i constraint 0 = 0)
    /\ (0 < c_rho c -> nth i constraint 0 = 0 -> energy_kept (c_tolerance c) (c_epsilon c) (c_samples c) i references (s_integrals d)).
Lemma regularization_nonneg : forall weight n losses term, 0 <= weight -> (0 < n)%nat -> length losses = n -> length term = n -> all_nonneg losses -> all_nonneg term ->
  let '(alpha, t) := regularization weight (c_epsilon c) losses term in 0 <= alpha /\ length t = n /\ all_nonneg t.
Proof.
  intros weight n losses term W N L1 L2 A1 A2. unfold regularization. set (t := if Rlt_dec 0 weight then term else map (fun _ => 0) losses).
  assert (T : length t = n /\ all_nonneg t). { unfold t. destruct Rlt_dec; auto. rewrite map_length. split; auto. intros x I. apply in_map_iff in I. destruct I as (_ & <- & _). lra. }
  destruct T as (T1 & T2). split; [|split; auto].
  assert (NL : losses <> []) by (destruct losses; cbn in L1; [lia|discriminate]). assert (NT : t <> []) by (destruct t; cbn in T1; [lia|discriminate]).
  pose proof (mean_nonneg losses NL A1). pose proof (mean_nonneg t NT T2).
  unfold Rdiv. apply Rmult_le_pos; [apply Rmult_le_pos; auto|]. left. apply Rinv_0_lt_compat. lra.
Qed.
Lemma surface_epoch_ok : forall n references lambdas d, (0 < n)%nat -> length references = (n * c_samples c)%nat -> all_nonneg references ->
  length lambdas = n -> all_nonneg lambdas -> valid_surface n d ->
  exists out, surface_step c references lambdas d = Ok out /\ promised_surface n references d out /\ length (snd out) = n /\ all_nonneg (snd out).
Proof.
  intros n references lambdas d N RL RP LL LP (V1 & V2 & V3 & V4 & V5 & V6 & V7 & V8). unfold surface_step, violations.
  set (per_sample := map (fun '(s, r) => clamp0 (- c_tolerance c - (s - r) / (r + c_epsilon c))) (combine (s_integrals d) references)).
  assert (PL : length per_sample = (n * c_samples c)%nat) by (unfold per_sample; rewrite map_length, combine_length; lia).
  destruct (reduce_all R per_sample (c_samples c) mean count) as (v & E & VL & VN). rewrite E. cbn [bind]. rewrite PL, Nat.div_mul in VL, VN by lia.
  pose proof (regularization_nonneg (c_weight_smoothness c) n (s_flux_losses d) (s_smoothness d) (proj1 weights) N V2 V3 V6 V7) as RS.
  pose proof (regularization_nonneg (c_weight_ideal c) n (s_flux_losses d) (s_ideal d) (proj2 weights) N V2 V4 V6 V8) as RI.
  destruct (regularization (c_weight_smoothness c) _ _ _) as (alpha & smooth). destruct (regularization (c_weight_ideal c) _ _ _) as (beta & ideal).
  destruct RS as (S1 & S2 & S3). destruct RI as (I1 & I2 & I3).
  eexists. split; [reflexivity|]. cbn [snd].
  assert (PN : all_nonneg per_sample) by (intros x I; apply in_map_iff in I; destruct I as ((s & r) & <- & _); apply clamp0_nonneg).
  assert (VV : forall i, (i < n)%nat -> exists x, nth_error v i = Some x /\ 0 <= x /\ (x = 0 <-> energy_kept (c_tolerance c) (c_epsilon c) (c_samples c) i references (s_integrals d))).
  { intros i I. destruct (VN i I) as (VN1 & VN2). eexists. split; [exact VN1|].
    assert (NE : samples_of (c_samples c) i per_sample <> []) by (destruct (samples_of (c_samples c) i per_sample); cbn in VN2; [lia|discriminate]).
    assert (NN : all_nonneg (samples_of (c_samples c) i per_sample)). { intros x J. apply PN. unfold samples_of in J. assert (IN : forall k (l : list R) y, In y (firstn k l) -> In y l) by (intros k l y Y; rewrite <- (firstn_skipn k l); apply in_or_app; auto). apply IN in J. rewrite <- (firstn_skipn (i * c_samples c) per_sample). apply in_or_app. right. exact J. }
    split; [apply mean_nonneg; auto|].
    assert (NTH : forall j, (j < c_samples c)%nat -> exists s r, nth_error (s_integrals d) (i * c_samples c + j) = Some s /\ nth_error references (i * c_samples c + j) = Some r /\ In s (s_integrals d) /\ In r references
        /\ nth_error (samples_of (c_samples c) i per_sample) j = Some (clamp0 (- c_tolerance c - (s - r) / (r + c_epsilon c)))).
    { intros j J. assert (B : (i * c_samples c + j < n * c_samples c)%nat) by nia.
      destruct (nth_error_some (s_integrals d) (i * c_samples c + j)) as (s & Es & Is); [lia|]. destruct (nth_error_some references (i * c_samples c + j)) as (r & Er & Ir); [lia|].
      exists s, r. repeat split; auto. unfold samples_of.
      assert (FS : forall (l : list R) a b k, (b < k)%nat -> nth_error (firstn k (skipn a l)) b = nth_error l (a + b)).
      { clear. intros l a b k H. revert k b H a. induction l as [|x l IH]; intros k b H a; [rewrite skipn_nil, firstn_nil; destruct b, a; auto|].
        destruct a as [|a]; cbn [skipn]; [|cbn [Nat.add nth_error]; apply IH; auto]. destruct k as [|k]; [lia|]. destruct b as [|b]; auto. cbn [firstn nth_error Nat.add]. specialize (IH k b ltac:(lia) 0%nat). cbn [skipn Nat.add] in IH. auto. }
      rewrite FS by auto. unfold per_sample. rewrite nth_error_map. rewrite (combine_nth_error _ _ _ _ _ Es Er). reflexivity. }
    assert (KEY : forall s r, 0 <= r -> (clamp0 (- c_tolerance c - (s - r) / (r + c_epsilon c)) = 0 <-> r - c_tolerance c * (r + c_epsilon c) <= s)).
    { intros s r Rr. rewrite clamp0_zero. replace (- c_tolerance c - (s - r) / (r + c_epsilon c)) with ((r - c_tolerance c * (r + c_epsilon c) - s) / (r + c_epsilon c)) by (field; lra). rewrite div_sign by lra. lra. }
    split.
    - intros Z j J. destruct (NTH j J) as (s & r & Es & Er & Is & Ir & Ex). rewrite (nth_error_nth _ _ 0 Es), (nth_error_nth _ _ 0 Er).
      apply (KEY s r (RP r Ir)). apply (mean_zero _ NE NN Z). eapply nth_error_In; eauto.
    - intros K. apply mean_all_zero. intros x J. apply In_nth_error in J. destruct J as (j & J). assert (JL : (j < c_samples c)%nat) by (rewrite <- VN2; apply nth_error_Some; congruence).
      destruct (NTH j JL) as (s & r & Es & Er & Is & Ir & Ex). specialize (K j JL). rewrite (nth_error_nth _ _ 0 Es), (nth_error_nth _ _ 0 Er) in K. apply (KEY s r (RP r Ir)) in K. rewrite Ex in J. congruence. }
  assert (UL : length (update_lambdas (c_rho c) lambdas v) = n) by (unfold update_lambdas; rewrite map_length, combine_length; lia).
  assert (UP : all_nonneg (update_lambdas (c_rho c) lambdas v)) by (intros x I; apply in_map_iff in I; destruct I as ((l & w) & <- & _); apply clamp0_nonneg).
  assert (KL : length (integral_constraint (c_rho c) lambdas v) = n) by (unfold integral_constraint; rewrite map_length, combine_length; lia).
  split; [|auto]. unfold promised_surface. split; [rewrite map_length, !combine_length; lia|]. split; auto. split; auto.
  intros i I. destruct (VV i I) as (x & Ev & X & XK). destruct (nth_error_some lambdas i) as (l & El & Il); [lia|].
  destruct (nth_error_some (s_flux_losses d) i) as (f & Ef & If); [lia|]. destruct (nth_error_some smooth i) as (sm & Esm & Ism); [lia|]. destruct (nth_error_some ideal i) as (id & Eid & Iid); [lia|].
  assert (EK : nth_error (integral_constraint (c_rho c) lambdas v) i = Some (penalty l (c_rho c) x)).
  { unfold integral_constraint. rewrite nth_error_map, (combine_nth_error _ _ _ _ _ El Ev). reflexivity. }
  assert (PK : 0 <= penalty l (c_rho c) x) by (apply penalty_nonneg; auto).
  rewrite (nth_error_nth _ _ 0 EK), (nth_error_nth _ _ 0 Ef). repeat split.
  - assert (ET : nth_error (map (fun '(f, k, s, i) => f + k + alpha * s + beta * i) (combine (combine (combine (s_flux_losses d) (integral_constraint (c_rho c) lambdas v)) smooth) ideal)) i
                 = Some (f + penalty l (c_rho c) x + alpha * sm + beta * id)).
    { rewrite nth_error_map. rewrite (combine_nth_error _ _ _ _ _ (combine_nth_error _ _ _ _ _ (combine_nth_error _ _ _ _ _ Ef EK) Esm) Eid). reflexivity. }
    rewrite (nth_error_nth _ _ 0 ET). assert (0 <= alpha * sm) by (apply Rmult_le_pos; auto). assert (0 <= beta * id) by (apply Rmult_le_pos; auto). lra.
  - auto.
  - destruct (nth_error_some (update_lambdas (c_rho c) lambdas v) i) as (u & Eu & Iu); [lia|]. rewrite (nth_error_nth _ _ 0 Eu). auto.
  - intros K. apply XK in K. rewrite K. apply penalty_at_zero.
  - intros Rp K. apply XK. apply (penalty_zero l (c_rho c)); auto.
Qed.
Theorem surface_history : forall n d0 history, (0 < n)%nat -> (forall d, In d (d0 :: history) -> valid_surface n d) ->
  exists outs, train_surface c n (d0 :: history) = Ok outs /\ length outs = length (d0 :: history)
  /\ forall k d, nth_error (d0 :: history) k = Some d -> exists out, nth_error outs k = Some out /\ promised_surface n (s_integrals d0) d out.
Proof.
  intros n d0 history N V. cbn [train_surface]. destruct (V d0 (or_introl eq_refl)) as (RL & _ & _ & _ & RP & _).
  assert (G : forall l lambdas, (forall d, In d l -> valid_surface n d) -> length lambdas = n -> all_nonneg lambdas ->
    exists outs, run_surface c (s_integrals d0) lambdas l = Ok outs /\ length outs = length l
    /\ forall k d, nth_error l k = Some d -> exists out, nth_error outs k = Some out /\ promised_surface n (s_integrals d0) d out).
  { induction l as [|d l IH]; intros lambdas VL LL LP.
    - exists []. repeat split; auto. intros [|k] d K; discriminate.
    - cbn [run_surface]. destruct (surface_epoch_ok n (s_integrals d0) lambdas d N RL RP LL LP (VL d (or_introl eq_refl))) as (out & E & P & L' & P'). rewrite E. cbn [bind].
      destruct (IH (snd out)) as (outs & E2 & L2 & H2); auto; [intros; apply VL; right; auto|]. rewrite E2. cbn [bind]. exists (out :: outs). split; auto. split; [cbn; lia|].
      intros [|k] x K; cbn [nth_error] in *; [injection K as <-; eauto|auto]. }
  apply G; auto; [apply repeat_length|]. intros x I. apply repeat_spec in I. subst. lra.
Qed.
End Surface.

(** * Edges *)
Lemma adam_zero : forall history value, (forall lr beta g, In (lr, beta, g) history -> g = 0) ->
  let s := fold_left (fun s '(lr, beta, g) => adam_step lr beta s g) history (fresh value) in a_value s = value.
Proof.
  intros history value H. assert (G : forall l s, (forall lr beta g, In (lr, beta, g) l -> g = 0) -> a_m s = 0 -> a_v s = 0 -> a_value (fold_left (fun s '(lr, beta, g) => adam_step lr beta s g) l s) = a_value s).
  { clear. induction l as [|((lr & beta) & g) l IH]; intros s Z M V; auto. cbn [fold_left]. assert (G0 : g = 0) by (apply (Z lr beta); left; auto).
    rewrite IH; [| intros lr' beta' g' I; apply (Z lr' beta'); right; auto | | ]; unfold adam_step; cbn [a_m a_v a_value]; rewrite ?M, ?V, G0; try ring.
    replace (beta * 0 + (1 - beta) * 0) with 0 by ring. unfold Rdiv. ring. }
  cbv zeta. rewrite G; auto.
Qed.
Theorem edges_kept : forall height width control_points history h f i j c, (i < height)%nat -> (j < width)%nat -> on_border height width i j -> (c < 2)%nat ->
  train_control_points height width control_points history h f i j c = control_points h f i j c.
Proof.
  intros height width control_points history h f i j c I J B C. unfold train_control_points.
  assert (L : forall g, lock_edges height width g h f i j c = 0).
  { intros g. unfold lock_edges. destruct (Nat.ltb_spec c 2); [|lia]. assert (E : ((i =? 0) || (i =? height - 1) || (j =? 0) || (j =? width - 1))%nat = true).
    { rewrite !orb_true_iff, !Nat.eqb_eq. unfold on_border in B. lia. }
    rewrite E. auto. }
  pose proof (adam_zero (map (fun '(lr, beta, members) => (lr, beta, lock_edges height width (averaged members) h f i j c)) history) (control_points h f i j c)) as A. cbv zeta in A.
  etransitivity; [|apply A].
  - f_equal. clear A. generalize (fresh (control_points h f i j c)). induction history as [|((lr & beta) & m) history IH]; intros s; auto. cbn [map fold_left]. apply IH.
  - intros lr beta g Q. apply in_map_iff in Q. destruct Q as (((lr' & beta') & m) & Q & _). injection Q as _ _ <-. apply L.
Qed.
Theorem lock_exact : forall height width g h f i j c, (i < height)%nat -> (j < width)%nat ->
  (on_border height width i j /\ (c < 2)%nat -> lock_edges height width g h f i j c = 0)
  /\ (~ (on_border height width i j /\ (c < 2)%nat) -> lock_edges height width g h f i j c = g h f i j c).
Proof.
  intros height width g h f i j c I J. unfold lock_edges, on_border.
  destruct (Nat.ltb_spec c 2) as [C|C].
  - destruct ((i =? 0) || (i =? height - 1) || (j =? 0) || (j =? width - 1))%nat eqn:E.
    + rewrite !orb_true_iff, !Nat.eqb_eq in E. split; auto. intros N. exfalso. apply N. split; auto. lia.
    + rewrite !orb_false_iff, !Nat.eqb_neq in E. split; auto. intros (B & _). exfalso. lia.
  - split; auto. intros (_ & ?). lia.
Qed.
