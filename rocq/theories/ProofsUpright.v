(** Proofs about the direction of surface normals (C152). *)
From Coq Require Import List Arith ZArith Reals Bool Lra Lia Psatz.
From Verif Require Import RealSums ModelField ModelVectors ProofsVectors ModelTransforms ModelActuators ModelNurbs SpecTransforms SpecNurbs
  ProofsBasis ProofsKnots ProofsSurface ProofsSplineMonotone ModelSchedulers ModelOptimization ModelLearning ProofsLearning.
Import ListNotations.
Local Open Scope R_scope.

(** ** Slopes of a spline, measured by those of the spline with coefficients 0, 1, 2, ... *)
Definition pace (n p : nat) (x : R) : R := slope_of_curve n p INR x.
Lemma slope_linear : forall n p e f d x, slope_of_curve n p (fun a => e a - d * f a) x = slope_of_curve n p e x - d * slope_of_curve n p f x.
Proof.
  intros. unfold slope_of_curve. rewrite <- Rsum_map_scal, <- Rsum_map_minus. apply Rsum_map_ext. intros. ring.
Qed.
Lemma slope_opp : forall n p e x, slope_of_curve n p (fun a => - e a) x = - slope_of_curve n p e x.
Proof.
  intros. unfold slope_of_curve. rewrite (Rsum_map_ext _ (fun a => -1 * (e a * cox_de_boor' (knot_of (knot_vector n p)) p a x))) by (intros; ring).
  rewrite Rsum_map_scal. ring.
Qed.
Lemma pace_pos : forall n p x, (1 <= p < n)%nat -> 0 <= x < 1 -> 1 <= pace n p x.
Proof.
  intros n p x P X. pose proof (slope_bound n p INR P 1 x X ltac:(lra) ltac:(intros; rewrite S_INR; lra)) as B.
  pose proof (le_INR 1 p ltac:(lia)) as B'. change (INR 1) with 1 in B'. unfold pace. lra.
Qed.
Lemma slope_above : forall n p e d x, (1 <= p < n)%nat -> 0 <= x < 1 -> (forall a, (S a < n)%nat -> d <= e (S a) - e a) ->
  d * pace n p x <= slope_of_curve n p e x.
Proof.
  intros n p e d x P X E. pose proof (slope_bound n p (fun a => e a - d * INR a) P 0 x X ltac:(lra)) as B.
  rewrite slope_linear in B. fold (pace n p x) in B. rewrite Rmult_0_r in B. enough (0 <= slope_of_curve n p e x - d * pace n p x) by lra.
  apply B. intros a A. specialize (E a A). rewrite S_INR. lra.
Qed.
Lemma slope_below : forall n p e d x, (1 <= p < n)%nat -> 0 <= x < 1 -> (forall a, (S a < n)%nat -> Rabs (e (S a) - e a) <= d) ->
  Rabs (slope_of_curve n p e x) <= d * pace n p x.
Proof.
  intros n p e d x P X E. apply Rabs_le.
  pose proof (slope_above n p e (- d) x P X) as L. pose proof (slope_above n p (fun a => - e a) (- d) x P X) as U.
  rewrite slope_opp in U. split.
  - assert (- d * pace n p x <= slope_of_curve n p e x); [|lra]. apply L. intros a A. specialize (E a A). unfold Rabs in E. destruct (Rcase_abs (e (S a) - e a)); lra.
  - assert (- d * pace n p x <= - slope_of_curve n p e x); [|lra]. apply U. intros a A. specialize (E a A). unfold Rabs in E. destruct (Rcase_abs (e (S a) - e a)); lra.
Qed.

(** ** Averages of slopes *)
Lemma rows : forall n m F G (h : nat -> nat -> R),
  Rsum (map (fun a => Rsum (map (fun b => F a * G b * h a b) (seq 0 m))) (seq 0 n))
  = Rsum (map (fun b => G b * Rsum (map (fun a => h a b * F a) (seq 0 n))) (seq 0 m)).
Proof.
  intros. rewrite Rsum_swap. apply Rsum_map_ext. intros b _. rewrite <- Rsum_map_scal. apply Rsum_map_ext. intros. ring.
Qed.
Lemma columns : forall n m F G (h : nat -> nat -> R),
  Rsum (map (fun a => Rsum (map (fun b => F a * G b * h a b) (seq 0 m))) (seq 0 n))
  = Rsum (map (fun a => F a * Rsum (map (fun b => h a b * G b) (seq 0 m))) (seq 0 n)).
Proof.
  intros. apply Rsum_map_ext. intros a _. rewrite <- Rsum_map_scal. apply Rsum_map_ext. intros. ring.
Qed.
Lemma average_above : forall m G s lo, (forall b, (b < m)%nat -> 0 <= G b) -> Rsum (map G (seq 0 m)) = 1 -> (forall b, (b < m)%nat -> lo <= s b) ->
  lo <= Rsum (map (fun b => G b * s b) (seq 0 m)).
Proof.
  intros m G s lo P W H. rewrite <- (Rmult_1_r lo), <- W, <- Rsum_map_scal. apply Rsum_map_le. intros b B. apply in_seq in B.
  specialize (P b ltac:(lia)). specialize (H b ltac:(lia)). nra.
Qed.
Lemma average_below : forall m G s hi, (forall b, (b < m)%nat -> 0 <= G b) -> Rsum (map G (seq 0 m)) = 1 -> (forall b, (b < m)%nat -> Rabs (s b) <= hi) ->
  Rabs (Rsum (map (fun b => G b * s b) (seq 0 m))) <= hi.
Proof.
  intros m G s hi P W H. apply Rabs_le. split.
  - apply average_above; auto. intros b B. specialize (H b B). unfold Rabs in H. destruct (Rcase_abs (s b)); lra.
  - pose proof (average_above m G (fun b => - s b) (- hi) P W) as A.
    rewrite (Rsum_map_ext _ (fun b => -1 * (G b * s b))), Rsum_map_scal in A by (intros; ring).
    assert (- hi <= -1 * Rsum (map (fun b => G b * s b) (seq 0 m))); [|lra]. apply A. intros b B. specialize (H b B). unfold Rabs in H. destruct (Rcase_abs (s b)); lra.
Qed.

(** * Results *)
Lemma normalize_up : forall v, 0 < pu v -> 0 < pu (normalize v).
Proof.
  intros v H. unfold normalize, normalize_eps. vunfold. apply Rmult_lt_0_compat; auto. apply Rinv_0_lt_compat. eapply Rlt_le_trans; [|apply Rmax_r]. lra.
Qed.
Lemma normalize_down : forall v, pu v < 0 -> pu (normalize v) < 0.
Proof.
  intros v H. unfold normalize, normalize_eps. vunfold. assert (0 < / Rmax (norm v) (/ 10 ^ 12)); [|nra].
  apply Rinv_0_lt_compat. eapply Rlt_le_trans; [|apply Rmax_r]. lra.
Qed.
(** The height of the normal before it is normalized. *)
Lemma height : forall c p q x y, fits c p q -> 0 <= x < 1 -> 0 <= y < 1 ->
  exists point v eu nu ev nv ku kv, evaluate c p q x y = Some (as_point point, as_direction (normalize v))
  /\ pu v = eu * nv - nu * ev /\ 1 <= ku /\ 1 <= kv
  /\ (forall a, (forall i j, (S i < n_u c)%nat -> (j < n_v c)%nat -> a <= pe (control c (S i) j) - pe (control c i j)) -> a * ku <= eu)
  /\ (forall a, (forall i j, (S i < n_u c)%nat -> (j < n_v c)%nat -> a <= - (pe (control c (S i) j) - pe (control c i j))) -> a * ku <= - eu)
  /\ (forall b, (forall i j, (S i < n_u c)%nat -> (j < n_v c)%nat -> Rabs (pn (control c (S i) j) - pn (control c i j)) <= b) -> Rabs nu <= b * ku)
  /\ (forall b, (forall i j, (i < n_u c)%nat -> (S j < n_v c)%nat -> b <= pn (control c i (S j)) - pn (control c i j)) -> b * kv <= nv)
  /\ (forall a, (forall i j, (i < n_u c)%nat -> (S j < n_v c)%nat -> Rabs (pe (control c i (S j)) - pe (control c i j)) <= a) -> Rabs ev <= a * kv).
Proof.
  intros c p q x y F X Y. rewrite (evaluate_textbook c p q x y F X Y). destruct F as (FU & FV).
  destruct (weights _ _ _ FU X) as (NU & SU & _). destruct (weights _ _ _ FV Y) as (NV & SV & _).
  pose proof (pace_pos _ _ _ FU X) as PU. pose proof (pace_pos _ _ _ FV Y) as PV.
  eexists. eexists.
  exists (Rsum (map (fun b0 => cox_de_boor (knot_of (knot_vector (n_v c) q)) q b0 y * slope_of_curve (n_u c) p (fun a0 => pe (control c a0 b0)) x) (seq 0 (n_v c)))).
  exists (Rsum (map (fun b0 => cox_de_boor (knot_of (knot_vector (n_v c) q)) q b0 y * slope_of_curve (n_u c) p (fun a0 => pn (control c a0 b0)) x) (seq 0 (n_v c)))).
  exists (Rsum (map (fun a0 => cox_de_boor (knot_of (knot_vector (n_u c) p)) p a0 x * slope_of_curve (n_v c) q (fun b0 => pe (control c a0 b0)) y) (seq 0 (n_u c)))).
  exists (Rsum (map (fun a0 => cox_de_boor (knot_of (knot_vector (n_u c) p)) p a0 x * slope_of_curve (n_v c) q (fun b0 => pn (control c a0 b0)) y) (seq 0 (n_u c)))).
  exists (pace (n_u c) p x), (pace (n_v c) q y).
  split; [reflexivity|]. split.
  - unfold tensor. cbn [cross pe pn pu vec]. unfold cross. cbn [pe pn pu vec].
    rewrite !(rows _ _ (fun a0 => cox_de_boor' (knot_of (knot_vector (n_u c) p)) p a0 x)).
    rewrite !(columns _ _ _ (fun b0 => cox_de_boor' (knot_of (knot_vector (n_v c) q)) q b0 y)). reflexivity.
  - split; auto. split; auto. repeat split.
    + intros a D. apply average_above; auto. intros b0 B0. apply slope_above; auto.
    + intros a D. rewrite <- (Rmult_1_l (Rsum _)), Ropp_mult_distr_l, <- Rsum_map_scal.
      rewrite (Rsum_map_ext _ (fun b0 => cox_de_boor (knot_of (knot_vector (n_v c) q)) q b0 y * slope_of_curve (n_u c) p (fun a0 => - pe (control c a0 b0)) x)) by (intros; rewrite slope_opp; ring).
      apply average_above; auto. intros b0 B0. apply slope_above; auto. intros i I. specialize (D i b0 I B0). lra.
    + intros b D. apply average_below; auto. intros b0 B0. apply slope_below; auto.
    + intros b D. apply average_above; auto. intros a0 A0. apply slope_above; auto.
    + intros a D. apply average_below; auto. intros a0 A0. apply slope_below; auto.
Qed.
Lemma product_bound : forall nu ev a' b' ku kv, Rabs nu <= b' * ku -> Rabs ev <= a' * kv -> Rabs (nu * ev) <= a' * b' * (ku * kv).
Proof.
  intros. rewrite Rabs_mult. replace (a' * b' * (ku * kv)) with ((b' * ku) * (a' * kv)) by ring. apply Rmult_le_compat; auto using Rabs_pos.
Qed.
Theorem upright : forall c p q x y a b a' b', fits c p q -> 0 <= x < 1 -> 0 <= y < 1 ->
  (forall i j, (S i < n_u c)%nat -> (j < n_v c)%nat -> a <= pe (control c (S i) j) - pe (control c i j)
     /\ Rabs (pn (control c (S i) j) - pn (control c i j)) <= b') ->
  (forall i j, (i < n_u c)%nat -> (S j < n_v c)%nat -> b <= pn (control c i (S j)) - pn (control c i j)
     /\ Rabs (pe (control c i (S j)) - pe (control c i j)) <= a') ->
  0 <= a -> 0 <= b -> a' * b' < a * b ->
  exists point normal, evaluate c p q x y = Some (as_point point, as_direction normal) /\ 0 < pu normal.
Proof.
  intros c p q x y a b a' b' F X Y HU HV A B D.
  destruct (height c p q x y F X Y) as (point & v & eu & nu & ev & nv & ku & kv & E & H & PU & PV & E1 & _ & E2 & E3 & E4).
  exists point, (normalize v). split; auto. apply normalize_up. rewrite H.
  specialize (E1 a ltac:(intros; apply HU; auto)). specialize (E2 b' ltac:(intros; apply HU; auto)).
  specialize (E3 b ltac:(intros; apply HV; auto)). specialize (E4 a' ltac:(intros; apply HV; auto)).
  assert (K : 0 < ku * kv) by nra.
  assert (L1 : a * b * (ku * kv) <= eu * nv). { replace (a * b * (ku * kv)) with ((a * ku) * (b * kv)) by ring. apply Rmult_le_compat; nra. }
  pose proof (product_bound nu ev a' b' ku kv E2 E4) as L2. pose proof (Rle_abs (nu * ev)). nra.
Qed.
Theorem turned_over : forall c p q x y a b a' b', fits c p q -> 0 <= x < 1 -> 0 <= y < 1 ->
  (forall i j, (S i < n_u c)%nat -> (j < n_v c)%nat -> a <= pe (control c i j) - pe (control c (S i) j)
     /\ Rabs (pn (control c (S i) j) - pn (control c i j)) <= b') ->
  (forall i j, (i < n_u c)%nat -> (S j < n_v c)%nat -> b <= pn (control c i (S j)) - pn (control c i j)
     /\ Rabs (pe (control c i (S j)) - pe (control c i j)) <= a') ->
  0 <= a -> 0 <= b -> a' * b' < a * b ->
  exists point normal, evaluate c p q x y = Some (as_point point, as_direction normal) /\ pu normal < 0.
Proof.
  intros c p q x y a b a' b' F X Y HU HV A B D.
  destruct (height c p q x y F X Y) as (point & v & eu & nu & ev & nv & ku & kv & E & H & PU & PV & _ & E1 & E2 & E3 & E4).
  exists point, (normalize v). split; auto. apply normalize_down. rewrite H.
  specialize (E1 a). assert (E1' : a * ku <= - eu) by (apply E1; intros i j I J; destruct (HU i j I J); lra). clear E1.
  specialize (E2 b' ltac:(intros; apply HU; auto)).
  specialize (E3 b ltac:(intros; apply HV; auto)). specialize (E4 a' ltac:(intros; apply HV; auto)).
  assert (K : 0 < ku * kv) by nra.
  assert (L1 : a * b * (ku * kv) <= (- eu) * nv). { replace (a * b * (ku * kv)) with ((a * ku) * (b * kv)) by ring. apply Rmult_le_compat; nra. }
  pose proof (product_bound nu ev a' b' ku kv E2 E4) as L2. pose proof (Rle_abs (- (nu * ev))) as L3. rewrite Rabs_Ropp in L3. nra.
Qed.

(** Control points that stay close to a grid. *)
Theorem near_grid : forall c p q x y (e f : nat -> R) d_e d_n delta, fits c p q -> 0 <= x < 1 -> 0 <= y < 1 ->
  (forall i, (S i < n_u c)%nat -> d_e <= e (S i) - e i) -> (forall j, (S j < n_v c)%nat -> d_n <= f (S j) - f j) ->
  (forall i j, (i < n_u c)%nat -> (j < n_v c)%nat -> Rabs (pe (control c i j) - e i) <= delta /\ Rabs (pn (control c i j) - f j) <= delta) ->
  4 * delta < d_e -> 4 * delta < d_n ->
  exists point normal, evaluate c p q x y = Some (as_point point, as_direction normal) /\ 0 < pu normal.
Proof.
  intros c p q x y e f d_e d_n delta F X Y E N C D1 D2.
  assert (C' : forall i j, (i < n_u c)%nat -> (j < n_v c)%nat -> - delta <= pe (control c i j) - e i <= delta /\ - delta <= pn (control c i j) - f j <= delta).
  { intros i j I J. destruct (C i j I J) as (C1 & C2). unfold Rabs in C1, C2.
    destruct (Rcase_abs (pe (control c i j) - e i)); destruct (Rcase_abs (pn (control c i j) - f j)); lra. }
  assert (D0 : 0 <= delta). { destruct F as (FU & FV). destruct (C' 0%nat 0%nat ltac:(lia) ltac:(lia)) as (Q & _). lra. }
  apply (upright c p q x y (d_e - 2 * delta) (d_n - 2 * delta) (2 * delta) (2 * delta)); auto; try lra.
  - intros i j I J. destruct (C' i j ltac:(lia) J) as (A1 & A2). destruct (C' (S i) j ltac:(lia) J) as (B1 & B2). specialize (E i I). split; [lra|apply Rabs_le; lra].
  - intros i j I J. destruct (C' i j I ltac:(lia)) as (A1 & A2). destruct (C' i (S j) I ltac:(lia)) as (B1 & B2). specialize (N j J). split; [lra|apply Rabs_le; lra].
  - nra.
Qed.

(** ** Trained control points *)
Lemma reach : forall gamma initial st x h, 0 <= gamma < 1 -> 0 <= initial -> create_scheduler (Exponential gamma) initial = Ok st ->
  Rabs (trained (Exponential gamma) st x h - x) <= 11 * initial / (1 - gamma).
Proof.
  intros gamma initial st x h G I E. eapply Rle_trans; [apply (exponential_reach gamma initial st x h G I E)|].
  unfold Rdiv. apply Rmult_le_compat_r; [left; apply Rinv_0_lt_compat; lra|]. rewrite <- (Rmult_1_r (11 * initial)) at 2. apply Rmult_le_compat_l; [lra|].
  pose proof (pow_le gamma (length h) ltac:(lra)). lra.
Qed.
Theorem trained_upright : forall c0 c p q x y (e f : nat -> R) d_e d_n gamma initial st (history : nat -> nat -> nat -> list (R * R)),
  fits c p q -> 0 <= x < 1 -> 0 <= y < 1 ->
  (forall i j, pe (control c0 i j) = e i /\ pn (control c0 i j) = f j) ->
  (forall i, (S i < n_u c)%nat -> d_e <= e (S i) - e i) -> (forall j, (S j < n_v c)%nat -> d_n <= f (S j) - f j) ->
  0 <= gamma < 1 -> 0 <= initial -> create_scheduler (Exponential gamma) initial = Ok st ->
  (forall i j, control c i j = vec (trained (Exponential gamma) st (pe (control c0 i j)) (history i j 0%nat))
                                   (trained (Exponential gamma) st (pn (control c0 i j)) (history i j 1%nat))
                                   (trained (Exponential gamma) st (pu (control c0 i j)) (history i j 2%nat))) ->
  44 * initial < d_e * (1 - gamma) -> 44 * initial < d_n * (1 - gamma) ->
  exists point normal, evaluate c p q x y = Some (as_point point, as_direction normal) /\ 0 < pu normal.
Proof.
  intros c0 c p q x y e f d_e d_n gamma initial st history F X Y C0 E N G I S C D1 D2.
  assert (Q : forall d, 44 * initial < d * (1 - gamma) -> 4 * (11 * initial / (1 - gamma)) < d).
  { intros d D. apply (Rmult_lt_reg_r (1 - gamma)); [lra|]. unfold Rdiv. replace (4 * (11 * initial * / (1 - gamma)) * (1 - gamma)) with (44 * initial) by (field; lra). auto. }
  apply (near_grid c p q x y e f d_e d_n (11 * initial / (1 - gamma))); auto.
  intros i j _ _. rewrite C. cbn [pe pn vec]. destruct (C0 i j) as (-> & ->). split; apply (reach gamma initial st _ _ G I S).
Qed.
Theorem one_epoch_turns : forall d gamma initial st loss, 0 < d -> d / 2 < initial -> create_scheduler (Exponential gamma) initial = Ok st ->
  exists gradient : nat -> R, forall c, n_u c = 2%nat -> n_v c = 2%nat ->
  (forall i j, control c i j = vec (trained (Exponential gamma) st (INR i * d) [(gradient i, loss)])
                                   (trained (Exponential gamma) st (INR j * d) [(0, loss)]) (trained (Exponential gamma) st 0 [(0, loss)])) ->
  forall x y, 0 <= x < 1 -> 0 <= y < 1 ->
  exists point normal, evaluate c 1 1 x y = Some (as_point point, as_direction normal) /\ pu normal < 0.
Proof.
  intros d gamma initial st loss D I S. set (g := d * / 10 ^ 8 / (initial - d / 2)).
  assert (T : 0 < / 10 ^ 8) by (apply Rinv_0_lt_compat, pow_lt; lra).
  assert (G : 0 < g) by (apply Rdiv_lt_0_compat; nra).
  assert (GE : g * (initial - d / 2) = d * / 10 ^ 8) by (unfold g; field; lra).
  set (m := initial * (g / (g + / 10 ^ 8))).
  assert (M : d / 2 < m).
  { unfold m. apply (Rmult_lt_reg_r (g + / 10 ^ 8)); [lra|]. replace (initial * (g / (g + / 10 ^ 8)) * (g + / 10 ^ 8)) with (initial * g) by (field; lra). lra. }
  exists (fun i => match i with O => - g | _ => g end). intros c NU NV C x y X Y.
  assert (RT : forall z, next_rate (Exponential gamma) st z [] = initial).
  { intros z. cbn in S. injection S as <-. reflexivity. }
  assert (C' : forall i j, pn (control c i j) = INR j * d /\ pe (control c i j) = INR i * d - match i with O => - m | _ => m end).
  { intros i j. rewrite C. cbn [pe pn vec]. rewrite !(first_epoch _ _ _ _ _ _ S), !RT. split.
    - unfold Rdiv. ring.
    - destruct i; [rewrite Rabs_Ropp|]; rewrite (Rabs_pos_eq g) by lra; unfold m; field; lra. }
  apply (turned_over c 1 1 x y (2 * m - d) d 0 0); auto; try lra; try nra.
  - unfold fits. rewrite NU, NV. lia.
  - intros i j Hi _. rewrite NU in Hi. assert (i = 0)%nat by lia. subst i. destruct (C' 0%nat j) as (-> & ->). destruct (C' 1%nat j) as (-> & ->).
    change (INR 0) with 0. change (INR 1) with 1. split; [lra|]. rewrite Rminus_diag_eq by auto. rewrite Rabs_R0. lra.
  - intros i j _ Hj. rewrite NV in Hj. assert (j = 0)%nat by lia. subst j. destruct (C' i 0%nat) as (-> & ->). destruct (C' i 1%nat) as (-> & ->).
    change (INR 0) with 0. change (INR 1) with 1. split; [lra|]. rewrite Rminus_diag_eq by auto. rewrite Rabs_R0. lra.
Qed.
