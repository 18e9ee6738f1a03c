(** Splines with increasing coefficients are increasing (C90). *)
From Coq Require Import List Arith ZArith Reals Bool Lra Lia Psatz.
From Verif Require Import RealSums ModelField ModelVectors ModelTransforms ModelActuators ModelNurbs SpecTransforms SpecNurbs
  ProofsBasis ProofsKnots ProofsSurface.
Import ListNotations.
Local Open Scope R_scope.

Lemma Rsum_by_parts : forall (e h : nat -> R) n,
  Rsum (map (fun a => e a * (h a - h (S a))) (seq 0 (S n)))
  = e 0%nat * h 0%nat - e n * h (S n) + Rsum (map (fun a => (e (S a) - e a) * h (S a)) (seq 0 n)).
Proof.
  intros e h. induction n as [|n IH].
  - cbn. ring.
  - rewrite Rsum_snoc, IH, (Rsum_snoc (fun a => (e (S a) - e a) * h (S a)) n). ring.
Qed.

Lemma slope_formula : forall V p k x, (1 <= p)%nat -> cox_de_boor' V p k x
  = INR p * (inverse_gap (V k) (V (k + p)%nat) * cox_de_boor V (p - 1) k x - inverse_gap (V (S k)) (V (S k + p)%nat) * cox_de_boor V (p - 1) (S k) x).
Proof. intros V [|q] k x P; [lia|]. cbn [cox_de_boor']. replace (S q - 1)%nat with q by lia. auto. Qed.

Section Curve.
Variables (n p : nat) (e : nat -> R).
Hypothesis P : (1 <= p < n)%nat.
Let U := knot_of (knot_vector n p).
Definition curve (x : R) : R := Rsum (map (fun a => e a * cox_de_boor U p a x) (seq 0 n)).
Definition slope_of_curve (x : R) : R := Rsum (map (fun a => e a * cox_de_boor' U p a x) (seq 0 n)).
Definition patch (i : nat) (x : R) : R := Rsum (map (fun a => e a * pol U i p a x) (seq 0 n)).
Definition patch' (i : nat) (x : R) : R := Rsum (map (fun a => e a * pol' U i p a x) (seq 0 n)).

Lemma lower_sum : forall i x, (p <= i < n)%nat -> U i <= x < U (S i) ->
  Rsum (map (fun a => cox_de_boor U (p - 1) (S a) x) (seq 0 (n - 1))) = 1.
Proof.
  intros i x I X. pose proof (mono_knots n p P) as M. fold U in M.
  rewrite (Rsum_map_ext _ (fun a => pol U i (p - 1) (S a) x)).
  2: { intros a A. apply in_seq in A. apply (cox_pol _ _ (n + p)); auto; lia. }
  assert (W : windowed (fun a => pol U i (p - 1) (S a) x) (p - 1) (i - 1)).
  { intros a A. apply pol_zero. lia. }
  rewrite (windowed_sum _ (p - 1) (i - 1) (n - 1)) by (auto; lia).
  rewrite <- (column_sum U i (n + p) x M ltac:(lia) X (p - 1)) by lia.
  apply Rsum_map_ext. intros r R0. apply in_seq in R0. unfold B. f_equal. lia.
Qed.
Lemma inner_gap : forall a, (a < n - 1)%nat -> 1 <= inverse_gap (U (S a)) (U (S a + p)%nat).
Proof.
  intros a A. assert (N1 : U (S a) <> U (S a + p)%nat).
  { unfold U. destruct (Nat.le_gt_cases (S a) p) as [L|L].
    - rewrite (knot_low n p (S a)) by lia. destruct (Nat.le_gt_cases n (S a + p)) as [H|H].
      + rewrite knot_high by lia. lra.
      + rewrite knot_mid by lia. apply Rlt_not_eq. apply Rdiv_lt_0_compat; apply lt_0_INR; lia.
    - rewrite (knot_mid n p (S a)) by lia. destruct (Nat.le_gt_cases n (S a + p)) as [H|H].
      + rewrite knot_high by lia. apply Rlt_not_eq. apply (Rmult_lt_reg_r (INR (n - p))); [apply lt_0_INR; lia|].
        unfold Rdiv. rewrite Rmult_assoc, Rinv_l by (apply not_0_INR; lia). rewrite Rmult_1_r, Rmult_1_l. apply lt_INR. lia.
      + rewrite knot_mid by lia. apply Rlt_not_eq. apply Rmult_lt_compat_r; [apply Rinv_0_lt_compat, lt_0_INR; lia|apply lt_INR; lia]. }
  rewrite gap_div by auto.
  pose proof (knots_bounds n p (S a) P ltac:(lia)) as K1. pose proof (knots_bounds n p (S a + p) P ltac:(lia)) as K2.
  pose proof (mono_knots n p P (S a) (S a + p)%nat ltac:(lia)) as K3. fold U in K1, K2, K3.
  rewrite <- Rinv_1. apply Rinv_le_contravar; lra.
Qed.
(** The slope is at least the degree times the smallest step of the coefficients. *)
Lemma slope_bound : forall d x, 0 <= x < 1 -> 0 <= d -> (forall a, (S a < n)%nat -> d <= e (S a) - e a) -> INR p * d <= slope_of_curve x.
Proof.
  intros d x X D E. destruct (spans_of n p x P X) as (i & I & XI & _ & _). fold U in XI.
  unfold slope_of_curve.
  rewrite (Rsum_map_ext _ (fun a => INR p * (e a * (inverse_gap (U a) (U (a + p)%nat) * cox_de_boor U (p - 1) a x
    - inverse_gap (U (S a)) (U (S a + p)%nat) * cox_de_boor U (p - 1) (S a) x)))).
  2: { intros a _. rewrite slope_formula by lia. ring. }
  rewrite Rsum_map_scal. apply Rmult_le_compat_l; [apply pos_INR|].
  pose proof (Rsum_by_parts e (fun a => inverse_gap (U a) (U (a + p)%nat) * cox_de_boor U (p - 1) a x) (n - 1)) as BP.
  replace (S (n - 1)) with n in BP by lia. rewrite BP. clear BP.
  rewrite (gap_eq (U 0%nat)). 2: { unfold U. rewrite !knot_low by lia. auto. }
  rewrite (gap_eq (U n)). 2: { unfold U. rewrite !knot_high by lia. auto. }
  assert (LE : Rsum (map (fun a => d * cox_de_boor U (p - 1) (S a) x) (seq 0 (n - 1)))
    <= Rsum (map (fun a => (e (S a) - e a) * (inverse_gap (U (S a)) (U (S a + p)%nat) * cox_de_boor U (p - 1) (S a) x)) (seq 0 (n - 1)))).
  { apply Rsum_map_le. intros a A. apply in_seq in A.
    assert (0 <= cox_de_boor U (p - 1) (S a) x) by (apply (cox_nonneg _ (n + p)); [apply mono_knots; auto|lia]).
    pose proof (inner_gap a ltac:(lia)). pose proof (E a ltac:(lia)).
    rewrite <- Rmult_assoc. apply Rmult_le_compat_r; auto. nra. }
  rewrite Rsum_map_scal, (lower_sum i x I XI) in LE. lra.
Qed.
Lemma patch_curve : forall i x, (p <= i < n)%nat -> U i <= x < U (S i) -> curve x = patch i x.
Proof.
  intros i x I X. unfold curve, patch. apply Rsum_map_ext. intros a A. apply in_seq in A. f_equal.
  apply (cox_pol _ _ (n + p)); auto; try lia. apply mono_knots; auto.
Qed.
Lemma patch_slope : forall i x, (p <= i < n)%nat -> U i <= x < U (S i) -> slope_of_curve x = patch' i x.
Proof.
  intros i x I X. unfold slope_of_curve, patch'. apply Rsum_map_ext. intros a A. apply in_seq in A. f_equal.
  apply (cox_pol' _ _ (n + p)); auto; try lia. apply mono_knots; auto.
Qed.
Lemma patch_derivative : forall i x, (p <= i < n)%nat -> derivable_pt_lim (patch i) x (patch' i x).
Proof.
  intros i x I. unfold patch, patch'.
  apply (derivable_Rsum nat (fun a x => e a * pol U i p a x) (fun a x => e a * pol' U i p a x) x (seq 0 n)).
  intros a A. apply in_seq in A. apply (derivable_pt_lim_scal (pol U i p a) (e a) x (pol' U i p a x)).
  apply (pol_derivative _ _ (n + p)); [apply mono_knots; auto|lia].
Qed.
(** Neighbouring patches meet. *)
Lemma patches_meet : forall i, (p <= i)%nat -> (S i < n)%nat -> patch i (U (S i)) = patch (S i) (U (S i)).
Proof.
  intros i I J. pose proof (mono_knots n p P) as M. fold U in M.
  assert (GAP : forall a, (p <= a < n)%nat -> U a < U (S a)).
  { intros a A. unfold U. rewrite !knot_mid by lia. apply Rmult_lt_compat_r; [apply Rinv_0_lt_compat, lt_0_INR; lia|apply lt_INR; lia]. }
  assert (G1 := GAP i ltac:(lia)). assert (G2 := GAP (S i) ltac:(lia)).
  unfold patch. apply Rsum_map_ext. intros a A. apply in_seq in A. f_equal.
  assert (Q : forall q k, (1 <= q)%nat -> pol U i q k (U (S i)) = pol U (S i) q k (U (S i))).
  { induction q as [|q IH]; intros k Q; [lia|]. destruct q as [|q].
    - cbn [pol]. destruct (Nat.eqb_spec k i) as [->|N1].
      + destruct (Nat.eqb_spec (S i) i); [lia|]. destruct (Nat.eqb_spec i (S i)); [lia|]. rewrite Nat.eqb_refl.
        replace (i + 1)%nat with (S i) by lia. replace (S i + 1)%nat with (S (S i)) by lia.
        rewrite !gap_mul by lra. lra.
      + destruct (Nat.eqb_spec k (S i)) as [->|N2].
        * destruct (Nat.eqb_spec (S (S i)) i); [lia|]. destruct (Nat.eqb_spec (S (S i)) (S i)); [lia|]. ring.
        * destruct (Nat.eqb_spec (S k) i) as [EK|N3].
          -- destruct (Nat.eqb_spec (S k) (S i)); [lia|]. replace (S k + 1)%nat with (S i) by lia. ring.
          -- destruct (Nat.eqb_spec (S k) (S i)) as [EK|N4]; [lia|]. ring.
    - change (pol U i (S (S q)) k (U (S i))) with ((U (S i) - U k) * inverse_gap (U k) (U (k + S (S q))%nat) * pol U i (S q) k (U (S i))
         + (U (S k + S (S q))%nat - U (S i)) * inverse_gap (U (S k)) (U (S k + S (S q))%nat) * pol U i (S q) (S k) (U (S i))).
      rewrite !IH by lia. reflexivity. }
  apply Q. lia.
Qed.
Lemma patch_increasing : forall i x y d, (p <= i < n)%nat -> U i <= x -> x < y -> y <= U (S i) -> 0 < d ->
  (forall a, (S a < n)%nat -> d <= e (S a) - e a) -> patch i x < patch i y.
Proof.
  intros i x y d I X XY Y D E.
  destruct (MVT_cor2 (patch i) (patch' i) x y XY) as (c & EQ & C).
  { intros c _. apply patch_derivative; auto. }
  assert (XC : U i <= c < U (S i)) by lra. rewrite <- (patch_slope i c I XC) in EQ.
  assert (0 <= c < 1).
  { pose proof (knots_bounds n p i P ltac:(lia)) as K1. pose proof (knots_bounds n p (S i) P ltac:(lia)) as K2. fold U in K1, K2. lra. }
  pose proof (slope_bound d c ltac:(lra) ltac:(lra) E) as SB.
  assert (0 < INR p * d) by (apply Rmult_lt_0_compat; [apply lt_0_INR; lia|auto]). nra.
Qed.
Lemma patches_ordered : forall k i j x y d, j = (i + k)%nat -> (p <= i)%nat -> (j < n)%nat -> U i <= x < U (S i) -> U j <= y < U (S j) -> x <= y ->
  0 < d -> (forall a, (S a < n)%nat -> d <= e (S a) - e a) -> patch i x <= patch j y /\ (x < y -> patch i x < patch j y).
Proof.
  induction k as [|k IH]; intros i j x y d EJ I J X Y XY D E.
  - replace j with i in * by lia. destruct (Rle_lt_or_eq_dec x y XY) as [L|EQ]; [|subst y; split; [lra|intros; lra]].
    pose proof (patch_increasing i x y d ltac:(lia) ltac:(lra) L ltac:(lra) D E). split; intros; lra.
  - assert (L1 : patch i x < patch (S i) (U (S i))).
    { rewrite <- patches_meet by lia. apply (patch_increasing i x _ d); auto; try lia; lra. }
    assert (GAP : U (S i) < U (S (S i))).
    { unfold U. rewrite !knot_mid by lia. apply Rmult_lt_compat_r; [apply Rinv_0_lt_compat, lt_0_INR; lia|apply lt_INR; lia]. }
    assert (UJ : U (S i) <= U j) by (apply (mono_knots n p P); lia).
    destruct (IH (S i) j (U (S i)) y d ltac:(lia) ltac:(lia) J ltac:(lra) Y ltac:(lra) D E) as (L2 & _).
    split; intros; lra.
Qed.
Theorem curve_increasing : forall x y d, 0 <= x -> x < y -> y < 1 -> 0 < d ->
  (forall a, (S a < n)%nat -> d <= e (S a) - e a) -> curve x < curve y.
Proof.
  intros x y d X XY Y D E.
  destruct (spans_of n p x P ltac:(lra)) as (i & I & XI & _ & _). destruct (spans_of n p y P ltac:(lra)) as (j & J & YJ & _ & _).
  fold U in XI, YJ. rewrite (patch_curve i x), (patch_curve j y) by auto.
  assert (IJ : (i <= j)%nat).
  { destruct (Nat.le_gt_cases i j); auto. assert (U (S j) <= U i) by (apply (mono_knots n p P); lia). lra. }
  destruct (patches_ordered (j - i) i j x y d ltac:(lia) ltac:(lia) ltac:(lia) XI YJ ltac:(lra) D E) as (_ & L). auto.
Qed.
End Curve.
