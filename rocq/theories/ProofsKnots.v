(** Proofs about knot vectors and knot spans (C42, C43). *)
From Coq Require Import List Arith ZArith Reals Bool Lra Lia Psatz.
From Verif Require Import RealSums ModelField ModelVectors ModelTransforms ModelActuators ModelNurbs SpecNurbs ProofsBasis.
Import ListNotations.
Local Open Scope R_scope.

Lemma knots_length : forall n p, length (knot_vector n p) = (n + p + 1)%nat.
Proof. intros. unfold knot_vector. rewrite map_length, seq_length. auto. Qed.
Lemma nth_map_seq : forall (f : nat -> R) len i, (i < len)%nat -> nth i (map f (seq 0 len)) 0 = f i.
Proof.
  intros f len i H. rewrite (nth_indep _ 0 (f 0%nat)) by (rewrite map_length, seq_length; auto).
  rewrite map_nth, seq_nth by auto. auto.
Qed.
Lemma knot_value : forall n p i, (1 <= p < n)%nat -> (i < n + p + 1)%nat ->
  knot_of (knot_vector n p) i = if (n <=? i)%nat then 1 else if (p <=? i)%nat then INR (i - p) / INR (n - p) else 0.
Proof.
  intros n p i P I. unfold knot_of, knot_vector. rewrite nth_map_seq by auto.
  destruct (Nat.eqb_spec p 0); [lia|]. replace (n + p + 1 - p)%nat with (S n) by lia.
  unfold linspace. destruct (Nat.leb_spec (S n - p) 1); [lia|]. replace (S n - p - 1)%nat with (n - p)%nat by lia.
  assert (Q : INR (n - p) <> 0) by (apply not_0_INR; lia).
  destruct (Nat.leb_spec (S n) i), (Nat.leb_spec n i), (Nat.leb_spec p i); auto; try lia.
  - replace (i - p)%nat with (n - p)%nat by lia. field. auto.
  - field. auto.
Qed.
Lemma knot_low : forall n p i, (1 <= p < n)%nat -> (i <= p)%nat -> knot_of (knot_vector n p) i = 0.
Proof.
  intros n p i P I. rewrite knot_value by lia. destruct (Nat.leb_spec n i); [lia|]. destruct (Nat.leb_spec p i); auto.
  replace (i - p)%nat with 0%nat by lia. cbn. lra.
Qed.
Lemma knot_high : forall n p i, (1 <= p < n)%nat -> (n <= i < n + p + 1)%nat -> knot_of (knot_vector n p) i = 1.
Proof. intros n p i P I. rewrite knot_value by lia. destruct (Nat.leb_spec n i); auto. lia. Qed.
Lemma knot_mid : forall n p i, (1 <= p < n)%nat -> (p <= i <= n)%nat -> knot_of (knot_vector n p) i = INR (i - p) / INR (n - p).
Proof.
  intros n p i P I. rewrite knot_value by lia. destruct (Nat.leb_spec n i).
  - replace i with n by lia. field. apply not_0_INR. lia.
  - destruct (Nat.leb_spec p i); auto. lia.
Qed.
Lemma ratio_le : forall a b m, (a <= b)%nat -> (0 < m)%nat -> INR a / INR m <= INR b / INR m.
Proof. intros. apply Rmult_le_compat_r; [left; apply Rinv_0_lt_compat, lt_0_INR; auto|apply le_INR; auto]. Qed.
Lemma knots_bounds : forall n p i, (1 <= p < n)%nat -> (i < n + p + 1)%nat -> 0 <= knot_of (knot_vector n p) i <= 1.
Proof.
  intros n p i P I. destruct (Nat.le_gt_cases i p); [rewrite knot_low by lia; lra|].
  destruct (Nat.le_gt_cases n i); [rewrite knot_high by lia; lra|]. rewrite knot_mid by lia.
  assert (Q : 0 < INR (n - p)) by (apply lt_0_INR; lia). split.
  - apply Rmult_le_pos; [apply pos_INR|left; apply Rinv_0_lt_compat; auto].
  - replace 1 with (INR (n - p) / INR (n - p)) by (field; lra). apply ratio_le; lia.
Qed.
Theorem knots_non_decreasing : forall n p, (1 <= p < n)%nat -> non_decreasing (knot_vector n p).
Proof.
  intros n p P i j H. rewrite knots_length in H.
  destruct (Nat.le_gt_cases i p); [rewrite (knot_low n p i) by lia; apply knots_bounds; lia|].
  destruct (Nat.le_gt_cases n j); [rewrite (knot_high n p j) by lia; apply knots_bounds; lia|].
  rewrite !knot_mid by lia. apply ratio_le; lia.
Qed.
(** The number of distinct knots. *)
Lemma distinct_knots : forall n p, (1 <= p < n)%nat -> length (nodup Req_EM_T (knot_vector n p)) = (n - p + 1)%nat.
Proof.
  intros n p P. set (l := map (fun j => INR j / INR (n - p)) (seq 0 (n - p + 1))).
  assert (Q : 0 < INR (n - p)) by (apply lt_0_INR; lia).
  assert (ND : NoDup l).
  { apply FinFun.Injective_map_NoDup; [|apply seq_NoDup]. intros a b E. apply INR_eq.
    apply (Rmult_eq_reg_r (/ INR (n - p))); auto. apply Rinv_neq_0_compat. lra. }
  assert (SAME : forall x, In x l <-> In x (knot_vector n p)).
  { intros x. unfold l. rewrite in_map_iff. split.
    - intros (j & <- & J). apply in_seq in J. rewrite <- (Nat.add_sub j p), <- knot_mid by lia. apply nth_In. rewrite knots_length. lia.
    - intros IN. apply (In_nth _ _ 0) in IN. destruct IN as (i & I & <-). rewrite knots_length in I. fold (knot_of (knot_vector n p) i).
      destruct (Nat.le_gt_cases i p); [exists 0%nat; rewrite knot_low, in_seq by lia; cbn; split; [lra|lia]|].
      destruct (Nat.le_gt_cases n i); [exists (n - p)%nat; rewrite knot_high, in_seq by lia; split; [field; lra|lia]|].
      exists (i - p)%nat. rewrite knot_mid, in_seq by lia. split; auto. lia. }
  replace (n - p + 1)%nat with (length l) by (unfold l; rewrite map_length, seq_length; auto).
  apply Nat.le_antisymm; apply NoDup_incl_length; auto; try apply NoDup_nodup; intros x IN.
  - apply SAME. apply nodup_In in IN. auto.
  - apply nodup_In, SAME. auto.
Qed.
Lemma uniform_formula : forall n p x, (1 <= p < n)%nat -> uniform_span (knot_vector n p) p x = (floor (x * INR (n - p)) + Z.of_nat p)%Z.
Proof.
  intros n p x P. unfold uniform_span. rewrite distinct_knots by auto. do 3 f_equal. rewrite plus_INR. cbn [INR]. lra.
Qed.
Lemma floor_spec : forall x, IZR (floor x) <= x < IZR (floor x) + 1.
Proof. intros. unfold floor. destruct (base_Int_part x). lra. Qed.
Lemma floor_unique : forall x z, IZR z <= x < IZR z + 1 -> floor x = z.
Proof.
  intros x z H. pose proof (floor_spec x). 
  assert (floor x < z + 1)%Z by (apply lt_IZR; rewrite plus_IZR; lra). assert (z < floor x + 1)%Z by (apply lt_IZR; rewrite plus_IZR; lra). lia.
Qed.
Theorem uniform_contains : forall n p x, (1 <= p < n)%nat -> 0 <= x < 1 ->
  exists i, uniform_span (knot_vector n p) p x = Z.of_nat i /\ (p <= i < n)%nat
    /\ knot_of (knot_vector n p) i <= x < knot_of (knot_vector n p) (S i).
Proof.
  intros n p x P X. rewrite uniform_formula by auto. assert (Q : 0 < INR (n - p)) by (apply lt_0_INR; lia).
  pose proof (floor_spec (x * INR (n - p))) as F. set (z := floor (x * INR (n - p))) in *.
  assert (Z0 : (0 <= z)%Z). { assert (0 < z + 1)%Z; [|lia]. apply lt_IZR. rewrite plus_IZR. assert (0 <= x * INR (n - p)) by nra. lra. }
  assert (Z1 : (z < Z.of_nat (n - p))%Z). { apply lt_IZR. rewrite <- INR_IZR_INZ. assert (x * INR (n - p) < INR (n - p)) by nra. lra. }
  exists (Z.to_nat z + p)%nat. split; [lia|]. split; [lia|]. rewrite !knot_mid by lia.
  replace (S (Z.to_nat z + p) - p)%nat with (S (Z.to_nat z)) by lia. replace (Z.to_nat z + p - p)%nat with (Z.to_nat z) by lia.
  rewrite S_INR, INR_IZR_INZ, Z2Nat.id by auto. split.
  - apply (Rmult_le_reg_r (INR (n - p))); auto. unfold Rdiv. rewrite Rmult_assoc, Rinv_l by lra. lra.
  - apply (Rmult_lt_reg_r (INR (n - p))); auto. unfold Rdiv. rewrite Rmult_assoc, Rinv_l by lra. lra.
Qed.
Theorem uniform_at_one : forall n p, (1 <= p < n)%nat -> uniform_span (knot_vector n p) p 1 = Z.of_nat n.
Proof.
  intros n p P. rewrite uniform_formula by auto. rewrite (floor_unique _ (Z.of_nat (n - p))); [lia|]. rewrite <- INR_IZR_INZ. lra.
Qed.

(** ** The general search *)
Lemma argmax_from_some : forall row i j, argmax_from row i = Some j -> exists k, (j = i + k)%nat /\ nth_error row k = Some true.
Proof.
  induction row as [|[] row IH]; intros i j H; cbn in H; try discriminate.
  - injection H as <-. exists 0%nat. split; [lia|auto].
  - destruct (IH _ _ H) as (k & -> & K). exists (S k). split; [lia|auto].
Qed.
Lemma argmax_from_none : forall row i, argmax_from row i = None -> forall k, nth_error row k <> Some true.
Proof.
  induction row as [|[] row IH]; intros i H k; cbn in H; try discriminate.
  - destruct k; cbn; congruence.
  - destruct k; cbn; [congruence|]. eapply IH; eauto.
Qed.
Lemma span_exists : forall (U : nat -> R) x b a, (a < b)%nat -> U a <= x < U b -> exists i, (a <= i < b)%nat /\ U i <= x < U (S i).
Proof.
  intros U x. induction b as [|b IH]; intros a H X; [lia|].
  destruct (Rle_dec (U b) x) as [L|L]; [exists b; split; [lia|lra]|].
  destruct (Nat.eq_dec a b) as [->|N]; [lra|]. destruct (IH a) as (i & I & XI); [lia|lra|]. exists i. split; [lia|auto].
Qed.
Lemma span_unique : forall knots i j x, non_decreasing knots -> (S i < length knots)%nat -> (S j < length knots)%nat ->
  knot_of knots i <= x < knot_of knots (S i) -> knot_of knots j <= x < knot_of knots (S j) -> i = j.
Proof.
  intros knots i j x M I J A B. destruct (Nat.lt_total i j) as [L|[E|L]]; auto.
  - assert (knot_of knots (S i) <= knot_of knots j) by (apply M; lia). lra.
  - assert (knot_of knots (S j) <= knot_of knots i) by (apply M; lia). lra.
Qed.
Theorem general_contains : forall knots p n x, length knots = (n + p + 1)%nat -> (p < n)%nat ->
  knot_of knots p <= x < knot_of knots n -> / 10 ^ 5 + / 10 ^ 5 * Rabs (knot_of knots n) < knot_of knots n - x ->
  exists i, general_span knots p x = Z.of_nat i /\ (p <= i < n)%nat /\ knot_of knots i <= x < knot_of knots (S i).
Proof.
  intros knots p n x LEN P X FAR. unfold general_span. replace (length knots - p - 1)%nat with n by lia.
  unfold isclose. fold (knot_of knots n). destruct (Rle_dec (Rabs (x - knot_of knots n)) _) as [C|_].
  { exfalso. rewrite Rabs_left in C by lra. lra. }
  set (row := map _ _).
  assert (ROW : forall k, (k < n - p)%nat -> nth_error row k = Some true <-> knot_of knots (p + k) <= x < knot_of knots (S (p + k))).
  { intros k K. unfold row. rewrite nth_error_map. rewrite (nth_error_nth' _ 0%nat) by (rewrite seq_length; auto). rewrite seq_nth by auto. cbn [option_map].
    fold (knot_of knots (p + k)) (knot_of knots (S (p + k))).
    destruct (Rle_dec (knot_of knots (p + k)) x), (Rlt_dec x (knot_of knots (S (p + k)))); cbn; split; intros; try lra; try discriminate; auto. }
  assert (LR : length row = (n - p)%nat) by (unfold row; rewrite map_length, seq_length; auto).
  destruct (span_exists (knot_of knots) x n p P X) as (i & I & XI).
  unfold argmax. destruct (argmax_from row 0) as [j|] eqn:A.
  - destruct (argmax_from_some _ _ _ A) as (k & -> & K). cbn [Nat.add].
    assert (k < n - p)%nat by (rewrite <- LR; apply nth_error_Some; congruence).
    exists (k + p)%nat. split; auto. split; [lia|]. rewrite (Nat.add_comm k p). apply ROW; auto.
  - exfalso. apply (argmax_from_none _ _ A (i - p)). apply ROW; [lia|]. replace (p + (i - p))%nat with i by lia. auto.
Qed.
Theorem general_close : forall knots p n x, length knots = (n + p + 1)%nat -> (p < n)%nat ->
  Rabs (x - knot_of knots n) <= / 10 ^ 5 + / 10 ^ 5 * Rabs (knot_of knots n) -> general_span knots p x = Z.of_nat (n - 1).
Proof.
  intros knots p n x LEN P C. unfold general_span. replace (length knots - p - 1)%nat with n by lia. unfold isclose. fold (knot_of knots n).
  destruct (Rle_dec _ _); [lia|contradiction].
Qed.
(** Both ways agree as long as the last span is wider than the tolerance. *)
Theorem spans_agree : forall n p x, (1 <= p < n)%nat -> INR (n - p) <= 5 * 10 ^ 4 -> 0 <= x < 1 ->
  general_span (knot_vector n p) p x = uniform_span (knot_vector n p) p x.
Proof.
  intros n p x P W X. destruct (uniform_contains n p x P X) as (i & E & I & XI). rewrite E.
  assert (K1 : knot_of (knot_vector n p) n = 1) by (apply knot_high; lia).
  assert (K0 : knot_of (knot_vector n p) p = 0) by (apply knot_low; lia).
  assert (Q : 0 < INR (n - p)) by (apply lt_0_INR; lia).
  destruct (Rlt_dec (/ 10 ^ 5 + / 10 ^ 5 * Rabs 1) (1 - x)) as [F|C].
  - destruct (general_contains (knot_vector n p) p n x) as (j & -> & J & XJ); [apply knots_length|lia|rewrite K0, K1; auto|rewrite K1; auto|].
    f_equal. apply (span_unique (knot_vector n p) j i x); auto; try (rewrite knots_length; lia). apply knots_non_decreasing; auto.
  - rewrite (general_close _ _ n); [|apply knots_length|lia|rewrite K1, Rabs_minus_sym, Rabs_right by lra; lra].
    f_equal. apply (span_unique (knot_vector n p) (n - 1) i x); auto; try (rewrite knots_length; lia); [apply knots_non_decreasing; auto|].
    replace (S (n - 1)) with n by lia. rewrite K1. split; [|lra]. rewrite knot_mid by lia.
    rewrite (Rabs_right 1) in C by lra.
    replace (n - 1 - p)%nat with (n - p - 1)%nat by lia. rewrite minus_INR by lia. cbn [INR].
    apply (Rmult_le_reg_r (INR (n - p))); auto. unfold Rdiv. rewrite Rmult_assoc, Rinv_l by lra. nra.
Qed.
(** The general search only works for several facets in exceptional shapes. *)
Theorem general_shapes : forall s f p, (1 <= s)%nat -> (1 <= f)%nat -> (1 <= p)%nat ->
  general_shape s f p = Some (s, f, p) <-> ((s = f \/ s = 1) /\ (f = p \/ f = 1))%nat.
Proof.
  intros s f p S0 F0 P0. unfold general_shape, broadcast.
  destruct (Nat.eqb_spec f s), (Nat.eqb_spec p f), (Nat.eqb_spec f 1), (Nat.eqb_spec s 1), (Nat.eqb_spec p 1);
    (split; [intros H; try discriminate; inversion H; lia|intros H; try lia; repeat f_equal; lia]).
Qed.
