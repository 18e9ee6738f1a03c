(** Proofs about the B-spline basis (C44). *)
From Coq Require Import List Arith ZArith Reals Bool Lra Lia Psatz.
From Verif Require Import RealSums ModelField ModelVectors ModelTransforms ModelActuators ModelNurbs SpecNurbs.
Import ListNotations.
Local Open Scope R_scope.

Lemma gap_mul : forall a b, a <> b -> (b - a) * inverse_gap a b = 1.
Proof. intros. unfold inverse_gap. destruct (Req_EM_T a b); [contradiction|]. field. lra. Qed.
Lemma gap_eq : forall a b, a = b -> inverse_gap a b = 0.
Proof. intros. unfold inverse_gap. destruct (Req_EM_T a b); [auto|contradiction]. Qed.
Lemma gap_div : forall a b, a <> b -> inverse_gap a b = / (b - a).
Proof. intros. unfold inverse_gap. destruct (Req_EM_T a b); [contradiction|auto]. Qed.
Lemma gap_nonneg : forall a b, a <= b -> 0 <= inverse_gap a b.
Proof. intros. unfold inverse_gap. destruct (Req_EM_T a b); [lra|]. left. apply Rinv_0_lt_compat. lra. Qed.

Lemma seq_snoc : forall a n, seq a (S n) = seq a n ++ [(a + n)%nat].
Proof. intros. rewrite seq_S. auto. Qed.
Lemma Rsum_snoc : forall (f : nat -> R) n, Rsum (map f (seq 0 (S n))) = Rsum (map f (seq 0 n)) + f n.
Proof. intros. rewrite seq_snoc, map_app, Rsum_app. cbn. lra. Qed.

(** The polynomials that the basis functions are on the knot span [i]. *)
Fixpoint pol (U : nat -> R) (i p k : nat) (x : R) : R :=
  match p with
  | O => if (k =? i)%nat then 1 else 0
  | S q => (x - U k) * inverse_gap (U k) (U (k + p)%nat) * pol U i q k x
         + (U (S k + p)%nat - x) * inverse_gap (U (S k)) (U (S k + p)%nat) * pol U i q (S k) x
  end.
Definition pol' (U : nat -> R) (i p k : nat) (x : R) : R :=
  match p with
  | O => 0
  | S q => INR p * (inverse_gap (U k) (U (k + p)%nat) * pol U i q k x
                    - inverse_gap (U (S k)) (U (S k + p)%nat) * pol U i q (S k) x)
  end.
Definition mono (U : nat -> R) (m : nat) : Prop := forall a b, (a <= b <= m)%nat -> U a <= U b.

Lemma pol_zero : forall U i p k x, (k > i \/ k + p < i)%nat -> pol U i p k x = 0.
Proof.
  induction p as [|q IH]; intros k x H; cbn [pol].
  - destruct (Nat.eqb_spec k i); auto. lia.
  - rewrite !IH by lia. lra.
Qed.
Lemma cox_pol : forall U i m p k x, mono U m -> (S i <= m)%nat -> (k + p + 1 <= m)%nat -> U i <= x < U (S i) ->
  cox_de_boor U p k x = pol U i p k x.
Proof.
  intros U i m p k x M I K X. revert k K. induction p as [|q IH]; intros k K; cbn [cox_de_boor pol].
  - destruct (Nat.eqb_spec k i) as [->|N].
    + destruct (Rle_dec (U i) x); [|lra]. destruct (Rlt_dec x (U (S i))); lra.
    + destruct (Nat.lt_ge_cases k i).
      * assert (U (S k) <= U i) by (apply M; lia). destruct (Rle_dec (U k) x); auto. destruct (Rlt_dec x (U (S k))); lra.
      * assert (U (S i) <= U k) by (apply M; lia). destruct (Rle_dec (U k) x); auto. lra.
  - rewrite !IH by lia. auto.
Qed.
Lemma cox_pol' : forall U i m p k x, mono U m -> (S i <= m)%nat -> (k + p + 1 <= m)%nat -> U i <= x < U (S i) ->
  cox_de_boor' U p k x = pol' U i p k x.
Proof.
  intros U i m [|q] k x M I K X; cbn [cox_de_boor' pol']; auto. rewrite !(cox_pol U i m) by (auto; lia). auto.
Qed.
Lemma cox_support : forall U m p k x, mono U m -> (k + p + 1 <= m)%nat -> x < U k \/ U (k + p + 1)%nat <= x -> cox_de_boor U p k x = 0.
Proof.
  intros U m p k x M. revert k. induction p as [|q IH]; intros k K H; cbn [cox_de_boor].
  - replace (k + 0 + 1)%nat with (S k) in H by lia. destruct (Rle_dec (U k) x); auto. destruct (Rlt_dec x (U (S k))); auto. lra.
  - replace (S k + S q)%nat with (k + S q + 1)%nat by lia.
    rewrite (IH k), (IH (S k)); try lia; [lra| |].
    + destruct H; [left|right]. { assert (U k <= U (S k)) by (apply M; lia). lra. }
      replace (S k + q + 1)%nat with (k + S q + 1)%nat by lia. auto.
    + destruct H; [left|right]; auto. assert (U (k + q + 1)%nat <= U (k + S q + 1)%nat) by (apply M; lia). lra.
Qed.
Lemma cox_nonneg : forall U m p k x, mono U m -> (k + p + 1 <= m)%nat -> 0 <= cox_de_boor U p k x.
Proof.
  intros U m p k x M. revert k. induction p as [|q IH]; intros k K; cbn [cox_de_boor].
  - destruct (Rle_dec (U k) x); [destruct (Rlt_dec x (U (S k)))|]; lra.
  - assert (A : 0 <= (x - U k) * inverse_gap (U k) (U (k + S q)%nat) * cox_de_boor U q k x).
    { destruct (Rlt_dec x (U k)). { rewrite (cox_support U m); auto; try lia. lra. }
      apply Rmult_le_pos; [apply Rmult_le_pos|]; [lra|apply gap_nonneg, M; lia|apply IH; lia]. }
    assert (B : 0 <= (U (S k + S q)%nat - x) * inverse_gap (U (S k)) (U (S k + S q)%nat) * cox_de_boor U q (S k) x).
    { destruct (Rlt_dec (U (S k + S q)%nat) x).
      - rewrite (cox_support U m); auto; try lia; [lra|]. right. replace (S k + q + 1)%nat with (S k + S q)%nat by lia. lra.
      - apply Rmult_le_pos; [apply Rmult_le_pos|]; [lra|apply gap_nonneg, M; lia|apply IH; lia]. }
    lra.
Qed.

(** ** The columns of the table *)
Section Column.
Variables (U : nat -> R) (i m : nat) (x : R).
Hypothesis M : mono U m.
Hypothesis I : (S i <= m)%nat.
Hypothesis X : U i <= x < U (S i).

Definition B (c r : nat) : R := pol U i c (i - c + r)%nat x.
Definition D (c r : nat) : R := U (i + r + 1)%nat - U (i + 1 + r - c)%nat.
Definition L (j : nat) : R := x - U (i + 1 - j)%nat.
Definition Rt (j : nat) : R := U (i + j)%nat - x.
(** What the loop saves before row [r]. *)
Definition S_ (j r : nat) : R := match r with O => 0 | S q => L (j - q) * (B (j - 1) q / D j q) end.

Lemma D_pos : forall c r, (r < c <= i)%nat -> (i + r + 1 <= m)%nat -> 0 < D c r.
Proof.
  intros c r H K. unfold D. assert (U (S i) <= U (i + r + 1)%nat) by (apply M; lia).
  assert (U (i + 1 + r - c)%nat <= U i) by (apply M; lia). lra.
Qed.
Lemma D_split : forall c r, (r < c <= i)%nat -> D c r = Rt (S r) + L (c - r).
Proof. intros. unfold D, Rt, L. replace (i + S r)%nat with (i + r + 1)%nat by lia. replace (i + 1 - (c - r))%nat with (i + 1 + r - c)%nat by lia. lra. Qed.
Lemma B_rec : forall c r, (S c <= i)%nat -> (i + S c <= m)%nat -> (r <= c)%nat ->
  B (S c) r = S_ (S c) r + Rt (S r) * (B c r / D (S c) r).
Proof.
  intros c r C K R. unfold B at 1. cbn [pol].
  assert (D0 : D (S c) r <> 0) by (assert (0 < D (S c) r) by (apply D_pos; lia); lra).
  replace (S (i - S c + r))%nat with (i - c + r)%nat by lia.
  assert (T2 : (U (i - c + r + S c)%nat - x) * inverse_gap (U (i - c + r)%nat) (U (i - c + r + S c)%nat) * pol U i c (i - c + r) x
    = Rt (S r) * (B c r / D (S c) r)).
  { unfold Rt, B, D in *. replace (i - c + r + S c)%nat with (i + r + 1)%nat in * by lia.
    replace (i + 1 + r - S c)%nat with (i - c + r)%nat in * by lia. replace (i + S r)%nat with (i + r + 1)%nat by lia.
    rewrite gap_div by lra. field. lra. }
  rewrite T2. f_equal. destruct r as [|q]; cbn [S_].
  - rewrite pol_zero by lia. lra.
  - assert (D1 : D (S c) q <> 0) by (assert (0 < D (S c) q) by (apply D_pos; lia); lra).
    unfold L, B, D in *. replace (S c - 1)%nat with c by lia.
    replace (i - S c + S q + S c)%nat with (i + q + 1)%nat by lia. replace (i + 1 - (S c - q))%nat with (i - c + q)%nat by lia.
    replace (i + 1 + q - S c)%nat with (i - c + q)%nat in * by lia. replace (i - S c + S q)%nat with (i - c + q)%nat by lia.
    rewrite gap_div by lra. field. lra.
Qed.
Lemma B_last : forall c, (S c <= i)%nat -> (i + S c <= m)%nat -> B (S c) (S c) = S_ (S c) (S c).
Proof.
  intros c C K. unfold B at 1. cbn [pol S_]. rewrite (pol_zero U i c (S (i - S c + S c))) by lia.
  assert (D1 : D (S c) c <> 0) by (assert (0 < D (S c) c) by (apply D_pos; lia); lra).
  unfold L, B, D in *. replace (S c - 1)%nat with c by lia.
  replace (i - S c + S c + S c)%nat with (i + c + 1)%nat by lia. replace (i + 1 - (S c - c))%nat with i by lia.
  replace (i + 1 + c - S c)%nat with i in * by lia. replace (i - S c + S c)%nat with i by lia. replace (i - c + c)%nat with i by lia.
  rewrite gap_div by lra. field. lra.
Qed.

Definition good (c : nat) (t : table) : Prop :=
  forall c', (c' <= c)%nat -> (forall r, (r <= c')%nat -> t r c' = B c' r) /\ (forall r, (r < c')%nat -> t c' r = D c' r).

Lemma set_same : forall t a b v, set t a b v a b = v.
Proof. intros. unfold set. rewrite !Nat.eqb_refl. auto. Qed.
Lemma set_other : forall t a b v a' b', (a' <> a \/ b' <> b)%nat -> set t a b v a' b' = t a' b'.
Proof. intros. unfold set. destruct (Nat.eqb_spec a' a), (Nat.eqb_spec b' b); auto. lia. Qed.
Lemma good_set : forall c t a b v, good c t -> (c < a \/ c < b)%nat -> good c (set t a b v).
Proof.
  intros c t a b v G H c' C. destruct (G c' C) as (G1 & G2). split; intros r R; rewrite set_other by lia; auto.
Qed.

Lemma inner_spec : forall left right c, (S c <= i)%nat -> (i + S c <= m)%nat ->
  (forall j, (1 <= j <= S c)%nat -> left j = L j) -> (forall j, (1 <= j <= S c)%nat -> right j = Rt j) ->
  forall count r t, (r + count = S c)%nat -> good c t ->
  (forall r', (r' < r)%nat -> t r' (S c) = B (S c) r' /\ t (S c) r' = D (S c) r') ->
  exists t', inner left right (S c) (seq r count) t (S_ (S c) r) = Some (t', S_ (S c) (S c)) /\ good c t'
  /\ forall r', (r' < S c)%nat -> t' r' (S c) = B (S c) r' /\ t' (S c) r' = D (S c) r'.
Proof.
  intros left right c C K HL HR. induction count as [|count IH]; intros r t E G H; cbn [seq inner].
  - exists t. replace r with (S c) in * by lia. auto.
  - rewrite HR, HL by lia. rewrite <- D_split by lia. rewrite set_same, set_other by lia.
    replace (S c - 1)%nat with c by lia. destruct (G c (le_n c)) as (G1 & _). rewrite G1 by lia.
    assert (DP : 0 < D (S c) r) by (apply D_pos; lia).
    unfold div_opt. destruct (Req_EM_T (D (S c) r) 0); [lra|]. cbn [obind].
    rewrite <- B_rec by lia.
    assert (SV : L (S c - r) * (B c r / D (S c) r) = S_ (S c) (S r)) by (cbn [S_]; replace (S c - 1)%nat with c by lia; auto).
    rewrite SV. apply IH; [lia| |].
    + apply good_set; [apply good_set; auto|]; lia.
    + intros r' R'. destruct (Nat.eq_dec r' r) as [->|N].
      * split; [apply set_same|]. rewrite set_other by lia. apply set_same.
      * rewrite !set_other by lia. apply H. lia.
Qed.
Lemma outer_spec : forall left right p, (p <= i)%nat -> (i + p <= m)%nat ->
  (forall j, (1 <= j <= p)%nat -> left j = L j) -> (forall j, (1 <= j <= p)%nat -> right j = Rt j) ->
  forall count c t, (c + count = p)%nat -> good c t ->
  exists t', outer left right (seq (S c) count) t = Some t' /\ good p t'.
Proof.
  intros left right p P K HL HR. induction count as [|count IH]; intros c t E G; cbn [seq outer].
  - exists t. replace p with c by lia. auto.
  - destruct (inner_spec left right c) with (count := S c) (r := 0%nat) (t := t) as (t' & IN & G' & R'); auto; try lia.
    { intros; apply HL; lia. } { intros; apply HR; lia. }
    change (S_ (S c) 0) with 0 in IN. cbn [seq] in IN. rewrite IN. cbn [obind]. apply IH; [lia|].
    intros c' C'. destruct (Nat.eq_dec c' (S c)) as [->|N].
    + split; intros r R.
      * destruct (Nat.eq_dec r (S c)) as [->|N2]; [rewrite set_same; symmetry; apply B_last; lia|].
        rewrite set_other by lia. apply R'. lia.
      * rewrite set_other by lia. apply R'. lia.
    + apply (good_set c t' (S c) (S c) (S_ (S c) (S c)) G' ltac:(lia)). lia.
Qed.

Lemma derivative_spec : forall t p r, (1 <= p <= i)%nat -> (i + p <= m)%nat -> (r <= p)%nat -> good p t ->
  derivative t p r = Some (pol' U i p (i - p + r)%nat x).
Proof.
  intros t p r P K R G. destruct p as [|c]; [lia|]. unfold derivative.
  destruct (G (S c) (le_n _)) as (_ & GD). destruct (G c (le_S _ _ (le_n _))) as (GB & _).
  replace (S c - 1)%nat with c by lia.
  assert (E1 : (if (1 <=? r)%nat then obind (div_opt 1 (t (S c) (r - 1)%nat)) (fun a => Some (a * t (r - 1)%nat c)) else Some 0)
    = Some (inverse_gap (U (i - S c + r)%nat) (U (i - S c + r + S c)%nat) * pol U i c (i - S c + r) x)).
  { destruct (Nat.leb_spec 1 r) as [Q|Q].
    - assert (DP : 0 < D (S c) (r - 1)) by (apply D_pos; lia). rewrite GD, GB by lia. unfold div_opt.
      destruct (Req_EM_T (D (S c) (r - 1)) 0); [lra|]. cbn [obind]. f_equal. unfold D, B in *.
      replace (i + 1 + (r - 1) - S c)%nat with (i - S c + r)%nat in * by lia. replace (i + (r - 1) + 1)%nat with (i - S c + r + S c)%nat in * by lia.
      replace (i - c + (r - 1))%nat with (i - S c + r)%nat by lia. rewrite gap_div by lra. field. lra.
    - rewrite pol_zero by lia. f_equal. lra. }
  rewrite E1. cbn [obind].
  assert (E2 : forall d, (if (r <=? c)%nat then obind (div_opt (- 1) (t (S c) r)) (fun a => Some (d + a * t r c)) else Some d)
    = Some (d - inverse_gap (U (S (i - S c + r))) (U (S (i - S c + r) + S c)%nat) * pol U i c (S (i - S c + r)) x)).
  { intros d. destruct (Nat.leb_spec r c) as [Q|Q].
    - assert (DP : 0 < D (S c) r) by (apply D_pos; lia). rewrite GD, GB by lia. unfold div_opt.
      destruct (Req_EM_T (D (S c) r) 0); [lra|]. cbn [obind]. f_equal. unfold D, B in *.
      replace (i + 1 + r - S c)%nat with (S (i - S c + r)) in * by lia. replace (i + r + 1)%nat with (S (i - S c + r) + S c)%nat in * by lia.
      replace (i - c + r)%nat with (S (i - S c + r)) by lia. rewrite gap_div by lra. field. lra.
    - rewrite pol_zero by lia. f_equal. lra. }
  rewrite E2. cbn [obind pol']. f_equal. lra.
Qed.

(** Sums along a column. *)
Lemma column_partial : forall c n, (S c <= i)%nat -> (i + S c <= m)%nat -> (n <= S c)%nat ->
  Rsum (map (B (S c)) (seq 0 n)) + S_ (S c) n = Rsum (map (B c) (seq 0 n)).
Proof.
  intros c n C K. induction n as [|n IH]; intros N; [cbn; lra|]. rewrite !Rsum_snoc, <- IH by lia. rewrite B_rec by lia.
  assert (DP : 0 < D (S c) n) by (apply D_pos; lia). cbn [S_]. replace (S c - 1)%nat with c by lia.
  pose proof (D_split (S c) n ltac:(lia)) as DS.
  assert (Q : Rt (S n) * (B c n / D (S c) n) + L (S c - n) * (B c n / D (S c) n) = B c n).
  { rewrite <- Rmult_plus_distr_r, <- DS. field. lra. }
  lra.
Qed.
Lemma column_sum : forall c, (c <= i)%nat -> (i + c <= m)%nat -> Rsum (map (B c) (seq 0 (S c))) = 1.
Proof.
  induction c as [|c IH]; intros C K.
  - cbn. unfold B. cbn [pol]. rewrite Nat.sub_0_r, Nat.add_0_r, Nat.eqb_refl. lra.
  - rewrite Rsum_snoc, B_last by lia. rewrite column_partial by lia. apply IH; lia.
Qed.
Lemma derivative_sum : forall p, (p <= i)%nat -> (i + p <= m)%nat ->
  Rsum (map (fun r => pol' U i p (i - p + r)%nat x) (seq 0 (S p))) = 0.
Proof.
  intros [|c] P K; [cbn; lra|].
  assert (G : forall n, (n <= S (S c))%nat -> Rsum (map (fun r => pol' U i (S c) (i - S c + r)%nat x) (seq 0 n))
    = - INR (S c) * (inverse_gap (U (i - S c + n)%nat) (U (i - S c + n + S c)%nat) * pol U i c (i - S c + n) x)).
  { induction n as [|n IHn]; intros N.
    - rewrite pol_zero by lia. cbn [seq map Rsum fold_right]. lra.
    - rewrite Rsum_snoc, IHn by lia. cbn [pol']. replace (i - S c + S n)%nat with (S (i - S c + n)) by lia. lra. }
  rewrite G by lia. rewrite pol_zero by lia. lra.
Qed.
End Column.

(** ** The derivatives are the derivatives *)
Lemma affine_derivative : forall a b x, derivable_pt_lim (fun x => a * x + b) x a.
Proof.
  intros a b x eps E. exists (mkposreal 1 Rlt_0_1). intros h H _. replace ((a * (x + h) + b - (a * x + b)) / h - a) with 0 by (field; auto).
  rewrite Rabs_R0. auto.
Qed.
Lemma pol_derivative : forall U i m p k x, mono U m -> (k + p + 1 <= m)%nat -> derivable_pt_lim (pol U i p k) x (pol' U i p k x).
Proof.
  intros U i m p k x M. revert k. induction p as [|q IH]; intros k K.
  - cbn [pol']. apply (derivable_pt_lim_ext (fct_cte (if (k =? i)%nat then 1 else 0))); [reflexivity|]. apply derivable_pt_lim_const.
  - set (w1 := inverse_gap (U k) (U (k + S q)%nat)). set (w2 := inverse_gap (U (S k)) (U (S k + S q)%nat)).
    assert (DL : derivable_pt_lim (pol U i (S q) k) x
      ((w1 * pol U i q k x + (x - U k) * w1 * pol' U i q k x) + (- w2 * pol U i q (S k) x + (U (S k + S q)%nat - x) * w2 * pol' U i q (S k) x))).
    { apply (derivable_pt_lim_plus (fun x => (x - U k) * w1 * pol U i q k x) (fun x => (U (S k + S q)%nat - x) * w2 * pol U i q (S k) x)).
      - apply (derivable_pt_lim_mult (fun x => (x - U k) * w1) (pol U i q k)); [|apply IH; lia].
        apply (derivable_pt_lim_ext (fun x => w1 * x + - w1 * U k)); [intros; ring|apply affine_derivative].
      - apply (derivable_pt_lim_mult (fun x => (U (S k + S q)%nat - x) * w2) (pol U i q (S k))); [|apply IH; lia].
        apply (derivable_pt_lim_ext (fun x => - w2 * x + w2 * U (S k + S q)%nat)); [intros; ring|apply affine_derivative]. }
    assert (V : (w1 * pol U i q k x + (x - U k) * w1 * pol' U i q k x) + (- w2 * pol U i q (S k) x + (U (S k + S q)%nat - x) * w2 * pol' U i q (S k) x)
      = pol' U i (S q) k x).
    { cbn [pol']. fold w1 w2. rewrite S_INR. destruct q as [|c]; [cbn [pol' INR]; lra|]. cbn [pol'].
      set (v0 := inverse_gap (U k) (U (k + S c)%nat)). set (v1 := inverse_gap (U (S k)) (U (S k + S c)%nat)).
      set (v2 := inverse_gap (U (S (S k))) (U (S (S k) + S c)%nat)).
      assert (E0 : pol U i (S c) k x = (x - U k) * v0 * pol U i c k x + (U (S k + S c)%nat - x) * v1 * pol U i c (S k) x) by reflexivity.
      assert (E1 : pol U i (S c) (S k) x = (x - U (S k)) * v1 * pol U i c (S k) x + (U (S (S k) + S c)%nat - x) * v2 * pol U i c (S (S k)) x) by reflexivity.
      rewrite E0, E1. set (P0 := pol U i c k x). set (P1 := pol U i c (S k) x). set (P2 := pol U i c (S (S k)) x).
      assert (KEY : v1 * ((U (S k + S c)%nat - U k) * w1 - (U (S (S k) + S c)%nat - U (S k)) * w2) = 0).
      { destruct (Req_dec (U (S k)) (U (S k + S c)%nat)) as [Z|Z]; [unfold v1; rewrite (gap_eq _ _ Z); ring|].
        assert (U (S k) <= U (S k + S c)%nat) by (apply M; lia). assert (U k <= U (S k)) by (apply M; lia).
        assert (U (S k + S c)%nat <= U (S (S k) + S c)%nat) by (apply M; lia).
        assert (A1 : (U (S k + S c)%nat - U k) * w1 = 1).
        { unfold w1. replace (k + S (S c))%nat with (S k + S c)%nat by lia. apply gap_mul. lra. }
        assert (A2 : (U (S (S k) + S c)%nat - U (S k)) * w2 = 1).
        { unfold w2. replace (S k + S (S c))%nat with (S (S k) + S c)%nat by lia. apply gap_mul. lra. }
        rewrite A1, A2. ring. }
      replace (S k + S (S c))%nat with (S (S k) + S c)%nat by lia.
      clear E0 E1 DL. clearbody v0 v1 v2 w1 w2 P0 P1 P2. set (n := INR (S c)). clearbody n.
      generalize dependent (U (S k + S c)%nat). generalize (U (S (S k) + S c)%nat). generalize (U k) (U (S k)). intros u0 u1 u3 u2 KEY.
      apply Rminus_diag_uniq. transitivity (- n * P1 * (v1 * ((u2 - u0) * w1 - (u3 - u1) * w2))); [ring|rewrite KEY; ring]. }
    rewrite <- V. exact DL.
Qed.
Lemma derivable_Rsum : forall (A : Type) (f f' : A -> R -> R) x l, (forall a, In a l -> derivable_pt_lim (f a) x (f' a x)) ->
  derivable_pt_lim (fun z => Rsum (map (fun a => f a z) l)) x (Rsum (map (fun a => f' a x) l)).
Proof.
  intros A f f' x. induction l as [|a l IH]; intros H; cbn [map Rsum fold_right].
  - apply (derivable_pt_lim_ext (fct_cte 0)); [reflexivity|]. apply derivable_pt_lim_const.
  - apply (derivable_pt_lim_plus (f a) (fun z => Rsum (map (fun a => f a z) l))); [apply H; cbn; auto|]. apply IH. intros; apply H; cbn; auto.
Qed.

(** ** [basis_functions] *)
Lemma collect_map : forall (A B : Type) (f : A -> option B) (g : A -> B) l, (forall a, In a l -> f a = Some (g a)) -> collect (map f l) = Some (map g l).
Proof.
  intros A B f g. induction l as [|a l IH]; intros H; auto. cbn [map collect]. rewrite H by (cbn; auto). cbn [obind].
  rewrite IH by (intros; apply H; cbn; auto). auto.
Qed.
Lemma at_knot : forall knots z j, z = Z.of_nat j -> at_index knots z = knot_of knots j.
Proof. intros knots z j ->. unfold at_index. rewrite Nat2Z.id. auto. Qed.
Theorem basis_polynomials : forall knots p i x, non_decreasing knots -> (p <= i)%nat -> (i + p < length knots)%nat -> (S i < length knots)%nat ->
  knot_of knots i <= x < knot_of knots (S i) ->
  basis_functions knots p (Z.of_nat i) x
  = Some (map (fun r => pol (knot_of knots) i p (i - p + r) x) (seq 0 (S p)), map (fun r => pol' (knot_of knots) i p (i - p + r) x) (seq 0 (S p))).
Proof.
  intros knots p i x ND P K I X. set (U := knot_of knots) in *. set (m := (length knots - 1)%nat).
  assert (M : mono U m). { intros a b AB. apply ND. lia. }
  unfold basis_functions. rewrite (proj2 (forallb_forall _ _)).
  2: { intros j J. apply in_seq in J. unfold in_range. rewrite andb_true_iff, !andb_true_iff, !Z.leb_le, !Z.ltb_lt. lia. }
  destruct (outer_spec U i m x M ltac:(lia) X
    (fun j => x - at_index knots (Z.of_nat i - Z.of_nat j + 1)) (fun j => at_index knots (Z.of_nat i + Z.of_nat j) - x) p P ltac:(lia)) with (count := p) (c := 0%nat) (t := set (fun _ _ => 0) 0 0 1)
    as (t & OUT & G); auto; try lia.
  - intros j J. unfold L. rewrite (at_knot _ _ (i + 1 - j)%nat) by lia. auto.
  - intros j J. unfold Rt. rewrite (at_knot _ _ (i + j)%nat) by lia. auto.
  - intros c' C'. replace c' with 0%nat by lia. split; intros r R; [|lia]. replace r with 0%nat by lia. rewrite set_same.
    unfold B. cbn [pol]. rewrite Nat.sub_0_r, Nat.add_0_r, Nat.eqb_refl. auto.
  - rewrite OUT. cbn [obind].
    assert (DV : (if (p =? 0)%nat then Some [0] else collect (map (derivative t p) (seq 0 (S p)))) = Some (map (fun r => pol' U i p (i - p + r) x) (seq 0 (S p)))).
    { destruct (Nat.eqb_spec p 0) as [->|N]; [reflexivity|]. apply collect_map. intros r R. apply in_seq in R.
      apply (derivative_spec U i m x M ltac:(lia) X); auto; lia. }
    rewrite DV. cbn [obind]. f_equal. f_equal. apply map_ext_in. intros r R. apply in_seq in R.
    destruct (G p (le_n p)) as (GB & _). apply GB. lia.
Qed.
Theorem basis_cox : forall knots p i x, non_decreasing knots -> (p <= i)%nat -> (i + p + 1 < length knots)%nat ->
  knot_of knots i <= x < knot_of knots (S i) ->
  basis_functions knots p (Z.of_nat i) x
  = Some (map (fun r => cox_de_boor (knot_of knots) p (i - p + r) x) (seq 0 (S p)), map (fun r => cox_de_boor' (knot_of knots) p (i - p + r) x) (seq 0 (S p))).
Proof.
  intros knots p i x ND P K X. rewrite basis_polynomials by (auto; lia).
  assert (M : mono (knot_of knots) (length knots - 1)). { intros a b AB. apply ND. lia. }
  f_equal. f_equal; apply map_ext_in; intros r R; apply in_seq in R; symmetry;
    [apply (cox_pol _ _ (length knots - 1))|apply (cox_pol' _ _ (length knots - 1))]; auto; lia.
Qed.
