(** Proofs about centres of mass, trapezoid windows and crops (C52, C53, C76, C77). *)
From Coq Require Import List Arith Reals Bool ZArith Lra Lia.
From Verif Require Import RealSums ModelField ModelVectors ModelTransforms ModelActuators ModelNurbs ModelSplatting SpecSplatting ModelBitmap SpecLosses ProofsKnots ProofsSplatting ProofsTracing.
Import ListNotations.
Local Open Scope R_scope.

Lemma mass_pos : 0 < mass_eps. Proof. unfold mass_eps. lra. Qed.
Lemma index_linspace : forall n i, (i < n)%nat -> linspace 0 (INR n - 1) n i = INR i.
Proof.
  intros n i I. unfold linspace. destruct (Nat.leb_spec n 1).
  - replace i with 0%nat by lia. reflexivity.
  - rewrite minus_INR by lia. cbn [INR]. assert (1 < INR n) by (apply (lt_INR 1); lia). field. lra.
Qed.
Lemma total_ext : forall h w f g, (forall u e, (u < h)%nat -> (e < w)%nat -> f u e = g u e) -> total h w f = total h w g.
Proof. intros h w f g H. apply Rsum_map_ext. intros u U. apply in_seq in U. apply Rsum_map_ext. intros e E. apply in_seq in E. apply H; lia. Qed.
Lemma total_scal : forall h w c f, total h w (fun u e => c * f u e) = c * total h w f.
Proof.
  intros. unfold total. rewrite <- Rsum_map_scal. apply Rsum_map_ext. intros u _. apply Rsum_map_scal.
Qed.
Lemma total_div : forall h w c f, total h w (fun u e => f u e / c) = total h w f / c.
Proof. intros. unfold Rdiv at 2. rewrite Rmult_comm, <- total_scal. apply total_ext. intros. unfold Rdiv. ring. Qed.
Lemma total_plus : forall h w f g, total h w (fun u e => f u e + g u e) = total h w f + total h w g.
Proof. intros. unfold total. rewrite <- Rsum_map_plus. apply Rsum_map_ext. intros u _. apply Rsum_map_plus. Qed.
Lemma total_nonneg : forall h w f, non_negative_bitmap h w f -> 0 <= total h w f.
Proof. intros h w f H. apply Rsum_map_nonneg. intros u U. apply in_seq in U. apply Rsum_map_nonneg. intros e E. apply in_seq in E. apply H; lia. Qed.
Lemma total_le : forall h w f g, (forall u e, (u < h)%nat -> (e < w)%nat -> f u e <= g u e) -> total h w f <= total h w g.
Proof. intros h w f g H. apply Rsum_map_le. intros u U. apply in_seq in U. apply Rsum_map_le. intros e E. apply in_seq in E. apply H; lia. Qed.
Lemma total_zero : forall h w f, (forall u e, (u < h)%nat -> (e < w)%nat -> f u e = 0) -> total h w f = 0.
Proof. intros h w f H. apply Rsum_map_zero. intros u U. apply in_seq in U. apply Rsum_map_zero. intros e E. apply in_seq in E. apply H; lia. Qed.

(** ** Centre of mass *)
Theorem center_value : forall h w b, total h w b + mass_eps <> 0 ->
  center_of_mass h w b = Some (total h w (fun u e => INR e * b u e) / (total h w b + mass_eps), total h w (fun u e => INR u * b u e) / (total h w b + mass_eps)).
Proof.
  intros h w b N. unfold center_of_mass. change (pixel_sum h w b) with (total h w b). destruct (Req_EM_T (total h w b + mass_eps) 0); [contradiction|].
  do 2 f_equal.
  - change (pixel_sum h w) with (total h w). unfold Rdiv at 2. rewrite Rmult_comm, <- total_scal. apply total_ext. intros u e U E.
    rewrite index_linspace by auto. field. auto.
  - change (pixel_sum h w) with (total h w). unfold Rdiv at 2. rewrite Rmult_comm, <- total_scal. apply total_ext. intros u e U E.
    rewrite index_linspace by auto. field. auto.
Qed.
Lemma quotient_mean : forall A S0 e c, 0 < e -> 0 <= A <= c * S0 -> 0 <= S0 -> 0 <= c ->
  0 <= A / (S0 + e) <= c /\ (0 < S0 -> 0 <= A / S0 - A / (S0 + e) <= c * (e / (S0 + e))).
Proof.
  intros A S0 e c E (A0 & A1) S1 C. assert (P : 0 < S0 + e) by lra. pose proof (Rinv_0_lt_compat _ P) as PI0.
  assert (EQ : (S0 + e) * / (S0 + e) = 1) by (apply Rinv_r; lra). split.
  - split; [apply Rmult_le_pos; lra|]. apply (Rmult_le_reg_r (S0 + e)); [lra|]. unfold Rdiv. rewrite Rmult_assoc, Rinv_l by lra.
    assert (0 <= c * e) by (apply Rmult_le_pos; lra). lra.
  - intros SP. replace (A / S0 - A / (S0 + e)) with (A / S0 * (e / (S0 + e))) by (field; lra).
    assert (Q : 0 <= e / (S0 + e)) by (apply Rmult_le_pos; lra).
    assert (A2 : 0 <= A / S0 <= c).
    { split; [apply Rmult_le_pos; auto; left; apply Rinv_0_lt_compat; auto|]. apply (Rmult_le_reg_r S0); auto. unfold Rdiv. rewrite Rmult_assoc, Rinv_l by lra. lra. }
    split; [apply Rmult_le_pos; lra|apply Rmult_le_compat_r; lra].
Qed.
Lemma moment_bounds : forall h w b (f : nat -> nat -> nat) n, non_negative_bitmap h w b -> (forall u e, (u < h)%nat -> (e < w)%nat -> (f u e < n)%nat) ->
  0 <= total h w (fun u e => INR (f u e) * b u e) <= (INR n - 1) * total h w b.
Proof.
  intros h w b f n N F. split.
  - apply total_nonneg. intros u e U E. apply Rmult_le_pos; [apply pos_INR|apply N; auto].
  - rewrite <- total_scal. apply total_le. intros u e U E. apply Rmult_le_compat_r; [apply N; auto|]. specialize (F u e U E).
    assert (L : INR (f u e) <= INR (n - 1)) by (apply le_INR; lia). rewrite minus_INR in L by lia. cbn [INR] in L. lra.
Qed.
Theorem center_all : forall h w b, (0 < h)%nat -> (0 < w)%nat -> non_negative_bitmap h w b ->
  exists e u, center_of_mass h w b = Some (e, u) /\ 0 <= e <= INR w - 1 /\ 0 <= u <= INR h - 1
  /\ (0 < total h w b ->
      0 <= mean_e h w b - e <= (INR w - 1) * (mass_eps / (total h w b + mass_eps))
      /\ 0 <= mean_u h w b - u <= (INR h - 1) * (mass_eps / (total h w b + mass_eps)))
  /\ (total h w b = 0 -> e = 0 /\ u = 0).
Proof.
  intros h w b H W N. pose proof mass_pos as MP. pose proof (total_nonneg h w b N) as TN.
  rewrite center_value by lra. do 2 eexists. split; [reflexivity|].
  assert (W1 : 0 <= INR w - 1) by (apply (le_INR 1) in W; cbn [INR] in W; lra).
  assert (H1 : 0 <= INR h - 1) by (apply (le_INR 1) in H; cbn [INR] in H; lra).
  destruct (quotient_mean (total h w (fun u e => INR e * b u e)) (total h w b) mass_eps (INR w - 1)) as (E1 & E2); auto.
  { apply (moment_bounds h w b (fun _ e => e) w N). auto. }
  destruct (quotient_mean (total h w (fun u e => INR u * b u e)) (total h w b) mass_eps (INR h - 1)) as (U1 & U2); auto.
  { apply (moment_bounds h w b (fun u _ => u) h N). auto. }
  split; auto. split; auto. split; [intros P; split; [apply E2; auto|apply U2; auto]|].
  intros Z. rewrite Z in *. pose proof (moment_bounds h w b (fun _ e => e) w N ltac:(auto)) as B1. pose proof (moment_bounds h w b (fun u _ => u) h N ltac:(auto)) as B2. cbn beta in B1, B2.
  rewrite Z, Rmult_0_r in B1, B2. assert (Z1 : total h w (fun u e => INR e * b u e) = 0) by lra. assert (Z2 : total h w (fun u e => INR u * b u e) = 0) by lra.
  rewrite Z1, Z2. unfold Rdiv. lra.
Qed.

(** ** The trapezoid *)
Definition window (tot slope plateau i : nat) : R := nth i (trapezoid tot slope plateau) 0.
(** Distance of an index from the middle of the window. *)
Definition off_middle (tot i : nat) : R := Rabs (INR i - (INR tot - 1) / 2).
Lemma window_value : forall tot slope plateau i, (i < tot)%nat ->
  window tot slope plateau i = let distance := off_middle tot i - INR plateau / 2 in
    if (slope =? 0)%nat then (if Rle_dec distance 0 then 1 else 0) else 1 - clamp 0 1 (distance / INR slope).
Proof.
  intros tot slope plateau i I. unfold window, trapezoid. rewrite nth_map_seq with (len := tot) by auto. reflexivity.
Qed.
Lemma clamp_cases : forall x, (x <= 0 /\ clamp 0 1 x = 0) \/ (0 < x < 1 /\ clamp 0 1 x = x) \/ (1 <= x /\ clamp 0 1 x = 1).
Proof.
  intros x. unfold clamp. destruct (Rle_dec x 0) as [A|A].
  - left. rewrite Rmax_right, Rmin_left by lra. auto.
  - right. destruct (Rlt_dec x 1) as [B|B]; [left|right]; rewrite Rmax_left by lra; [rewrite Rmin_left|rewrite Rmin_right]; lra.
Qed.
Theorem trapezoid_shape : forall tot slope plateau, length (trapezoid tot slope plateau) = tot
  /\ forall i, (i < tot)%nat -> let v := window tot slope plateau i in let d := off_middle tot i in
     0 <= v <= 1 /\ v = window tot slope plateau (tot - 1 - i)
     /\ (d <= INR plateau / 2 -> v = 1)
     /\ (INR plateau / 2 < d < INR plateau / 2 + INR slope -> v = 1 - (d - INR plateau / 2) / INR slope)
     /\ (INR plateau / 2 < d -> INR plateau / 2 + INR slope <= d -> v = 0).
Proof.
  intros tot slope plateau. split; [unfold trapezoid; rewrite map_length, seq_length; auto|].
  intros i I v d. unfold v. rewrite !window_value by lia. cbn zeta.
  assert (D : off_middle tot (tot - 1 - i) = d).
  { unfold d, off_middle. rewrite !minus_INR by lia. cbn [INR]. rewrite <- Rabs_Ropp. f_equal. lra. }
  rewrite D. fold d. destruct (Nat.eqb_spec slope 0) as [Z|NZ].
  - subst slope. cbn [INR]. destruct (Rle_dec (d - INR plateau / 2) 0); repeat split; intros; lra.
  - assert (P : 0 < INR slope) by (apply lt_0_INR; lia).
    assert (E : d - INR plateau / 2 = (d - INR plateau / 2) / INR slope * INR slope) by (field; lra).
    destruct (clamp_cases ((d - INR plateau / 2) / INR slope)) as [(A & ->)|[(A & ->)|(A & ->)]];
      set (q := (d - INR plateau / 2) / INR slope) in *.
    + assert (q * INR slope <= 0) by (apply (Rmult_le_compat_r (INR slope)) in A; lra). repeat split; intros; lra.
    + assert (0 < q * INR slope) by (apply Rmult_lt_0_compat; lra).
      assert (q * INR slope < 1 * INR slope) by (apply Rmult_lt_compat_r; lra). repeat split; intros; lra.
    + assert (1 * INR slope <= q * INR slope) by (apply Rmult_le_compat_r; lra). repeat split; intros; lra.
Qed.
Lemma off_middle_le : forall tot i (x : nat), (i < tot)%nat -> (2 * off_middle tot i <= INR x <-> (2 * i + 1 <= tot + x)%nat /\ (tot <= 2 * i + 1 + x)%nat).
Proof.
  intros tot i x I. unfold off_middle.
  assert (E : 2 * Rabs (INR i - (INR tot - 1) / 2) = Rabs (INR (2 * i + 1) - INR tot)).
  { rewrite plus_INR, mult_INR. cbn [INR]. rewrite <- (Rabs_right 2) at 1 by lra. rewrite <- Rabs_mult. f_equal. lra. }
  rewrite E. clear E. generalize (2 * i + 1)%nat. intros z. split.
  - intros A. assert (B : - INR x <= INR z - INR tot <= INR x) by (revert A; unfold Rabs; destruct Rcase_abs; lra).
    split; apply INR_le; rewrite plus_INR; lra.
  - intros (A & B). apply le_INR in A. apply le_INR in B. rewrite plus_INR in A, B. apply Rabs_le. lra.
Qed.
(** If total and plateau have the same parity, the plateau has exactly the requested width and is centred; the zeros
    outside start right after the slopes. *)
Theorem trapezoid_plateau : forall plateau slope k i, (i < plateau + 2 * k)%nat ->
  (window (plateau + 2 * k) slope plateau i = 1 <-> (k <= i < k + plateau)%nat).
Proof.
  intros plateau slope k i I. pose proof (off_middle_le (plateau + 2 * k) i plateau I) as O.
  destruct (trapezoid_shape (plateau + 2 * k) slope plateau) as (_ & T). specialize (T i I). cbn zeta in T. destruct T as (_ & _ & T1 & T2 & T3).
  set (d := off_middle (plateau + 2 * k) i) in *. destruct (Rle_dec d (INR plateau / 2)) as [A|A].
  - split; [intros _|intros _; auto]. assert (O1 : 2 * d <= INR plateau) by lra. apply O in O1. lia.
  - split; [|intros B; exfalso; apply A; assert (O1 : 2 * d <= INR plateau) by (apply O; lia); lra].
    intros V. exfalso. destruct (Rlt_dec d (INR plateau / 2 + INR slope)) as [B|B].
    + rewrite T2 in V by lra. assert (P : 0 < INR slope) by lra.
      assert (Q : (d - INR plateau / 2) / INR slope * INR slope = 0) by (replace ((d - INR plateau / 2) / INR slope) with 0 by lra; lra).
      replace ((d - INR plateau / 2) / INR slope * INR slope) with (d - INR plateau / 2) in Q by (field; lra). lra.
    + rewrite T3 in V by lra. lra.
Qed.
(** With the other parity there is one more index on the plateau than requested. *)
Theorem trapezoid_plateau_wide : forall plateau slope k i, (i < plateau + 1 + 2 * k)%nat ->
  (window (plateau + 1 + 2 * k) slope plateau i = 1 <-> (k <= i < k + plateau + 1)%nat).
Proof.
  intros plateau slope k i I. pose proof (off_middle_le (plateau + 1 + 2 * k) i plateau I) as O.
  destruct (trapezoid_shape (plateau + 1 + 2 * k) slope plateau) as (_ & T). specialize (T i I). cbn zeta in T. destruct T as (_ & _ & T1 & T2 & T3).
  set (d := off_middle (plateau + 1 + 2 * k) i) in *. destruct (Rle_dec d (INR plateau / 2)) as [A|A].
  - split; [intros _|intros _; auto]. assert (O1 : 2 * d <= INR plateau) by lra. apply O in O1. lia.
  - split; [|intros B; exfalso; apply A; assert (O1 : 2 * d <= INR plateau) by (apply O; lia); lra].
    intros V. exfalso. destruct (Rlt_dec d (INR plateau / 2 + INR slope)) as [B|B].
    + rewrite T2 in V by lra. assert (P : 0 < INR slope) by lra.
      assert (Q : (d - INR plateau / 2) / INR slope * INR slope = 0) by (replace ((d - INR plateau / 2) / INR slope) with 0 by lra; lra).
      replace ((d - INR plateau / 2) / INR slope * INR slope) with (d - INR plateau / 2) in Q by (field; lra). lra.
    + rewrite T3 in V by lra. lra.
Qed.
(** Padding: exactly the [k] indices on each side are zero. *)
Theorem trapezoid_padding : forall plateau slope k i, (0 < slope)%nat -> (i < plateau + 2 * slope + 2 * k)%nat ->
  (window (plateau + 2 * slope + 2 * k) slope plateau i = 0 <-> (i < k \/ k + plateau + 2 * slope <= i)%nat).
Proof.
  intros plateau slope k i S0 I. set (tot := (plateau + 2 * slope + 2 * k)%nat) in *.
  pose proof (off_middle_le tot i (plateau + 2 * slope) I) as O. rewrite plus_INR, mult_INR in O. cbn [INR] in O.
  destruct (trapezoid_shape tot slope plateau) as (_ & T). specialize (T i I). cbn zeta in T. destruct T as (_ & _ & T1 & T2 & T3).
  assert (P : 0 < INR slope) by (apply lt_0_INR; auto).
  set (d := off_middle tot i) in *. destruct (Rlt_dec d (INR plateau / 2 + INR slope)) as [A|A].
  - split.
    + intros V. exfalso. destruct (Rle_dec d (INR plateau / 2)) as [B|B]; [rewrite T1 in V by auto; lra|]. rewrite T2 in V by lra.
      assert (Q : (d - INR plateau / 2) / INR slope * INR slope = INR slope) by (replace ((d - INR plateau / 2) / INR slope) with 1 by lra; lra).
      replace ((d - INR plateau / 2) / INR slope * INR slope) with (d - INR plateau / 2) in Q by (field; lra). lra.
    + intros B. exfalso. assert (O1 : 2 * d <= INR plateau + (1 + 1) * INR slope) by lra. apply O in O1. unfold tot in *. lia.
  - split; [intros _|intros _; apply T3; lra].
    destruct (le_lt_dec k i) as [B|B]; [|left; auto]. right. destruct (le_lt_dec (k + plateau + 2 * slope) i) as [C|C]; auto. exfalso.
    assert (O1 : 2 * d <= INR plateau + (1 + 1) * INR slope) by (apply O; unfold tot; lia).
    assert (EQ : d = INR plateau / 2 + INR slope) by lra.
    (* parity: the distance is a half integer *)
    assert (O2 : ~ (2 * d <= INR (plateau + 2 * slope - 1))).
    { rewrite minus_INR, plus_INR, mult_INR by lia. cbn [INR]. lra. }
    apply O2. apply (off_middle_le tot i (plateau + 2 * slope - 1) I). unfold tot. lia.
Qed.

(** ** Crops *)
Lemma pixel_bounds : forall h w b m r c, 0 <= m -> (forall u e, (u < h)%nat -> (e < w)%nat -> 0 <= b u e <= m) -> 0 <= pixel_or_zero h w b r c <= m.
Proof.
  intros h w b m r c M B. unfold pixel_or_zero. destruct ((0 <=? r)%Z && (r <? Z.of_nat h)%Z && (0 <=? c)%Z && (c <? Z.of_nat w)%Z) eqn:E; [|lra].
  repeat (apply andb_prop in E as [E ?]). apply B; lia.
Qed.
Theorem bilinear_bounds : forall h w b m x y, 0 <= m -> (forall u e, (u < h)%nat -> (e < w)%nat -> 0 <= b u e <= m) -> 0 <= bilinear h w b x y <= m.
Proof.
  intros h w b m x y M B. unfold bilinear. pose proof (floor_spec x) as FX. pose proof (floor_spec y) as FY.
  set (fx := x - IZR (floor x)). set (fy := y - IZR (floor y)). assert (0 <= fx < 1) by (unfold fx; lra). assert (0 <= fy < 1) by (unfold fy; lra).
  pose proof (pixel_bounds h w b m (floor y) (floor x) M B) as P1. pose proof (pixel_bounds h w b m (floor y) (floor x + 1) M B) as P2.
  pose proof (pixel_bounds h w b m (floor y + 1) (floor x) M B) as P3. pose proof (pixel_bounds h w b m (floor y + 1) (floor x + 1) M B) as P4.
  set (p1 := pixel_or_zero h w b (floor y) (floor x)) in *. set (p2 := pixel_or_zero h w b (floor y) (floor x + 1)) in *.
  set (p3 := pixel_or_zero h w b (floor y + 1) (floor x)) in *. set (p4 := pixel_or_zero h w b (floor y + 1) (floor x + 1)) in *.
  assert (W1 : 0 <= (1 - fx) * (1 - fy)) by (apply Rmult_le_pos; lra). assert (W2 : 0 <= fx * (1 - fy)) by (apply Rmult_le_pos; lra).
  assert (W3 : 0 <= (1 - fx) * fy) by (apply Rmult_le_pos; lra). assert (W4 : 0 <= fx * fy) by (apply Rmult_le_pos; lra).
  assert (Q1 : 0 <= p1 * ((1 - fx) * (1 - fy)) <= m * ((1 - fx) * (1 - fy))) by (split; [apply Rmult_le_pos; lra|apply Rmult_le_compat_r; lra]).
  assert (Q2 : 0 <= p2 * (fx * (1 - fy)) <= m * (fx * (1 - fy))) by (split; [apply Rmult_le_pos; lra|apply Rmult_le_compat_r; lra]).
  assert (Q3 : 0 <= p3 * ((1 - fx) * fy) <= m * ((1 - fx) * fy)) by (split; [apply Rmult_le_pos; lra|apply Rmult_le_compat_r; lra]).
  assert (Q4 : 0 <= p4 * (fx * fy) <= m * (fx * fy)) by (split; [apply Rmult_le_pos; lra|apply Rmult_le_compat_r; lra]).
  lra.
Qed.
Theorem crop_bounds : forall h w b m tw th cw ch u e, 0 <= m -> (forall u e, (u < h)%nat -> (e < w)%nat -> 0 <= b u e <= m) ->
  0 <= cropped h w b tw th cw ch u e <= m.
Proof. intros. unfold cropped. destruct (normalized_center h w b). apply bilinear_bounds; auto. Qed.
Lemma bilinear_pixel : forall h w b u e, (u < h)%nat -> (e < w)%nat -> bilinear h w b (INR e) (INR u) = b u e.
Proof.
  intros h w b u e U E. unfold bilinear.
  assert (F : forall n, floor (INR n) = Z.of_nat n) by (intros; apply floor_unique; rewrite <- INR_IZR_INZ; lra).
  rewrite !F, <- !INR_IZR_INZ. replace (INR e - INR e) with 0 by lra. replace (INR u - INR u) with 0 by lra.
  assert (P : pixel_or_zero h w b (Z.of_nat u) (Z.of_nat e) = b u e).
  { unfold pixel_or_zero. replace ((0 <=? Z.of_nat u)%Z && (Z.of_nat u <? Z.of_nat h)%Z && (0 <=? Z.of_nat e)%Z && (Z.of_nat e <? Z.of_nat w)%Z) with true.
    - rewrite !Nat2Z.id. auto.
    - symmetry. repeat (apply andb_true_intro; split); lia. }
  rewrite P. ring.
Qed.
Lemma unit_linspace : forall n i, (2 <= n)%nat -> (linspace (-1) 1 n i + 1) / 2 * (INR n - 1) = INR i.
Proof.
  intros n i N. unfold linspace. destruct (Nat.leb_spec n 1); [lia|]. rewrite minus_INR by lia. cbn [INR]. assert (2 <= INR n) by (apply (le_INR 2); auto). field. lra.
Qed.
(** A crop of the size of the target around a centred flux is the flux itself. *)
Lemma normalized_moment : forall h w b (f : nat -> nat -> nat) n, (2 <= n)%nat -> 0 < total h w b + mass_eps ->
  (total h w (fun u e => linspace (-1) 1 n (f u e) * (b u e / (total h w b + mass_eps))) + 1) / 2 * (INR n - 1)
  = total h w (fun u e => INR (f u e) * b u e) / (total h w b + mass_eps) + (INR n - 1) / 2 * (mass_eps / (total h w b + mass_eps)).
Proof.
  intros h w b f n N P. assert (N2 : 2 <= INR n) by (apply (le_INR 2); auto).
  assert (E : total h w (fun u e => linspace (-1) 1 n (f u e) * (b u e / (total h w b + mass_eps)))
    = (2 / (INR n - 1) * total h w (fun u e => INR (f u e) * b u e) + -1 * total h w b) / (total h w b + mass_eps)).
  { rewrite <- !total_scal, <- total_plus, <- total_div. apply total_ext. intros u e U0 E0.
    unfold linspace. destruct (Nat.leb_spec n 1); [lia|]. rewrite minus_INR by lia. cbn [INR]. field. lra. }
  rewrite E. field. lra.
Qed.
(** The middle pixel of a crop shows the flux at the centre of mass (moved towards the middle of the image by the share
    of the epsilon). *)
(** An image whose centre of mass is the middle pixel has normalized centre 0 up to that share. *)

(** ** The centre of mass of a splatted bitmap *)
Definition image_at (image : list (list R)) (u e : nat) : R := nth e (nth u image []) 0.
Lemma total_pixels : forall h w image (g : nat -> nat -> R), 
  total h w (fun u e => g u e * image_at image u e) = Rsum_n h (fun r => Rsum_n w (fun c => g (h - 1 - r)%nat c * pixel image h r c)).
Proof.
  intros h w image g. unfold total, Rsum_n, pixel, image_at.
  assert (P : forall f : nat -> R, Rsum (map f (seq 0 h)) = Rsum (map (fun r => f (h - 1 - r)%nat) (seq 0 h))).
  { intros f. rewrite <- Rsum_rev. f_equal. apply nth_ext with (d := 0) (d' := 0); rewrite rev_length, !map_length, ?seq_length; auto.
    intros n N. rewrite rev_nth by (rewrite map_length, seq_length; auto). rewrite map_length, seq_length.
    rewrite !nth_map_seq with (len := h) by lia. f_equal. lia. }
  rewrite P. reflexivity.
Qed.
Theorem splat_center : forall w h rays, (1 <= w)%nat -> (1 <= h)%nat -> (forall r, In r rays -> inside_grid w h r) ->
  exists image, bilinear_splatting w h rays = Ok image
    /\ total h w (image_at image) = Rsum (map hit_intensity rays)
    /\ total h w (fun u e => INR e * image_at image u e) = Rsum (map (fun r => hit_intensity r * hit_e r) rays)
    /\ total h w (fun u e => INR u * image_at image u e) = Rsum (map (fun r => hit_intensity r * (INR h - 1 - hit_u r)) rays).
Proof.
  intros w h rays W H I. destruct (pixel_formula w h rays W H) as (image & E & _ & P).
  { intros r R0. destruct (I r R0). lra. }
  exists image. split; auto.
  assert (F : filter (inside_gridb w h) rays = rays).
  { clear - I. induction rays as [|r rays IH]; auto. cbn [filter]. assert (B : inside_gridb w h r = true) by (apply inside_gridb_iff; apply I; cbn; auto).
    rewrite B. f_equal. apply IH. intros; apply I; cbn; auto. }
  assert (G : forall f : nat -> nat -> R, Rsum_n h (fun r => Rsum_n w (fun c => f r c * pixel image h r c))
    = Rsum (map (fun ray => hit_intensity ray * Rsum_n h (fun r => Rsum_n w (fun c => f r c * hat (hit_e ray - INR c) * hat (hit_u ray - INR r)))) rays)).
  { intros f. transitivity (Rsum_n h (fun r => Rsum (map (fun ray => Rsum_n w (fun c => hit_intensity ray * (f r c * hat (hit_e ray - INR c) * hat (hit_u ray - INR r)))) rays))).
    - apply Rsum_n_ext. intros r R0. unfold Rsum_n. rewrite (Rsum_swap (fun ray c => hit_intensity ray * (f r c * hat (hit_e ray - INR c) * hat (hit_u ray - INR r)))). 
      apply Rsum_map_ext. intros c C. apply in_seq in C. rewrite P by lia. unfold sum_where. rewrite F, <- Rsum_map_scal. apply Rsum_map_ext. intros; ring.
    - unfold Rsum_n at 1. rewrite Rsum_swap. apply Rsum_map_ext. intros ray _. change (Rsum_n h (fun r => Rsum_n w (fun c => hit_intensity ray * (f r c * hat (hit_e ray - INR c) * hat (hit_u ray - INR r))))
        = hit_intensity ray * Rsum_n h (fun r => Rsum_n w (fun c => f r c * hat (hit_e ray - INR c) * hat (hit_u ray - INR r)))).
      rewrite <- Rsum_n_scal. apply Rsum_n_ext. intros r _. apply Rsum_n_scal. }
  split; [|split].
  - transitivity (total h w (fun u e => 1 * image_at image u e)); [apply total_ext; intros; ring|].
    rewrite (total_pixels h w image (fun _ _ => 1)), (G (fun _ _ => 1)). apply Rsum_map_ext. intros ray R0. destruct (I ray R0) as (IE & IU).
    rewrite (Rsum_n_ext h _ (fun r => hat (hit_u ray - INR r))); [rewrite hat_sum by auto; ring|].
    intros r _. rewrite (Rsum_n_ext w _ (fun c => hat (hit_e ray - INR c) * hat (hit_u ray - INR r))) by (intros; ring). rewrite Rsum_n_scal_r, hat_sum by auto. ring.
  - rewrite (total_pixels h w image (fun _ e => INR e)), (G (fun _ e => INR e)). apply Rsum_map_ext. intros ray R0. destruct (I ray R0) as (IE & IU). f_equal.
    rewrite (Rsum_n_ext h _ (fun r => hit_e ray * hat (hit_u ray - INR r))); [rewrite Rsum_n_scal, hat_sum by auto; ring|].
    intros r _. rewrite Rsum_n_scal_r, hat_mean by auto. auto.
  - rewrite (total_pixels h w image (fun u _ => INR u)), (G (fun r _ => INR (h - 1 - r))). apply Rsum_map_ext. intros ray R0. destruct (I ray R0) as (IE & IU). f_equal.
    rewrite (Rsum_n_ext h _ (fun r => (INR h - 1) * hat (hit_u ray - INR r) + (-1) * (INR r * hat (hit_u ray - INR r)))).
    + rewrite Rsum_n_plus, !Rsum_n_scal, hat_sum, hat_mean by auto. ring.
    + intros r R1. rewrite (Rsum_n_ext w _ (fun c => (INR (h - 1 - r) * hat (hit_u ray - INR r)) * hat (hit_e ray - INR c))) by (intros; ring).
      rewrite Rsum_n_scal, hat_sum by auto. rewrite !minus_INR by lia. cbn [INR]. ring.
Qed.
Theorem splat_center_of_mass : forall w h rays, (1 <= w)%nat -> (1 <= h)%nat -> (forall r, In r rays -> inside_grid w h r) ->
  0 <= Rsum (map hit_intensity rays) ->
  let power := Rsum (map hit_intensity rays) in
  exists image, bilinear_splatting w h rays = Ok image
    /\ center_of_mass h w (image_at image)
       = Some (Rsum (map (fun r => hit_intensity r * hit_e r) rays) / (power + mass_eps),
               Rsum (map (fun r => hit_intensity r * (INR h - 1 - hit_u r)) rays) / (power + mass_eps)).
Proof.
  intros w h rays W H I N power. destruct (splat_center w h rays W H I) as (image & E & T & TE & TU). exists image. split; auto.
  pose proof mass_pos. rewrite center_value by (rewrite T; lra). rewrite T, TE, TU. auto.
Qed.
