(** Proofs about splatting in single precision (C114). *)
From Coq Require Import List Arith ZArith Reals Lra Lia Psatz.
From Flocq Require Import Core Sterbenz Relative.
From Verif Require Import RealSums ModelFloats ProofsFloats.
Import ListNotations.
Local Open Scope R_scope.

Lemma valid32 : Valid_exp (FLT_exp (-149) 24). Proof. apply FLT_exp_valid. reflexivity. Qed.
Lemma exact32 : forall x, is_binary32 x -> binary32 x = x.
Proof. intros x F. apply round_generic; auto with typeclass_instances. Qed.
Lemma one32 : is_binary32 1.
Proof. unfold is_binary32. change 1 with (bpow radix2 0). apply generic_format_FLT_bpow; [reflexivity|lia]. Qed.
Definition u32 : R := / 16777216.
Definition eta32 : R := bpow radix2 (-149).
Lemma error32 : forall v, 0 <= v -> v * (1 - u32) - eta32 <= binary32 v <= v * (1 + u32) + eta32 /\ 0 <= binary32 v.
Proof. intros v V. destruct (rounds_error (-149) 24 ltac:(lia) v V) as (A & B & C). rewrite b24 in A, B. unfold u32, eta32, binary32. change (IZR (2 ^ 24)) with 16777216 in A, B. auto. Qed.
Lemma eta32_small : 0 < eta32 /\ eta32 <= u32.
Proof. split; [apply bpow_gt_0|]. unfold eta32, u32. change (/ 16777216) with (bpow radix2 (-24)). apply bpow_le. lia. Qed.

Theorem weights32 : forall x, is_binary32 x -> 0 <= x -> x < IZR (2 ^ 23) ->
  0 <= low_weight x <= 1 /\ 0 <= high_weight x <= 1 /\ is_binary32 (low_weight x) /\ is_binary32 (high_weight x)
  /\ (1 <= x -> low_weight x + high_weight x = 1) /\ Rabs (low_weight x + high_weight x - 1) <= 2 * u32.
Proof.
  intros x F X XB. unfold low_weight, high_weight. rewrite Ztrunc_floor by auto. set (i := Zfloor x).
  pose proof (Zfloor_lb x) as L. pose proof (Zfloor_ub x) as U. fold i in L, U. rewrite plus_IZR.
  assert (I0 : (0 <= i)%Z) by (apply Zfloor_lub; auto). assert (I1 : (i < 2 ^ 23)%Z) by (apply lt_IZR; lra).
  pose proof valid32 as V. destruct eta32_small as (E0 & E1). assert (U0 : 0 < u32) by (unfold u32; lra).
  assert (BD : forall v, 0 <= v <= 1 -> 0 <= binary32 v <= 1 /\ is_binary32 (binary32 v)).
  { intros v W. split; [split; [apply (rounds_above (-149) 24 ltac:(lia)); [apply generic_format_0|lra]|apply (rounds_upto (-149) 24 ltac:(lia)); [apply one32|lra]]|].
    apply generic_format_round; auto with typeclass_instances. }
  destruct (BD (IZR i + 1 - x) ltac:(lra)) as (B1 & B2). destruct (BD (x - IZR i) ltac:(lra)) as (C1 & C2).
  split; auto. split; auto. split; auto. split; auto.
  assert (FI : is_binary32 (IZR i)) by (apply (integer_format (-149) 24); lia). assert (FI1 : is_binary32 (IZR i + 1)) by (rewrite <- plus_IZR; apply (integer_format (-149) 24); lia).
  assert (G : 1 <= x -> binary32 (IZR i + 1 - x) + binary32 (x - IZR i) = 1).
  { intros X1. assert (1 <= i)%Z by (apply Zfloor_lub; auto). assert (J : 1 <= IZR i) by (apply IZR_le; auto).
    rewrite !exact32; [lra| |]; apply sterbenz; auto; try lra; try apply FLT_exp_monotone. }
  split; auto. destruct (Rle_lt_dec 1 x) as [X1|X1]; [rewrite G by auto; rewrite Rminus_diag_eq by auto; rewrite Rabs_R0; lra|].
  assert (i = 0)%Z by (apply Zfloor_imp; cbn; lra). rewrite H in *. rewrite Rminus_0_r. rewrite (exact32 x F).
  destruct (error32 (0 + 1 - x) ltac:(lra)) as ((A1 & A2) & _). apply Rabs_le. nra.
Qed.
Theorem splatting32 : forall e u intensity, is_binary32 e -> is_binary32 u -> 0 <= e < IZR (2 ^ 23) -> 0 <= u < IZR (2 ^ 23) -> 0 <= intensity ->
  (forall w, In w (pixel_intensities e u intensity) -> 0 <= w)
  /\ Rabs (Rsum (pixel_intensities e u intensity) - intensity) <= / 2 ^ 21 * intensity + / 2 ^ 140 * (intensity + 1).
Proof.
  intros e u I FE FU (E0 & E1) (U0 & U1) I0.
  destruct (weights32 e FE E0 E1) as (AL & AH & _ & _ & _ & AS). destruct (weights32 u FU U0 U1) as (BL & BH & _ & _ & _ & BS).
  set (a := low_weight e) in *. set (a' := high_weight e) in *. set (b := low_weight u) in *. set (b' := high_weight u) in *.
  destruct eta32_small as (T0 & T1). assert (U32 : 0 < u32 <= / 1000000) by (unfold u32; lra).
  assert (ONE : forall x y, 0 <= x <= 1 -> 0 <= y <= 1 -> let w := binary32 (binary32 (x * y) * I) in
    0 <= w /\ x * y * I * (1 - 3 * u32) - 2 * eta32 * (I + 1) <= w /\ w <= x * y * I * (1 + 3 * u32) + 2 * eta32 * (I + 1)).
  { intros x y X Y w. assert (XY : 0 <= x * y) by nra. destruct (error32 (x * y) XY) as ((P1 & P2) & P0). set (p := binary32 (x * y)) in *.
    assert (PI : 0 <= p * I) by nra. destruct (error32 (p * I) PI) as ((W1 & W2) & W0). fold w in W1, W2, W0. split; auto.
    set (q := x * y) in *. assert (L : (q * (1 - u32) - eta32) * I <= p * I) by (apply Rmult_le_compat_r; auto). assert (H : p * I <= (q * (1 + u32) + eta32) * I) by (apply Rmult_le_compat_r; auto).
    assert (QI : 0 <= q * I) by nra. set (z := q * I) in *.
    assert (L' : z * (1 - u32) - eta32 * I <= p * I) by (unfold z; lra). assert (H' : p * I <= z * (1 + u32) + eta32 * I) by (unfold z; lra).
    assert (EI : 0 <= eta32 * I) by nra. assert (zu : 0 <= z * u32) by nra.
    split.
    - apply Rle_trans with (2 := W1). apply Rle_trans with ((z * (1 - u32) - eta32 * I) * (1 - u32) - eta32); [|apply Rplus_le_compat_r; apply Rmult_le_compat_r; lra]. nra.
    - apply Rle_trans with (1 := W2). apply Rle_trans with ((z * (1 + u32) + eta32 * I) * (1 + u32) + eta32); [apply Rplus_le_compat_r; apply Rmult_le_compat_r; lra|]. nra. }
  unfold pixel_intensities. fold a a' b b'. cbn [map].
  destruct (ONE a b' AL BH) as (N1 & L1 & H1). destruct (ONE a' b' AH BH) as (N2 & L2 & H2). destruct (ONE a' b AH BL) as (N3 & L3 & H3). destruct (ONE a b AL BL) as (N4 & L4 & H4).
  split; [intros w [<-|[<-|[<-|[<-|[]]]]]; auto|].
  set (w1 := binary32 (binary32 (a * b') * I)) in *. set (w2 := binary32 (binary32 (a' * b') * I)) in *. set (w3 := binary32 (binary32 (a' * b) * I)) in *. set (w4 := binary32 (binary32 (a * b) * I)) in *.
  rewrite !Rsum_cons, Rsum_nil. clearbody w1 w2 w3 w4.
  set (s := a + a') in *. set (t := b + b') in *. apply Rabs_le_inv in AS. apply Rabs_le_inv in BS.
  assert (ST : a * b' * I + a' * b' * I + a' * b * I + a * b * I = s * t * I) by (unfold s, t; ring).
  assert (STB : 1 - 4 * u32 <= s * t <= 1 + 41 / 10 * u32). { split; nra. }
  assert (STI : (1 - 4 * u32) * I <= s * t * I <= (1 + 41 / 10 * u32) * I) by (split; apply Rmult_le_compat_r; lra).
  assert (ET : 8 * eta32 * (I + 1) <= / 2 ^ 140 * (I + 1)).
  { apply Rmult_le_compat_r; [lra|]. unfold eta32. change 8 with (bpow radix2 3). rewrite <- bpow_plus. change (3 + -149)%Z with (-146)%Z.
    apply Rle_trans with (bpow radix2 (-140)); [apply bpow_le; lia|]. right. change (bpow radix2 (-140)) with (/ IZR (2 ^ 140)). f_equal. symmetry. apply (pow_IZR 2 140). }
  assert (UE : / 2 ^ 21 = 8 * u32) by (unfold u32; lra). rewrite UE.
  assert (Q0 : 0 <= s * t * I) by nra. set (z := s * t * I) in *.
  assert (LO : z * (1 - 3 * u32) - 8 * eta32 * (I + 1) <= w1 + (w2 + (w3 + (w4 + 0)))) by (rewrite <- ST; lra).
  assert (HI : w1 + (w2 + (w3 + (w4 + 0))) <= z * (1 + 3 * u32) + 8 * eta32 * (I + 1)) by (rewrite <- ST; lra).
  assert (ZI : z * u32 <= 11 / 10 * I * u32). { apply Rmult_le_compat_r; nra. }
  apply Rabs_le. split; nra.
Qed.
