(** Proofs about counts and indices computed in floating point (C112, C113). *)
From Coq Require Import List Arith ZArith Reals Lra Lia Psatz.
From Flocq Require Import Core Sterbenz Relative.
From Verif Require Import ModelBlocking ModelFloats.
Import ListNotations.
Local Open Scope R_scope.

Section Format.
Variables emin prec : Z.
Hypothesis prec_pos : (1 < prec)%Z.
Hypothesis emin_small : (emin + prec <= 0)%Z.
Let fexp := FLT_exp emin prec.
Let rnd := round radix2 fexp ZnearestE.
Local Instance prec_gt : Prec_gt_0 prec. Proof. unfold Prec_gt_0. lia. Qed.
Local Instance valid : Valid_exp fexp. Proof. unfold fexp. apply FLT_exp_valid. apply prec_gt. Qed.
Lemma integer_format : forall z, (0 <= z <= 2 ^ prec)%Z -> generic_format radix2 fexp (IZR z).
Proof.
  intros z Z. destruct (Z.eq_dec z (2 ^ prec)) as [->|N].
  - replace (IZR (2 ^ prec)) with (bpow radix2 prec) by (rewrite <- IZR_Zpower by lia; reflexivity). apply generic_format_FLT_bpow; [apply prec_gt|lia].
  - apply generic_format_FLT. apply (FLT_spec _ _ _ _ (Float radix2 z 0)); cbn; [unfold F2R; cbn; lra|rewrite Z.abs_eq by lia; change (z < 2 ^ prec)%Z; lia|lia].
Qed.
Lemma rounds_below : forall k v, generic_format radix2 fexp k -> 1 <= k -> v <= k - k * bpow radix2 (- prec) -> rnd v < k.
Proof.
  intros k v FK K V. set (u := pred radix2 fexp k).
  assert (FU : generic_format radix2 fexp u) by (apply generic_format_pred; auto with typeclass_instances).
  assert (UK : u < k) by (apply pred_lt_id; lra).
  assert (H : / 2 <= u).
  { apply pred_ge_gt; auto with typeclass_instances; [|lra]. change (/ 2) with (bpow radix2 (- 1)). apply generic_format_FLT_bpow; [apply prec_gt|lia]. }
  assert (SU : k = u + ulp radix2 fexp u). { rewrite <- succ_eq_pos by lra. unfold u. rewrite succ_pred; auto with typeclass_instances. }
  assert (UL : ulp radix2 fexp u <= u * bpow radix2 (1 - prec)).
  { rewrite <- (Rabs_pos_eq u) at 2 by lra. apply ulp_FLT_le. rewrite Rabs_pos_eq by lra. apply Rle_trans with (bpow radix2 (- 1)); [apply bpow_le; lia|exact H]. }
  assert (B : bpow radix2 (1 - prec) = 2 * bpow radix2 (- prec)). { replace (1 - prec)%Z with (1 + - prec)%Z by lia. rewrite bpow_plus. reflexivity. }
  pose proof (bpow_gt_0 radix2 (- prec)) as BP. rewrite B in UL.
  apply Rle_lt_trans with u; auto. apply round_N_le_midp; auto with typeclass_instances. unfold u at 2. rewrite succ_pred by auto with typeclass_instances. nra.
Qed.
Lemma rounds_above : forall j v, generic_format radix2 fexp j -> j <= v -> j <= rnd v.
Proof. intros j v F V. rewrite <- (round_generic radix2 fexp ZnearestE j F). apply round_le; auto with typeclass_instances. Qed.
Lemma rounds_upto : forall j v, generic_format radix2 fexp j -> v <= j -> rnd v <= j.
Proof. intros j v F V. rewrite <- (round_generic radix2 fexp ZnearestE j F). apply round_le; auto with typeclass_instances. Qed.
Lemma rounds_floor : forall z v, (0 <= z < 2 ^ prec)%Z -> IZR z <= v -> v <= IZR (z + 1) - IZR (z + 1) * bpow radix2 (- prec) -> Zfloor (rnd v) = z /\ Ztrunc (rnd v) = z.
Proof.
  intros z v Z L U. assert (A : IZR z <= rnd v) by (apply rounds_above; auto; apply integer_format; lia).
  assert (B : rnd v < IZR (z + 1)). { apply rounds_below; auto; [apply integer_format; lia|apply IZR_le; lia]. }
  assert (F : Zfloor (rnd v) = z) by (apply Zfloor_imp; auto). split; auto. rewrite Ztrunc_floor; auto. apply Rle_trans with (IZR z); auto. apply IZR_le. lia.
Qed.
Lemma rounds_error : forall v, 0 <= v -> rnd v <= v * (1 + bpow radix2 (- prec)) + bpow radix2 emin /\ v * (1 - bpow radix2 (- prec)) - bpow radix2 emin <= rnd v /\ 0 <= rnd v.
Proof.
  intros v V. destruct (error_N_FLT radix2 emin prec ltac:(lia) (fun n => negb (Z.even n)) v) as (eps & eta & E1 & E2 & _ & E). fold fexp in E. fold rnd in E. rewrite E.
  replace (/ 2 * bpow radix2 (- prec + 1)) with (bpow radix2 (- prec)) in E1 by (rewrite bpow_plus; cbn; lra).
  pose proof (bpow_gt_0 radix2 emin). apply Rabs_le_inv in E1. apply Rabs_le_inv in E2.
  split; [|split]; [nra|nra|]. rewrite <- E. apply (rounds_above 0); auto. apply generic_format_0.
Qed.
End Format.

Lemma INR_Z : forall n, INR n = IZR (Z.of_nat n).
Proof. intros. apply INR_IZR_INZ. Qed.
Lemma b53 : bpow radix2 (Z.opp 53) = / IZR (2 ^ 53). Proof. reflexivity. Qed.
Lemma b24 : bpow radix2 (Z.opp 24) = / IZR (2 ^ 24). Proof. reflexivity. Qed.

(** ** Integer quotients *)
Lemma quotient_floor : forall a b, (0 < b)%nat -> (Z.of_nat a + Z.of_nat b <= 2 ^ 53)%Z ->
  let q := Z.of_nat (a / b) in IZR q <= INR a / INR b /\ INR a / INR b <= IZR (q + 1) - / INR b /\ INR b * IZR (q + 1) <= IZR (2 ^ 53).
Proof.
  intros a b B AB q. pose proof (Nat.div_mod a b ltac:(lia)) as D. pose proof (Nat.mod_upper_bound a b ltac:(lia)) as M.
  assert (PB : 0 < INR b) by (apply lt_0_INR; lia). unfold q.
  assert (E : INR a = INR b * INR (a / b) + INR (a mod b)) by (rewrite <- mult_INR, <- plus_INR; f_equal; lia).
  assert (M1 : 0 <= INR (a mod b)) by apply pos_INR. assert (M2 : INR (a mod b) <= INR b - 1). { replace 1 with (INR 1) by reflexivity. rewrite <- minus_INR by lia. apply le_INR. lia. }
  rewrite plus_IZR, <- INR_Z. split; [|split].
  - apply Rmult_le_reg_r with (INR b); auto. unfold Rdiv. rewrite Rmult_assoc, Rinv_l by lra. lra.
  - apply Rmult_le_reg_r with (INR b); auto. unfold Rdiv. rewrite Rmult_assoc, Rinv_l by lra. rewrite Rmult_minus_distr_r, Rinv_l by lra. lra.
  - replace (INR b * (INR (a / b) + 1)) with (IZR (Z.of_nat (b * (a / b) + b))). 2: { rewrite <- INR_Z, plus_INR, mult_INR. ring. }
    apply IZR_le. nia.
Qed.
Theorem samples_exact : forall total heliostats, (0 < heliostats)%nat -> (Z.of_nat total + Z.of_nat heliostats <= 2 ^ 53)%Z ->
  samples_per_heliostat total heliostats = Z.of_nat (total / heliostats).
Proof.
  intros a b B AB. unfold samples_per_heliostat, binary64. destruct (quotient_floor a b B AB) as (L & U & K).
  assert (PB : 0 < INR b) by (apply lt_0_INR; lia). pose proof (Nat.div_le_upper_bound a b a ltac:(lia) ltac:(nia)).
  apply (rounds_floor (-1074) 53); try lia; auto. apply Rle_trans with (1 := U). rewrite b53.
  set (q := IZR (Z.of_nat (a / b) + 1)) in *. assert (q * / IZR (2 ^ 53) <= / INR b); [|lra].
  apply Rmult_le_reg_r with (INR b); auto. rewrite Rinv_l by lra. apply Rmult_le_reg_r with (IZR (2 ^ 53)); [apply IZR_lt; reflexivity|].
  replace (q * / IZR (2 ^ 53) * INR b * IZR (2 ^ 53)) with (INR b * q) by (field; apply IZR_neq; discriminate). lra.
Qed.

(** ** Fractions *)
Theorem fraction_below : forall samples fraction, is_binary64 fraction -> 0 <= fraction < 1 -> (1 <= samples)%nat -> (Z.of_nat samples <= 2 ^ 53)%Z ->
  (0 <= test_samples samples fraction < Z.of_nat samples)%Z.
Proof.
  intros n f F (F0 & F1) N NB. unfold test_samples, binary64. set (v := INR n * f).
  assert (FU : f <= 1 - bpow radix2 (Z.opp 53)).
  { assert (P : f <= pred radix2 (FLT_exp (-1074) 53) 1).
    { apply pred_ge_gt; auto; [apply FLT_exp_valid; reflexivity|]. change 1 with (bpow radix2 0). apply generic_format_FLT_bpow; [reflexivity|lia]. }
    change 1 with (bpow radix2 0) in P. rewrite pred_bpow in P. cbn [FLT_exp] in P. unfold FLT_exp in P. replace (Z.max (0 - 53) (-1074)) with (- 53)%Z in P by reflexivity. exact P. }
  assert (PN : 1 <= INR n) by (apply (le_INR 1); auto). pose proof (bpow_gt_0 radix2 (- 53)).
  assert (B : round radix2 (FLT_exp (-1074) 53) ZnearestE v < INR n).
  { apply (rounds_below (-1074) 53); try lia; auto; [rewrite INR_Z; apply (integer_format (-1074) 53); lia|unfold v; nra]. }
  assert (A : 0 <= round radix2 (FLT_exp (-1074) 53) ZnearestE v).
  { apply (rounds_above (-1074) 53 ltac:(lia)); [apply generic_format_0|unfold v; nra]. }
  rewrite Ztrunc_floor by auto. split; [apply Zfloor_lub; auto|]. rewrite INR_Z in B. apply lt_IZR. apply Rle_lt_trans with (2 := B). apply Zfloor_lb.
Qed.

(** ** Square roots *)
Lemma root_floor : forall v s, (0 <= s)%Z -> IZR (s * s) <= v -> 0 <= v -> forall gap, 0 < gap -> v <= IZR ((s + 1) * (s + 1)) - gap ->
  IZR (s + 1) * IZR (s + 1) * / IZR (2 ^ 52) <= gap -> (s < 2 ^ 26)%Z -> Ztrunc (binary64 (sqrt v)) = s.
Proof.
  intros v s S L V gap G U K SB. unfold binary64. set (k := IZR (s + 1)) in *. assert (K1 : 1 <= k) by (apply IZR_le; lia).
  apply (rounds_floor (-1074) 53); try lia.
  - apply Rsqr_incr_0_var; [|apply sqrt_pos]. unfold Rsqr. rewrite sqrt_sqrt by auto. rewrite <- mult_IZR. auto.
  - fold k. rewrite b53. rewrite mult_IZR in U. fold k in U. set (e := / IZR (2 ^ 53)). assert (E0 : 0 < e) by (apply Rinv_0_lt_compat, IZR_lt; reflexivity).
    assert (E1 : e <= / 2). { apply Rinv_le_contravar; [lra|apply IZR_le; discriminate]. }
    assert (E2 : / IZR (2 ^ 52) = 2 * e). { unfold e. replace (2 ^ 53)%Z with (2 * 2 ^ 52)%Z by reflexivity. rewrite mult_IZR. field. apply IZR_neq. discriminate. }
    rewrite E2 in K. assert (H0 : 0 <= k - k * e) by nra.
    apply Rsqr_incr_0_var; auto. unfold Rsqr. rewrite sqrt_sqrt by auto. nra.
Qed.
Theorem points_exact : forall points facets, (0 < facets)%nat -> (16 * (Z.of_nat points + Z.of_nat facets) <= 2 ^ 52)%Z ->
  points_per_facet_and_direction points facets = Z.of_nat (Nat.sqrt (points / facets)).
Proof.
  intros a b B AB. unfold points_per_facet_and_direction. destruct (quotient_floor a b B ltac:(lia)) as (L & U & _). set (q := Z.of_nat (a / b)) in *.
  assert (PB : 1 <= INR b) by (apply (le_INR 1); lia). set (v := binary64 (INR a / INR b)).
  assert (QB : INR b * IZR (q + 1) <= IZR (2 ^ 48)).
  { unfold q. rewrite plus_IZR, <- INR_Z. replace (INR b * (INR (a / b) + 1)) with (IZR (Z.of_nat (b * (a / b) + b))). 2: { rewrite <- INR_Z, plus_INR, mult_INR. ring. }
    pose proof (Nat.mul_div_le a b ltac:(lia)). apply IZR_le. lia. }
  assert (Q0 : 0 <= IZR q) by (apply IZR_le; unfold q; lia).
  assert (Q1 : IZR (q + 1) = IZR q + 1) by (rewrite plus_IZR; auto).
  assert (QZ : (q < 2 ^ 53)%Z). { apply lt_IZR. apply Rlt_le_trans with (IZR (2 ^ 48)); [nra|apply IZR_le; discriminate]. }
  assert (VL : IZR q <= v). { apply (rounds_above (-1074) 53 ltac:(lia)); auto. apply (integer_format (-1074) 53); lia. }
  assert (D0 : 0 <= INR a / INR b) by lra.
  destruct (rounds_error (-1074) 53 ltac:(lia) (INR a / INR b) D0) as (VU & _ & _). fold (binary64 (INR a / INR b)) in VU. fold v in VU.
  assert (BE : bpow radix2 (Z.opp 53) = / 32 * / IZR (2 ^ 48)). { rewrite b53. replace (2 ^ 53)%Z with (32 * 2 ^ 48)%Z by reflexivity. rewrite mult_IZR. field. apply IZR_neq. discriminate. }
  assert (BM : bpow radix2 (-1074) <= / 32 * / IZR (2 ^ 48)). { rewrite <- BE. apply bpow_le. lia. }
  rewrite BE in VU. set (w := / IZR (2 ^ 48)) in *. assert (W0 : 0 < w) by (apply Rinv_0_lt_compat, IZR_lt; reflexivity).
  assert (QW : INR b * IZR (q + 1) * w <= 1). { unfold w. apply Rmult_le_reg_r with (IZR (2 ^ 48)); [apply IZR_lt; reflexivity|]. rewrite Rmult_assoc, Rinv_l by (apply IZR_neq; discriminate). lra. }
  assert (IB : 0 < / INR b) by (apply Rinv_0_lt_compat; lra).
  assert (QI : IZR (q + 1) * w <= / INR b). { apply Rmult_le_reg_l with (INR b); [lra|]. rewrite Rinv_r by lra. lra. }
  assert (VG : v <= IZR (q + 1) - / 2 * / INR b).
  { apply Rle_trans with (1 := VU). assert (AQ : INR a / INR b <= IZR (q + 1)) by lra. assert (A1 : INR a / INR b * w <= IZR (q + 1) * w) by (apply Rmult_le_compat_r; lra).
    assert (A2 : w <= IZR (q + 1) * w) by nra. generalize dependent (INR a / INR b). intros; lra. }
  set (s := Nat.sqrt (a / b)). pose proof (Nat.sqrt_spec (a / b) ltac:(lia)) as (S1 & S2). fold s in S1, S2.
  assert (SQ : (Z.of_nat s * Z.of_nat s <= q < (Z.of_nat s + 1) * (Z.of_nat s + 1))%Z) by (unfold q; nia).
  assert (SK : ((Z.of_nat s + 1) * (Z.of_nat s + 1) <= 4 * (q + 1))%Z) by nia.
  apply (root_floor v (Z.of_nat s)) with (gap := / 2 * / INR b); try lia; try lra.
  - apply Rle_trans with (2 := VL). apply IZR_le. lia.
  - apply Rle_trans with (1 := VG). apply Rplus_le_compat_r. apply IZR_le. lia.
  - rewrite <- mult_IZR. apply Rle_trans with (IZR (4 * (q + 1)) * / IZR (2 ^ 52)).
    + apply Rmult_le_compat_r; [apply Rlt_le, Rinv_0_lt_compat, IZR_lt; reflexivity|apply IZR_le; lia].
    + replace (/ IZR (2 ^ 52)) with (/ 16 * w). 2: { unfold w. replace (2 ^ 52)%Z with (16 * 2 ^ 48)%Z by reflexivity. rewrite mult_IZR. field. apply IZR_neq. discriminate. }
      rewrite mult_IZR. nra.
  - assert (q < 2 ^ 48)%Z. { apply lt_IZR. nra. } nia.
Qed.

(** ** Corner indices *)
Lemma exact_integer : forall z, (0 <= z <= 2 ^ 53)%Z -> binary64 (IZR z) = IZR z.
Proof. intros z Z. apply round_generic; auto with typeclass_instances. apply (integer_format (-1074) 53); lia. Qed.
Theorem corners_exact : forall n, (1 <= n)%nat -> (Z.of_nat n <= 2 ^ 24)%Z -> forall points, points = (4 * (n * n))%nat ->
  corner_indices_float points = map Z.of_nat [points / 2; n - 1; points / 2 - 1; points - n]%nat.
Proof.
  intros n N NB points ->. unfold corner_indices_float. set (z := Z.of_nat n) in *. assert (Z1 : (1 <= z)%Z) by (unfold z; lia).
  assert (IN : INR (4 * (n * n)) = IZR (4 * (z * z))) by (rewrite INR_Z; f_equal; unfold z; lia).
  assert (H2 : IZR (4 * (z * z)) / 2 = IZR (2 * (z * z))) by (rewrite !mult_IZR; field).
  assert (H4 : IZR (4 * (z * z)) / 4 = IZR (z * z)) by (rewrite !mult_IZR; field).
  assert (HS : sqrt (IZR (z * z)) = IZR z) by (rewrite mult_IZR; apply sqrt_square; apply IZR_le; lia).
  assert (D2 : (4 * (n * n) / 2 = 2 * (n * n))%nat) by (replace (4 * (n * n))%nat with (2 * (n * n) * 2)%nat by lia; apply Nat.div_mul; lia).
  rewrite IN, H2, H4, D2. cbn [map].
  rewrite (exact_integer (2 * (z * z))) by nia. rewrite (exact_integer (z * z)) by nia. rewrite HS. rewrite (exact_integer z) by lia.
  rewrite <- !minus_IZR. rewrite !exact_integer by nia. rewrite !Ztrunc_IZR.
  repeat (apply f_equal2; [unfold z; nia|]). reflexivity.
Qed.

(** ** Knot spans in single precision *)
Lemma below_one : forall x, is_binary32 x -> x < 1 -> x <= 1 - bpow radix2 (Z.opp 24).
Proof.
  intros x F X. assert (P : x <= pred radix2 (FLT_exp (-149) 24) 1).
  { apply pred_ge_gt; auto; [apply FLT_exp_valid; reflexivity|]. change 1 with (bpow radix2 0). apply generic_format_FLT_bpow; [reflexivity|lia]. }
  change 1 with (bpow radix2 0) in P. rewrite pred_bpow in P. unfold FLT_exp in P. replace (Z.max (0 - 24) (-149)) with (Z.opp 24) in P by reflexivity. exact P.
Qed.
Theorem span_valid : forall n p x, (p < n)%nat -> (Z.of_nat (n - p) <= 2 ^ 24)%Z -> is_binary32 x -> 0 <= x < 1 ->
  (Z.of_nat p <= uniform_span_float n p x < Z.of_nat n)%Z.
Proof.
  intros n p x PN B F (X0 & X1). unfold uniform_span_float, binary32. set (k := INR (n - p)).
  assert (K : 1 <= k) by (apply (le_INR 1); lia). pose proof (below_one x F X1) as XB.
  assert (FK : generic_format radix2 (FLT_exp (-149) 24) k) by (unfold k; rewrite INR_Z; apply (integer_format (-149) 24); lia).
  assert (U : round radix2 (FLT_exp (-149) 24) ZnearestE (x * k) < k) by (apply (rounds_below (-149) 24); auto; try lia; nra).
  assert (L : 0 <= round radix2 (FLT_exp (-149) 24) ZnearestE (x * k)) by (apply (rounds_above (-149) 24 ltac:(lia)); [apply generic_format_0|nra]).
  assert (A : (0 <= Zfloor (round radix2 (FLT_exp (-149) 24) ZnearestE (x * k)))%Z) by (apply Zfloor_lub; auto).
  assert (C : (Zfloor (round radix2 (FLT_exp (-149) 24) ZnearestE (x * k)) < Z.of_nat (n - p))%Z).
  { apply lt_IZR. rewrite <- INR_Z. apply Rle_lt_trans with (2 := U). apply Zfloor_lb. }
  lia.
Qed.
Lemma grid_last_below : is_binary32 grid_last /\ grid_last < 1 /\ / 2 <= grid_last.
Proof.
  unfold grid_last, is_binary32, binary32. split; [apply generic_format_round; auto with typeclass_instances; apply FLT_exp_valid; reflexivity|].
  assert (A : bpow radix2 (Z.opp 24) <= binary64 (/ 10 ^ 7)).
  { apply (rounds_above (-1074) 53 ltac:(lia)); [apply generic_format_FLT_bpow; [reflexivity|lia]|]. rewrite b24. apply Rinv_le_contravar; [lra|]. change (2 ^ 24)%Z with 16777216%Z. lra. }
  assert (A' : binary64 (/ 10 ^ 7) <= bpow radix2 (Z.opp 2)).
  { apply (rounds_upto (-1074) 53 ltac:(lia)); [apply generic_format_FLT_bpow; [reflexivity|lia]|]. change (bpow radix2 (Z.opp 2)) with (/ 4). apply Rinv_le_contravar; lra. }
  assert (B : binary64 (1 - binary64 (/ 10 ^ 7)) <= 1 - bpow radix2 (Z.opp 24)).
  { apply (rounds_upto (-1074) 53 ltac:(lia)); [|lra]. replace (1 - bpow radix2 (Z.opp 24)) with (F2R (Float radix2 (2 ^ 24 - 1) (-24))) by (unfold F2R; cbn; lra).
    apply generic_format_FLT. apply (FLT_spec _ _ _ _ (Float radix2 (2 ^ 24 - 1) (-24))); cbn; [reflexivity|lia|lia]. }
  assert (C : / 2 <= binary64 (1 - binary64 (/ 10 ^ 7))).
  { apply (rounds_above (-1074) 53 ltac:(lia)); [change (/ 2) with (bpow radix2 (-1)); apply generic_format_FLT_bpow; [reflexivity|lia]|]. change (bpow radix2 (Z.opp 2)) with (/ 4) in A'. lra. }
  split.
  - apply (rounds_below (-149) 24); try lia; [|lra|lra]. change 1 with (bpow radix2 0). apply generic_format_FLT_bpow; [reflexivity|lia].
  - apply (rounds_above (-149) 24 ltac:(lia)); auto. change (/ 2) with (bpow radix2 (-1)). apply generic_format_FLT_bpow; [reflexivity|lia].
Qed.
Lemma grid_first_small : is_binary32 grid_first /\ 0 <= grid_first <= / 16.
Proof.
  unfold grid_first, is_binary32, binary32. split; [apply generic_format_round; auto with typeclass_instances; apply FLT_exp_valid; reflexivity|].
  assert (A : 0 <= binary64 (/ 10 ^ 7)). { apply (rounds_above (-1074) 53 ltac:(lia)); [apply generic_format_0|]. apply Rlt_le, Rinv_0_lt_compat. lra. }
  assert (A' : binary64 (/ 10 ^ 7) <= bpow radix2 (Z.opp 4)).
  { apply (rounds_upto (-1074) 53 ltac:(lia)); [apply generic_format_FLT_bpow; [reflexivity|lia]|]. change (bpow radix2 (Z.opp 4)) with (/ 16). apply Rinv_le_contravar; lra. }
  split; [apply (rounds_above (-149) 24 ltac:(lia)); [apply generic_format_0|auto]|].
  change (/ 16) with (bpow radix2 (Z.opp 4)). apply (rounds_upto (-149) 24 ltac:(lia)); auto. apply generic_format_FLT_bpow; [reflexivity|lia].
Qed.
Lemma linspace_within : forall first last steps i, is_binary32 first -> is_binary32 last -> 0 <= first <= / 16 -> / 2 <= last <= 1 -> (i < steps)%nat -> (Z.of_nat steps <= 2 ^ 24)%Z ->
  is_binary32 (linspace_float first last steps i) /\ 0 <= linspace_float first last steps i <= last.
Proof.
  intros first last steps i FF FL F L I SB. unfold linspace_float. destruct (Nat.eqb_spec steps 1) as [E|E]; [split; [auto|lra]|].
  set (m := INR (steps - 1)). assert (M1 : 1 <= m) by (apply (le_INR 1); lia).
  assert (M2 : m <= 16777216). { unfold m. rewrite INR_Z. apply IZR_le. change (2 ^ 24)%Z with 16777216%Z in SB. lia. }
  set (d := binary32 (last - first)). set (step := binary32 (d / m)).
  assert (D : 0 <= d <= last). { split; [apply (rounds_above (-149) 24 ltac:(lia)); [apply generic_format_0|lra]|apply (rounds_upto (-149) 24 ltac:(lia)); [auto|lra]]. }
  assert (DM : 0 <= d / m) by (apply Rmult_le_pos; [lra|apply Rlt_le, Rinv_0_lt_compat; lra]).
  destruct (rounds_error (-149) 24 ltac:(lia) (d / m) DM) as (S1 & _ & S0). fold (binary32 (d / m)) in S1, S0. fold step in S1, S0. rewrite b24 in S1.
  assert (EB : bpow radix2 (-149) <= / 10 ^ 20).
  { apply Rle_trans with (bpow radix2 (-70)); [apply bpow_le; lia|]. change (bpow radix2 (-70)) with (/ IZR (2 ^ 70)). apply Rinv_le_contravar; [lra|].
    replace (IZR (2 ^ 70)) with 1180591620717411303424 by reflexivity. lra. }
  set (eta := bpow radix2 (-149)) in *. assert (E0 : 0 < eta) by apply bpow_gt_0. change (IZR (2 ^ 24)) with 16777216 in S1.
  assert (HALF : forall j, (2 * j <= steps - 1)%nat -> 0 <= binary32 (step * INR j) <= 6 / 10 * last).
  { intros j J. assert (J0 : 0 <= INR j) by apply pos_INR. assert (J1 : 2 * INR j <= m). { unfold m. replace 2 with (INR 2) by reflexivity. rewrite <- mult_INR. apply le_INR. auto. }
    assert (P : 0 <= step * INR j) by nra. destruct (rounds_error (-149) 24 ltac:(lia) (step * INR j) P) as (T1 & _ & T0).
    fold (binary32 (step * INR j)) in T1, T0. rewrite b24 in T1. fold eta in T1. change (IZR (2 ^ 24)) with 16777216 in T1.
    assert (X : step * INR j <= 51 / 100 * last).
    { apply Rle_trans with ((d / m * (1 + / 16777216) + eta) * INR j); [apply Rmult_le_compat_r; auto|].
      assert (Y : d / m * INR j <= last / 2). { apply Rmult_le_reg_r with m; [lra|]. replace (d / m * INR j * m) with (d * INR j) by (field; lra). nra. }
      assert (Z : eta * INR j <= / 500). { apply Rle_trans with (/ 10000000000 * 16777216); [apply Rmult_le_compat; try lra|lra]. }
      replace ((d / m * (1 + / 16777216) + eta) * INR j) with (d / m * INR j * (1 + / 16777216) + eta * INR j) by ring. lra. }
    split; auto. lra. }
  assert (R : forall v, 0 <= v <= last -> is_binary32 (binary32 v) /\ 0 <= binary32 v <= last).
  { intros v V. split; [apply generic_format_round; auto with typeclass_instances; apply FLT_exp_valid; reflexivity|].
    split; [apply (rounds_above (-149) 24 ltac:(lia)); [apply generic_format_0|lra]|apply (rounds_upto (-149) 24 ltac:(lia)); [auto|lra]]. }
  pose proof (Nat.div_mod steps 2 ltac:(lia)) as DMS. pose proof (Nat.mod_upper_bound steps 2 ltac:(lia)).
  destruct (Nat.ltb_spec i (steps / 2)) as [H1|H1]; apply R.
  - pose proof (HALF i ltac:(lia)). lra.
  - pose proof (HALF (steps - 1 - i)%nat ltac:(lia)). lra.
Qed.
Theorem grid_spans : forall steps i n p, (i < steps)%nat -> (Z.of_nat steps <= 2 ^ 24)%Z -> (p < n)%nat -> (Z.of_nat (n - p) <= 2 ^ 24)%Z ->
  (Z.of_nat p <= uniform_span_float n p (linspace_float grid_first grid_last steps i) < Z.of_nat n)%Z.
Proof.
  intros steps i n p I S P N. destruct grid_last_below as (L1 & L2 & L3). destruct grid_first_small as (F1 & F2).
  destruct (linspace_within grid_first grid_last steps i F1 L1 F2 ltac:(lra) I S) as (X1 & X2). apply span_valid; auto. lra.
Qed.
(** The bound of the grid is needed: a number that rounds to one has no span. *)
Theorem one_invalid : forall n p, (p < n)%nat -> (Z.of_nat (n - p) <= 2 ^ 24)%Z -> uniform_span_float n p (binary32 (1 - / 10 ^ 9)) = Z.of_nat n.
Proof.
  intros n p P B. assert (O : binary32 (1 - / 10 ^ 9) = 1).
  { apply Rle_antisym.
    - apply (rounds_upto (-149) 24 ltac:(lia)); [change 1 with (bpow radix2 0); apply generic_format_FLT_bpow; [reflexivity|lia]|]. assert (0 < / 10 ^ 9) by (apply Rinv_0_lt_compat; lra). lra.
    - apply round_N_ge_midp; [apply FLT_exp_valid; reflexivity|change 1 with (bpow radix2 0); apply generic_format_FLT_bpow; [reflexivity|lia]|].
      change 1 with (bpow radix2 0) at 2. rewrite pred_bpow. unfold FLT_exp. replace (Z.max (0 - 24) (-149)) with (Z.opp 24) by reflexivity. rewrite b24. change (bpow radix2 0) with 1. change (IZR (2 ^ 24)) with 16777216. lra. }
  rewrite O. unfold uniform_span_float. rewrite Rmult_1_l. unfold binary32. rewrite round_generic; auto with typeclass_instances; [|rewrite INR_Z; apply (integer_format (-149) 24); lia].
  rewrite INR_Z, Zfloor_IZR. lia.
Qed.
Theorem corners_index : forall n, (1 <= n)%nat -> (Z.of_nat n <= 2 ^ 24)%Z ->
  corner_indices_float (4 * (n * n)) = map Z.of_nat (corner_indices_by_index (4 * (n * n))).
Proof.
  intros n N B. rewrite (corners_exact n N B _ eq_refl). unfold corner_indices_by_index.
  replace (Nat.sqrt (4 * (n * n) / 4)) with n; [reflexivity|]. rewrite Nat.mul_comm, Nat.div_mul by lia. symmetry. apply Nat.sqrt_square.
Qed.
