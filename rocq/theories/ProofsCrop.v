(** Proofs about the points a crop shows. *)
From Coq Require Import List Arith Reals Lra Lia ZArith Bool ZifyBool.
From Verif Require Import RealSums ModelField ModelVectors ModelNurbs ModelBitmap SpecLosses SpecBitmap ProofsKnots ProofsBitmap.
Import ListNotations.
Local Open Scope R_scope.

Definition entry (n : nat) (f : nat -> R) (k : Z) : R := if ((0 <=? k) && (k <? Z.of_nat n))%Z then f (Z.to_nat k) else 0.
Lemma tent_far : forall t, 1 <= Rabs t -> tent t = 0.
Proof. intros t T. unfold tent. apply Rmax_left. lra. Qed.
Lemma tent_above : forall t, 0 <= t <= 1 -> tent t = 1 - t.
Proof. intros t T. unfold tent. rewrite Rabs_right by lra. apply Rmax_right. lra. Qed.
Lemma tent_below : forall t, -1 <= t <= 0 -> tent t = 1 + t.
Proof. intros t T. unfold tent. rewrite Rabs_left1 by lra. rewrite Rmax_right; lra. Qed.
Lemma line : forall n f x, Rsum (map (fun e => f e * tent (x - INR e)) (seq 0 n))
  = entry n f (floor x) * (1 - (x - IZR (floor x))) + entry n f (floor x + 1) * (x - IZR (floor x)).
Proof.
  intros n f x. pose proof (floor_spec x) as F. set (k := floor x) in *. induction n as [|n IH].
  - cbn. unfold entry. cbn [Z.of_nat]. replace ((0 <=? k)%Z && (k <? 0)%Z) with false by lia. replace ((0 <=? k + 1)%Z && (k + 1 <? 0)%Z) with false by lia. lra.
  - rewrite seq_S, map_app, Rsum_app, IH. cbn [map plus]. rewrite Rsum_cons, Rsum_nil, Rplus_0_r. unfold entry. rewrite Nat2Z.inj_succ.
    rewrite INR_IZR_INZ.
    destruct (Z.eq_dec k (Z.of_nat n)) as [E|E]; [|destruct (Z.eq_dec (k + 1) (Z.of_nat n)) as [E'|E']].
    + rewrite <- E. rewrite tent_above by lra.
      replace ((0 <=? k)%Z && (k <? k)%Z) with false by lia. replace ((0 <=? k)%Z && (k <? Z.succ k)%Z) with true by lia.
      replace ((0 <=? k + 1)%Z && (k + 1 <? k)%Z) with false by lia. replace ((0 <=? k + 1)%Z && (k + 1 <? Z.succ k)%Z) with false by lia.
      replace (Z.to_nat k) with n by lia. ring.
    + rewrite <- E'. rewrite plus_IZR, tent_below by (cbn; lra).
      replace ((0 <=? k + 1)%Z && (k + 1 <? k + 1)%Z) with false by lia. replace ((0 <=? k + 1)%Z && (k + 1 <? Z.succ (k + 1))%Z) with true by lia.
      replace (k <? Z.succ (k + 1))%Z with (k <? k + 1)%Z by lia. replace (Z.to_nat (k + 1)) with n by lia. ring.
    + rewrite tent_far.
      * replace ((0 <=? k)%Z && (k <? Z.succ (Z.of_nat n))%Z) with ((0 <=? k)%Z && (k <? Z.of_nat n)%Z) by lia.
        replace ((0 <=? k + 1)%Z && (k + 1 <? Z.succ (Z.of_nat n))%Z) with ((0 <=? k + 1)%Z && (k + 1 <? Z.of_nat n)%Z) by lia. ring.
      * destruct (Z_lt_le_dec k (Z.of_nat n)) as [L|L].
        -- assert (M : (k + 1 + 1 <= Z.of_nat n)%Z) by lia. apply IZR_le in M. rewrite !plus_IZR in M. rewrite Rabs_left1 by lra. lra.
        -- assert (M : (Z.of_nat n + 1 <= k)%Z) by lia. apply IZR_le in M. rewrite plus_IZR in M. rewrite Rabs_right by lra. lra.
Qed.
Lemma pixel_entry : forall h w b r c, pixel_or_zero h w b r c = entry h (fun u => entry w (b u) c) r.
Proof.
  intros h w b r c. unfold pixel_or_zero, entry. destruct (0 <=? r)%Z, (r <? Z.of_nat h)%Z, (0 <=? c)%Z, (c <? Z.of_nat w)%Z; auto.
Qed.
Lemma entry_linear : forall n f g a c k, entry n (fun u => f u * a + g u * c) k = entry n f k * a + entry n g k * c.
Proof. intros. unfold entry. destruct (_ && _)%bool; ring. Qed.
Theorem bilinear_interpolated : forall h w b x y, bilinear h w b x y = interpolated h w b x y.
Proof.
  intros h w b x y. unfold interpolated, total.
  rewrite (Rsum_map_ext _ (fun u => Rsum (map (fun e => b u e * tent (x - INR e)) (seq 0 w)) * tent (y - INR u)))
    by (intros u _; rewrite <- Rsum_map_scal_r; apply Rsum_map_ext; auto).
  rewrite (line h (fun u => Rsum (map (fun e => b u e * tent (x - INR e)) (seq 0 w)))).
  assert (L : forall k, entry h (fun u => Rsum (map (fun e => b u e * tent (x - INR e)) (seq 0 w))) k
    = entry h (fun u => entry w (b u) (floor x)) k * (1 - (x - IZR (floor x))) + entry h (fun u => entry w (b u) (floor x + 1)) k * (x - IZR (floor x))).
  { intros k. rewrite <- entry_linear. transitivity (entry h (fun u => Rsum (map (fun e => b u e * tent (x - INR e)) (seq 0 w))) k); [reflexivity|].
    assert (X : forall f g, (forall u, f u = g u) -> entry h f k = entry h g k) by (intros f g FG; unfold entry; destruct (_ && _)%bool; auto).
    apply X. intros u. apply line. }
  rewrite !L. unfold bilinear. rewrite !pixel_entry. ring.
Qed.
Theorem crop_points : forall h w b tw th cw ch u e, (2 <= h)%nat -> (2 <= w)%nat -> non_negative_bitmap h w b -> / 10 ^ 8 <= tw -> / 10 ^ 8 <= th ->
  cropped h w b tw th cw ch u e
  = interpolated h w b (steadied_e h w b + cw / tw * (INR e - (INR w - 1) / 2)) (steadied_u h w b + ch / th * (INR u - (INR h - 1) / 2)).
Proof.
  intros h w b tw th cw ch u e H W N TW TH. pose proof mass_pos as MP. pose proof (total_nonneg h w b N) as TN. unfold cropped, normalized_center. change (pixel_sum h w) with (total h w).
  rewrite bilinear_interpolated. fold mass_eps in *. rewrite !Rmax_left by auto.
  assert (H2 : 2 <= INR h) by (apply (le_INR 2); auto). assert (W2 : 2 <= INR w) by (apply (le_INR 2); auto).
  assert (S : forall s t c n i, (2 <= n)%nat -> 2 <= INR n -> 0 < t -> (s / t * linspace (-1) 1 n i + c + 1) / 2 * (INR n - 1) = (c + 1) / 2 * (INR n - 1) + s / t * (INR i - (INR n - 1) / 2)).
  { intros s t c n i N2 NI T. unfold linspace. destruct (Nat.leb_spec n 1); [lia|]. rewrite minus_INR by lia. cbn [INR]. field. lra. }
  rewrite !S by (auto; lra). rewrite (normalized_moment h w b (fun _ e => e) w), (normalized_moment h w b (fun u _ => u) h) by (first [lia | lra]).
  unfold steadied_e, steadied_u. fold mass_eps. f_equal; field; lra.
Qed.
Theorem crop_whole : forall h w b tw th u e, (2 <= h)%nat -> (2 <= w)%nat -> non_negative_bitmap h w b -> / 10 ^ 8 <= tw -> / 10 ^ 8 <= th ->
  steadied_e h w b = (INR w - 1) / 2 -> steadied_u h w b = (INR h - 1) / 2 -> (u < h)%nat -> (e < w)%nat -> cropped h w b tw th tw th u e = b u e.
Proof.
  intros h w b tw th u e H W N TW TH CE CU U E. pose proof mass_pos as MP. fold mass_eps in *. rewrite crop_points by auto. rewrite CE, CU.
  replace (tw / tw) with 1 by (field; lra). replace (th / th) with 1 by (field; lra).
  replace ((INR w - 1) / 2 + 1 * (INR e - (INR w - 1) / 2)) with (INR e) by lra. replace ((INR h - 1) / 2 + 1 * (INR u - (INR h - 1) / 2)) with (INR u) by lra.
  rewrite <- bilinear_interpolated. apply bilinear_pixel; auto.
Qed.
