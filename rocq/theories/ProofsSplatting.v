From Coq Require Import List Arith ZArith Reals Bool Lia Lra Permutation Sorted.
From Verif Require Import RealSums ModelField ModelSplatting SpecSplatting.
Import ListNotations.
Local Open Scope R_scope.

(** * Truncation *)
Lemma Int_part_bounds : forall x, IZR (Int_part x) <= x < IZR (Int_part x) + 1.
Proof. intros. destruct (base_Int_part x). lra. Qed.

Lemma to_long_nonneg : forall x, 0 <= x -> IZR (to_long x) <= x < IZR (to_long x) + 1 /\ (0 <= to_long x)%Z.
Proof.
  intros x H. unfold to_long. destruct (Rle_dec 0 x); [|lra].
  pose proof (Int_part_bounds x) as B. split; auto.
  assert (-1 < IZR (Int_part x)) by lra. apply (lt_IZR (-1)) in H0. lia.
Qed.

Lemma to_long_lt : forall x n, 0 <= x -> (to_long x < n)%Z <-> x < IZR n.
Proof.
  intros x n H. destruct (to_long_nonneg x H) as [B _]. split; intros L.
  - assert (to_long x + 1 <= n)%Z by lia. apply IZR_le in H0. rewrite plus_IZR in H0. lra.
  - assert (IZR (to_long x) < IZR n) by lra. apply lt_IZR in H0. lia.
Qed.

Lemma on_bitmap_iff : forall w h r, 0 <= hit_e r -> 0 <= hit_u r ->
  on_bitmap w h r = true <-> inside_grid w h r.
Proof.
  intros w h r He Hu. unfold on_bitmap, inside_grid.
  destruct (to_long_nonneg _ He) as [Be Ne]. destruct (to_long_nonneg _ Hu) as [Bu Nu].
  rewrite !andb_true_iff, !Z.leb_le, !Z.ltb_lt.
  assert (Ee : (to_long (hit_e r) + 1 < Z.of_nat w)%Z <-> hit_e r < INR w - 1).
  { rewrite INR_IZR_INZ. replace (IZR (Z.of_nat w) - 1) with (IZR (Z.of_nat w - 1)) by (rewrite minus_IZR; lra).
    rewrite <- (to_long_lt _ _ He). lia. }
  assert (Eu : (to_long (hit_u r) + 1 < Z.of_nat h)%Z <-> hit_u r < INR h - 1).
  { rewrite INR_IZR_INZ. replace (IZR (Z.of_nat h) - 1) with (IZR (Z.of_nat h - 1)) by (rewrite minus_IZR; lra).
    rewrite <- (to_long_lt _ _ Hu). lia. }
  rewrite Ee, Eu. tauto.
Qed.

(** * scatter_add *)
Lemma add_at_length : forall l i v, List.length (add_at l i v) = List.length l.
Proof. induction l; destruct i; simpl; auto. Qed.

Lemma add_at_nth : forall l i v p, (i < List.length l)%nat ->
  nth p (add_at l i v) 0 = nth p l 0 + (if (i =? p)%nat then v else 0).
Proof.
  induction l; intros i v p H; [simpl in H; lia|].
  destruct i, p; simpl; try lra. apply IHl. simpl in H. lia.
Qed.

Definition in_range (n : nat) (iv : Z * R) : Prop := (0 <= fst iv < Z.of_nat n)%Z.
Definition at_pixel (p : nat) (iv : Z * R) : R := if (fst iv =? Z.of_nat p)%Z then snd iv else 0.

Lemma scatter_add_spec : forall vs bm, Forall (in_range (List.length bm)) vs ->
  exists bm', scatter_add bm vs = Ok bm' /\ List.length bm' = List.length bm
    /\ forall p, nth p bm' 0 = nth p bm 0 + Rsum (map (at_pixel p) vs).
Proof.
  induction vs as [|[i v] vs IH]; intros bm H; simpl.
  - exists bm. split; auto. split; auto. intros. lra.
  - inversion H; subst. unfold in_range in H2. simpl in H2.
    destruct (Z.leb_spec 0 i); [|lia]. destruct (Z.ltb_spec i (Z.of_nat (List.length bm))); [|lia]. simpl.
    destruct (IH (add_at bm (Z.to_nat i) v)) as (bm' & A & B & C).
    { rewrite add_at_length. auto. }
    exists bm'. split; auto. rewrite add_at_length in B. split; auto.
    intros p. rewrite C, add_at_nth by lia. unfold at_pixel. simpl.
    destruct (Nat.eqb_spec (Z.to_nat i) p), (Z.eqb_spec i (Z.of_nat p)); try lia; lra.
Qed.

Definition pixels4 : list nat := [1; 2; 3; 4]%nat.

Lemma contribution_in_range : forall w h k r, (1 <= w)%nat -> (1 <= h)%nat ->
  in_range (h * w) (contribution w h k r).
Proof.
  intros w h k r Hw Hh. unfold contribution, in_range.
  set (le := to_long (hit_e r)). set (lu := to_long (hit_u r)).
  destruct (on_bitmap w h r) eqn:E.
  - unfold on_bitmap in E. fold le lu in E. rewrite !andb_true_iff, !Z.leb_le, !Z.ltb_lt in E.
    destruct E as [[[E1 E2] E3] E4]. rewrite Nat2Z.inj_mul.
    destruct k as [|[|[|[|k]]]]; simpl fst; nia.
  - destruct k as [|[|[|[|k]]]]; simpl fst; nia.
Qed.

Lemma splat_flat_spec : forall w h rays, (1 <= w)%nat -> (1 <= h)%nat ->
  exists flat, splat_flat w h rays = Ok flat /\ List.length flat = (h * w)%nat
    /\ forall p, nth p flat 0 =
         Rsum (map (fun r => Rsum (map (fun k => at_pixel p (contribution w h k r)) pixels4)) rays).
Proof.
  intros w h rays Hw Hh. unfold splat_flat.
  assert (R : forall k n, n = (h * w)%nat -> Forall (in_range n) (map (contribution w h k) rays)).
  { intros k n ->. apply Forall_forall. intros x Hx. apply in_map_iff in Hx.
    destruct Hx as (r & <- & _). apply contribution_in_range; auto. }
  destruct (scatter_add_spec (map (contribution w h 1) rays) (repeat 0 (h * w))) as (b1 & A1 & L1 & N1).
  { apply R. apply repeat_length. }
  rewrite repeat_length in L1. rewrite A1. simpl bind.
  destruct (scatter_add_spec (map (contribution w h 2) rays) b1) as (b2 & A2 & L2 & N2); [auto|].
  rewrite A2. simpl bind.
  destruct (scatter_add_spec (map (contribution w h 3) rays) b2) as (b3 & A3 & L3 & N3); [apply R; congruence|].
  rewrite A3. simpl bind.
  destruct (scatter_add_spec (map (contribution w h 4) rays) b3) as (b4 & A4 & L4 & N4); [apply R; congruence|].
  rewrite A4. exists b4. split; auto. split; [congruence|].
  intros p. rewrite N4, N3, N2, N1.
  assert (Z0 : nth p (repeat 0 (h * w)) 0 = 0).
  { destruct (Nat.lt_ge_cases p (h * w)).
    - apply nth_repeat.
    - apply nth_overflow. rewrite repeat_length. auto. }
  rewrite Z0, !map_map. rewrite Rplus_0_l, <- !Rsum_map_plus.
  apply Rsum_map_ext. intros. simpl. lra.
Qed.

Lemma flat_index : forall (w r c : nat) (i j : Z), (c < w)%nat -> (0 <= i)%Z -> (0 <= j < Z.of_nat w)%Z ->
  (i * Z.of_nat w + j =? Z.of_nat (r * w + c))%Z = ((i =? Z.of_nat r) && (j =? Z.of_nat c))%Z.
Proof.
  intros w r c i j Hc Hi Hj.
  destruct (Z.eqb_spec i (Z.of_nat r)) as [E|E]; simpl.
  - subst. destruct (Z.eqb_spec j (Z.of_nat c)); apply Z.eqb_eq || apply Z.eqb_neq; nia.
  - apply Z.eqb_neq. rewrite Nat2Z.inj_add, Nat2Z.inj_mul. intros Q. apply E.
    assert (i < Z.of_nat r \/ Z.of_nat r < i)%Z as [L|L] by lia; nia.
Qed.

Lemma hat_low : forall x l c, IZR l <= x < IZR l + 1 -> Z.of_nat c = l -> hat (x - INR c) = IZR l + 1 - x.
Proof.
  intros x l c H E. unfold hat. rewrite INR_IZR_INZ, E. rewrite Rabs_right by lra.
  rewrite Rmax_right; lra.
Qed.
Lemma hat_high : forall x l c, IZR l <= x < IZR l + 1 -> Z.of_nat c = (l + 1)%Z -> hat (x - INR c) = x - IZR l.
Proof.
  intros x l c H E. unfold hat. rewrite INR_IZR_INZ, E, plus_IZR. rewrite Rabs_left1 by lra.
  rewrite Rmax_right; lra.
Qed.
Lemma hat_far : forall x l c, IZR l <= x < IZR l + 1 -> Z.of_nat c <> l -> Z.of_nat c <> (l + 1)%Z ->
  hat (x - INR c) = 0.
Proof.
  intros x l c H N1 N2. unfold hat. rewrite INR_IZR_INZ.
  assert (Z.of_nat c <= l - 1 \/ l + 2 <= Z.of_nat c)%Z as [L|L] by lia; apply IZR_le in L.
  - rewrite minus_IZR in L. rewrite Rabs_right by lra. rewrite Rmax_left; lra.
  - rewrite plus_IZR in L. rewrite Rabs_left1 by lra. rewrite Rmax_left; lra.
Qed.

Lemma single_ray_pixel : forall w h r row c, (c < w)%nat -> 0 <= hit_e r -> 0 <= hit_u r ->
  on_bitmap w h r = true ->
  Rsum (map (fun k => at_pixel (row * w + c) (contribution w h k r)) pixels4)
  = hit_intensity r * hat (hit_e r - INR c) * hat (hit_u r - INR row).
Proof.
  intros w h r row c Hc He Hu HB. unfold contribution, pixels4. simpl map. rewrite HB.
  destruct (to_long_nonneg _ He) as [Be Ne]. destruct (to_long_nonneg _ Hu) as [Bu Nu].
  pose proof HB as E. unfold on_bitmap in E. rewrite !andb_true_iff, !Z.leb_le, !Z.ltb_lt in E.
  destruct E as [[[E1 E2] E3] E4].
  set (le := to_long (hit_e r)) in *. set (lu := to_long (hit_u r)) in *.
  unfold at_pixel. cbn [fst snd].
  replace ((lu + 1) * Z.of_nat w + le + 1)%Z with ((lu + 1) * Z.of_nat w + (le + 1))%Z by lia.
  replace (lu * Z.of_nat w + le + 1)%Z with (lu * Z.of_nat w + (le + 1))%Z by lia.
  rewrite !flat_index by lia. unfold Rsum. simpl fold_right.
  destruct (Z.eq_dec (Z.of_nat c) le) as [C|C]; [|destruct (Z.eq_dec (Z.of_nat c) (le + 1)) as [C'|C']];
  (destruct (Z.eq_dec (Z.of_nat row) lu) as [D|D]; [|destruct (Z.eq_dec (Z.of_nat row) (lu + 1)) as [D'|D']]);
  repeat match goal with |- context [(?a =? ?b)%Z] => destruct (Z.eqb_spec a b); try lia end; simpl;
  try rewrite (hat_low (hit_e r) le c Be C); try rewrite (hat_high (hit_e r) le c Be C');
  try rewrite (hat_far (hit_e r) le c Be C C');
  try rewrite (hat_low (hit_u r) lu row Bu D); try rewrite (hat_high (hit_u r) lu row Bu D');
  try rewrite (hat_far (hit_u r) lu row Bu D D'); lra.
Qed.

Lemma outside_ray_pixel : forall w h r p, on_bitmap w h r = false ->
  Rsum (map (fun k => at_pixel p (contribution w h k r)) pixels4) = 0.
Proof.
  intros w h r p E. unfold contribution, pixels4. simpl map. rewrite E. unfold at_pixel. cbn [fst snd].
  unfold Rsum. cbn [fold_right]. rewrite !Rmult_0_r. destruct (0 =? Z.of_nat p)%Z; lra.
Qed.

Lemma nth_view_rows : forall w h flat r c, (r < h)%nat -> (c < w)%nat ->
  nth c (nth r (view_rows w h flat) []) 0 = nth (r * w + c) flat 0.
Proof.
  intros. unfold view_rows.
  rewrite (nth_indep _ [] ((fun r => map (fun c => nth (r * w + c) flat 0) (seq 0 w)) 0%nat))
    by (rewrite map_length, seq_length; auto).
  rewrite (map_nth (fun r => map (fun c => nth (r * w + c) flat 0) (seq 0 w))).
  rewrite seq_nth by auto. simpl.
  rewrite (nth_indep _ 0 ((fun c => nth (r * w + c) flat 0) 0%nat)) by (rewrite map_length, seq_length; auto).
  rewrite (map_nth (fun c => nth (r * w + c) flat 0)). rewrite seq_nth by auto. auto.
Qed.

Lemma view_rows_length : forall w h flat, List.length (view_rows w h flat) = h.
Proof. intros. unfold view_rows. rewrite map_length, seq_length. auto. Qed.

Lemma sum_view_rows : forall w h flat, List.length flat = (h * w)%nat ->
  Rsum (map Rsum (view_rows w h flat)) = Rsum flat.
Proof.
  intros w h flat L. rewrite (Rsum_nth flat), L. unfold view_rows. rewrite map_map.
  change (Rsum_n h (fun r => Rsum_n w (fun c => nth (r * w + c) flat 0)) = Rsum_n (h * w) (fun i => nth i flat 0)).
  apply (Rsum_n_rows h w (fun i => nth i flat 0)).
Qed.

Definition inb (w h : nat) (r : ray_hit) : bool := on_bitmap w h r.

Lemma Rsum_filter : forall {A} (p : A -> bool) (f : A -> R) l,
  Rsum (map f (filter p l)) = Rsum (map (fun x => if p x then f x else 0) l).
Proof. induction l; simpl; auto. destruct (p a); simpl; rewrite IHl; lra. Qed.

(** Full functional description of the bitmap. *)
Lemma splatting_pixels : forall w h rays, (1 <= w)%nat -> (1 <= h)%nat ->
  (forall r, In r rays -> 0 <= hit_e r /\ 0 <= hit_u r) ->
  exists image, bilinear_splatting w h rays = Ok image /\ is_image w h image
    /\ forall r c, (r < h)%nat -> (c < w)%nat ->
       pixel image h r c
       = sum_where (on_bitmap w h)
           (fun ray => hit_intensity ray * hat (hit_e ray - INR c) * hat (hit_u ray - INR r)) rays.
Proof.
  intros w h rays Hw Hh Hpos. destruct (splat_flat_spec w h rays Hw Hh) as (flat & A & L & N).
  exists (rev (view_rows w h flat)). unfold bilinear_splatting. rewrite A. split; auto. split.
  - split; [rewrite rev_length; apply view_rows_length|].
    intros row Hr. apply in_rev in Hr. unfold view_rows in Hr. apply in_map_iff in Hr.
    destruct Hr as (x & <- & _). rewrite map_length, seq_length. auto.
  - intros r c Hr Hc. unfold pixel. rewrite rev_nth by (rewrite view_rows_length; lia).
    rewrite view_rows_length. replace (h - S (h - 1 - r))%nat with r by lia.
    rewrite nth_view_rows, N by auto. unfold sum_where. rewrite Rsum_filter.
    apply Rsum_map_ext. intros ray Hin. destruct (Hpos ray Hin).
    destruct (on_bitmap w h ray) eqn:E.
    + apply single_ray_pixel; auto.
    + apply outside_ray_pixel; auto.
Qed.

(** One-dimensional sums of the hat function. *)
Lemma hat_nonneg : forall x, 0 <= hat x.
Proof. intros. unfold hat. apply Rmax_l. Qed.
Lemma hat_le_1 : forall x, hat x <= 1.
Proof. intros. unfold hat. apply Rmax_lub; [lra|]. pose proof (Rabs_pos x). lra. Qed.

Lemma Rsum_n_two : forall n f k, (S k < n)%nat ->
  (forall i, (i < n)%nat -> i <> k -> i <> S k -> f i = 0) -> Rsum_n n f = f k + f (S k).
Proof.
  induction n; intros f k Hk H; [lia|]. rewrite Rsum_n_S.
  destruct (Nat.eq_dec n (S k)) as [->|N].
  - rewrite (Rsum_n_single (S k) f k); [lra|lia|]. intros. apply H; lia.
  - rewrite (IHn f k); [|lia|intros; apply H; lia]. rewrite (H n); [lra|lia|lia|lia].
Qed.

Lemma hat_sum_weighted : forall n x (g : nat -> R), 0 <= x < INR n - 1 ->
  exists k, (S k < n)%nat /\ INR k <= x < INR k + 1
    /\ Rsum_n n (fun c => g c * hat (x - INR c)) = g k * (INR k + 1 - x) + g (S k) * (x - INR k).
Proof.
  intros n x g H. destruct (to_long_nonneg x) as [B N]; [lra|].
  set (l := to_long x) in *. exists (Z.to_nat l).
  assert (EL : IZR l = INR (Z.to_nat l)) by (rewrite INR_IZR_INZ, Z2Nat.id; auto).
  assert (HL : (S (Z.to_nat l) < n)%nat).
  { apply INR_lt. rewrite S_INR. lra. }
  split; auto. split; [lra|].
  rewrite (Rsum_n_two n _ (Z.to_nat l)); auto.
  - rewrite (hat_low x l) by (auto; lia). rewrite (hat_high x l) by (auto; lia). rewrite EL. lra.
  - intros i Hi N1 N2. rewrite (hat_far x l); auto; try lia. lra.
Qed.

Lemma hat_sum : forall n x, 0 <= x < INR n - 1 -> Rsum_n n (fun c => hat (x - INR c)) = 1.
Proof.
  intros n x H. destruct (hat_sum_weighted n x (fun _ => 1) H) as (k & _ & B & E).
  rewrite (Rsum_n_ext _ _ (fun c => 1 * hat (x - INR c))) by (intros; lra). rewrite E. lra.
Qed.
Lemma hat_mean : forall n x, 0 <= x < INR n - 1 -> Rsum_n n (fun c => INR c * hat (x - INR c)) = x.
Proof.
  intros n x H. destruct (hat_sum_weighted n x INR H) as (k & _ & B & E).
  rewrite E, S_INR. lra.
Qed.

Lemma nth_rev_rows : forall {A} (l : list A) d r, (r < List.length l)%nat ->
  nth (List.length l - 1 - r) l d = nth r (rev l) d.
Proof. intros. rewrite rev_nth by auto. f_equal. lia. Qed.

(** Sum of an image from its pixels. *)
Lemma image_total_pixels : forall w h image, is_image w h image ->
  image_total image = Rsum_n h (fun r => Rsum_n w (fun c => pixel image h r c)).
Proof.
  intros w h image [L W]. unfold image_total. rewrite <- Rsum_rev, <- map_rev, Rsum_nth.
  rewrite map_length, rev_length, L. apply Rsum_n_ext. intros r Hr.
  rewrite (nth_indep _ 0 (Rsum [])) by (rewrite map_length, rev_length; lia).
  rewrite map_nth. unfold pixel. subst h. rewrite nth_rev_rows by auto.
  rewrite Rsum_nth. rewrite W; auto. apply in_rev. apply nth_In. rewrite rev_length. auto.
Qed.

Lemma splatting_conserves : forall w h rays, (1 <= w)%nat -> (1 <= h)%nat ->
  (forall r, In r rays -> 0 <= hit_e r /\ 0 <= hit_u r) ->
  exists image, bilinear_splatting w h rays = Ok image /\ is_image w h image
    /\ image_total image = sum_where (on_bitmap w h) hit_intensity rays
    /\ ((forall r, In r rays -> 0 <= hit_intensity r) ->
        forall row x, In row image -> In x row -> 0 <= x).
Proof.
  intros w h rays Hw Hh Hpos. destruct (splatting_pixels w h rays Hw Hh Hpos) as (image & A & I & P).
  exists image. split; auto. split; auto. split.
  - rewrite (image_total_pixels w h image I). unfold sum_where.
    rewrite (Rsum_n_ext h _ (fun r => Rsum (map (fun ray => hit_intensity ray * hat (hit_u ray - INR r))
                                   (filter (on_bitmap w h) rays)))).
    + unfold Rsum_n. rewrite Rsum_swap. apply Rsum_map_ext. intros ray Hin.
      apply filter_In in Hin. destruct Hin as [Hin Hb]. destruct (Hpos ray Hin).
      apply on_bitmap_iff in Hb; auto. destruct Hb as [_ Hb].
      change (Rsum_n h (fun r => hit_intensity ray * hat (hit_u ray - INR r)) = hit_intensity ray).
      rewrite Rsum_n_scal, hat_sum by auto. lra.
    + intros r Hr.
      rewrite (Rsum_n_ext w _ (fun c => Rsum (map (fun ray => hit_intensity ray * hat (hit_e ray - INR c) * hat (hit_u ray - INR r)) (filter (on_bitmap w h) rays)))) by (intros; apply P; auto).
      unfold Rsum_n. rewrite Rsum_swap. apply Rsum_map_ext. intros ray Hin.
      apply filter_In in Hin. destruct Hin as [Hin Hb]. destruct (Hpos ray Hin).
      apply on_bitmap_iff in Hb; auto. destruct Hb as [Hb _].
      change (Rsum_n w (fun c => hit_intensity ray * hat (hit_e ray - INR c) * hat (hit_u ray - INR r))
              = hit_intensity ray * hat (hit_u ray - INR r)).
      rewrite (Rsum_n_ext _ _ (fun c => (hit_intensity ray * hat (hit_u ray - INR r)) * hat (hit_e ray - INR c)))
        by (intros; lra).
      rewrite Rsum_n_scal, hat_sum by auto. lra.
  - intros Hnn row x Hrow Hx. destruct I as [L W].
    destruct (In_nth row x 0 Hx) as (c & Hc & <-). rewrite (W row Hrow) in Hc.
    destruct (In_nth image row [] Hrow) as (k & Hk & <-).
    assert (Hk' : (k = h - 1 - (h - 1 - k))%nat) by lia. rewrite Hk'.
    fold (pixel image h (h - 1 - k) c). rewrite P by lia. unfold sum_where.
    apply Rsum_map_nonneg. intros ray Hin. apply filter_In in Hin. destruct Hin as [Hin _].
    repeat apply Rmult_le_pos; auto using hat_nonneg.
Qed.

Lemma inside_dec_filter : forall w h rays (p : ray_hit -> bool),
  (forall r, In r rays -> 0 <= hit_e r /\ 0 <= hit_u r) ->
  (forall r, p r = true <-> inside_grid w h r) ->
  filter (on_bitmap w h) rays = filter p rays.
Proof.
  intros w h rays p Hpos Hp. apply filter_ext_in. intros r Hr. destruct (Hpos r Hr).
  destruct (p r) eqn:E.
  - apply on_bitmap_iff; auto. apply Hp; auto.
  - destruct (on_bitmap w h r) eqn:E'; auto. apply on_bitmap_iff in E'; auto. apply Hp in E'. congruence.
Qed.
