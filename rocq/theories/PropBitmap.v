(** C52, C53, C76, C77: centres of mass, trapezoid windows, crops and focal spots in bitmaps. *)
From Coq Require Import List Arith Reals Lra Lia.
From Verif Require Import RealSums ModelField ModelVectors ModelNurbs ModelSplatting SpecSplatting ModelBitmap SpecLosses SpecBitmap ProofsBitmap ProofsCrop.
Import ListNotations.
Local Open Scope R_scope.

(** C52. Inside the bitmap; the power-weighted mean up to the share of the epsilon; the first pixel for an empty flux. *)
Theorem C52_center_of_mass : forall h w b, (0 < h)%nat -> (0 < w)%nat -> non_negative_bitmap h w b ->
  exists e u, center_of_mass h w b = Some (e, u) /\ 0 <= e <= INR w - 1 /\ 0 <= u <= INR h - 1
  /\ (0 < total h w b ->
      0 <= mean_e h w b - e <= (INR w - 1) * (/ 10 ^ 8 / (total h w b + / 10 ^ 8))
      /\ 0 <= mean_u h w b - u <= (INR h - 1) * (/ 10 ^ 8 / (total h w b + / 10 ^ 8)))
  /\ (total h w b = 0 -> e = 0 /\ u = 0).
Proof. exact center_all. Qed.
Print Assumptions C52_center_of_mass.

(** A single bright pixel in row 1, column 2 of a bitmap with 2 rows and 4 columns. *)
Example C52_case :
  let b := fun u e => if ((u =? 1) && (e =? 2))%nat%bool then 6 else 0 in
  non_negative_bitmap 2 4 b /\ total 2 4 b = 6 /\ mean_e 2 4 b = 2 /\ mean_u 2 4 b = 1.
Proof.
  intros b. split; [intros u e _ _; unfold b; destruct ((u =? 1) && (e =? 2))%nat%bool; lra|].
  unfold mean_e, mean_u, total, b. cbn [map seq Rsum fold_right Nat.eqb andb INR]. repeat split; try lra; field.
Qed.

(** C53. *)
Theorem C53_trapezoid : forall tot slope plateau, length (trapezoid tot slope plateau) = tot
  /\ forall i, (i < tot)%nat ->
     let v := nth i (trapezoid tot slope plateau) 0 in
     let d := Rabs (INR i - (INR tot - 1) / 2) in
     0 <= v <= 1 /\ v = nth (tot - 1 - i) (trapezoid tot slope plateau) 0
     /\ (d <= INR plateau / 2 -> v = 1)
     /\ (INR plateau / 2 < d < INR plateau / 2 + INR slope -> v = 1 - (d - INR plateau / 2) / INR slope)
     /\ (INR plateau / 2 < d -> INR plateau / 2 + INR slope <= d -> v = 0).
Proof. exact trapezoid_shape. Qed.
Print Assumptions C53_trapezoid.

(** If total width and plateau width have the same parity, exactly the requested number of indices is one ... *)
Theorem C53_plateau_width : forall plateau slope k i, (i < plateau + 2 * k)%nat ->
  (nth i (trapezoid (plateau + 2 * k) slope plateau) 0 = 1 <-> (k <= i < k + plateau)%nat).
Proof. exact trapezoid_plateau. Qed.
Print Assumptions C53_plateau_width.

(** ... otherwise one more. *)
Theorem C53_plateau_width_odd : forall plateau slope k i, (i < plateau + 1 + 2 * k)%nat ->
  (nth i (trapezoid (plateau + 1 + 2 * k) slope plateau) 0 = 1 <-> (k <= i < k + plateau + 1)%nat).
Proof. exact trapezoid_plateau_wide. Qed.
Print Assumptions C53_plateau_width_odd.

Theorem C53_padding : forall plateau slope k i, (0 < slope)%nat -> (i < plateau + 2 * slope + 2 * k)%nat ->
  (nth i (trapezoid (plateau + 2 * slope + 2 * k) slope plateau) 0 = 0 <-> (i < k \/ k + plateau + 2 * slope <= i)%nat).
Proof. exact trapezoid_padding. Qed.
Print Assumptions C53_padding.

(** Plateau 2, slope 2 and one padding index on each side. *)
Example C53_case : nth 0 (trapezoid 8 2 2) 0 = 0 /\ nth 1 (trapezoid 8 2 2) 0 = 1/4 /\ nth 2 (trapezoid 8 2 2) 0 = 3/4 /\ nth 3 (trapezoid 8 2 2) 0 = 1.
Proof.
  destruct (C53_trapezoid 8 2 2) as (_ & T). split; [|split; [|split]].
  - apply (C53_padding 2 2 1 0); lia.
  - destruct (T 1%nat ltac:(lia)) as (_ & _ & _ & T1 & _). cbn [INR] in T1. rewrite Rabs_left in T1 by lra. rewrite T1; lra.
  - destruct (T 2%nat ltac:(lia)) as (_ & _ & _ & T1 & _). cbn [INR] in T1. rewrite Rabs_left in T1 by lra. rewrite T1; lra.
  - apply (C53_plateau_width 2 2 3 3); lia.
Qed.

(** C76. *)
Theorem C76_crop_bounds : forall h w b m target_width target_height crop_width crop_height u e, 0 <= m ->
  (forall u e, (u < h)%nat -> (e < w)%nat -> 0 <= b u e <= m) ->
  0 <= cropped h w b target_width target_height crop_width crop_height u e <= m.
Proof. exact crop_bounds. Qed.
Print Assumptions C76_crop_bounds.

(** Pixel [(u, e)] of a crop shows the interpolated flux at the point that lies as far from the center, measured in the
    crop, as the pixel lies from the middle of the image; the center is that of the flux together with a weight of [1e-8]
    in the middle of the image. *)
Theorem C76_crop_points : forall h w b target_width target_height crop_width crop_height u e,
  (2 <= h)%nat -> (2 <= w)%nat -> non_negative_bitmap h w b -> / 10 ^ 8 <= target_width -> / 10 ^ 8 <= target_height ->
  cropped h w b target_width target_height crop_width crop_height u e
  = interpolated h w b (steadied_e h w b + crop_width / target_width * (INR e - (INR w - 1) / 2))
                       (steadied_u h w b + crop_height / target_height * (INR u - (INR h - 1) / 2)).
Proof. exact crop_points. Qed.
Print Assumptions C76_crop_points.

Theorem C76_crop_identity : forall h w b target_width target_height u e, (2 <= h)%nat -> (2 <= w)%nat -> non_negative_bitmap h w b ->
  / 10 ^ 8 <= target_width -> / 10 ^ 8 <= target_height ->
  steadied_e h w b = (INR w - 1) / 2 -> steadied_u h w b = (INR h - 1) / 2 -> (u < h)%nat -> (e < w)%nat ->
  cropped h w b target_width target_height target_width target_height u e = b u e.
Proof. exact crop_whole. Qed.
Print Assumptions C76_crop_identity.

(** A centred flux: a bright middle pixel of a 3 by 3 image.  Cropping half of its width shows the flux halfway between
    two columns at the sides. *)
Example C76_case :
  let b := fun u e => if ((u =? 1) && (e =? 1))%nat%bool then 6 else 1 in
  cropped 3 3 b 8 6 8 6 1 1 = 6 /\ cropped 3 3 b 8 6 8 6 0 2 = 1 /\ cropped 3 3 b 8 6 4 6 1 2 = 7 / 2.
Proof.
  intros b. assert (N : steadied_e 3 3 b = (INR 3 - 1) / 2 /\ steadied_u 3 3 b = (INR 3 - 1) / 2).
  { unfold steadied_e, steadied_u, total, b. cbn [map seq Rsum fold_right Nat.eqb andb INR]. split; field; lra. }
  destruct N as (NE & NU). assert (P : non_negative_bitmap 3 3 b) by (intros u e _ _; unfold b; destruct (_ && _)%bool; lra).
  split; [apply (C76_crop_identity 3 3 b 8 6 1 1); auto; try lia; lra|].
  split; [apply (C76_crop_identity 3 3 b 8 6 0 2); auto; try lia; lra|].
  rewrite C76_crop_points by (auto; try lia; lra). rewrite NE, NU. unfold interpolated, total, tent, b. cbn [map seq Rsum fold_right Nat.eqb andb INR].
  repeat match goal with |- context [Rmax 0 (1 - Rabs ?x)] => 
    first [ replace (Rmax 0 (1 - Rabs x)) with 0 by (symmetry; apply Rmax_left; first [rewrite Rabs_right by lra; lra | rewrite Rabs_left1 by lra; lra])
          | rewrite (Rmax_right 0 (1 - Rabs x)) by (first [rewrite Rabs_right by lra; lra | rewrite Rabs_left1 by lra; lra]);
            first [rewrite (Rabs_right x) by lra | rewrite (Rabs_left1 x) by lra] ] end.
  field.
Qed.

(** C77. *)
Theorem C77_center_of_splatted_rays : forall w h rays, (1 <= w)%nat -> (1 <= h)%nat -> (forall r, In r rays -> inside_grid w h r) ->
  0 <= Rsum (map hit_intensity rays) ->
  let power := Rsum (map hit_intensity rays) in
  exists image, bilinear_splatting w h rays = Ok image
    /\ center_of_mass h w (fun row column => nth column (nth row image []) 0)
       = Some (Rsum (map (fun r => hit_intensity r * hit_e r) rays) / (power + / 10 ^ 8),
               Rsum (map (fun r => hit_intensity r * (INR h - 1 - hit_u r)) rays) / (power + / 10 ^ 8)).
Proof. exact splat_center_of_mass. Qed.
Print Assumptions C77_center_of_splatted_rays.

Example C77_case : exists image, bilinear_splatting 4 3 [{| hit_e := 1/2; hit_u := 1/4; hit_intensity := 3 |}; {| hit_e := 5/2; hit_u := 1/4; hit_intensity := 1 |}] = Ok image
  /\ center_of_mass 3 4 (fun row column => nth column (nth row image []) 0) = Some (4 / (4 + / 10 ^ 8), 7 / (4 + / 10 ^ 8)).
Proof.
  destruct (C77_center_of_splatted_rays 4 3 [{| hit_e := 1/2; hit_u := 1/4; hit_intensity := 3 |}; {| hit_e := 5/2; hit_u := 1/4; hit_intensity := 1 |}]) as (image & E & C); try lia.
  - intros r [<-|[<-|[]]]; unfold inside_grid; cbn [hit_e hit_u INR]; lra.
  - cbn [map Rsum fold_right hit_intensity]. lra.
  - exists image. split; auto. cbn [map Rsum fold_right hit_intensity hit_e hit_u] in C. rewrite C. cbn [INR]. do 2 f_equal; field; lra.
Qed.
