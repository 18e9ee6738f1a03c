(** Model of [artist/flux/bitmap.py].  A bitmap is a function of row [u] and column [e] with its height and width. *)
From Coq Require Import List Arith Reals Bool ZArith.
From Verif Require Import RealSums ModelVectors ModelTransforms ModelActuators ModelNurbs.
Import ListNotations.
Local Open Scope R_scope.

Definition pixel_sum (height width : nat) (f : nat -> nat -> R) : R :=
  Rsum (map (fun u => Rsum (map (fun e => f u e) (seq 0 width))) (seq 0 height)).
Definition mass_eps : R := / 10 ^ 8.
(** [get_center_of_mass], bitmap.py:12-71, for one bitmap: (e, u).  [linspace(0, width - 1, width)] is [0, 1, ...]. *)
Definition center_of_mass (height width : nat) (b : nat -> nat -> R) : option (R * R) :=
  let total := pixel_sum height width b + mass_eps in
  if Req_EM_T total 0 then None
  else Some (pixel_sum height width (fun u e => linspace 0 (INR width - 1) width e * (b u e / total)),
             pixel_sum height width (fun u e => linspace 0 (INR height - 1) height u * (b u e / total))).

(** [trapezoid_distribution], bitmap.py:74-118. *)
Definition trapezoid (total slope plateau : nat) : list R :=
  map (fun i =>
    let distance := Rabs (INR i - (INR total - 1) / 2) - INR plateau / 2 in
    if (slope =? 0)%nat then (if Rle_dec distance 0 then 1 else 0)
    else 1 - clamp 0 1 (distance / INR slope)) (seq 0 total).

(** [crop_flux_distributions_around_center], bitmap.py:121-246, for one bitmap and given target dimensions. *)
(** The centre of mass in the normalized coordinates [-1, 1], lines 166-190. *)
Definition normalized_center (height width : nat) (b : nat -> nat -> R) : R * R :=
  let total := pixel_sum height width b + mass_eps in
  (pixel_sum height width (fun u e => linspace (-1) 1 width e * (b u e / total)),
   pixel_sum height width (fun u e => linspace (-1) 1 height u * (b u e / total))).
(** [torch.nn.functional.grid_sample] with [align_corners=True], bilinear, zero padding, at pixel coordinates [x]
    (column) and [y] (row). *)
Definition pixel_or_zero (height width : nat) (b : nat -> nat -> R) (row column : Z) : R :=
  if ((0 <=? row) && (row <? Z.of_nat height) && (0 <=? column) && (column <? Z.of_nat width))%Z
  then b (Z.to_nat row) (Z.to_nat column) else 0.
Definition bilinear (height width : nat) (b : nat -> nat -> R) (x y : R) : R :=
  let column := floor x in
  let row := floor y in
  let fx := x - IZR column in
  let fy := y - IZR row in
  pixel_or_zero height width b row column * (1 - fx) * (1 - fy)
  + pixel_or_zero height width b row (column + 1) * fx * (1 - fy)
  + pixel_or_zero height width b (row + 1) column * (1 - fx) * fy
  + pixel_or_zero height width b (row + 1) (column + 1) * fx * fy.
(** [affine_grid] and [grid_sample] for sizes greater than one, lines 221-246. *)
Definition cropped (height width : nat) (b : nat -> nat -> R) (target_width target_height crop_width crop_height : R) (u e : nat) : R :=
  let '(x_center, y_center) := normalized_center height width b in
  let scale_x := crop_width / Rmax target_width mass_eps in
  let scale_y := crop_height / Rmax target_height mass_eps in
  let x := scale_x * linspace (-1) 1 width e + x_center in
  let y := scale_y * linspace (-1) 1 height u + y_center in
  bilinear height width b ((x + 1) / 2 * (INR width - 1)) ((y + 1) / 2 * (INR height - 1)).
