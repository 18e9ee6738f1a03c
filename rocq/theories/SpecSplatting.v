(** Vocabulary of the bitmap properties (C12, C13, C15, C65, C66). *)
From Coq Require Import List Arith Reals.
From Verif Require Import RealSums ModelSplatting.
Import ListNotations.
Local Open Scope R_scope.

(** The hat function: share of a unit at distance [x] from a pixel centre in one dimension. *)
Definition hat (x : R) : R := Rmax 0 (1 - Rabs x).

(** A hit inside the pixel grid: between the first and the last pixel centre of both dimensions (the
    last centre itself excluded). *)
Definition inside_grid (width height : nat) (r : ray_hit) : Prop :=
  0 <= hit_e r < INR width - 1 /\ 0 <= hit_u r < INR height - 1.

(** Pixel [c] columns from the left and [r] rows above the bottom of an image of [height] rows. *)
Definition pixel (image : list (list R)) (height r c : nat) : R :=
  nth c (nth (height - 1 - r) image []) 0.

(** An image with the given dimensions. *)
Definition is_image (width height : nat) (image : list (list R)) : Prop :=
  length image = height /\ forall row, In row image -> length row = width.

(** Total of an image. *)
Definition image_total (image : list (list R)) : R := Rsum (map Rsum image).

(** Sum of a quantity over the members of a list satisfying a property, given by a decision. *)
Definition sum_where {A} (p : A -> bool) (f : A -> R) (l : list A) : R := Rsum (map f (filter p l)).

(** Decision of [inside_grid]. *)
Definition inside_gridb (width height : nat) (r : ray_hit) : bool :=
  if Rle_dec 0 (hit_e r) then if Rlt_dec (hit_e r) (INR width - 1) then
  if Rle_dec 0 (hit_u r) then if Rlt_dec (hit_u r) (INR height - 1) then true
  else false else false else false else false.
