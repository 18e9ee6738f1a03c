(** Vocabulary of the properties about cropped bitmaps (C76). *)
From Coq Require Import List Arith Reals.
From Verif Require Import SpecLosses.
Local Open Scope R_scope.

(** Linear interpolation: a pixel counts as much as the point is close to it, up to a distance of one. *)
Definition tent (t : R) : R := Rmax 0 (1 - Rabs t).
(** The flux at a point between pixels, [x] counted in columns and [y] in rows; it is zero outside of the bitmap. *)
Definition interpolated (h w : nat) (b : nat -> nat -> R) (x y : R) : R := total h w (fun u e => b u e * tent (x - INR e) * tent (y - INR u)).
(** Center of the flux together with a weight of [1e-8] in the middle of the bitmap. *)
Definition steadied_e (h w : nat) (b : nat -> nat -> R) : R := (total h w (fun u e => INR e * b u e) + (INR w - 1) / 2 * / 10 ^ 8) / (total h w b + / 10 ^ 8).
Definition steadied_u (h w : nat) (b : nat -> nat -> R) : R := (total h w (fun u e => INR u * b u e) + (INR h - 1) / 2 * / 10 ^ 8) / (total h w b + / 10 ^ 8).
