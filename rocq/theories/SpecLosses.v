(** Vocabulary of the properties of losses, regularizers and bitmaps (C48-C53, C76). *)
From Coq Require Import List Arith Reals.
From Verif Require Import RealSums ModelVectors ModelBitmap.
Import ListNotations.
Local Open Scope R_scope.

(** The Kullback-Leibler sum of two lists of positive numbers. *)
Definition kullback_leibler (p q : list R) : R := Rsum (map (fun '(a, b) => a * ln (a / b)) (combine p q)).
Definition non_negative (l : list R) : Prop := forall x, In x l -> 0 <= x.
(** Shares of the entries in their total. *)
Definition shares (l : list R) : list R := map (fun a => a / Rsum l) l.
(** The angle between two vectors. *)
Definition angle_between (a b : point) : R := acos (dot a b / (norm a * norm b)).
(** The same direction. *)
Definition same_direction (a b : point) : Prop := exists k, 0 < k /\ a = smul k b.
(** The samples of heliostat [i] when every heliostat has [k] consecutive samples. *)
Definition samples_of {A} (k i : nat) (l : list A) : list A := firstn k (skipn (i * k) l).
(** The deformation of a facet is a pure shift. *)
Definition shifted (n m : nat) (current original : nat -> nat -> point) : Prop :=
  exists t, forall i j, (i < n)%nat -> (j < m)%nat -> current i j = vadd (original i j) t.
Definition non_negative_bitmap (height width : nat) (b : nat -> nat -> R) : Prop :=
  forall u e, (u < height)%nat -> (e < width)%nat -> 0 <= b u e.
(** Power-weighted mean coordinate. *)
Definition total (height width : nat) (b : nat -> nat -> R) : R :=
  Rsum (map (fun u => Rsum (map (fun e => b u e) (seq 0 width))) (seq 0 height)).
Definition mean_e (height width : nat) (b : nat -> nat -> R) : R := total height width (fun u e => INR e * b u e) / total height width b.
Definition mean_u (height width : nat) (b : nat -> nat -> R) : R := total height width (fun u e => INR u * b u e) / total height width b.
