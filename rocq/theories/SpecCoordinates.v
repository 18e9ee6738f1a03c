(** Vocabulary of the coordinate properties (C54-C57, C78). *)
From Coq Require Import List Reals.
From Verif Require Import ModelVectors ModelTransforms ModelIntersections.
Import ListNotations.
Local Open Scope R_scope.

(** Column and row (counted from the top) of a hit in a bitmap with [height] rows: splatting puts the hit with
    upward coordinate [u] into row [height - 1 - u]. *)
Definition pixel_column (i : intersection) : R := i_e i.
Definition pixel_row (height : nat) (i : intersection) : R := INR height - 1 - i_u i.
(** The position in space as a point. *)
Definition position (x : hvec) : point := vec (he x) (hn x) (hu x).
(** A target area facing north or south. *)
Definition faces_north_or_south (p : plane) : Prop := pe (plane_normal p) = 0 /\ pu (plane_normal p) = 0 /\ pn (plane_normal p) <> 0.
