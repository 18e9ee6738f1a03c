(** Vocabulary of the blocking properties (C23-C25, C71-C73). *)
From Coq Require Import List Arith ZArith Reals Permutation.
From Verif Require Import ModelVectors ModelLBVH ModelBlocking.
Import ListNotations.
Local Open Scope R_scope.

(** Two vectors that are not parallel. *)
Definition independent (a b : point) : Prop :=
  forall s t, vadd (smul s a) (smul t b) = zero_point -> s = 0 /\ t = 0.

(** The ray passes through the point with coordinates [a], [b] of the primitive's plane at parameter [t]. *)
Definition crosses_at (origin direction : point) (p : primitive) (t a b : R) : Prop :=
  vadd origin (smul t direction) = vadd (corner0 p) (vadd (smul a (span_u p)) (smul b (span_v p))).

(** The primitive is a parallelogram with a normal; it is large enough and the ray is not so close to
    parallel that the safeguards of the code (at [epsilon]) intervene. *)
Definition regular_for (epsilon : R) (direction : point) (p : primitive) : Prop :=
  dot (span_u p) (prim_normal p) = 0 /\ dot (span_v p) (prim_normal p) = 0
  /\ epsilon <= dot (cross (span_u p) (span_v p)) (cross (span_u p) (span_v p))
  /\ epsilon <= Rabs (dot direction (prim_normal p)).

(** The crossing is inside the parallelogram by a margin [m], and behind the ray's start by [offset + m]. *)
Definition clearly_blocks (offset m t a b : R) : Prop :=
  offset + m <= t /\ m <= a <= 1 - m /\ m <= b <= 1 - m.
(** The crossing is outside by a margin, or not in front of the ray's start. *)
Definition clearly_misses (offset m t a b : R) : Prop :=
  t <= offset - m \/ a <= - m \/ 1 + m <= a \/ b <= - m \/ 1 + m <= b.

(** The plane of the primitive lies wholly beyond the target of the ray. *)
Definition beyond_target (r : ray) (p : primitive) : Prop :=
  forall t a b, crosses_at (r_origin r) (r_direction r) p t a b -> r_target_distance r < t.

(** A mirror of four facets (upper left, upper right, lower left, lower right) of [side] x [side] points, each
    indexed column by column from west to east and within a column from south to north: the surface point with
    index [f * side^2 + i * side + j].  [west i], [east i] are the east coordinates of the columns of the left
    and right facets, [south j], [north j] the north coordinates of the rows of the lower and upper ones. *)
Definition facet_points (side : nat) (columns rows : nat -> R) : list point :=
  flat_map (fun i => map (fun j => {| pe := columns i; pn := rows j; pu := 0 |}) (seq 0 side)) (seq 0 side).
Definition four_facets (side : nat) (west east south north : nat -> R) : list point :=
  facet_points side west north ++ facet_points side east north
  ++ facet_points side west south ++ facet_points side east south.
Definition increasing (side : nat) (f : nat -> R) : Prop := forall i j, (i < j < side)%nat -> f i < f j.

(** Position of heliostat [h] of group [g] in the list of all heliostats of the field. *)
Definition field_index {A} (groups : list (blocking_group A)) (g h : nat) : nat :=
  (list_sum (map (fun x => List.length (g_horizontal x)) (firstn g groups)) + h)%nat.
(** Number of active heliostats before heliostat [h]. *)
Definition active_before (mask : list nat) (h : nat) : nat := list_sum (firstn h mask).
(** Groups as built by the field: a mask entry per heliostat, and an aligned surface per active sample. *)
Definition consistent_group {A} (g : blocking_group A) : Prop :=
  List.length (g_mask g) = List.length (g_horizontal g) /\ List.length (g_active g) = list_sum (g_mask g).
Definition no_repetition (mask : list nat) : Prop := forall m, In m mask -> (m <= 1)%nat.
