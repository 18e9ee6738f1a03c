(** Vocabulary of the focal spot properties (C94, C99). *)
From Coq Require Import List Reals.
From Verif Require Import RealSums ModelVectors ModelIntersections ModelFocalSpots SpecLosses SpecIntersections.
Import ListNotations.
Local Open Scope R_scope.

(** A bitmap without negative values and with at least one pixel. *)
Definition flux_image (b : image) : Prop := (0 < rows b)%nat /\ (0 < columns b)%nat /\ non_negative_bitmap (rows b) (columns b) (value b).
(** Mean column and row of a flux, with the regularization of the library in the denominator. *)
Definition spot_column (b : image) : R := total (rows b) (columns b) (fun u e => INR e * value b u e) / (total (rows b) (columns b) (value b) + / 10 ^ 8).
Definition spot_row (b : image) : R := total (rows b) (columns b) (fun u e => INR u * value b u e) / (total (rows b) (columns b) (value b) + / 10 ^ 8).
(** Two bitmaps with the same resolution. *)
Definition same_resolution (a b : image) : Prop := rows a = rows b /\ columns a = columns b.
(** A mirror at [position] with unit normal [n] sends rays that come in along [incident] to [spot]. *)
Definition sends_to (position incident n spot : point) : Prop := exists t, 0 < t /\ along position (reflect incident n) t = spot.
(** A flux of one everywhere. *)
Definition uniform (h w : nat) : image := {| rows := h; columns := w; value := fun _ _ => 1 |}.
(** Distances of the focal spots of two fluxes on an area: on a cylinder the chord between the two angles and the
    difference in height. *)
Definition planar_distance (p : plane) (a b : image) : R :=
  sqrt ((plane_width p * ((spot_column a - spot_column b) / INR (columns a))) ^ 2 + (plane_height p * ((spot_row a - spot_row b) / INR (rows a))) ^ 2).
Definition cylindrical_distance (c : cylinder) (a b : image) : R :=
  sqrt ((2 * cyl_radius c * sin (cyl_opening c * ((spot_column a - spot_column b) / INR (columns a)) / 2)) ^ 2
        + (cyl_height c * ((spot_row a - spot_row b) / INR (rows a))) ^ 2).
(** The distance on the area with the given index, planar areas first. *)
Definition spot_distance (planar : list plane) (cylindrical : list cylinder) (index : nat) (a b : image) (d : R) : Prop :=
  (exists p, nth_error planar index = Some p /\ d = planar_distance p a b)
  \/ (exists j c, index = (length planar + j)%nat /\ nth_error cylindrical j = Some c /\ d = cylindrical_distance c a b).
(** A tower whose areas have positive sizes, cylinders not opening more than a full turn. *)
Definition proper_tower (planar : list plane) (cylindrical : list cylinder) : Prop :=
  (forall p, In p planar -> sized p) /\ (forall c, In c cylindrical -> proper_cylinder c /\ cyl_opening c <= 2 * PI).
