(** Vocabulary of the intersection properties (C14, C26-C29). *)
From Coq Require Import Reals.
From Verif Require Import ModelVectors ModelIntersections.
Local Open Scope R_scope.

(** The point at parameter [t] of a ray. *)
Definition along (origin direction : point) (t : R) : point := vadd origin (smul t direction).
(** A point of the (infinite) target plane. *)
Definition on_plane (p : plane) (q : point) : Prop := dot (vsub q (plane_center p)) (plane_normal p) = 0.
(** The point lies within the width and height of the area, borders included. *)
Definition within_area (p : plane) (q : point) : Prop :=
  Rabs (pe q - pe (plane_center p)) <= plane_width p / 2 /\ Rabs (pu q - pu (plane_center p)) <= plane_height p / 2.
(** ... borders excluded on the west and upper side. *)
Definition within_half_open (p : plane) (q : point) : Prop :=
  - plane_width p / 2 < pe q - pe (plane_center p) <= plane_width p / 2
  /\ - plane_height p / 2 <= pu q - pu (plane_center p) < plane_height p / 2.
Definition sized (p : plane) : Prop := 0 < plane_width p /\ 0 < plane_height p.
(** The ray hits the front of the area at parameter [t]. *)
Definition hits_area (p : plane) (origin direction : point) (t : R) : Prop :=
  dot direction (plane_normal p) < 0 /\ on_plane p (along origin direction t) /\ within_area p (along origin direction t).

Definition unit (v : point) : Prop := dot v v = 1.
(** A cylinder with unit axis, unit normal perpendicular to it, and positive sizes. *)
Definition proper_cylinder (c : cylinder) : Prop :=
  unit (cyl_axis c) /\ unit (cyl_normal c) /\ dot (cyl_axis c) (cyl_normal c) = 0
  /\ 0 < cyl_radius c /\ 0 < cyl_height c /\ 0 < cyl_opening c.
(** The part of [v] perpendicular to [axis]. *)
Definition off_axis (axis v : point) : point := vsub v (smul (dot v axis) axis).
(** The point [q] is at angle [delta] from the normal, seen from the axis. *)
Definition at_angle (c : cylinder) (q : point) (delta : R) : Prop :=
  exists rho, 0 < rho /\ off_axis (cyl_axis c) (vsub q (cyl_center c))
    = smul rho (vadd (smul (cos delta) (cyl_normal c)) (smul (sin delta) (cross (cyl_axis c) (cyl_normal c)))).
