(** Vocabulary of the property about heliostats that are activated, aligned and traced (C124). *)
From Coq Require Import List Reals.
From Verif Require Import RealSums ModelVectors ModelTransforms ModelIntersections ModelKinematics ModelTrace SpecIntersections SpecTransforms SpecKinematics SpecTrace.
Import ListNotations.
Local Open Scope R_scope.

(** A heliostat whose mirror, described lying flat, is a plane: its surface points are [local], all normals point up. *)
Definition lying_flat (h : heliostat) (local : list point) : Prop :=
  h_points h = map as_point local /\ h_normals h = map (fun _ => as_direction up) local.
Definition mean_of (local : list point) : point := mean_point (map (fun x => (x, up)) local).

(** Wherever its joints take the concentrator, the heliostat is between [near] and [far] from the aim point on the target
    area, sees the front of the area at least [cosine] steep, and can turn to the normal that reflects the sun to the aim
    point. *)
Definition well_placed (k : kinematics) (incident aim : point) (p : plane) (near far cosine : R) : Prop :=
  unit incident /\ sized p /\ unit (plane_normal p) /\ on_plane p aim /\ / 10 ^ 8 <= near
  /\ forall q, norm (vsub q (first_joint k)) <= arm_length k ->
     near <= norm (vsub aim q) <= far
     /\ cosine <= - dot (direction_to q aim) (plane_normal p)
     /\ let v := vsub (direction_to q aim) incident in
        / 10 ^ 8 <= norm v /\ reachable_normal k (smul (/ norm v) v) /\ drives_deliver k (smul (/ norm v) v).

(** How much the direction of the reflected rays may be off: the accuracy of the alignment, and the arm seen from the aim
    point. *)
Definition aim_error (k : kinematics) (near : R) : R := 8 / 10 ^ 4 + 2 * arm_length k / near.
(** How far from the aim point rays with such an error hit that start [x] from the concentrator. *)
Definition spot_radius (error far cosine x : R) : R := (error * far + x) * (1 + / (cosine - error)).
