(** Vocabulary of the properties of whole traced samples (C66, C70, C87-C89). *)
From Coq Require Import List Arith Reals.
From Verif Require Import RealSums ModelVectors ModelIntersections SpecIntersections ModelSplatting SpecSplatting ModelTrace.
Import ListNotations.
Local Open Scope R_scope.

(** A target area with positive sizes and unit directions. *)
Definition proper_target (t : target) : Prop :=
  match t with
  | PlanarTarget p => sized p /\ unit (plane_normal p)
  | CylindricalTarget c => proper_cylinder c
  end.
(** A sample with unit directions, a proper target, and an angle pair for each ray number and surface point. *)
Definition proper_sample (s : sample) : Prop :=
  unit (s_incident s) /\ (forall p n, In (p, n) (s_surface s) -> unit n) /\ proper_target (s_target s)
  /\ forall row, In row (s_distortions s) -> List.length row = List.length (s_surface s).
(** Number of rays: one for each ray number and surface point. *)
Definition ray_count (s : sample) : nat := (List.length (s_distortions s) * List.length (s_surface s))%nat.
Definition non_negative_image (image : list (list R)) : Prop := forall row x, In row image -> In x row -> 0 <= x.

(** The mean of the surface points. *)
Definition mean_point (surface : list (point * point)) : point :=
  let n := INR (List.length surface) in
  vec (Rsum (map (fun p => pe (fst p)) surface) / n) (Rsum (map (fun p => pn (fst p)) surface) / n)
      (Rsum (map (fun p => pu (fst p)) surface) / n).
(** A flat mirror: all normals are [n]; and no sun shape: all angles are zero. *)
Definition flat (n : point) (s : sample) : Prop := forall p m, In (p, m) (s_surface s) -> m = n.
Definition undistorted (s : sample) : Prop := forall row a, In row (s_distortions s) -> In a row -> a = (0, 0).

(** Facets: half the edges of a rectangular facet lying flat, and the rectangle that 2 x 2 such facets with a gap
    cover. *)
Definition flat_facet (half_width half_height : R) : point * point := (vec half_width 0 0, vec 0 half_height 0).
Definition outer_area (columns rows : nat) (half_width half_height gap : R) : R :=
  (INR columns * (2 * half_width) + (INR columns - 1) * gap) * (INR rows * (2 * half_height) + (INR rows - 1) * gap).
