(** Vocabulary of the transformation properties (C30-C33, C36). *)
From Coq Require Import Reals.
From Verif Require Import ModelVectors ModelTransforms SpecIntersections.
Local Open Scope R_scope.

(** Points have fourth component 1, directions 0. *)
Definition as_point (p : point) : hvec := hv (pe p) (pn p) (pu p) 1.
Definition as_direction (v : point) : hvec := hv (pe v) (pn v) (pu v) 0.
Definition enu (x : hvec) : point := vec (he x) (hn x) (hu x).

(** A rigid motion: points stay points and keep their distances, directions stay directions and keep their
    angles and lengths, and right-handed stays right-handed. *)
Definition rigid_action (f : hvec -> hvec) : Prop :=
  (forall p, hw (f (as_point p)) = 1)
  /\ (forall v, hw (f (as_direction v)) = 0)
  /\ (forall p q, norm (vsub (enu (f (as_point p))) (enu (f (as_point q)))) = norm (vsub p q))
  /\ (forall p q, enu (f (as_direction (vsub p q))) = vsub (enu (f (as_point p))) (enu (f (as_point q))))
  /\ (forall v w, dot (enu (f (as_direction v))) (enu (f (as_direction w))) = dot v w)
  /\ (forall v w, enu (f (as_direction (cross v w))) = cross (enu (f (as_direction v))) (enu (f (as_direction w)))).
Definition rigid (m : mat) : Prop := rigid_action (mapply m).

(** Rotation of [v] by [angle] about the unit vector [k], counterclockwise when [k] points to the viewer
    (Rodrigues' formula). *)
Definition rotated (k : point) (angle : R) (v : point) : point :=
  vadd (smul (cos angle) v) (vadd (smul (sin angle) (cross k v)) (smul ((1 - cos angle) * dot k v) k)).

Definition east : point := vec 1 0 0.
Definition north : point := vec 0 1 0.
Definition up : point := vec 0 0 1.
Definition south : point := vec 0 (-1) 0.
