(** Vocabulary of the properties about mirrored and turned scenes (C134, C135). *)
From Coq Require Import List Reals.
From Verif Require Import ModelVectors ModelIntersections ModelTrace.
Local Open Scope R_scope.

(** A motion of the scene moves points and directions and changes the distortion angles (up, east) of the rays; sizes stay. *)
Definition changed_target (move : point -> point) (t : target) : target :=
  match t with
  | PlanarTarget p => PlanarTarget {| plane_center := move (plane_center p); plane_normal := move (plane_normal p); plane_width := plane_width p; plane_height := plane_height p |}
  | CylindricalTarget c => CylindricalTarget {| cyl_center := move (cyl_center c); cyl_axis := move (cyl_axis c); cyl_normal := move (cyl_normal c);
                                                cyl_radius := cyl_radius c; cyl_height := cyl_height c; cyl_opening := cyl_opening c |}
  end.
Definition changed_sample (move : point -> point) (angles : R * R -> R * R) (s : sample) : sample :=
  {| s_incident := move (s_incident s); s_surface := map (fun '(p, n) => (move p, move n)) (s_surface s); s_target := changed_target move (s_target s);
     s_distortions := map (map angles) (s_distortions s) |}.

(** East and west exchanged.  The mirrored angle about the vertical has the other sign. *)
Definition mirrored (p : point) : point := vec (- pe p) (pn p) (pu p).
Definition mirrored_sample : sample -> sample := changed_sample mirrored (fun '(u, e) => (- u, e)).
(** Half a turn about the vertical.  The angle about the east axis, which is turned too, has the other sign. *)
Definition half_turned (p : point) : point := vec (- pe p) (- pn p) (pu p).
Definition half_turned_sample : sample -> sample := changed_sample half_turned (fun '(u, e) => (u, - e)).
(** A quarter turn about the vertical, from east to north. *)
Definition quarter_turned (p : point) : point := vec (- pn p) (pe p) (pu p).
(** A quarter turn of a sample without angles about the east axis. *)
Definition quarter_turned_sample : sample -> sample := changed_sample quarter_turned (fun angles => angles).

(** No ray that carries power ends exactly on the left or right edge of the image. *)
Definition off_edges (width height : nat) (magnitude : R) (s : sample) : Prop :=
  forall i, In i (sample_intersections width height magnitude s) -> i_intensity i <> 0 -> 0 < i_e i < INR width - 1.
(** A planar area, or a cylindrical one whose part before the normal lies on the northern side of the local frame. *)
Definition northern (t : target) : Prop :=
  match t with
  | PlanarTarget _ => True
  | CylindricalTarget c => exists angle, 0 <= angle - cyl_opening c / 2 /\ angle + cyl_opening c / 2 <= PI
      /\ exists r, 0 < r /\ pe (cyl_normal c) = r * cos angle /\ pn (cyl_normal c) = r * sin angle
  end.
Definition planar (t : target) : Prop := match t with PlanarTarget _ => True | CylindricalTarget _ => False end.
