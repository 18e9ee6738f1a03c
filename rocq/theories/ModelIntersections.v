(** Model of [artist/raytracing/geometry.py] for one ray (the tensors are maps over rays).  Vectors are the
    first three components; the fourth is 0 for directions and normals. *)
From Coq Require Import List Arith Reals Bool.
From Verif Require Import ModelVectors ModelAngles ModelSplatting.
Import ListNotations.
Local Open Scope R_scope.

(** [reflect], geometry.py:11-41. *)
Definition reflect (incident normal : point) : point :=
  vsub incident (smul (2 * dot incident normal) normal).

Record plane := { plane_center : point; plane_normal : point; plane_width : R; plane_height : R }.
Record intersection := { i_e : R; i_u : R; i_distance : R; i_intensity : R }.
Definition indicator (b : bool) : R := if b then 1 else 0.
Definition Rleb (a b : R) : bool := if Rle_dec a b then true else false.
Definition Rltb (a b : R) : bool := if Rlt_dec a b then true else false.

(** [line_plane_intersections], geometry.py:44-204; [width], [height] is the bitmap resolution. *)
Definition line_plane (width height : nat) (p : plane) (origin direction : point) (magnitude : R) : intersection :=
  let angle_based := dot direction (plane_normal p) in
  let front_facing := Rltb angle_based 0 in
  let numerator := dot (vsub (plane_center p) origin) (plane_normal p) in
  let safe_denominator := if front_facing then angle_based else 1 in
  let distance := numerator / safe_denominator * indicator front_facing in
  let hit := vadd origin (smul distance direction) in
  let intensity := magnitude * - angle_based in
  let target_e := pe hit + plane_width p / 2 - pe (plane_center p) in
  let target_u := pu hit + plane_height p / 2 - pu (plane_center p) in
  let bitmap_e := target_e / plane_width p * (INR width - 1) in
  let bitmap_u := target_u / plane_height p * (INR height - 1) in
  let valid := Rleb 0 bitmap_e && Rleb bitmap_e (INR width - 1)
               && Rleb 0 bitmap_u && Rleb bitmap_u (INR height - 1) && front_facing in
  {| i_e := (INR width - 1) - bitmap_e * indicator valid;
     i_u := bitmap_u * indicator valid;
     i_distance := distance * indicator valid;
     i_intensity := intensity * indicator valid |}.

(** A ray's contribution as passed to the splatting without blocking, extinction and reflection losses. *)
Definition hit_of (i : intersection) : ray_hit :=
  {| hit_e := i_e i; hit_u := i_u i; hit_intensity := i_intensity i |}.

Record cylinder := { cyl_center : point; cyl_axis : point; cyl_normal : point;
                     cyl_radius : R; cyl_height : R; cyl_opening : R }.

(** Coordinates in the local frame of the cylinder, geometry.py:301-309. *)
Definition local_frame (c : cylinder) (v : point) : point :=
  vec (dot v (cross (cyl_normal c) (cyl_axis c))) (dot v (cyl_normal c)) (dot v (cyl_axis c)).

(** The chosen distance along the ray, geometry.py:321-377; [None] if the ray has no valid distance. *)
Definition cylinder_distance (c : cylinder) (origin direction : point) : option R :=
  let o := local_frame c (vsub origin (cyl_center c)) in
  let d := local_frame c direction in
  let a := pe d ^ 2 + pn d ^ 2 in
  let b := 2 * (pe o * pe d + pn o * pn d) in
  let cc := pe o ^ 2 + pn o ^ 2 - cyl_radius c ^ 2 in
  let discriminant := b ^ 2 - 4 * a * cc in
  if Rle_dec 0 discriminant then
    if Rlt_dec (/ 10 ^ 8) (Rabs a) then
      let root := sqrt (discriminant + / 10 ^ 12) in
      let near := (- b - root) / (2 * a) in
      let far := (- b + root) / (2 * a) in
      if Rlt_dec 0 near then (if Rlt_dec 0 far then Some (Rmin near far) else Some near)
      else if Rlt_dec 0 far then Some far else None
    else None
  else None.

(** [line_cylinder_intersections], geometry.py:207-445.  The two early exits of the code when no ray of the
    batch hits return the same zeros as the masks do.  A ray without valid distance whose origin lies on the
    axis makes the code compute [0 * NaN]; the model returns 0 there. *)
Definition no_intersection : intersection := {| i_e := 0; i_u := 0; i_distance := 0; i_intensity := 0 |}.
Definition line_cylinder (width height : nat) (c : cylinder) (origin direction : point) (magnitude : R) : intersection :=
  match cylinder_distance c origin direction with
  | None => no_intersection
  | Some distance =>
    let d := local_frame c direction in
    let hit := vadd (local_frame c (vsub origin (cyl_center c))) (smul distance d) in
    let x := pe hit in
    let y := pn hit in
    let normal := smul (/ norm (vec x y 0)) (vec x y 0) in
    let angle_based := Rmax (dot (smul (-1) d) normal) 0 in
    let z := pu hit + cyl_height c / 2 in
    let angle := atan2 y x - (atan2 (pn (cyl_normal c)) (pe (cyl_normal c)) - cyl_opening c / 2) in
    let on_target := Rleb 0 z && Rleb z (cyl_height c) && Rleb 0 angle && Rleb angle (cyl_opening c) in
    {| i_e := angle / cyl_opening c * (INR width - 1) * indicator on_target;
       i_u := z / cyl_height c * (INR height - 1) * indicator on_target;
       i_distance := distance * indicator on_target;
       i_intensity := magnitude * angle_based * indicator on_target |}
  end.
