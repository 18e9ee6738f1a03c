(** Model of [artist/geometry/coordinates.py]. *)
From Coq Require Import List Arith Reals Bool.
From Verif Require Import ModelField ModelVectors ModelTransforms ModelLBVH ModelIntersections ModelActuators.
Import ListNotations.
Local Open Scope R_scope.

(** [convert_3d_points_to_4d_format] and [convert_3d_directions_to_4d_format], coordinates.py:12-93.  A tensor is the
    list of its vectors along the last dimension, all of size [size]; leading dimensions are kept. *)
Definition append_component (value : R) (size : nat) (vectors : list (list R)) : res (list (list R)) :=
  if (size =? 3)%nat then Ok (map (fun v => v ++ [value]) vectors) else Err ValueError.
Definition convert_points (size : nat) (vectors : list (list R)) : res (list (list R)) := append_component 1 size vectors.
Definition convert_directions (size : nat) (vectors : list (list R)) : res (list (list R)) := append_component 0 size vectors.

(** [normalize_points], coordinates.py:96-116, for one column; the minimum of an empty column is an error. *)
Definition normalize_column (column : list R) : res (list R) :=
  match column with
  | [] => Err IndexError
  | _ =>
      let low := Rmin_list column in
      let range := map (fun x => x - low) column in
      let high := Rmax_list (map (fun x => x + 2 * / 10 ^ 5) range) in
      Ok (map (fun x => (x + / 10 ^ 5) / high) range)
  end.

(** [bitmap_coordinates_to_target_coordinates], coordinates.py:119-249, for one pair of bitmap coordinates on a planar
    or cylindrical target; the fourth component is 1. *)
Definition planar_target_coordinates (width height : nat) (p : plane) (e u : R) : hvec :=
  let e_local := (/ 2 - (e + / 2) / INR width) * plane_width p in
  let u_local := (/ 2 - (u + / 2) / INR height) * plane_height p in
  let x := vadd (vadd (plane_center p) (smul e_local (vec 1 0 0))) (smul u_local (vec 0 0 1)) in
  hv (pe x) (pn x) (pu x) 1.
Definition cylindrical_target_coordinates (width height : nat) (c : cylinder) (e u : R) : hvec :=
  let v := cross (cyl_axis c) (cyl_normal c) in
  let theta := ((e + / 2) / INR width - / 2) * cyl_opening c in
  let z := (/ 2 - (u + / 2) / INR height) * cyl_height c in
  let x := vadd (vadd (vadd (cyl_center c) (smul (cyl_radius c * cos theta) (cyl_normal c)))
                      (smul (cyl_radius c * sin theta) v)) (smul z (cyl_axis c)) in
  hv (pe x) (pn x) (pu x) 1.

(** [torch.remainder(x, 2 * pi)]. *)
Definition remainder (x y : R) : R := x - y * IZR (Int_part (x / y)).
Definition deg2rad (x : R) : R := x * PI / 180.
(** [azimuth_elevation_to_enu], coordinates.py:252-312. *)
Definition azimuth_elevation_to_enu (slant_range : R) (degree : bool) (azimuth elevation : R) : point :=
  let elevation := if degree then deg2rad elevation else elevation in
  let azimuth := remainder (if degree then deg2rad azimuth else azimuth) (2 * PI) in
  let r := slant_range * cos elevation in
  vec (r * sin azimuth) (- r * cos azimuth) (slant_range * sin elevation).
Definition azimuths_elevations_to_enu (slant_range : R) (degree : bool) (azimuths elevations : list R) : res (list point) :=
  if (length azimuths =? length elevations)%nat
  then Ok (map (fun '(a, e) => azimuth_elevation_to_enu slant_range degree a e) (combine azimuths elevations))
  else Err ValueError.

(** [convert_wgs84_coordinates_to_local_enu], coordinates.py:315-390; coordinates are (latitude, longitude, altitude)
    in degrees and metres. *)
Definition wgs84_a : R := 6378137.
Definition wgs84_b : R := 6356752314245 / 10 ^ 6.
Definition wgs84_e2 : R := (wgs84_a ^ 2 - wgs84_b ^ 2) / wgs84_a ^ 2.
Definition wgs84_to_enu (coordinate reference : R * R * R) : point :=
  let '(latitude, longitude, altitude) := coordinate in
  let '(latitude_0, longitude_0, altitude_0) := reference in
  let phi := deg2rad latitude in
  let w := 1 - wgs84_e2 * sin phi ^ 2 in
  let rn := wgs84_a / sqrt w in
  let rm := wgs84_a * (1 - wgs84_e2) / (w * sqrt w) in
  let dlat := deg2rad latitude_0 - phi in
  let dlon := deg2rad longitude_0 - deg2rad longitude in
  vec (- (dlon * rn * cos phi)) (- (dlat * rm)) (altitude - altitude_0).
