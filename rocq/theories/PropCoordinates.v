(** C54-C57, C78: coordinate conversions. *)
From Coq Require Import List Arith Reals ZArith Lra Lia.
From Verif Require Import RealSums ModelField ModelVectors ProofsVectors ModelTransforms ModelSplatting ModelIntersections SpecIntersections ModelBitmap ModelCoordinates
  SpecCoordinates ProofsBitmap ProofsCylinder ProofsCoordinates PropIntersections.
Import ListNotations.
Local Open Scope R_scope.

(** C54. *)
Theorem C54_points : forall size vectors,
  (size = 3%nat -> (forall v, In v vectors -> length v = 3%nat) ->
   exists out, convert_points size vectors = Ok out /\ length out = length vectors
   /\ forall i, (i < length vectors)%nat -> forall e n u, nth_error vectors i = Some [e; n; u] -> nth_error out i = Some [e; n; u; 1])
  /\ (size <> 3%nat -> convert_points size vectors = Err ValueError).
Proof. exact (append_all 1). Qed.
Print Assumptions C54_points.

Theorem C54_directions : forall size vectors,
  (size = 3%nat -> (forall v, In v vectors -> length v = 3%nat) ->
   exists out, convert_directions size vectors = Ok out /\ length out = length vectors
   /\ forall i, (i < length vectors)%nat -> forall e n u, nth_error vectors i = Some [e; n; u] -> nth_error out i = Some [e; n; u; 0])
  /\ (size <> 3%nat -> convert_directions size vectors = Err ValueError).
Proof. exact (append_all 0). Qed.
Print Assumptions C54_directions.

Example C54_case : convert_points 3 [[1; 2; 3]; [4; 5; 6]] = Ok [[1; 2; 3; 1]; [4; 5; 6; 1]] /\ convert_directions 4 [[1; 2; 3; 4]] = Err ValueError.
Proof. split; reflexivity. Qed.

(** C55. *)
Theorem C55_normalized_points : forall column, column <> [] ->
  exists out, normalize_column column = Ok out /\ length out = length column
  /\ (forall x, In x out -> 0 < x < 1)
  /\ forall i j, (i < length column)%nat -> (j < length column)%nat -> (nth i out 0 < nth j out 0 <-> nth i column 0 < nth j column 0).
Proof. exact normalize_all. Qed.
Print Assumptions C55_normalized_points.

Example C55_case : exists a b, normalize_column [7; 2] = Ok [a; b] /\ 0 < b < a /\ a < 1.
Proof.
  destruct (C55_normalized_points [7; 2]) as (out & E & L & B & M); [discriminate|]. destruct out as [|a [|b [|? ?]]]; try discriminate.
  exists a, b. split; auto. pose proof (B a ltac:(cbn; auto)). pose proof (B b ltac:(cbn; auto)).
  pose proof (M 1%nat 0%nat ltac:(cbn; lia) ltac:(cbn; lia)) as M1. cbn [nth] in M1. destruct M1 as (_ & M1). specialize (M1 ltac:(lra)). lra.
Qed.

(** C56. The direction has the elevation's sine as height and length one (more generally the slant range); azimuth 0 is
    south and 90 degrees east of it; whole turns do not matter. *)
Theorem C56_direction : forall r (degree : bool) a e,
  let angle x := if degree then x * PI / 180 else x in
  azimuth_elevation_to_enu r degree a e = vec (r * cos (angle e) * sin (angle a)) (- (r * cos (angle e) * cos (angle a))) (r * sin (angle e)).
Proof. exact enu_value. Qed.
Print Assumptions C56_direction.

Theorem C56_unit : forall r degree a e, 0 <= r -> norm (azimuth_elevation_to_enu r degree a e) = r.
Proof. exact enu_length. Qed.
Print Assumptions C56_unit.

Theorem C56_whole_turns : forall r a e (n : Z), azimuth_elevation_to_enu r true (a + 360 * IZR n) e = azimuth_elevation_to_enu r true a e.
Proof. exact enu_period. Qed.
Print Assumptions C56_whole_turns.

Theorem C56_batches : forall r degree azimuths elevations,
  (length azimuths = length elevations -> exists out, azimuths_elevations_to_enu r degree azimuths elevations = Ok out /\ length out = length azimuths
     /\ forall i a e, nth_error azimuths i = Some a -> nth_error elevations i = Some e -> nth_error out i = Some (azimuth_elevation_to_enu r degree a e))
  /\ (length azimuths <> length elevations -> azimuths_elevations_to_enu r degree azimuths elevations = Err ValueError).
Proof. exact enu_lists. Qed.
Print Assumptions C56_batches.

Example C56_case : azimuth_elevation_to_enu 1 true 90 0 = vec 1 0 0 /\ azimuth_elevation_to_enu 1 true 0 90 = vec 0 0 1 /\ azimuth_elevation_to_enu 1 true 360 0 = vec 0 (-1) 0
  /\ azimuth_elevation_to_enu 1 false (PI / 2) 0 = vec 1 0 0.
Proof.
  assert (A : 90 * PI / 180 = PI / 2) by field. assert (B : 0 * PI / 180 = 0) by field.
  repeat split.
  - rewrite C56_direction. cbn zeta. rewrite A, B, sin_PI2, cos_PI2, sin_0, cos_0. apply point_eq; cbn [vec pe pn pu]; lra.
  - rewrite C56_direction. cbn zeta. rewrite A, B, sin_PI2, cos_PI2, sin_0, cos_0. apply point_eq; cbn [vec pe pn pu]; lra.
  - replace 360 with (0 + 360 * IZR 1) by (cbn; lra). rewrite C56_whole_turns, C56_direction. cbn zeta. rewrite B, sin_0, cos_0. apply point_eq; cbn [vec pe pn pu]; lra.
  - rewrite C56_direction. cbn zeta. rewrite sin_PI2, cos_PI2, sin_0, cos_0. apply point_eq; cbn [vec pe pn pu]; lra.
Qed.

(** C57. The full claim is false.  The position computed for the pixel coordinates of a hit is the hit pulled towards the
    centre of the area by the factors 1 - 1/width and 1 - 1/height, with the centre's north coordinate. *)
Theorem C57_shrunk_refuted : forall width height p o d m t, (2 <= width)%nat -> (2 <= height)%nat -> sized p -> hits_area p o d t ->
  let r := line_plane width height p o d m in let q := along o d t in let c := plane_center p in
  position (planar_target_coordinates width height p (pixel_column r) (pixel_row height r))
  = vec (pe c + (1 - / INR width) * (pe q - pe c)) (pn c) (pu c + (1 - / INR height) * (pu q - pu c)).
Proof. exact planar_round_trip. Qed.
Print Assumptions C57_shrunk_refuted.

(** On an area that does not face north or south the error does not get smaller with the pixels: the north coordinate is wrong by
    the slope of the area times the distance from its centre, whatever the resolution. *)
Theorem C57_slanted_refuted : forall width height p o d m t, (2 <= width)%nat -> (2 <= height)%nat -> sized p -> hits_area p o d t ->
  let r := line_plane width height p o d m in let q := along o d t in
  let x := position (planar_target_coordinates width height p (pixel_column r) (pixel_row height r)) in
  (pn x - pn q) * pn (plane_normal p)
  = (pe q - pe (plane_center p)) * pe (plane_normal p) + (pu q - pu (plane_center p)) * pu (plane_normal p).
Proof. exact planar_slanted. Qed.
Print Assumptions C57_slanted_refuted.

(** Three metres on an area leaning forward. *)
Example C57_slanted_case : let p := {| plane_center := vec 0 0 50; plane_normal := vec 0 (4/5) (-3/5); plane_width := 8; plane_height := 10 |} in
  sized p /\ unit (plane_normal p) /\ hits_area p (vec 0 13 54) (vec 0 (-1) 0) 10
  /\ forall width height m, (2 <= width)%nat -> (2 <= height)%nat ->
     let r := line_plane width height p (vec 0 13 54) (vec 0 (-1) 0) m in
     Rabs (pn (position (planar_target_coordinates width height p (pixel_column r) (pixel_row height r))) - pn (along (vec 0 13 54) (vec 0 (-1) 0) 10)) = 3.
Proof. exact slanted_case. Qed.

(** What holds: at most half a pixel of error on areas facing north or south, and none exactly at the centre. *)
Theorem C57_half_pixel_partial : forall width height p o d m t, (2 <= width)%nat -> (2 <= height)%nat -> sized p -> faces_north_or_south p -> hits_area p o d t ->
  let r := line_plane width height p o d m in let q := along o d t in
  let x := position (planar_target_coordinates width height p (pixel_column r) (pixel_row height r)) in
  Rabs (pe x - pe q) <= plane_width p / (2 * INR width) /\ pn x = pn q /\ Rabs (pu x - pu q) <= plane_height p / (2 * INR height)
  /\ (x = q <-> pe q = pe (plane_center p) /\ pu q = pu (plane_center p)).
Proof. exact planar_half_pixel. Qed.
Print Assumptions C57_half_pixel_partial.

(** The same shrinking on a cylinder facing north, in angle and height. *)
Theorem C57_cylinder_partial : forall width height c o d m t, proper_cylinder c -> cyl_opening c <= PI -> (1 <= width)%nat -> (1 <= height)%nat ->
  unit d -> 0 <= m -> pe (cyl_normal c) = 0 -> 0 < pn (cyl_normal c) -> cylinder_distance c o d = Some t ->
  let r := line_cylinder width height c o d m in let q := along o d t in let z := dot (vsub q (cyl_center c)) (cyl_axis c) in
  forall delta, at_angle c q delta -> Rabs delta <= cyl_opening c / 2 -> Rabs z <= cyl_height c / 2 ->
  let delta' := (1 - / INR width) * delta in
  position (cylindrical_target_coordinates width height c (pixel_column r) (pixel_row height r))
  = vadd (vadd (cyl_center c) (smul ((1 - / INR height) * z) (cyl_axis c)))
         (smul (cyl_radius c) (vadd (smul (cos delta') (cyl_normal c)) (smul (sin delta') (cross (cyl_axis c) (cyl_normal c))))).
Proof. exact cylinder_pixels. Qed.
Print Assumptions C57_cylinder_partial.

Lemma north_area_sized : sized north_area. Proof. split; cbn; lra. Qed.
Example C57_case : hits_area north_area (vec 2 10 (50 + 2)) (vec 0 (-1) 0) 10 /\ faces_north_or_south north_area
  /\ (let r := line_plane 4 4 north_area (vec 2 10 (50 + 2)) (vec 0 (-1) 0) 7 in
      position (planar_target_coordinates 4 4 north_area (pixel_column r) (pixel_row 4 r)) = vec (3/2) 0 (50 + 3/2)).
Proof.
  split; [apply north_hit; lra|]. split; [repeat split; cbn; lra|]. cbn zeta.
  rewrite (C57_shrunk_refuted 4 4 north_area _ _ 7 10); [|lia|lia|apply north_area_sized|apply north_hit; lra].
  unfold along, north_area. cbn [plane_center INR]. vunfold. apply point_eq; cbn [vec pe pn pu]; lra.
Qed.

(** C77. Tracing, splatting, centre of mass and conversion together: the focal spot of rays hitting an area is their
    power-weighted mean hit position, pulled towards the centre as in C57 (and by the share of the epsilon towards the
    east and upper border). *)
Theorem C77_focal_spot : forall width height p rays, (2 <= width)%nat -> (2 <= height)%nat -> sized p ->
  (forall o d m t, In (o, d, m, t) rays -> hits_area p o d t /\ within_half_open p (along o d t) /\ 0 <= m) ->
  let c := plane_center p in
  let power := Rsum (map (fun '(o, d, m, t) => m * - dot d (plane_normal p)) rays) in
  let mean f := Rsum (map (fun '(o, d, m, t) => m * - dot d (plane_normal p) * f (along o d t)) rays) / power in
  0 < power ->
  exists image e u, bilinear_splatting width height (map (fun '(o, d, m) => hit_of (line_plane width height p o d m)) (map (fun '(o, d, m, t) => (o, d, m)) rays)) = Ok image
    /\ center_of_mass height width (fun row column => nth column (nth row image []) 0) = Some (e, u)
    /\ let share := power / (power + / 10 ^ 8) in
       position (planar_target_coordinates width height p e u)
       = vec (pe c + (1 - / INR width) * (share * (mean pe - pe c) + (1 - share) * (plane_width p / 2))) (pn c)
             (pu c + (1 - / INR height) * (share * (mean pu - pu c) + (1 - share) * (plane_height p / 2))).
Proof. exact focal_spot. Qed.
Print Assumptions C77_focal_spot.

Example C77_focal_spot_case : let rays := [(vec 1 10 (50 + 2), vec 0 (-1) 0, 7, 10); (vec (-2) 10 (50 + 1), vec 0 (-1) 0, 3, 10)] in
  (forall o d m t, In (o, d, m, t) rays -> hits_area north_area o d t /\ within_half_open north_area (along o d t) /\ 0 <= m)
  /\ 0 < Rsum (map (fun '(o, d, m, t) => m * - dot d (plane_normal north_area)) rays).
Proof.
  intros rays. split.
  - intros o d m t [E|[E|[]]]; inversion E; subst; (split; [apply north_hit; lra|]); (split; [|lra]);
      unfold within_half_open, along, north_area; cbn [plane_center plane_width plane_height]; vunfold; lra.
  - unfold rays, north_area. cbn [map Rsum fold_right plane_normal]. vunfold. lra.
Qed.

(** C78. *)
Theorem C78_local_offsets : forall lat lon alt lat0 lon0 alt0, -90 < lat < 90 ->
  let x := wgs84_to_enu (lat, lon, alt) (lat0, lon0, alt0) in
  exists radius_n radius_e, wgs84_b ^ 2 / wgs84_a <= radius_n <= wgs84_a ^ 2 / wgs84_b /\ wgs84_a <= radius_e <= wgs84_a ^ 2 / wgs84_b
  /\ pn x = radius_n * ((lat - lat0) * PI / 180)
  /\ pe x = radius_e * cos (lat * PI / 180) * ((lon - lon0) * PI / 180)
  /\ pu x = alt - alt0
  /\ (0 < pn x <-> lat0 < lat) /\ (0 < pe x <-> lon0 < lon) /\ (0 < pu x <-> alt0 < alt).
Proof. exact wgs84_all. Qed.
Print Assumptions C78_local_offsets.

(** Longitudes are not wrapped: neighbours across the antimeridian are placed more than half the globe apart. *)
Theorem C78_antimeridian_refuted : forall x, 0 < x < 1 -> let p := wgs84_to_enu (0, 180 - x, 0) (0, -180 + x, 0) in wgs84_a * PI < pe p.
Proof. exact wgs84_antimeridian. Qed.
Print Assumptions C78_antimeridian_refuted.

Example C78_case : let x := wgs84_to_enu (51, 6, 90) (50, 7, 80) in 0 < pn x /\ pe x <= 0 /\ pu x = 10 /\ 6300000 * (PI / 180) < pn x < 6400000 * (PI / 180).
Proof.
  intros x. destruct (C78_local_offsets 51 6 90 50 7 80) as (rn & re & N & E & PN & PE & PU & SN & SE & SU); [lra|]. fold x in PN, PE, PU, SN, SE, SU.
  split; [apply SN; lra|]. split; [destruct (Rle_dec (pe x) 0); auto; exfalso; assert (0 < pe x) by lra; apply SE in H; lra|]. split; [lra|].
  rewrite PN. pose proof PI_RGT_0 as PP. unfold wgs84_a, wgs84_b in N.
  replace ((51 - 50) * PI / 180) with (PI / 180) by field. split; apply Rmult_lt_compat_r; lra.
Qed.
