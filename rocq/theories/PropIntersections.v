(** C14, C26-C29: reflection and intersections with planar and cylindrical target areas. *)
From Coq Require Import List Arith Reals Lra Lia.
From Verif Require Import ModelField ModelVectors RealSums ModelSplatting SpecSplatting ModelIntersections SpecIntersections ProofsVectors ProofsIntersections ProofsCylinder.
Import ListNotations.
Local Open Scope R_scope.

(** C14. The full claim is false: a ray on the west or the upper border of the area is lost, whatever the area and
    the resolution. *)
Theorem C14_border_rays_refuted : forall width height p o d m t, (2 <= width)%nat -> (2 <= height)%nat -> sized p ->
  hits_area p o d t -> ~ within_half_open p (along o d t) ->
  exists image, bilinear_splatting width height [hit_of (line_plane width height p o d m)] = Ok image /\ image_total image = 0.
Proof. exact border_lost. Qed.
Print Assumptions C14_border_rays_refuted.

(** What holds: rays hitting the area without those two borders contribute exactly their power. *)
Theorem C14_area_power_partial : forall width height p rays, (2 <= width)%nat -> (2 <= height)%nat -> sized p ->
  (forall o d m, In (o, d, m) rays -> exists t, hits_area p o d t /\ within_half_open p (along o d t)) ->
  exists image, bilinear_splatting width height (map (fun '(o, d, m) => hit_of (line_plane width height p o d m)) rays) = Ok image
    /\ image_total image = Rsum (map (fun '(o, d, m) => m * - dot d (plane_normal p)) rays).
Proof. exact area_power. Qed.
Print Assumptions C14_area_power_partial.

(** A target area facing north, 8 wide and 6 high; a ray through its centre and one through its upper border. *)
Definition north_area : plane := {| plane_center := vec 0 0 50; plane_normal := vec 0 1 0; plane_width := 8; plane_height := 6 |}.
Lemma north_hit : forall e u, -4 <= e <= 4 -> -3 <= u <= 3 -> hits_area north_area (vec e 10 (50 + u)) (vec 0 (-1) 0) 10.
Proof.
  intros e u E U. unfold hits_area, on_plane, within_area, along, north_area. cbn [plane_center plane_normal plane_width plane_height]. vunfold.
  split; [lra|]. split; [lra|]. split; apply Rabs_le; lra.
Qed.
Example C14_case : (exists image, bilinear_splatting 256 256 [hit_of (line_plane 256 256 north_area (vec 1 10 53) (vec 0 (-1) 0) 7)] = Ok image /\ image_total image = 0)
  /\ (exists image, bilinear_splatting 256 256 [hit_of (line_plane 256 256 north_area (vec 1 10 52) (vec 0 (-1) 0) 7)] = Ok image /\ image_total image = 7).
Proof.
  split.
  - apply (C14_border_rays_refuted 256 256 north_area _ _ _ 10); try lia; [split; cbn; lra| |].
    + replace 53 with (50 + 3) by lra. apply north_hit; lra.
    + unfold within_half_open, along, north_area. cbn [plane_center plane_width plane_height]. vunfold. lra.
  - destruct (C14_area_power_partial 256 256 north_area [(vec 1 10 52, vec 0 (-1) 0, 7)]) as (image & E & T); try lia; [split; cbn; lra| |].
    + intros o d m [Q|[]]. inversion Q; subst. exists 10. split; [replace 52 with (50 + 2) by lra; apply north_hit; lra|].
      unfold within_half_open, along, north_area. cbn [plane_center plane_width plane_height]. vunfold. lra.
    + exists image. split; [exact E|]. rewrite T. cbn [map Rsum fold_right]. unfold north_area; cbn [plane_normal]. vunfold. lra.
Qed.

(** C26. *)
Theorem C26_hit_position : forall width height p, (2 <= width)%nat -> (2 <= height)%nat -> sized p ->
  forall o d m t, hits_area p o d t ->
  let q := along o d t in
  line_plane width height p o d m
  = {| i_e := (INR width - 1) * (1/2 - (pe q - pe (plane_center p)) / plane_width p);
       i_u := (INR height - 1) * (1/2 + (pu q - pu (plane_center p)) / plane_height p);
       i_distance := t; i_intensity := m * - dot d (plane_normal p) |}.
Proof. exact plane_hit. Qed.
Print Assumptions C26_hit_position.

Theorem C26_miss : forall width height p, (2 <= width)%nat -> (2 <= height)%nat -> sized p ->
  forall o d m, (forall t, ~ hits_area p o d t) ->
  line_plane width height p o d m = {| i_e := INR width - 1; i_u := 0; i_distance := 0; i_intensity := 0 |}.
Proof. exact plane_miss. Qed.
Print Assumptions C26_miss.

Theorem C26_bounds : forall width height p, (2 <= width)%nat -> (2 <= height)%nat -> sized p ->
  forall o d m, unit d -> unit (plane_normal p) -> 0 <= m ->
  let r := line_plane width height p o d m in
  0 <= i_e r <= INR width - 1 /\ 0 <= i_u r <= INR height - 1 /\ 0 <= i_intensity r <= m.
Proof. exact plane_bounds. Qed.
Print Assumptions C26_bounds.

(** With a single column every ray facing the plane at the height of the area counts as a hit, however far away. *)
Theorem C26_single_column_accepts_all : forall height p o d m t, (2 <= height)%nat -> sized p ->
  dot d (plane_normal p) < 0 -> on_plane p (along o d t) ->
  Rabs (pu (along o d t) - pu (plane_center p)) <= plane_height p / 2 ->
  i_intensity (line_plane 1 height p o d m) = m * - dot d (plane_normal p).
Proof. exact single_column. Qed.
Print Assumptions C26_single_column_accepts_all.

Example C26_case : hits_area north_area (vec 1 10 (50 + 2)) (vec 0 (-1) 0) 10
  /\ line_plane 3 4 north_area (vec 1 10 (50 + 2)) (vec 0 (-1) 0) 7 = {| i_e := 3/4; i_u := 5/2; i_distance := 10; i_intensity := 7 |}
  /\ (forall t, ~ hits_area north_area (vec 5 10 50) (vec 0 (-1) 0) t).
Proof.
  split; [apply north_hit; lra|]. split.
  - rewrite (C26_hit_position 3 4 north_area) with (t := 10); try lia; [|split; cbn; lra|apply north_hit; lra].
    unfold along, north_area. cbn [plane_center plane_normal plane_width plane_height]. vunfold.
    f_equal; simpl; lra.
  - intros t (_ & _ & A & _). unfold along, north_area in A. cbn [plane_center plane_normal plane_width plane_height] in A. vunfold.
    unfold Rabs in A. destruct (Rcase_abs _); lra.
Qed.

(** C27. The full claim is false: whenever the area lies behind the origin of a ray, which never comes to it, the ray deposits
    the same power as if the area was in front. *)
Theorem C27_no_hit_behind_refuted : forall width height p, (2 <= width)%nat -> (2 <= height)%nat -> sized p ->
  forall o d m t, t < 0 -> hits_area p o d t ->
  (forall t', 0 <= t' -> ~ on_plane p (along o d t'))
  /\ i_intensity (line_plane width height p o d m) = m * - dot d (plane_normal p) /\ 0 < - dot d (plane_normal p).
Proof. exact hit_behind. Qed.
Print Assumptions C27_no_hit_behind_refuted.

Example C27_behind_case : hits_area north_area (vec 1 (-10) (50 + 2)) (vec 0 (-1) 0) (- 10).
Proof. unfold hits_area, on_plane, within_area, along, north_area. cbn [plane_center plane_normal plane_width plane_height]. vunfold. repeat split; try lra; apply Rabs_le; lra. Qed.

(** What holds: a ray starting in front of the plane hits only forwards, and a ray leaving the front deposits nothing. *)
Theorem C27_front_hits_forward_partial : forall width height p, (2 <= width)%nat -> (2 <= height)%nat -> sized p ->
  forall o d m, 0 < dot (vsub o (plane_center p)) (plane_normal p) ->
  let r := line_plane width height p o d m in
  (i_intensity r <> 0 -> 0 < i_distance r /\ hits_area p o d (i_distance r))
  /\ (0 <= dot d (plane_normal p) -> i_intensity r = 0).
Proof. exact front_forward. Qed.
Print Assumptions C27_front_hits_forward_partial.

Example C27_case : 0 < dot (vsub (vec 1 10 (50 + 2)) (plane_center north_area)) (plane_normal north_area)
  /\ i_intensity (line_plane 3 4 north_area (vec 1 10 (50 + 2)) (vec 0 (-1) 0) 7) <> 0.
Proof. destruct C26_case as (_ & -> & _). cbn. unfold north_area. vunfold. split; lra. Qed.

(** C28. *)
Theorem C28_hit_geometry_partial : forall width height c o d m, proper_cylinder c -> (1 <= width)%nat -> (1 <= height)%nat -> unit d -> 0 <= m ->
  let r := line_cylinder width height c o d m in
  r = no_intersection \/
  (let q := along o d (i_distance r) in
   let z := dot (vsub q (cyl_center c)) (cyl_axis c) in
   let radial := off_axis (cyl_axis c) (vsub q (cyl_center c)) in
   0 < i_distance r
   /\ cyl_radius c ^ 2 <= dot radial radial <= cyl_radius c ^ 2 + 25 / 10 ^ 6
   /\ Rabs z <= cyl_height c / 2
   /\ i_u r = (1/2 + z / cyl_height c) * (INR height - 1)
   /\ 0 <= i_e r <= INR width - 1 /\ 0 <= i_u r <= INR height - 1
   /\ i_intensity r = m * Rmax (- dot d radial / norm radial) 0
   /\ 0 <= i_intensity r <= m).
Proof. exact cylinder_hit. Qed.
Print Assumptions C28_hit_geometry_partial.

(** Of the two sides of the cylinder, a ray from outside takes the one where it enters. *)
Theorem C28_front_side : forall c, proper_cylinder c -> forall o d t, cylinder_distance c o d = Some t ->
  cyl_radius c ^ 2 + / 10 ^ 4 < dot (off_axis (cyl_axis c) (vsub o (cyl_center c))) (off_axis (cyl_axis c) (vsub o (cyl_center c))) ->
  dot (off_axis (cyl_axis c) d) (off_axis (cyl_axis c) (vsub (along o d t) (cyl_center c))) < 0.
Proof. exact distance_entering. Qed.
Print Assumptions C28_front_side.

(** The opening angle is measured wrongly unless the normal points north.  With the normal at [psi] on a map, counted from the
    east, no ray is ever counted on the centre line of a cylinder turned away from north by more than half its opening. *)
Theorem C28_opening_angle_refuted : forall c psi r, proper_cylinder c ->
  0 < r -> - PI < psi <= PI -> pe (cyl_normal c) = r * cos psi -> pn (cyl_normal c) = r * sin psi -> cyl_opening c / 2 < Rabs (PI / 2 - psi) ->
  forall o d t, cylinder_distance c o d = Some t -> at_angle c (along o d t) 0 ->
  forall width height m, line_cylinder width height c o d m = no_intersection.
Proof. exact centre_missed. Qed.
Print Assumptions C28_opening_angle_refuted.

(** A cylinder facing south is such a cylinder. *)
Example C28_south_case : exists t, (proper_cylinder south_cylinder
  /\ cylinder_distance south_cylinder (vec 0 (-5) 0) (vec 0 1 0) = Some t /\ at_angle south_cylinder (along (vec 0 (-5) 0) (vec 0 1 0) t) 0
  /\ dot (vsub (along (vec 0 (-5) 0) (vec 0 1 0) t) (cyl_center south_cylinder)) (cyl_axis south_cylinder) = 0)
  /\ pe (cyl_normal south_cylinder) = 1 * cos (- (PI / 2)) /\ pn (cyl_normal south_cylinder) = 1 * sin (- (PI / 2))
  /\ cyl_opening south_cylinder / 2 < Rabs (PI / 2 - - (PI / 2)).
Proof.
  destruct south_case as (t & H). exists t. split; auto. pose proof PI_RGT_0. rewrite cos_neg, sin_neg, cos_PI2, sin_PI2.
  cbn [south_cylinder cyl_normal cyl_opening vec pe pn]. split; [lra|]. split; [lra|]. rewrite Rabs_pos_eq; lra.
Qed.

(** Even facing north, the part of a cylinder more than a quarter turn to one side of its normal is never hit. *)
Theorem C28_wide_opening_refuted : forall c, proper_cylinder c -> pe (cyl_normal c) = 0 -> 0 < pn (cyl_normal c) ->
  forall o d t delta, cylinder_distance c o d = Some t -> at_angle c (along o d t) delta -> cyl_opening c <= 2 * PI -> PI / 2 < delta < PI ->
  forall width height m, line_cylinder width height c o d m = no_intersection.
Proof. exact wide_missed. Qed.
Print Assumptions C28_wide_opening_refuted.

Example C28_full_case : exists c o d, proper_cylinder c /\ pe (cyl_normal c) = 0 /\ 0 < pn (cyl_normal c) /\ unit d
  /\ (exists t delta, cylinder_distance c o d = Some t /\ at_angle c (along o d t) delta /\ Rabs delta <= cyl_opening c / 2
        /\ dot (vsub (along o d t) (cyl_center c)) (cyl_axis c) = 0)
  /\ forall width height m, line_cylinder width height c o d m = no_intersection.
Proof. exact full_missed. Qed.

(** What holds for every direction of the normal: the accepted sector has the right size but is turned by the angle between the
    normal and north. *)
Theorem C28_any_opening_partial : forall width height c o d m t psi r phi, proper_cylinder c ->
  0 < r -> - PI < psi <= PI -> pe (cyl_normal c) = r * cos psi -> pn (cyl_normal c) = r * sin psi ->
  cylinder_distance c o d = Some t -> - PI < phi <= PI -> at_angle c (along o d t) (phi - PI / 2) ->
  let hit := line_cylinder width height c o d m in
  (Rabs (phi - psi) <= cyl_opening c / 2 -> Rabs (dot (vsub (along o d t) (cyl_center c)) (cyl_axis c)) <= cyl_height c / 2 ->
     i_distance hit = t /\ i_e hit = (1/2 + (phi - psi) / cyl_opening c) * (INR width - 1))
  /\ (cyl_opening c / 2 < Rabs (phi - psi) -> hit = no_intersection).
Proof. exact cylinder_opening_any. Qed.
Print Assumptions C28_any_opening_partial.

(** What holds: for a normal pointing north and at most half a turn, exactly the opening angle is accepted and the
    column is linear in the angle. *)
Theorem C28_north_opening_partial : forall width height c o d m t, proper_cylinder c -> cyl_opening c <= PI ->
  pe (cyl_normal c) = 0 -> 0 < pn (cyl_normal c) -> cylinder_distance c o d = Some t ->
  let r := line_cylinder width height c o d m in
  let q := along o d t in
  (forall delta, at_angle c q delta -> Rabs delta <= cyl_opening c / 2 ->
     Rabs (dot (vsub q (cyl_center c)) (cyl_axis c)) <= cyl_height c / 2 ->
     i_distance r = t /\ i_e r = (1/2 + delta / cyl_opening c) * (INR width - 1))
  /\ (0 < i_distance r -> exists delta, at_angle c q delta /\ Rabs delta <= cyl_opening c / 2).
Proof. exact cylinder_opening_north. Qed.
Print Assumptions C28_north_opening_partial.

(** A half cylinder facing north, met on its centre line. *)
Example C28_case : exists t, proper_cylinder north_cylinder /\ cyl_opening north_cylinder <= PI
  /\ cylinder_distance north_cylinder (vec 0 5 0) (vec 0 (-1) 0) = Some t /\ 3 < t < 5
  /\ at_angle north_cylinder (along (vec 0 5 0) (vec 0 (-1) 0) t) 0
  /\ i_e (line_cylinder 101 11 north_cylinder (vec 0 5 0) (vec 0 (-1) 0) 7) = 50
  /\ i_distance (line_cylinder 101 11 north_cylinder (vec 0 5 0) (vec 0 (-1) 0) 7) = t.
Proof. exact north_case. Qed.

(** C29. *)
Theorem C29_law_of_reflection : forall d n, unit n ->
  dot (reflect d n) (reflect d n) = dot d d
  /\ dot (reflect d n) n = - dot d n
  /\ (forall t, dot t n = 0 -> dot (reflect d n) t = dot d t)
  /\ reflect (reflect d n) n = d.
Proof. exact reflect_law. Qed.
Print Assumptions C29_law_of_reflection.

Example C29_case : unit (vec (3/5) 0 (4/5)) /\ reflect (vec 0 0 (-1)) (vec (3/5) 0 (4/5)) = vec (24/25) 0 (7/25).
Proof. split; [unfold unit; vunfold; lra|]. apply point_eq; unfold reflect; vunfold; lra. Qed.
