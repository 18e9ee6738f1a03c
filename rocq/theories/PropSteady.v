(** C156: focal spots move no further than their rays. *)
From Coq Require Import List Arith Reals Lra Lia.
From Verif Require Import RealSums ModelField ModelVectors ModelTransforms SpecTransforms ModelActuators ModelKinematics SpecKinematics ModelSplatting SpecSplatting ModelIntersections
  SpecIntersections ModelBitmap SpecBitmap ModelCoordinates SpecCoordinates ProofsAlignHistory ProofsSteady ProofsSteadyCase.
Import ListNotations.
Local Open Scope R_scope.

(** C156.  If rays inside the image move by at most [de] and [du] pixels, the centre of mass of the image moves by at most as much, plus the share of
    the power that has changed times the size of the image. *)
Theorem C156_pixels : forall width height (rays : list (ray_hit * ray_hit)) de du, (1 <= width)%nat -> (1 <= height)%nat -> 0 <= de -> 0 <= du ->
  (forall r r', In (r, r') rays -> inside_grid width height r /\ inside_grid width height r' /\ 0 <= hit_intensity r /\ 0 <= hit_intensity r'
     /\ Rabs (hit_e r - hit_e r') <= de /\ Rabs (hit_u r - hit_u r') <= du) ->
  let power := Rsum (map (fun '(r, _) => hit_intensity r) rays) in
  let change := Rsum (map (fun '(r, r') => Rabs (hit_intensity r - hit_intensity r')) rays) in
  exists image image' e u e' u', bilinear_splatting width height (map fst rays) = Ok image /\ bilinear_splatting width height (map snd rays) = Ok image'
    /\ center_of_mass height width (fun row column => nth column (nth row image []) 0) = Some (e, u)
    /\ center_of_mass height width (fun row column => nth column (nth row image' []) 0) = Some (e', u')
    /\ Rabs (e - e') <= de + (INR width - 1) * (change / (power + / 10 ^ 8))
    /\ Rabs (u - u') <= du + (INR height - 1) * (change / (power + / 10 ^ 8)).
Proof. exact spot_steady. Qed.
Print Assumptions C156_pixels.

(** On a target area, in metres: if the hits move by at most [delta] and the directions by at most [eta], the focal spot moves by at most [delta],
    plus [eta] times the size of the area over the mean cosine of the angle of incidence. *)
Theorem C156_rays : forall width height p (rays : list ((point * point * R) * (point * point * R) * R)) delta eta,
  (2 <= width)%nat -> (2 <= height)%nat -> sized p -> unit (plane_normal p) -> 0 <= delta -> 0 <= eta ->
  (forall o d t o' d' t' m, In ((o, d, t), (o', d', t'), m) rays ->
     hits_area p o d t /\ within_half_open p (along o d t) /\ hits_area p o' d' t' /\ within_half_open p (along o' d' t') /\ 0 <= m
     /\ norm (vsub (along o d t) (along o' d' t')) <= delta /\ norm (vsub d d') <= eta) ->
  let reflected := Rsum (map (fun '(_, _, m) => m) rays) in
  let received := Rsum (map (fun '((o, d, t), _, m) => m * - dot d (plane_normal p)) rays) in
  exists image image' e u e' u',
    bilinear_splatting width height (map (fun '((o, d, _), _, m) => hit_of (line_plane width height p o d m)) rays) = Ok image
    /\ bilinear_splatting width height (map (fun '(_, (o, d, _), m) => hit_of (line_plane width height p o d m)) rays) = Ok image'
    /\ center_of_mass height width (fun row column => nth column (nth row image []) 0) = Some (e, u)
    /\ center_of_mass height width (fun row column => nth column (nth row image' []) 0) = Some (e', u')
    /\ let spot := position (planar_target_coordinates width height p e u) in let spot' := position (planar_target_coordinates width height p e' u') in
       Rabs (pe spot - pe spot') <= delta + plane_width p * (eta * reflected / (received + / 10 ^ 8))
       /\ pn spot = pn spot'
       /\ Rabs (pu spot - pu spot') <= delta + plane_height p * (eta * reflected / (received + / 10 ^ 8)).
Proof. exact traced_steady. Qed.
Print Assumptions C156_rays.

(** For a whole mirror, whose rays travel at most [far] and arrive with a cosine of at least [slant]: joints off by [d1] and [d2] move its focal spot
    by at most [moved], from the displacement of the mirror, plus twice the joint errors times the distance and the size of the area, over [slant]. *)
Theorem C156_joints : forall width height p k m m' i (points : list (point * point * R * R * R)) d1 d2 slant far radius,
  (2 <= width)%nat -> (2 <= height)%nat -> sized p -> unit (plane_normal p) -> unit i -> 0 < slant ->
  Rabs (to_angle (k_drive_1 k) (fst m) - to_angle (k_drive_1 k) (fst m')) <= d1 ->
  Rabs (to_angle (k_drive_2 k) (snd m) - to_angle (k_drive_2 k) (snd m')) <= d2 -> 0 <= far -> 0 <= radius ->
  let origin m x := enu (mapply (motor_positions_to_orientation k m) (as_point x)) in
  let ray m v := reflect i (enu (mapply (motor_positions_to_orientation k m) (as_direction v))) in
  (forall x v t t' power, In (x, v, t, t', power) points -> unit v /\ norm x <= radius /\ 0 <= power
     /\ hits_area p (origin m x) (ray m v) t /\ within_half_open p (along (origin m x) (ray m v) t) /\ slant <= - dot (ray m v) (plane_normal p)
     /\ hits_area p (origin m' x) (ray m' v) t' /\ within_half_open p (along (origin m' x) (ray m' v) t') /\ Rabs t' <= far) ->
  let moved := (1 + / slant) * (d1 * (norm (k_translation_2 k) + norm (k_translation_c k) + radius) + d2 * (norm (k_translation_c k) + radius)) in
  let image_of m := bilinear_splatting width height (map (fun '(x, v, _, _, power) => hit_of (line_plane width height p (origin m x) (ray m v) power)) points) in
  exists image image' e u e' u', image_of m = Ok image /\ image_of m' = Ok image'
    /\ center_of_mass height width (fun row column => nth column (nth row image []) 0) = Some (e, u)
    /\ center_of_mass height width (fun row column => nth column (nth row image' []) 0) = Some (e', u')
    /\ let spot := position (planar_target_coordinates width height p e u) in let spot' := position (planar_target_coordinates width height p e' u') in
       Rabs (pe spot - pe spot') <= moved + (far + plane_width p) / slant * (2 * (d1 + d2))
       /\ pn spot = pn spot'
       /\ Rabs (pu spot - pu spot') <= moved + (far + plane_height p) / slant * (2 * (d1 + d2)).
Proof. exact mirror_steady. Qed.
Print Assumptions C156_joints.

(** Two rays of which one moves by half a pixel, in an image of 4 x 3 pixels. *)
Example C156_pixels_case : forall r r', In (r, r') [({| hit_e := 1/2; hit_u := 1/4; hit_intensity := 3 |}, {| hit_e := 1; hit_u := 1/4; hit_intensity := 3 |});
    ({| hit_e := 5/2; hit_u := 1/4; hit_intensity := 1 |}, {| hit_e := 5/2; hit_u := 1/4; hit_intensity := 2 |})] ->
  inside_grid 4 3 r /\ inside_grid 4 3 r' /\ 0 <= hit_intensity r /\ 0 <= hit_intensity r' /\ Rabs (hit_e r - hit_e r') <= 1/2 /\ Rabs (hit_u r - hit_u r') <= 0.
Proof.
  intros r r' [E|[E|[]]]; injection E as <- <-; unfold inside_grid; cbn [hit_e hit_u hit_intensity INR]; repeat split; try lra; apply Rabs_le; lra.
Qed.
(** A mirror ten metres before a screen, turned by about 11.4 degrees: its spot moves by 4.2 metres, and the theorem bounds this. *)
Example C156_case : exists image image' e u e' u',
  bilinear_splatting 5 5 [hit_of (line_plane 5 5 north_screen (enu (mapply (motor_positions_to_orientation kb (0, 0)) (as_point (vec 0 0 0))))
    (reflect (vec 0 1 0) (enu (mapply (motor_positions_to_orientation kb (0, 0)) (as_direction (vec 0 0 1))))) 5)] = Ok image
  /\ bilinear_splatting 5 5 [hit_of (line_plane 5 5 north_screen (enu (mapply (motor_positions_to_orientation kb (0, turn)) (as_point (vec 0 0 0))))
    (reflect (vec 0 1 0) (enu (mapply (motor_positions_to_orientation kb (0, turn)) (as_direction (vec 0 0 1))))) 5)] = Ok image'
  /\ center_of_mass 5 5 (fun row column => nth column (nth row image []) 0) = Some (e, u)
  /\ center_of_mass 5 5 (fun row column => nth column (nth row image' []) 0) = Some (e', u')
  /\ 0 < turn
  /\ Rabs (pe (position (planar_target_coordinates 5 5 north_screen e u)) - pe (position (planar_target_coordinates 5 5 north_screen e' u'))) <= 54 * turn.
Proof.
  destruct screen_case as (SZ & UN & UI & D1 & D2 & _ & HP).
  destruct (C156_joints 5 5 north_screen kb (0, 0) (0, turn) (vec 0 1 0) [(vec 0 0 0, vec 0 0 1, 10, 10 * 10201 / 9401, 5)] 0 turn 1 11 0)
    as (image & image' & e & u & e' & u' & E & E' & C & C' & B & _); auto; try lia; try lra.
  exists image, image', e, u, e', u'. do 4 (split; [assumption|]). split; [apply turn_positive|].
  eapply Rle_trans; [exact B|]. change (k_translation_c kb) with (vec 0 0 0). change (plane_width north_screen) with 16.
  replace (norm (vec 0 0 0)) with 0; [lra|]. unfold norm. replace (dot (vec 0 0 0) (vec 0 0 0)) with 0 by (unfold dot, vec; cbn; ring). symmetry. apply sqrt_0.
Qed.
