(** C66, C70, C87-C89: tracing of whole samples. *)
From Coq Require Import List Arith ZArith Reals Lra Lia.
From Verif Require Import RealSums ModelField ModelVectors ProofsVectors ModelTransforms SpecTransforms ModelLBVH SpecLBVH ModelBlocking SpecBlocking
  ModelSplatting SpecSplatting ModelIntersections SpecIntersections ModelBitmap ModelCoordinates SpecCoordinates ModelKinematics SpecKinematics
  ModelTrace SpecTrace ProofsTrace ProofsTracePower ProofsTraceBatch ProofsBlockingTracer ProofsShared ProofsLBVHRefuted PropTransforms.
Import ListNotations.
Local Open Scope R_scope.

(** C66. With blocking the full claim is false: the flux of a sample is 1 when it is traced in a batch of its own and
    at most 1/4 when it shares the batch with a certain other sample (same scene, same mirrors). *)
Theorem C66_blocking_refuted : exists corners a b, proper_sample a /\ proper_sample b
  /\ (forall c, In c corners -> independent (span_u (primitive_of_corners c)) (span_v (primitive_of_corners c)))
  /\ forall sort, sorts sort -> exists ta tb tb',
     trace_samples sort 9 3 3 1 0 1 (Some corners) [(a, 1%nat); (b, 2%nat)] = Traced [Some ta; Some tb]
     /\ trace_samples sort 9 3 3 1 0 1 (Some corners) [(b, 2%nat)] = Traced [Some tb']
     /\ image_total (t_bitmap tb') = 1 /\ image_total (t_bitmap tb) <= 1/4.
Proof. exact batch_dependent. Qed.
Print Assumptions C66_blocking_refuted.

(** This is so in every field whose hierarchy reaches each mirror once: as soon as a ray of another sample meets a mirror that the rays of a
    sample are not tested against (its own mirror, or one that none of them meets), every lit pixel of this sample is darker in the
    shared batch than when it is traced alone. *)
Theorem C66_shared_refuted : forall sort fuel width height magnitude extinction reflectivity corners codes lefts rights s owner others p,
  sorts sort -> (2 <= width)%nat -> (2 <= height)%nat -> 0 <= magnitude -> 0 <= extinction <= 1 -> 0 <= reflectivity ->
  corners <> [] -> morton_codes (/ 10 ^ 6) (map centroid corners) = Ok codes -> child_arrays (fst (sort codes)) = Some (lefts, rights) ->
  reaches_all_once (List.length corners) (fun k => nth k lefts (-1)%Z) (fun k => nth k rights (-1)%Z) ->
  (forall c, In c corners -> independent (span_u (primitive_of_corners c)) (span_v (primitive_of_corners c))) ->
  (forall s' owner' r, In (s', owner') ((s, owner) :: others) -> In r (blocking_rays width height magnitude s' owner') -> sane_ray r) ->
  (2 * List.length corners - 1 <= fuel)%nat -> (forall s' owner', In (s', owner') ((s, owner) :: others) -> proper_sample s') ->
  (p < List.length corners)%nat ->
  p = owner \/ (forall r, In r (blocking_rays width height magnitude s owner) -> ~ meets r (corners_box (nth p corners []))) ->
  (exists s' owner' r, In (s', owner') others /\ owner' <> p /\ In r (blocking_rays width height magnitude s' owner')
     /\ meets r (corners_box (nth p corners []))) ->
  exists t t' rows', trace_samples sort fuel width height magnitude extinction reflectivity (Some corners) [(s, owner)] = Traced [Some t]
    /\ trace_samples sort fuel width height magnitude extinction reflectivity (Some corners) ((s, owner) :: others) = Traced (Some t' :: rows')
    /\ forall r c, (r < height)%nat -> (c < width)%nat -> 0 <= pixel (t_bitmap t') height r c <= pixel (t_bitmap t) height r c
       /\ (0 < pixel (t_bitmap t) height r c -> pixel (t_bitmap t') height r c < pixel (t_bitmap t) height r c).
Proof. exact shared_darker. Qed.
Print Assumptions C66_shared_refuted.
Example C66_shared_case : forall sort, sorts sort -> exists t t' rows',
  trace_samples sort 9 3 3 1 0 1 (Some stacked) [(upward (-3) (-2), 2%nat)] = Traced [Some t]
  /\ trace_samples sort 9 3 3 1 0 1 (Some stacked) ((upward (-3) (-2), 2%nat) :: [(upward (-5) 95, 1%nat)]) = Traced (Some t' :: rows')
  /\ forall r c, (r < 3)%nat -> (c < 3)%nat -> 0 <= pixel (t_bitmap t') 3 r c <= pixel (t_bitmap t) 3 r c
     /\ (0 < pixel (t_bitmap t) 3 r c -> pixel (t_bitmap t') 3 r c < pixel (t_bitmap t) 3 r c).
Proof. exact shared_case. Qed.

(** With blocking, in such a field, the row of a sample is what the sample gives when traced alone if the rays of the other samples meet only
    mirrors of others that its own rays meet too. *)
Theorem C66_same_mirrors_partial : forall sort fuel width height magnitude extinction reflectivity corners codes lefts rights s owner others,
  sorts sort -> (2 <= width)%nat -> (2 <= height)%nat -> 0 <= magnitude -> 0 <= extinction <= 1 -> 0 <= reflectivity ->
  corners <> [] -> morton_codes (/ 10 ^ 6) (map centroid corners) = Ok codes -> child_arrays (fst (sort codes)) = Some (lefts, rights) ->
  reaches_all_once (List.length corners) (fun k => nth k lefts (-1)%Z) (fun k => nth k rights (-1)%Z) ->
  (forall c, In c corners -> independent (span_u (primitive_of_corners c)) (span_v (primitive_of_corners c))) ->
  (forall s' owner' r, In (s', owner') ((s, owner) :: others) -> In r (blocking_rays width height magnitude s' owner') -> sane_ray r) ->
  (2 * List.length corners - 1 <= fuel)%nat -> (forall s' owner', In (s', owner') ((s, owner) :: others) -> proper_sample s') ->
  (forall s' owner' r p, In (s', owner') others -> In r (blocking_rays width height magnitude s' owner') -> (p < List.length corners)%nat ->
     owner' <> p -> meets r (corners_box (nth p corners [])) ->
     owner <> p /\ exists r', In r' (blocking_rays width height magnitude s owner) /\ meets r' (corners_box (nth p corners []))) ->
  exists t rows', trace_samples sort fuel width height magnitude extinction reflectivity (Some corners) [(s, owner)] = Traced [Some t]
    /\ trace_samples sort fuel width height magnitude extinction reflectivity (Some corners) ((s, owner) :: others) = Traced (Some t :: rows').
Proof. exact shared_same. Qed.
Print Assumptions C66_same_mirrors_partial.
Example C66_same_mirrors_case : forall sort, sorts sort -> exists t rows',
  trace_samples sort 9 3 3 1 0 1 (Some stacked) [(upward (-5) 95, 1%nat)] = Traced [Some t]
  /\ trace_samples sort 9 3 3 1 0 1 (Some stacked) ((upward (-5) 95, 1%nat) :: [(upward (-3) (-2), 2%nat)]) = Traced (Some t :: rows').
Proof. exact same_case. Qed.

(** Without blocking every row is what its sample gives when traced alone. *)
Theorem C66_unblocked_rows_partial : forall sort fuel width height magnitude extinction reflectivity samples rows,
  trace_samples sort fuel width height magnitude extinction reflectivity None samples = Traced rows ->
  List.length rows = List.length samples
  /\ forall k s owner, nth_error samples k = Some (s, owner) ->
     exists t, nth_error rows k = Some (Some t)
       /\ trace_sample width height magnitude extinction reflectivity s (repeat 0 (List.length (sample_rays s))) = Ok t.
Proof. exact unblocked_rows. Qed.
Print Assumptions C66_unblocked_rows_partial.

Example C66_unblocked_case : exists rows,
  trace_samples (fun l => (l, [])) 0 3 3 1 0 1 None [(upward (-5) 95, 1%nat); (upward (-3) (-2), 2%nat)] = Traced rows.
Proof.
  apply unblocked_succeeds; try lia; try lra. intros s owner [E|[E|[]]]; injection E as <- <-; apply upward_proper.
Qed.

(** C70. Rays carry irradiance times the computed area ... *)
Theorem C70_collected_power : forall dni cantings points rays magnitude area,
  tracer_magnitude (Some dni) cantings points rays = Ok magnitude ->
  heliostat_area cantings = Ok area -> (1 <= points)%nat -> (1 <= rays)%nat ->
  Rsum (repeat magnitude (points * rays)) = dni * area.
Proof. exact collected_power. Qed.
Print Assumptions C70_collected_power.

(** Without irradiance the rays carry one unit each, whatever the field looks like, so that fluxes count rays. *)
Theorem C70_counted : forall cantings points rays, exists magnitude, tracer_magnitude None cantings points rays = Ok magnitude
  /\ Rsum (repeat magnitude (points * rays)) = INR (points * rays).
Proof.
  intros cantings points rays. eexists. split; [reflexivity|]. cbn [ray_magnitude]. generalize (points * rays)%nat. intros n.
  induction n as [|n IH]; [reflexivity|]. rewrite S_INR, <- IH. cbn [repeat Rsum fold_right]. fold (Rsum (repeat 1 n)). ring.
Qed.
Print Assumptions C70_counted.

(** ... which is the area covered by 2 x 2 uncanted facets 2 cm apart, like the first facet of the first heliostat ... *)
Theorem C70_four_facets_partial : forall half_width half_height facets others, 0 <= half_width -> 0 <= half_height ->
  heliostat_area ((flat_facet half_width half_height :: facets) :: others) = Ok (outer_area 2 2 half_width half_height (2 / 100)).
Proof. exact area_of_four. Qed.
Print Assumptions C70_four_facets_partial.

(** ... and therefore more than four times the area of a heliostat with a single facet, ... *)
Theorem C70_single_facet_refuted : forall half_width half_height, 0 < half_width -> 0 < half_height ->
  exists area, heliostat_area [[flat_facet half_width half_height]] = Ok area
    /\ 4 * outer_area 1 1 half_width half_height (2 / 100) < area.
Proof. exact area_of_one. Qed.
Print Assumptions C70_single_facet_refuted.

(** ... and the same for heliostats of different size in one group: whatever the other facets and heliostats are, all get the
    area of the first facet of the first heliostat, so that a heliostat with other facets gets different power in a group of its own. *)
Theorem C70_mixed_sizes_refuted : forall facet facets facets' others others',
  heliostat_area ((facet :: facets) :: others) = heliostat_area ((facet :: facets') :: others')
  /\ forall a b a', 0 < a < a' -> 0 < b ->
     heliostat_area [repeat (flat_facet a b) 4; repeat (flat_facet a' b) 4] <> heliostat_area [repeat (flat_facet a' b) 4].
Proof. exact area_of_first. Qed.
Print Assumptions C70_mixed_sizes_refuted.

Example C70_collected_case : exists magnitude, tracer_magnitude (Some 800) [[flat_facet 1 1; flat_facet 1 1; flat_facet 1 1; flat_facet 1 1]] 25 10 = Ok magnitude
  /\ Rsum (repeat magnitude 250) = 800 * outer_area 2 2 1 1 (2 / 100).
Proof.
  eexists. split; [unfold tracer_magnitude; rewrite area_of_four by lra; reflexivity|].
  apply (C70_collected_power 800 [[flat_facet 1 1; flat_facet 1 1; flat_facet 1 1; flat_facet 1 1]] 25 10); try lia;
    [unfold tracer_magnitude|]; rewrite area_of_four by lra; reflexivity.
Qed.

(** C87. The flux image of every sample is non-negative and holds at most the power its rays carry after
    extinction and reflection losses, with or without blocking, whatever the distortions and the target. *)
Theorem C87_sample_power : forall sort fuel width height magnitude extinction reflectivity blocking samples rows,
  sorts sort -> (2 <= width)%nat -> (2 <= height)%nat -> 0 <= magnitude -> 0 <= extinction <= 1 -> 0 <= reflectivity ->
  (forall corners c, blocking = Some corners -> In c corners ->
     independent (span_u (primitive_of_corners c)) (span_v (primitive_of_corners c))) ->
  trace_samples sort fuel width height magnitude extinction reflectivity blocking samples = Traced rows ->
  List.length rows = List.length samples
  /\ forall k s owner, nth_error samples k = Some (s, owner) -> proper_sample s ->
     exists t, nth_error rows k = Some (Some t) /\ is_image width height (t_bitmap t) /\ non_negative_image (t_bitmap t)
       /\ 0 <= image_total (t_bitmap t) <= reflectivity * (1 - extinction) * magnitude * INR (ray_count s).
Proof. exact batch_power. Qed.
Print Assumptions C87_sample_power.

(** The images of all target areas together hold at most the power of all samples. *)
Theorem C87_all_targets : forall sort fuel width height magnitude extinction reflectivity blocking samples rows targets_in_scene indices,
  sorts sort -> (2 <= width)%nat -> (2 <= height)%nat -> 0 <= magnitude -> 0 <= extinction <= 1 -> 0 <= reflectivity ->
  (forall corners c, blocking = Some corners -> In c corners ->
     independent (span_u (primitive_of_corners c)) (span_v (primitive_of_corners c))) ->
  (forall s owner, In (s, owner) samples -> proper_sample s) ->
  List.length indices = List.length samples -> (forall i, In i indices -> (0 <= i < Z.of_nat targets_in_scene)%Z) ->
  trace_samples sort fuel width height magnitude extinction reflectivity blocking samples = Traced rows ->
  exists bitmaps out, rows = map Some bitmaps
    /\ bitmaps_per_target targets_in_scene (height * width) (map (fun t => concat (t_bitmap t)) bitmaps) indices = Ok out
    /\ 0 <= Rsum (map Rsum out) <= reflectivity * (1 - extinction) * magnitude * INR (list_sum (map (fun s => ray_count (fst s)) samples)).
Proof. exact all_targets_power. Qed.
Print Assumptions C87_all_targets.

(** Without blocking tracing of proper samples always succeeds. *)
Theorem C87_tracing_succeeds : forall sort fuel width height magnitude extinction reflectivity samples,
  (2 <= width)%nat -> (2 <= height)%nat -> 0 <= magnitude -> 0 <= extinction <= 1 -> 0 <= reflectivity ->
  (forall s owner, In (s, owner) samples -> proper_sample s) ->
  exists rows, trace_samples sort fuel width height magnitude extinction reflectivity None samples = Traced rows.
Proof. exact unblocked_succeeds. Qed.
Print Assumptions C87_tracing_succeeds.

(** The blocked batch of C66 meets the hypotheses. *)
Example C87_case : forall sort, sorts sort -> exists corners samples rows,
  List.length samples = 2%nat /\ trace_samples sort 9 3 3 1 0 1 (Some corners) samples = Traced rows
  /\ (forall c, In c corners -> independent (span_u (primitive_of_corners c)) (span_v (primitive_of_corners c)))
  /\ (forall s owner, In (s, owner) samples -> proper_sample s).
Proof.
  intros sort HS. destruct batch_dependent as (corners & a & b & PA & PB & IC & Q). destruct (Q sort HS) as (ta & tb & tb' & E & _).
  exists corners, [(a, 1%nat); (b, 2%nat)], [Some ta; Some tb]. split; auto. split; auto. split; auto.
  intros s owner [E1|[E1|[]]]; injection E1 as <- <-; auto.
Qed.

(** C88. A flat mirror whose normal is the one requested by the alignment for the mean of its surface points, without sun
    shape and blocking: the focal spot found in its bitmap is the aim point, up to the shrinking of C57 and the share of the
    epsilon of the centre of mass; and the bitmap holds all power. *)
Theorem C88_flat_mirror_focal_spot : forall width height magnitude extinction reflectivity s p aim,
  (2 <= width)%nat -> (2 <= height)%nat -> 0 < magnitude -> 0 <= extinction < 1 -> 0 < reflectivity ->
  proper_sample s -> s_target s = PlanarTarget p -> s_surface s <> [] -> s_distortions s <> [] -> undistorted s ->
  let o := mean_point (s_surface s) in
  let d := direction_to o aim in
  / 10 ^ 8 <= norm (vsub aim o) -> / 10 ^ 8 <= norm (vsub d (s_incident s)) ->
  flat (desired_normal (s_incident s) aim o) s -> on_plane p aim ->
  (forall q n, In (q, n) (s_surface s) -> exists t, hits_area p q d t /\ within_half_open p (along q d t)) ->
  exists t e u, trace_sample width height magnitude extinction reflectivity s (repeat 0 (List.length (sample_rays s))) = Ok t
    /\ center_of_mass height width (fun row column => nth column (nth row (t_bitmap t) []) 0) = Some (e, u)
    /\ let power := reflectivity * (1 - extinction) * magnitude * INR (ray_count s) * - dot d (plane_normal p) in
       let share := power / (power + / 10 ^ 8) in
       let c := plane_center p in
       0 < power /\ image_total (t_bitmap t) = power
       /\ position (planar_target_coordinates width height p e u)
          = vec (pe c + (1 - / INR width) * (share * (pe aim - pe c) + (1 - share) * (plane_width p / 2))) (pn c)
                (pu c + (1 - / INR height) * (share * (pu aim - pu c) + (1 - share) * (plane_height p / 2))).
Proof. exact flat_mirror. Qed.
Print Assumptions C88_flat_mirror_focal_spot.

(** A mirror of two points at the origin under a vertical sun, aimed at the centre of an area 48 m south and 14 m up. *)
Definition south_area : plane := {| plane_center := vec 0 (-48) 14; plane_normal := vec 0 1 0; plane_width := 8; plane_height := 6 |}.
Definition tilted : sample := {| s_incident := vec 0 0 (-1);
  s_surface := [(vec 1 0 0, vec 0 (-3/5) (4/5)); (vec (-1) 0 0, vec 0 (-3/5) (4/5))];
  s_target := PlanarTarget south_area; s_distortions := [[(0, 0); (0, 0)]; [(0, 0); (0, 0)]] |}.
Example C88_case : exists t e u, trace_sample 4 4 7 0 1 tilted (repeat 0 4) = Ok t
  /\ center_of_mass 4 4 (fun row column => nth column (nth row (t_bitmap t) []) 0) = Some (e, u)
  /\ image_total (t_bitmap t) = 28 * (24/25).
Proof.
  assert (MO : mean_point (s_surface tilted) = vec 0 0 0).
  { unfold mean_point, tilted. cbn [s_surface map fst List.length Rsum fold_right INR vec pe pn pu]. apply point_eq; cbn [vec pe pn pu]; field. }
  assert (NA : norm (vsub (vec 0 (-48) 14) (vec 0 0 0)) = 50) by (apply norm_of_square; [lra|vunfold; lra]).
  assert (D : direction_to (vec 0 0 0) (vec 0 (-48) 14) = vec 0 (-24/25) (7/25)).
  { unfold direction_to. rewrite NA. apply point_eq; vunfold; cbn [pe pn pu]; lra. }
  assert (NB : norm (vsub (vec 0 (-24/25) (7/25)) (vec 0 0 (-1))) = 8/5) by (apply norm_of_square; [lra|vunfold; lra]).
  assert (NN : desired_normal (vec 0 0 (-1)) (vec 0 (-48) 14) (vec 0 0 0) = vec 0 (-3/5) (4/5)).
  { unfold desired_normal. rewrite (normalize_eps_long _ (vsub (vec 0 (-48) 14) (vec 0 0 0))) by (rewrite NA; lra). rewrite NA.
    replace (vadd (smul (-1) (vec 0 0 (-1))) (smul (/ 50) (vsub (vec 0 (-48) 14) (vec 0 0 0)))) with (vsub (vec 0 (-24/25) (7/25)) (vec 0 0 (-1)))
      by (apply point_eq; vunfold; cbn [pe pn pu]; lra).
    rewrite normalize_eps_long by (rewrite NB; lra). rewrite NB. apply point_eq; vunfold; cbn [pe pn pu]; lra. }
  assert (PS : proper_sample tilted).
  { unfold proper_sample, tilted. cbn [s_incident s_surface s_target s_distortions]. split; [unfold unit; vunfold; lra|]. split.
    - intros q n [E|[E|[]]]; injection E as <- <-; unfold unit; vunfold; lra.
    - split; [cbn [proper_target]; unfold sized, south_area, unit; cbn [plane_width plane_height plane_normal]; vunfold; lra|].
      intros row [<-|[<-|[]]]; reflexivity. }
  assert (LR : List.length (sample_rays tilted) = 4%nat) by (rewrite sample_rays_length by auto; reflexivity).
  destruct (C88_flat_mirror_focal_spot 4 4 7 0 1 tilted south_area (vec 0 (-48) 14)) as (t & e & u & E & C & _ & T & _); auto; try lia; try lra; try discriminate.
  - intros row a [<-|[<-|[]]] [<-|[<-|[]]]; reflexivity.
  - rewrite MO, NA. lra.
  - rewrite MO, D. cbn [s_incident tilted]. rewrite NB. lra.
  - rewrite MO. cbn [s_incident tilted]. rewrite NN. intros q n [Q|[Q|[]]]; injection Q as <- <-; reflexivity.
  - unfold on_plane, south_area. cbn [plane_center plane_normal]. vunfold. lra.
  - rewrite MO, D. intros q n I. exists 50. unfold hits_area, on_plane, within_area, within_half_open, along, south_area.
    cbn [plane_center plane_normal plane_width plane_height]. destruct I as [Q|[Q|[]]]; injection Q as <- <-; vunfold;
      repeat split; try (apply Rabs_le); lra.
  - rewrite LR in E. exists t, e, u. split; auto. split; auto. rewrite T, MO, D. unfold south_area. cbn [plane_normal].
    replace (INR (ray_count tilted)) with 4 by (cbn; lra). vunfold. lra.
Qed.

(** C89. Rays of a sample have unit length and deviate from the reflected direction at their surface point by at most the sum
    of the two angles drawn for them. *)
Theorem C89_scattered_rays : forall s o d, proper_sample s -> In (o, d) (sample_rays s) ->
  unit d /\ exists n row u e, In (o, n) (s_surface s) /\ In row (s_distortions s) /\ In (u, e) row
    /\ norm (vsub d (reflect (s_incident s) n)) <= Rabs u + Rabs e.
Proof. exact sample_rays_scatter. Qed.
Print Assumptions C89_scattered_rays.

(** There is one ray for each ray number and surface point. *)
Theorem C89_number_of_rays : forall s, proper_sample s -> List.length (sample_rays s) = ray_count s.
Proof. exact sample_rays_length. Qed.
Print Assumptions C89_number_of_rays.

Example C89_case : proper_sample (upward 0 10) /\ sample_rays (upward 0 10) = [(vec 0 0 0, vec 0 0 1)].
Proof. split; [apply upward_proper|apply upward_rays]. Qed.
