(** C124: heliostats that are activated, aligned and traced. *)
From Coq Require Import List Arith ZArith Reals Lra Lia.
From Verif Require Import RealSums ModelField ModelVectors ModelTransforms ModelIntersections ModelSplatting ModelBitmap ModelCoordinates ModelKinematics ModelTrace
  SpecIntersections SpecTransforms SpecSplatting SpecCoordinates SpecKinematics SpecTrace SpecDelivery ProofsVectors ProofsTransforms ProofsIntersections ProofsAlignHistory
  ProofsAlignment ProofsMounting ProofsTracePower ProofsDelivery.
Import ListNotations.
Local Open Scope R_scope.

(** C124. Activate heliostats of a group, align them with their incident directions and aim points, and trace the aligned surfaces
    without blocking.  For every active heliostat that is flat, faces a large enough planar target area and can turn to the normals
    that take the sun to its aim point, the image holds the power of all its rays, reduced only by extinction, reflectivity and the
    angle at which the rays meet the area, and the focal spot read off the image belongs to a point of the area that is no farther
    from the aim point than [spot_radius] says: the accuracy of the alignment and the spread of the sun times the distance, and the
    size of the mirror. *)
Theorem C124_delivered : forall g mask rays g1 g2 active j h local incident aim p near far cosine size spread,
  perform g (Activate mask) = (g1, None) -> perform g1 (AlignIncident mask rays) = (g2, None) ->
  repeat_interleave (gr_heliostats g) mask = Ok active -> nth_error active j = Some h -> nth_error rays j = Some (incident, aim) ->
  lying_flat h local -> local <> [] -> (forall x, In x local -> norm x <= size) ->
  let k := h_kinematics h in let error := aim_error k near + spread in
  well_placed k incident aim p near far cosine -> 0 <= spread -> error < cosine ->
  (forall x, on_plane p x -> norm (vsub x aim) <= spot_radius error far cosine size -> within_area p x /\ within_half_open p x) ->
  exists points normals, nth_error (s_points (gr_surfaces g2)) j = Some points /\ nth_error (s_normals (gr_surfaces g2)) j = Some normals
  /\ forall sort fuel width height magnitude extinction reflectivity samples rows i owner distortions,
     (2 <= width)%nat -> (2 <= height)%nat -> 0 < magnitude -> 0 <= extinction < 1 -> 0 < reflectivity ->
     trace_samples sort fuel width height magnitude extinction reflectivity None samples = Traced rows ->
     nth_error samples i = Some ({| s_incident := incident; s_surface := combine (map enu points) (map enu normals);
                                    s_target := PlanarTarget p; s_distortions := distortions |}, owner) ->
     distortions <> [] -> (forall row, In row distortions -> List.length row = List.length local) ->
     (forall row u e, In row distortions -> In (u, e) row -> Rabs u + Rabs e <= spread) ->
     exists t e u spot steepness, nth_error rows i = Some (Some t)
     /\ center_of_mass height width (fun row column => nth column (nth row (t_bitmap t) []) 0) = Some (e, u)
     /\ on_plane p spot /\ norm (vsub spot aim) <= spot_radius error far cosine size
     /\ cosine - error <= steepness <= 1
     /\ let power := reflectivity * (1 - extinction) * magnitude * INR (List.length distortions * List.length local) * steepness in
        let share := power / (power + / 10 ^ 8) in
        let c := plane_center p in
        image_total (t_bitmap t) = power
        /\ position (planar_target_coordinates width height p e u)
           = vec (pe c + (1 - / INR width) * (share * (pe spot - pe c) + (1 - share) * (plane_width p / 2))) (pn c)
                 (pu c + (1 - / INR height) * (share * (pu spot - pu c) + (1 - share) * (plane_height p / 2))).
Proof. exact delivered_power. Qed.
Print Assumptions C124_delivered.

(** A flat mirror of 2 m by 2 m, 30 cm before its axes, 100 m north of a target area of 12 m by 12 m with the sun at the zenith: at
    least 97 % of the power of eight rays that the sun spreads by up to 5 mrad is in the image. *)
Example C124_case : forall surfaces motors sort fuel, exists g1 g2 points normals,
  let g := {| gr_heliostats := [mirror; mirror]; gr_active := []; gr_surfaces := surfaces; gr_motors := motors |} in
  perform g (Activate [0; 1]%nat) = (g1, None) /\ perform g1 (AlignIncident [0; 1]%nat [(vec 0 0 (-1), vec 0 (-100) 0)]) = (g2, None)
  /\ s_points (gr_surfaces g2) = [points] /\ s_normals (gr_surfaces g2) = [normals]
  /\ exists t, trace_samples sort fuel 256 256 1 0 1 None
       [({| s_incident := vec 0 0 (-1); s_surface := combine (map enu points) (map enu normals); s_target := PlanarTarget facing_north;
            s_distortions := sun_shape |}, 1%nat)] = Traced [Some t]
     /\ 8 * (97/100) <= image_total (t_bitmap t) <= 8.
Proof.
  intros surfaces motors sort fuel. destruct (mirror_aligned surfaces motors) as (g1 & g2 & points & normals & P1 & P2 & SPo & SNo & PS).
  exists g1, g2, points, normals. cbv zeta. split; auto. split; auto. split; auto. split; auto. set (s := {| s_incident := _ |}) in *.
  destruct (unblocked_succeeds sort fuel 256 256 1 0 1 [(s, 1%nat)]) as (rows & TR); try lra; try lia.
  { intros s' w [E|[]]. injection E as <- <-. exact PS. }
  pose proof mirror_error as ERR.
  destruct (C124_delivered {| gr_heliostats := [mirror; mirror]; gr_active := []; gr_surfaces := surfaces; gr_motors := motors |}
    [0; 1]%nat [(vec 0 0 (-1), vec 0 (-100) 0)] g1 g2 [mirror] 0 mirror corners (vec 0 0 (-1)) (vec 0 (-100) 0) facing_north
    99 101 (99/100) (3/2) (5/1000)) as (points' & normals' & NP & NN & D); auto using mirror_size, mirror_placed, mirror_spot; try (change (h_kinematics mirror) with kc); try lra.
  - split; reflexivity.
  - discriminate.
  - rewrite SPo in NP. rewrite SNo in NN. injection NP as <-. injection NN as <-.
    destruct (D sort fuel 256%nat 256%nat 1 0 1 [(s, 1%nat)] rows 0%nat 1%nat sun_shape) as (t & e & u & spot & steep & NT & _ & _ & _ & ST & PW & _);
      try lra; try lia; eauto using sun_spread.
    + discriminate.
    + intros row [<-|[<-|[]]]; reflexivity.
    + exists t. destruct (unblocked_rows _ _ _ _ _ _ _ _ _ TR) as (L & _). destruct rows as [|r [|]]; try discriminate. injection NT as ->. split; auto.
      rewrite PW. change (h_kinematics mirror) with kc in ST. change (List.length sun_shape * List.length corners)%nat with 8%nat. cbn [INR]. lra.
Qed.
