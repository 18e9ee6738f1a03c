(** C125: whole calls of the ray tracer.  C25: a mirror does not block its own rays.  C124: aligned and traced by whole calls. *)
From Coq Require Import List Arith ZArith Reals Lra Lia.
From Verif Require Import RealSums ModelField ModelVectors ModelTransforms ModelDistributed ModelLBVH ModelBlocking ModelSplatting ModelIntersections ModelBitmap ModelCoordinates
  ModelKinematics ModelTrace ModelRayTracer SpecIntersections SpecTransforms SpecSplatting SpecCoordinates SpecKinematics SpecLBVH SpecTrace SpecDelivery SpecRayTracer
  ProofsLBVHRefuted ProofsBlockingTracer ProofsTraceBatch ProofsTracePower ProofsDelivery ProofsRayTracer ProofsMounting.
Import ListNotations.
Local Open Scope R_scope.

(** C125. Tracing without blocking, on any number of ranks and with any batch size: every rank returns one row for each active sample,
    exactly one rank writes the row of a sample, and it is the image of the sample's own surface under its own incident direction and
    distortions on the target area with its own number.  Active heliostats have the same number of samples. *)
Theorem C125_rows : forall sort fuel t world incident targets extinction reflectivity per,
  rt_blocking t = None -> one_per_sample t -> (1 <= rt_batch_size t)%nat -> (1 <= world)%nat ->
  (exists m, In m (rt_mask t) /\ (0 < m)%nat) -> (forall m, In m (rt_mask t) -> m = 0%nat \/ m = per) ->
  List.length incident = list_sum (rt_mask t) -> List.length targets = list_sum (rt_mask t) ->
  (2 <= rt_width t)%nat -> (2 <= rt_height t)%nat -> 0 <= rt_magnitude t -> 0 <= extinction <= 1 -> 0 <= reflectivity ->
  (forall i, (i < list_sum (rt_mask t))%nat -> exists s, sample_at t incident targets i s /\ proper_sample s) ->
  exists rows : nat -> list (option (option traced)),
  (forall rank, (rank < world)%nat -> trace_rays sort fuel (on_rank t world rank) incident (rt_mask t) targets extinction reflectivity = Rows (rows rank)
     /\ List.length (rows rank) = list_sum (rt_mask t))
  /\ forall i s, sample_at t incident targets i s -> exists owner row, (owner < world)%nat
     /\ trace_sample (rt_width t) (rt_height t) (rt_magnitude t) extinction reflectivity s (repeat 0 (List.length (sample_rays s))) = Ok row
     /\ nth_error (rows owner) i = Some (Some (Some row))
     /\ forall rank, (rank < world)%nat -> rank <> owner -> nth_error (rows rank) i = Some None.
Proof. exact traced_rows_of_group. Qed.
Print Assumptions C125_rows.

(** With or without blocking, a call that meets the number of no target area, or that is made with another mask than the heliostats
    were activated with, returns no result. *)
Theorem C125_no_result : forall sort fuel t incident mask targets extinction reflectivity,
  (forall i number, (1 <= rt_batch_size t)%nat -> In i (rt_sampler t) -> nth_error targets i = Some number ->
     (List.length (rt_planar t) + List.length (rt_cylindrical t) <= number)%nat ->
     forall rows, trace_rays sort fuel t incident mask targets extinction reflectivity <> Rows rows)
  /\ (mask <> rt_mask t -> trace_rays sort fuel t incident mask targets extinction reflectivity = RowsError AssertionError).
Proof.
  intros. split; [intros; eapply unknown_target; eauto|]. intros NE. unfold trace_rays, list_nat_eqb.
  destruct (list_eq_dec Nat.eq_dec (rt_mask t) mask) as [E|]; [congruence|auto].
Qed.
Print Assumptions C125_no_result.

(** Two mirrors under a vertical sun that look straight up at two different areas. *)
Definition two_mirrors : ray_tracer :=
  {| rt_mask := [0; 1; 1]%nat; rt_points := [[as_point (vec 0 0 (-5))]; [as_point (vec 0 0 (-3))]]; rt_normals := [[as_direction (vec 0 0 1)]; [as_direction (vec 0 0 1)]];
     rt_planar := [ceiling (-2); ceiling 95]; rt_cylindrical := []; rt_distortions := [[[(0, 0)]]; [[(0, 0)]]]; rt_sampler := []; rt_batch_size := 1;
     rt_width := 3; rt_height := 3; rt_magnitude := 1; rt_blocking := None |}.
Example C125_case : forall sort fuel, exists row row',
  trace_rays sort fuel (on_rank two_mirrors 1 0) [vec 0 0 (-1); vec 0 0 (-1)] [0; 1; 1]%nat [1; 0]%nat 0 1 = Rows [Some (Some row); Some (Some row')]
  /\ image_total (t_bitmap row) = 1 /\ image_total (t_bitmap row') = 1.
Proof.
  intros sort fuel. assert (S0 : sample_at two_mirrors [vec 0 0 (-1); vec 0 0 (-1)] [1; 0]%nat 0 (upward (-5) 95)).
  { split; [reflexivity|]. split; [eexists; eexists; split; [reflexivity|split; reflexivity]|]. split; [reflexivity|]. exists 1%nat. split; reflexivity. }
  assert (S1 : sample_at two_mirrors [vec 0 0 (-1); vec 0 0 (-1)] [1; 0]%nat 1 (upward (-3) (-2))).
  { split; [reflexivity|]. split; [eexists; eexists; split; [reflexivity|split; reflexivity]|]. split; [reflexivity|]. exists 0%nat. split; reflexivity. }
  destruct (C125_rows sort fuel two_mirrors 1 [vec 0 0 (-1); vec 0 0 (-1)] [1; 0]%nat 0 1 1) as (rows & R1 & R2); auto; try (cbn; lia); try (cbn; lra).
  - repeat split; reflexivity.
  - exists 1%nat. cbn. auto.
  - cbn. intros [|[|i]] I; [exists (upward (-5) 95)|exists (upward (-3) (-2))|lia]; auto using upward_proper.
  - destruct (R2 _ _ S0) as (o0 & r0 & O0 & T0 & N0 & _). destruct (R2 _ _ S1) as (o1 & r1 & O1 & T1 & N1 & _).
    rewrite upward_rays in T0, T1. cbn [List.length repeat] in T0, T1.
    destruct (upward_traced (-5) 95 0) as (q0 & Q0 & Z0). destruct (upward_traced (-3) (-2) 0) as (q1 & Q1 & Z1).
    cbn [rt_width rt_height rt_magnitude two_mirrors] in T0, T1. rewrite Q0 in T0. rewrite Q1 in T1. injection T0 as <-. injection T1 as <-.
    destruct (R1 0%nat ltac:(lia)) as (E0 & L0). exists q0, q1. replace o0 with 0%nat in N0 by lia. replace o1 with 0%nat in N1 by lia.
    destruct (rows 0%nat) as [|a [|b [|]]]; try discriminate. injection N0 as ->. injection N1 as ->. split; [exact E0|]. lra.
Qed.

(** C25. A mirror does not block its own rays: if the rays of a batch meet the boxes of no other mirrors than that of their own heliostat,
    tracing with blocking gives what tracing without blocking gives. *)
Theorem C25_only_own_mirror_partial : forall sort fuel width height magnitude extinction reflectivity corners samples rows, sorts sort ->
  (forall s owner r, In (s, owner) samples -> In r (blocking_rays width height magnitude s owner) ->
     sane_ray r /\ forall p, (p < List.length corners)%nat -> p <> owner -> ~ meets r (corners_box (nth p corners []))) ->
  trace_samples sort fuel width height magnitude extinction reflectivity (Some corners) samples = Traced rows ->
  trace_samples sort fuel width height magnitude extinction reflectivity None samples = Traced rows.
Proof. exact own_mirror_only. Qed.
Print Assumptions C25_only_own_mirror_partial.
(** A mirror whose rays start in its own middle, and one far away. *)
Example C25_only_own_mirror_case : forall sort, sorts sort -> exists row,
  trace_samples sort 9 3 3 1 0 1 (Some [square 0 0; square 1023 0]) [(upward 0 100, 0%nat)] = Traced [Some row] /\ image_total (t_bitmap row) = 1.
Proof.
  intros sort HS. assert (SR : forall r, In r (blocking_rays 3 3 1 (upward 0 100) 0) -> r = up_ray 0 100 0).
  { intros r I. rewrite upward_blocking_rays in I. destruct I as [<-|[]]. f_equal. lra. }
  assert (FREE : forall p, (p < 2)%nat -> p <> 0%nat -> ~ meets (up_ray 0 100 0) (corners_box (nth p [square 0 0; square 1023 0] []))).
  { intros p P N ((t & T & I) & _). assert (p = 1%nat) as -> by lia. destruct (I pe (or_introl eq_refl)) as (L & _). revert L T.
    unfold ray_at, up_ray, square. cbn [nth corners_box map Rmin_list fold_left box_min pe pn pu r_origin r_direction r_target_distance]. unfold Rmin. repeat destruct Rle_dec; lra. }
  assert (TR : exists rows, trace_samples sort 9 3 3 1 0 1 (Some [square 0 0; square 1023 0]) [(upward 0 100, 0%nat)] = Traced rows).
  { unfold trace_samples. cbn [flat_map]. rewrite upward_blocking_rays. cbn [app].
    destruct (two_found sort [up_ray 0 (100 - 0) 0] HS) as (found & F & _ & M). { intros r [<-|[]]. apply up_sane. }
    unfold batch_blocked. rewrite F. assert (found = []) as ->.
    { destruct found as [|p f]; auto. exfalso. destruct (proj1 (M p) (or_introl eq_refl)) as (P & r & [<-|[]] & NO & ME). cbn [r_owner up_ray] in NO.
      apply (FREE p); auto. replace 100 with (100 - 0) by ring. exact ME. }
    unfold trace_rows. cbn [map fst]. rewrite upward_rays. cbn [List.length split_at firstn combine map_res all_some option_map].
    destruct (upward_traced 0 100 0) as (q & Q & _). rewrite Q. cbn [bind]. eauto. }
  destruct TR as (rows & TR). pose proof (C25_only_own_mirror_partial sort 9 3 3 1 0 1 [square 0 0; square 1023 0] [(upward 0 100, 0%nat)] rows HS) as N.
  rewrite TR in N. destruct (unblocked_rows sort 9 3 3 1 0 1 [(upward 0 100, 0%nat)] rows) as (L & U).
  - apply N; auto. intros s owner r [E|[]] I. injection E as <- <-. apply SR in I. subst r. split; [apply up_sane|exact FREE].
  - destruct (U 0%nat _ _ eq_refl) as (row & N0 & T). destruct rows as [|r [|]]; try discriminate. injection N0 as ->. exists row. split; auto.
    rewrite upward_rays in T. destruct (upward_traced 0 100 0) as (q & Q & Z). cbn [List.length repeat] in T. rewrite Q in T. injection T as <-. lra.
Qed.

(** C124. The same delivery with whole calls of the ray tracer, whatever the number of ranks and the batch size: one rank returns the
    image of the aligned heliostat at its position, with its power at the aim point. *)
Theorem C124_whole_call : forall g mask rays g1 g2 active j h local incident aim p near far cosine size spread,
  perform g (Activate mask) = (g1, None) -> perform g1 (AlignIncident mask rays) = (g2, None) ->
  repeat_interleave (gr_heliostats g) mask = Ok active -> nth_error active j = Some h -> nth_error rays j = Some (incident, aim) ->
  lying_flat h local -> local <> [] -> (forall x, In x local -> norm x <= size) ->
  let k := h_kinematics h in let error := aim_error k near + spread in
  well_placed k incident aim p near far cosine -> 0 <= spread -> error < cosine ->
  (forall x, on_plane p x -> norm (vsub x aim) <= spot_radius error far cosine size -> within_area p x /\ within_half_open p x) ->
  forall sort fuel t world targets extinction reflectivity per number distortions,
  rt_mask t = mask -> rt_points t = s_points (gr_surfaces g2) -> rt_normals t = s_normals (gr_surfaces g2) ->
  rt_blocking t = None -> one_per_sample t -> (1 <= rt_batch_size t)%nat -> (1 <= world)%nat ->
  (exists m, In m mask /\ (0 < m)%nat) -> (forall m, In m mask -> m = 0%nat \/ m = per) ->
  List.length rays = list_sum mask -> List.length targets = list_sum mask ->
  (2 <= rt_width t)%nat -> (2 <= rt_height t)%nat -> 0 < rt_magnitude t -> 0 <= extinction < 1 -> 0 < reflectivity ->
  (forall i, (i < list_sum mask)%nat -> exists s, sample_at t (map fst rays) targets i s /\ proper_sample s) ->
  nth_error targets j = Some number -> nth_error (rt_planar t) number = Some p ->
  nth_error (rt_distortions t) j = Some distortions -> distortions <> [] -> (forall row, In row distortions -> List.length row = List.length local) ->
  (forall row u e, In row distortions -> In (u, e) row -> Rabs u + Rabs e <= spread) ->
  exists rank rows row e u spot steepness, (rank < world)%nat
  /\ trace_rays sort fuel (on_rank t world rank) (map fst rays) mask targets extinction reflectivity = Rows rows /\ nth_error rows j = Some (Some (Some row))
  /\ center_of_mass (rt_height t) (rt_width t) (fun r c => nth c (nth r (t_bitmap row) []) 0) = Some (e, u)
  /\ on_plane p spot /\ norm (vsub spot aim) <= spot_radius error far cosine size
  /\ cosine - error <= steepness <= 1
  /\ let power := reflectivity * (1 - extinction) * rt_magnitude t * INR (List.length distortions * List.length local) * steepness in
     let share := power / (power + / 10 ^ 8) in
     let c := plane_center p in
     image_total (t_bitmap row) = power
     /\ position (planar_target_coordinates (rt_width t) (rt_height t) p e u)
        = vec (pe c + (1 - / INR (rt_width t)) * (share * (pe spot - pe c) + (1 - share) * (plane_width p / 2))) (pn c)
              (pu c + (1 - / INR (rt_height t)) * (share * (pu spot - pu c) + (1 - share) * (plane_height p / 2))).
Proof.
  intros g mask rays g1 g2 active j h local incident aim p near far cosine size spread P1 P2 RI NA NR LF NE SZ k error WP SP EC AR
    sort fuel t world targets extinction reflectivity per number distortions EM EP EN NB OP HB HW HM HE LR LT W H M X F SAM NT NP ND DE DL DS.
  destruct (group_delivers_spread g mask rays g1 g2 active j h local incident aim p near far cosine size spread P1 P2 RI NA NR LF NE SZ WP SP EC AR)
    as (points & normals & NPO & NNO & D).
  destruct (D (rt_width t) (rt_height t) (rt_magnitude t) extinction reflectivity distortions W H M X F DE DL DS) as (row & e & u & spot & steepness & TS & REST).
  destruct (C125_rows sort fuel t world (map fst rays) targets extinction reflectivity per) as (rows & R1 & R2); auto; try lra; try (rewrite EM; auto).
  { rewrite map_length. auto. }
  set (s := {| s_incident := incident; s_surface := combine (map enu points) (map enu normals); s_target := PlanarTarget p; s_distortions := distortions |}) in *.
  destruct (R2 j s) as (owner & row' & O & TS' & NO & _).
  { split; [cbn [s s_incident]; rewrite nth_error_map, NR; auto|]. split; [exists points, normals; rewrite EP, EN; auto|]. split; [exact ND|]. exists number. auto. }
  rewrite TS' in TS. injection TS as ->. destruct (R1 owner O) as (E & _). rewrite EM in E.
  exists owner, (rows owner), row, e, u, spot, steepness. split; [exact O|]. split; [exact E|]. split; [exact NO|exact REST].
Qed.
Print Assumptions C124_whole_call.
(** The mirror of C124_case, traced by two ranks. *)
Example C124_whole_case : forall surfaces motors sort fuel, exists g1 g2 t rank rows row,
  let g := {| gr_heliostats := [mirror; mirror]; gr_active := []; gr_surfaces := surfaces; gr_motors := motors |} in
  perform g (Activate [0; 1]%nat) = (g1, None) /\ perform g1 (AlignIncident [0; 1]%nat [(vec 0 0 (-1), vec 0 (-100) 0)]) = (g2, None)
  /\ rt_points t = s_points (gr_surfaces g2) /\ rt_normals t = s_normals (gr_surfaces g2) /\ rt_planar t = [ceiling 95; facing_north]
  /\ trace_rays sort fuel (on_rank t 2 rank) [vec 0 0 (-1)] [0; 1]%nat [1%nat] 0 1 = Rows rows /\ nth_error rows 0 = Some (Some (Some row))
  /\ 8 * (97/100) <= image_total (t_bitmap row) <= 8.
Proof.
  intros surfaces motors sort fuel. destruct (mirror_aligned surfaces motors) as (g1 & g2 & points & normals & P1 & P2 & SPo & SNo & PS).
  set (t := {| rt_mask := [0; 1]%nat; rt_points := [points]; rt_normals := [normals]; rt_planar := [ceiling 95; facing_north]; rt_cylindrical := [];
     rt_distortions := [sun_shape]; rt_sampler := []; rt_batch_size := 7; rt_width := 256; rt_height := 256; rt_magnitude := 1; rt_blocking := None |}).
  pose proof mirror_error as ERR.
  destruct (C124_whole_call {| gr_heliostats := [mirror; mirror]; gr_active := []; gr_surfaces := surfaces; gr_motors := motors |}
    [0; 1]%nat [(vec 0 0 (-1), vec 0 (-100) 0)] g1 g2 [mirror] 0 mirror corners (vec 0 0 (-1)) (vec 0 (-100) 0) facing_north
    99 101 (99/100) (3/2) (5/1000)) with (sort := sort) (fuel := fuel) (t := t) (world := 2%nat) (targets := [1%nat]) (extinction := 0) (reflectivity := 1)
    (per := 1%nat) (number := 1%nat) (distortions := sun_shape) as (rank & rows & row & e & u & spot & steep & _ & TR & NR & _ & _ & _ & ST & PW & _);
    eauto using mirror_size, mirror_placed, mirror_spot, sun_spread; try (change (h_kinematics mirror) with kc); try lra; try (cbn; lia); try (cbn; lra).
  - split; reflexivity.
  - discriminate.
  - repeat split; reflexivity.
  - exists 1%nat. cbn. auto.
  - intros i I. assert (i = 0)%nat as -> by (cbn in I; lia). eexists. split; [|exact PS].
    split; [reflexivity|]. split; [exists points, normals; auto|]. split; [reflexivity|]. exists 1%nat. split; reflexivity.
  - discriminate.
  - intros r [<-|[<-|[]]]; reflexivity.
  - exists g1, g2, t, rank, rows, row. cbv zeta. split; auto. split; auto. split; [symmetry; exact SPo|]. split; [symmetry; exact SNo|]. split; auto. split; auto. split; auto.
    rewrite PW. change (h_kinematics mirror) with kc in ST. change (List.length sun_shape * List.length corners)%nat with 8%nat. cbn [INR rt_magnitude t]. lra.
Qed.
