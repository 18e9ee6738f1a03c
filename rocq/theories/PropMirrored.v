(** C134, C135: mirrored and turned scenes. *)
From Coq Require Import List Arith ZArith Reals Bool Lia Lra.
From Verif Require Import RealSums ModelField ModelVectors ModelTransforms ModelAngles ProofsAngles ModelLBVH ModelSplatting SpecSplatting ModelIntersections SpecIntersections ProofsIntersections ModelTrace SpecTrace
  SpecMirrored ProofsMirrored ProofsMirroredBatch.
Import ListNotations.
Local Open Scope R_scope.

(** C134 (full statement: if east and west are exchanged in a scene, left and right are exchanged in its images, and all fractions stay
    the same).  It holds without blocking for all batches of samples with planar areas, and with cylindrical areas whose opening lies on
    the northern side, if no ray that carries power ends exactly on the left or right edge. *)
Theorem C134_mirrored_partial : forall sort fuel width height magnitude extinction reflectivity samples, (2 <= width)%nat -> (2 <= height)%nat -> 0 <= magnitude ->
  (forall s o, In (s, o) samples -> proper_sample s /\ northern (s_target s) /\ off_edges width height magnitude s) ->
  let reversed t := {| t_bitmap := map (@rev R) (t_bitmap t); t_intercept := t_intercept t; t_on_target := t_on_target t; t_blocking := t_blocking t |} in
  exists rows, trace_samples sort fuel width height magnitude extinction reflectivity None samples = Traced rows
  /\ trace_samples sort fuel width height magnitude extinction reflectivity None (map (fun '(s, o) => (mirrored_sample s, o)) samples) = Traced (map (option_map reversed) rows).
Proof. exact batch_mirrored. Qed.
Print Assumptions C134_mirrored_partial.

(** The same holds for one sample, whatever part of its rays is blocked. *)
Theorem C134_blocked_partial : forall width height magnitude extinction reflectivity s blocked, (2 <= width)%nat -> (2 <= height)%nat -> 0 <= magnitude ->
  proper_sample s -> northern (s_target s) -> off_edges width height magnitude s ->
  exists t, trace_sample width height magnitude extinction reflectivity s blocked = Ok t
  /\ trace_sample width height magnitude extinction reflectivity (mirrored_sample s) blocked
     = Ok {| t_bitmap := map (@rev R) (t_bitmap t); t_intercept := t_intercept t; t_on_target := t_on_target t; t_blocking := t_blocking t |}.
Proof. exact mirrored_trace. Qed.
Print Assumptions C134_blocked_partial.

(** A ray that ends exactly on the left edge of the image is counted, but in the mirrored scene, where it ends on the right edge, it is
    lost: if all rays end on the left edge, the image holds all their power and the mirrored one nothing, though the intercepted fraction
    is the same. *)
Theorem C134_edge_refuted : forall width height magnitude extinction reflectivity s blocked, (2 <= width)%nat -> (2 <= height)%nat -> 0 <= magnitude ->
  proper_sample s -> northern (s_target s) -> (forall i, In i (sample_intersections width height magnitude s) -> i_intensity i <> 0 -> i_e i = 0 /\ i_u i < INR height - 1) ->
  exists t t', trace_sample width height magnitude extinction reflectivity s blocked = Ok t
  /\ trace_sample width height magnitude extinction reflectivity (mirrored_sample s) blocked = Ok t'
  /\ image_total (t_bitmap t) = Rsum (map (fun '(i, b) => ray_intensity extinction reflectivity (i_intensity i) b) (combine (sample_intersections width height magnitude s) blocked))
  /\ image_total (t_bitmap t') = 0 /\ t_intercept t' = t_intercept t.
Proof. exact edge_lost. Qed.
Print Assumptions C134_edge_refuted.

(** One ray that goes south from the mirror point [x] metres east of the middle of an area of two by two metres. *)
Definition straight (x : R) : sample :=
  {| s_incident := vec 0 1 0; s_surface := [(vec x 0 0, vec 0 (-1) 0)];
     s_target := PlanarTarget {| plane_center := vec 0 (-10) 0; plane_normal := vec 0 1 0; plane_width := 2; plane_height := 2 |}; s_distortions := [[(0, 0)]] |}.
Lemma straight_proper : forall x, proper_sample (straight x).
Proof.
  intros x. unfold proper_sample, unit, sized, dot. cbn. unfold sized, unit, dot. cbn. repeat split; try lra.
  - intros p n [E|[]]. injection E as <- <-. cbn. lra.
  - intros row [<-|[]]. reflexivity.
Qed.
Lemma south_ray : forall x, sample_rays (straight x) = [(vec x 0 0, vec 0 (-1) 0)].
Proof.
  intros x. unfold sample_rays. cbn [straight s_surface s_distortions s_incident flat_map combine map app]. do 2 f_equal. apply point_ext; unfold scatter_ray, reflect, rotate_distortion, dot; cbn;
  unfold hdot; cbn; rewrite ?cos_0, ?sin_0; ring.
Qed.
Lemma straight_hit : forall x, -1 <= x <= 1 -> sample_intersections 3 3 1 (straight x) = [{| i_e := 1 - x; i_u := 1; i_distance := 10; i_intensity := 1 |}].
Proof.
  intros x X. unfold sample_intersections. rewrite south_ray. cbn [map straight s_target intersect]. f_equal. unfold line_plane. cbn [plane_center plane_normal plane_width plane_height].
  unfold dot. cbn [vadd vsub smul vec pe pn pu]. unfold Rltb. replace (0 * 0 + -1 * 1 + 0 * 0) with (-1) by ring. destruct (Rlt_dec (-1) 0); [|lra]. cbn [indicator].
  replace (((0 - x) * 0 + (-10 - 0) * 1 + (0 - 0) * 0) / -1 * 1) with 10 by field. cbn [INR]. replace (1 + 1 + 1 - 1) with 2 by ring.
  replace ((x + 10 * 0 + 2 / 2 - 0) / 2 * 2) with (x + 1) by field. replace ((0 + 10 * 0 + 2 / 2 - 0) / 2 * 2) with 1 by field. unfold Rleb.
  destruct (Rle_dec 0 (x + 1)); [|lra]. destruct (Rle_dec (x + 1) 2); [|lra]. destruct (Rle_dec 0 1); [|lra]. destruct (Rle_dec 1 2); [|lra]. cbn [andb indicator]. f_equal; ring.
Qed.
Example C134_case : proper_sample (straight (1 / 4)) /\ northern (s_target (straight (1 / 4))) /\ off_edges 3 3 1 (straight (1 / 4)) /\ proper_sample (straight 1)
  /\ (forall i, In i (sample_intersections 3 3 1 (straight 1)) -> i_intensity i <> 0 -> i_e i = 0 /\ i_u i < INR 3 - 1)
  /\ northern (CylindricalTarget {| cyl_center := vec 0 (-10) 0; cyl_axis := vec 0 0 1; cyl_normal := vec 0 1 0; cyl_radius := 1; cyl_height := 2; cyl_opening := 1 |}).
Proof.
  split; [apply straight_proper|]. split; [exact I|]. split; [|split; [apply straight_proper|split]].
  - intros i H _. rewrite straight_hit in H by lra. destruct H as [<-|[]]. cbn. lra.
  - intros i H _. rewrite straight_hit in H by lra. destruct H as [<-|[]]. cbn. lra.
  - exists (PI / 2). cbn. pose proof PI_RGT_0. pose proof PI2_1. split; [|split; [|exists 1; rewrite cos_PI2, sin_PI2]]; lra.
Qed.

(** C135 (full statement: turning a scene about the vertical does not change its images).  Half a turn of a scene with a planar area keeps
    the fractions and the power in every row, if no ray that carries power ends exactly on the left or right edge; but the image is
    exchanged left and right: it is drawn as seen from the north, even if the area faces south. *)
Theorem C135_half_turn_partial : forall width height magnitude extinction reflectivity s blocked, (2 <= width)%nat -> (2 <= height)%nat -> 0 <= magnitude ->
  proper_sample s -> planar (s_target s) -> off_edges width height magnitude s ->
  exists t, trace_sample width height magnitude extinction reflectivity s blocked = Ok t
  /\ trace_sample width height magnitude extinction reflectivity (half_turned_sample s) blocked
     = Ok {| t_bitmap := map (@rev R) (t_bitmap t); t_intercept := t_intercept t; t_on_target := t_on_target t; t_blocking := t_blocking t |}.
Proof. exact half_turned_trace. Qed.
Print Assumptions C135_half_turn_partial.

(** After a quarter turn of an upright area that faces north or south, the whole image is in the middle columns, wherever the rays end. *)
Theorem C135_quarter_turn_refuted : forall width height magnitude extinction reflectivity s blocked p, (2 <= width)%nat -> (2 <= height)%nat -> 0 <= magnitude ->
  proper_sample s -> s_target s = PlanarTarget p -> pe (plane_normal p) = 0 -> pu (plane_normal p) = 0 ->
  exists t', trace_sample width height magnitude extinction reflectivity (quarter_turned_sample s) blocked = Ok t'
  /\ forall r c, (r < height)%nat -> (c < width)%nat -> pixel (t_bitmap t') height r c <> 0 -> (width - 1 - 1 <= 2 * c <= width)%nat.
Proof. exact quarter_turn. Qed.
Print Assumptions C135_quarter_turn_refuted.

(** After half a turn of a cylindrical area that opens to the north by less than half a circle, all rays that carried power carry none. *)
Theorem C135_cylinder_refuted : forall width height magnitude extinction reflectivity s blocked c, (2 <= width)%nat -> (2 <= height)%nat -> 0 <= magnitude ->
  proper_sample s -> s_target s = CylindricalTarget c -> 0 < pn (cyl_normal c) -> cyl_opening c < PI ->
  (forall i, In i (sample_intersections width height magnitude s) -> i_intensity i <> 0) ->
  exists t', trace_sample width height magnitude extinction reflectivity (half_turned_sample s) blocked = Ok t' /\ image_total (t_bitmap t') = 0.
Proof. exact turned_cylinder. Qed.
Print Assumptions C135_cylinder_refuted.

(** The same ray onto a cylindrical area. *)
Definition onto_cylinder : sample :=
  {| s_incident := s_incident (straight 0); s_surface := s_surface (straight 0);
     s_target := CylindricalTarget {| cyl_center := vec 0 (-10) 0; cyl_axis := vec 0 0 1; cyl_normal := vec 0 1 0; cyl_radius := 1; cyl_height := 2; cyl_opening := 1 |};
     s_distortions := s_distortions (straight 0) |}.
Example C135_case : planar (s_target (straight (1 / 4))) /\ off_edges 3 3 1 (straight (1 / 4)) /\ proper_sample onto_cylinder
  /\ (forall i, In i (sample_intersections 3 3 1 onto_cylinder) -> i_intensity i <> 0) /\ 1 < PI.
Proof.
  split; [exact I|]. split; [apply C134_case|]. split; [|split; [|pose proof PI2_1; pose proof PI_RGT_0; lra]].
  - destruct (straight_proper 0) as (A & B & _ & D). split; [exact A|]. split; [exact B|]. split; [|exact D]. unfold onto_cylinder. cbn [s_target proper_target]. unfold proper_cylinder, unit, dot. cbn. lra.
  - intros i H. unfold sample_intersections in H. change (sample_rays onto_cylinder) with (sample_rays (straight 0)) in H. rewrite south_ray in H. cbn [map onto_cylinder s_target intersect] in H. destruct H as [<-|[]].
    unfold line_cylinder, cylinder_distance, local_frame, cross, dot. cbn [cyl_center cyl_axis cyl_normal cyl_radius cyl_height cyl_opening vadd vsub smul vec pe pn pu].
    replace (0 * (1 * 1 - 0 * 0) + -1 * (0 * 0 - 0 * 1) + 0 * (0 * 0 - 1 * 0)) with 0 by ring. replace (0 * 0 + -1 * 1 + 0 * 0) with (-1) by ring. replace (0 * 0 + -1 * 0 + 0 * 1) with 0 by ring.
    replace ((0 - 0) * (1 * 1 - 0 * 0) + (0 - -10) * (0 * 0 - 0 * 1) + (0 - 0) * (0 * 0 - 1 * 0)) with 0 by ring. replace ((0 - 0) * 0 + (0 - -10) * 1 + (0 - 0) * 0) with 10 by ring.
    replace ((0 - 0) * 0 + (0 - -10) * 0 + (0 - 0) * 1) with 0 by ring. replace (0 ^ 2 + (-1) ^ 2) with 1 by ring. replace (0 ^ 2 + 10 ^ 2 - 1 ^ 2) with 99 by ring. replace (2 * (0 * 0 + 10 * -1)) with (-20) by ring.
    replace ((-20) ^ 2 - 4 * 1 * 99) with 4 by ring. destruct (Rle_dec 0 4); [|lra]. rewrite Rabs_R1. destruct (Rlt_dec (/ 10 ^ 8) 1); [|lra].
    set (root := sqrt (4 + / 10 ^ 12)). assert (RT : 2 < root < 3).
    { assert (Q : root * root = 4 + / 10 ^ 12) by (apply sqrt_sqrt; lra). assert (0 <= root) by apply sqrt_pos. split; nra. }
    destruct (Rlt_dec 0 ((- -20 - root) / (2 * 1))) as [_|C]; [|exfalso; apply C; lra]. destruct (Rlt_dec 0 ((- -20 + root) / (2 * 1))) as [_|C]; [|exfalso; apply C; lra].
    rewrite Rmin_left by lra. set (t := (- -20 - root) / (2 * 1)). replace (0 + t * 0) with 0 by ring. set (y := 10 + t * -1). assert (Y : 0 < y) by (unfold y, t; lra).
    assert (A1 : forall z, 0 < z -> atan2 z 0 = PI / 2) by (intros z Z; unfold atan2; destruct (Rlt_dec 0 0); [lra|]; destruct (Rlt_dec 0 z); [auto|lra]).
    rewrite (A1 y Y), (A1 1) by lra. unfold Rleb. destruct (Rle_dec 0 (0 + 2 / 2)); [|lra]. destruct (Rle_dec (0 + 2 / 2) 2); [|lra].
    destruct (Rle_dec 0 (PI / 2 - (PI / 2 - 1 / 2))); [|lra]. destruct (Rle_dec (PI / 2 - (PI / 2 - 1 / 2)) 1); [|lra]. cbn [andb indicator i_intensity].
    assert (NP : 0 < / norm (vec 0 y 0)) by (apply Rinv_0_lt_compat, sqrt_lt_R0; unfold dot; cbn; nra).
    set (k := / norm (vec 0 y 0)) in *. replace (-1 * 0 * (k * 0) + -1 * -1 * (k * y) + -1 * 0 * (k * 0)) with (k * y) by ring.
    assert (0 < k * y) by (apply Rmult_lt_0_compat; auto). rewrite Rmax_left by lra. lra.
Qed.
