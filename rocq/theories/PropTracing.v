(** C12, C13, C15, C65, C66, C70: bitmaps, fractions and batches of the heliostat ray tracer. *)
From Coq Require Import List Arith ZArith Reals Bool Lia Lra.
From Verif Require Import RealSums ModelField ModelDistributed ModelSplatting SpecSplatting ProofsSplatting ProofsTracing.
Import ListNotations.
Local Open Scope R_scope.

(** C12. Splatting any list of rays (with the non-negative bitmap coordinates the intersection code
    produces) never fails, the pixel sum is the total intensity of the rays inside the grid, and pixels
    are non-negative if intensities are. *)
Theorem C12_splatting_conserves_power : forall width height rays,
  (1 <= width)%nat -> (1 <= height)%nat ->
  (forall r, In r rays -> 0 <= hit_e r /\ 0 <= hit_u r) ->
  exists image, bilinear_splatting width height rays = Ok image /\ is_image width height image
    /\ image_total image = sum_where (inside_gridb width height) hit_intensity rays
    /\ ((forall r, In r rays -> 0 <= hit_intensity r) ->
        forall row x, In row image -> In x row -> 0 <= x).
Proof. exact power_conserved. Qed.
Print Assumptions C12_splatting_conserves_power.

Example C12_case :
  let rays := [ {| hit_e := 1/4; hit_u := 1/2; hit_intensity := 3 |};
                {| hit_e := 1; hit_u := 0; hit_intensity := 5 |} ] in
  exists image, bilinear_splatting 2 2 rays = Ok image /\ image_total image = 3.
Proof.
  intros rays. destruct (C12_splatting_conserves_power 2 2 rays) as (im & A & _ & B & _); auto.
  - intros r [<-|[<-|[]]]; simpl; lra.
  - exists im. split; auto. rewrite B. unfold sum_where, inside_gridb, rays. simpl.
    repeat (destruct Rle_dec; simpl; try lra || destruct Rlt_dec; simpl; try lra).
Qed.

(** C13. The pixel values are given by the bilinear hat weights of the rays inside the grid; pixel
    [r] rows above the bottom is row [height-1-r] of the returned image (rows are top-down). *)
Theorem C13_splatting_pixel_values : forall width height rays,
  (1 <= width)%nat -> (1 <= height)%nat ->
  (forall r, In r rays -> 0 <= hit_e r /\ 0 <= hit_u r) ->
  exists image, bilinear_splatting width height rays = Ok image /\ is_image width height image
    /\ forall r c, (r < height)%nat -> (c < width)%nat ->
       pixel image height r c
       = sum_where (inside_gridb width height)
           (fun ray => hit_intensity ray * hat (hit_e ray - INR c) * hat (hit_u ray - INR r)) rays.
Proof. exact pixel_formula. Qed.
Print Assumptions C13_splatting_pixel_values.

(** A single ray inside the grid: only adjacent pixels, shares between zero and the intensity, mean
    position equal to the hit position. *)
Theorem C13_single_ray_placement : forall width height ray,
  (1 <= width)%nat -> (1 <= height)%nat -> inside_grid width height ray -> 0 <= hit_intensity ray ->
  exists image, bilinear_splatting width height [ray] = Ok image /\ is_image width height image
    /\ (forall r c, (r < height)%nat -> (c < width)%nat ->
          0 <= pixel image height r c <= hit_intensity ray
          /\ (pixel image height r c <> 0 -> Rabs (hit_e ray - INR c) < 1 /\ Rabs (hit_u ray - INR r) < 1))
    /\ Rsum_n height (fun r => Rsum_n width (fun c => pixel image height r c)) = hit_intensity ray
    /\ Rsum_n height (fun r => Rsum_n width (fun c => pixel image height r c * INR c))
       = hit_intensity ray * hit_e ray
    /\ Rsum_n height (fun r => Rsum_n width (fun c => pixel image height r c * INR r))
       = hit_intensity ray * hit_u ray.
Proof. exact splat_single_ray. Qed.
Print Assumptions C13_single_ray_placement.

(** A ray of intensity 8 at (1/4, 1/2) in a grid of three columns and two rows: the upper row, which
    comes first, gets 3 and 1. *)
Example C13_case :
  let ray := {| hit_e := 1/4; hit_u := 1/2; hit_intensity := 8 |} in
  inside_grid 3 2 ray
  /\ exists image, bilinear_splatting 3 2 [ray] = Ok image
     /\ nth 0 (nth 0 image []) 0 = 3 /\ nth 1 (nth 0 image []) 0 = 1 /\ nth 2 (nth 0 image []) 0 = 0.
Proof.
  intros ray.
  assert (I : inside_grid 3 2 ray) by (unfold inside_grid, ray; simpl; lra).
  split; auto.
  destruct (C13_splatting_pixel_values 3 2 [ray]) as (im & A & _ & B); auto.
  { intros r [<-|[]]; simpl; lra. }
  exists im. split; auto.
  assert (Ib : inside_gridb 3 2 ray = true) by (apply inside_gridb_iff; auto).
  assert (P : forall c, (c < 3)%nat -> nth c (nth 0 im []) 0 = 8 * hat (1/4 - INR c) * hat (1/2 - 1)).
  { intros c Hc. generalize (B 1%nat c ltac:(lia) Hc). unfold pixel, sum_where. cbn [filter]. rewrite Ib.
    simpl. intros ->. lra. }
  rewrite !P by lia. unfold hat. simpl.
  repeat split; unfold Rabs, Rmax; repeat (destruct Rcase_abs; try lra); repeat (destruct Rle_dec; try lra).
Qed.

(** C15. Each target's bitmap is the sum over exactly the heliostats aimed at it, all targets together
    hold what all heliostats hold, and untouched targets are zero. *)
Theorem C15_bitmaps_per_target : forall targets_in_scene pixels bitmaps targets,
  List.length bitmaps = List.length targets -> (forall b, In b bitmaps -> List.length b = pixels) ->
  exists out, bitmaps_per_target targets_in_scene pixels bitmaps targets = Ok out
    /\ is_image pixels targets_in_scene out
    /\ (forall t p, (t < targets_in_scene)%nat ->
         nth p (nth t out []) 0
         = sum_where (fun '(_, t') => (t' =? Z.of_nat t)%Z) (fun '(b, _) => nth p b 0) (combine bitmaps targets))
    /\ ((forall t, In t targets -> (0 <= t < Z.of_nat targets_in_scene)%Z) ->
        forall p, Rsum_n targets_in_scene (fun t => nth p (nth t out []) 0)
                  = Rsum (map (fun b => nth p b 0) bitmaps))
    /\ (forall t p, (t < targets_in_scene)%nat -> ~ In (Z.of_nat t) targets -> nth p (nth t out []) 0 = 0).
Proof. exact bitmaps_per_target_spec. Qed.
Print Assumptions C15_bitmaps_per_target.

Example C15_case :
  bitmaps_per_target 3 2 [[1; 2]; [3; 4]; [5; 6]] [2; 0; 2]%Z
  = Ok [[3 + 0; 4 + 0]; [0; 0]; [1 + (5 + 0); 2 + (6 + 0)]].
Proof. reflexivity. Qed.

(** C65. [rays] are the angle-reduced intensity (never negative, see C26) and the blocked share of every
    ray.  The last part describes the exact-arithmetic effect of soft blocking: as long as no ray is
    blocked completely the intercept fraction does not see blocking at all. *)
Theorem C65_ray_fractions : forall extinction reflectivity (rays : list (R * R)),
  rays <> [] -> (forall ray, In ray rays -> 0 <= fst ray) ->
  0 <= on_target_factor rays <= 1
  /\ 0 <= blocking_factor rays <= 1
  /\ 0 <= intercept_factor extinction reflectivity rays <= on_target_factor rays
  /\ (0 < reflectivity -> extinction < 1 -> (forall ray, In ray rays -> snd ray < 1) ->
      intercept_factor extinction reflectivity rays = on_target_factor rays).
Proof. exact ray_fractions. Qed.
Print Assumptions C65_ray_fractions.

Example C65_case :
  let rays := [(1/2, 0); (0, 0); (1, 1)] in
  on_target_factor rays = 2/3 /\ intercept_factor 0 1 rays = 1/3 /\ blocking_factor rays = 2/3.
Proof.
  simpl. unfold on_target_factor, intercept_factor, blocking_factor, fraction, positive, ray_intensity. simpl.
  repeat (destruct Rlt_dec; simpl; try lra).
Qed.

(** C66. Whatever the batch size and the number of ranks, exactly one rank writes the result row of a
    sample, it is the row computed from this sample's own distortions and state, and all other ranks
    leave the row unwritten.  All active heliostats have the same number of samples. *)
Theorem C66_batched_tracing_partial : forall {D S A} (trace : D -> S -> A) distortions state mask world batch_size per,
  (1 <= batch_size)%nat -> (1 <= world)%nat -> (exists m, In m mask /\ (0 < m)%nat) ->
  (forall m, In m mask -> m = 0%nat \/ m = per) ->
  List.length distortions = list_sum mask -> List.length state = list_sum mask ->
  let result rank := trace_batches trace distortions state (tracer_sampler_indices mask world rank) batch_size in
  (forall rank, List.length (result rank) = list_sum mask)
  /\ (forall i d s, nth_error distortions i = Some d -> nth_error state i = Some s ->
       exists owner, (owner < world)%nat
         /\ nth_error (result owner) i = Some (Some (trace d s))
         /\ forall rank, (rank < world)%nat -> rank <> owner -> nth_error (result rank) i = Some None).
Proof. exact @batched_tracing. Qed.
Print Assumptions C66_batched_tracing_partial.

Example C66_case :
  let result rank := trace_batches pair [10; 11; 12; 13]%nat [20; 21; 22; 23]%nat
                       (tracer_sampler_indices [2; 0; 2]%nat 2 rank) 1 in
  result 0%nat = [Some (10, 20); Some (11, 21); None; None]%nat
  /\ result 1%nat = [None; None; Some (12, 22); Some (13, 23)]%nat.
Proof. split; reflexivity. Qed.

(** C70. With a given irradiance the rays of one heliostat carry irradiance times area in total. *)
Theorem C70_ray_power : forall dni area points rays, (1 <= points)%nat -> (1 <= rays)%nat ->
  Rsum (repeat (ray_magnitude (Some dni) area points rays) (points * rays)) = dni * area.
Proof. exact ray_power. Qed.
Print Assumptions C70_ray_power.

Example C70_case : Rsum (repeat (ray_magnitude (Some 800) 4 25 10) 250) = 800 * 4.
Proof. apply (C70_ray_power 800 4 25 10); lia. Qed.
