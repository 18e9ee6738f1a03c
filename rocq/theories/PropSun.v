(** C107-C109: the distortions of the ray tracer. *)
From Coq Require Import List Arith Reals Bool ZArith Lia Lra.
From Verif Require Import RealSums ModelField ModelDistributed ModelVectors ModelSplatting SpecSplatting ModelIntersections SpecIntersections ModelTrace SpecTrace ModelSun ProofsSun ProofsVectors.
Import ListNotations.
Local Open Scope nat_scope.

(** C107. With the same seed, the same rows are traced whatever random numbers were drawn before, ... *)
Theorem C107_reproducible : forall {G S A} (seeded : nat -> G) draw (trace : list (list (R * R)) -> S -> A) s points mask state world rank batch_size seed before before',
  traced_rows seeded draw trace s points mask state world rank batch_size seed before
  = traced_rows seeded draw trace s points mask state world rank batch_size seed before'.
Proof. intros G S A seeded draw. exact (reproducible_rows seeded draw). Qed.
Print Assumptions C107_reproducible.

(** ... and the distortions give one pair of angles for every sample, ray and surface point. *)
Theorem C107_shape : forall {G} (seeded : nat -> G) draw s points heliostats seed before before',
  get_distortions seeded draw s points heliostats seed before = get_distortions seeded draw s points heliostats seed before'
  /\ length (fst (get_distortions seeded draw s points heliostats seed before)) = heliostats
  /\ (forall angles, In angles (fst (get_distortions seeded draw s points heliostats seed before)) ->
        length angles = sun_rays s /\ forall row, In row angles -> length row = points).
Proof. intros G seeded draw. exact (reproducible seeded draw). Qed.
Print Assumptions C107_shape.

(** A generator that counts: the state is the number of values drawn so far plus the seed. *)
Definition counting (g : nat) (s : sun) (shape : nat * nat * nat) : (nat -> nat -> nat -> R * R) * nat :=
  let '(h, r, p) := shape in ((fun i j k => (INR (g + i + j), INR k)), g + h * r * p).
Definition example_sun : sun := {| sun_rays := 2; sun_mean := 0%R; sun_covariance := 1%R |}.

Example C107_case : traced_rows (fun s => s) counting (fun angles (x : nat) => (nth 0 angles [], x)) example_sun 1 [1; 1] [8; 9] 1 0 1 7 0
  = [Some ([(INR 7, INR 0)], 8); Some ([(INR 8, INR 0)], 9)].
Proof. reflexivity. Qed.

(** C108 (full statement: for all masks, and for tracing as well as for optimizations).  With one seed for all ranks, as in a ray
    tracer a user creates, every sample is traced by exactly one rank, with the result a single process has.  Active heliostats have
    the same number of samples. *)
Theorem C108_same_seed_partial : forall {G S A} (seeded : nat -> G) draw (trace : list (list (R * R)) -> S -> A) s points mask state world batch_size batch_size' seed before per,
  1 <= batch_size -> 1 <= batch_size' -> 1 <= world -> (exists m, In m mask /\ 0 < m) -> (forall m, In m mask -> m = 0 \/ m = per) -> length state = list_sum mask ->
  forall i, i < list_sum mask -> exists owner row, owner < world
    /\ nth_error (traced_rows seeded draw trace s points mask state 1 0 batch_size' seed before) i = Some (Some row)
    /\ nth_error (traced_rows seeded draw trace s points mask state world owner batch_size seed before) i = Some (Some row)
    /\ forall rank, rank < world -> rank <> owner -> nth_error (traced_rows seeded draw trace s points mask state world rank batch_size seed before) i = Some None.
Proof. intros G S A seeded draw. exact (distributed_rows seeded draw). Qed.
Print Assumptions C108_same_seed_partial.

(** The optimizers use the rank as seed: if the distortions of two seeds give different results, ranks sharing a group trace other
    results than a single process. *)
Theorem C108_seeds_refuted : forall {G S A} (seeded : nat -> G) draw (trace : list (list (R * R)) -> S -> A) s points mask state world batch_size before per,
  1 <= batch_size -> 2 <= world -> 2 <= mask_active mask -> (forall m, In m mask -> m = 0 \/ m = per) -> length state = list_sum mask ->
  (forall i d d' x, nth_error (fst (distortions_dataset seeded draw s points mask 0 before)) i = Some d ->
     nth_error (fst (distortions_dataset seeded draw s points mask 1 before)) i = Some d' -> nth_error state i = Some x -> trace d x <> trace d' x) ->
  exists i single distributed, nth_error (optimizer_rows seeded draw trace s points mask state 1 0 batch_size before) i = Some (Some single)
    /\ nth_error (optimizer_rows seeded draw trace s points mask state world 1 batch_size before) i = Some (Some distributed)
    /\ single <> distributed.
Proof. intros G S A seeded draw. exact (seeded_by_rank seeded draw). Qed.
Print Assumptions C108_seeds_refuted.

Example C108_case : optimizer_rows (fun s => s) counting (fun angles (x : nat) => fst (nth 0 (nth 0 angles []) (0, 0)%R)) example_sun 1 [1; 1] [8; 9] 2 1 1 0 = [None; Some (INR 2)]
  /\ optimizer_rows (fun s => s) counting (fun angles (x : nat) => fst (nth 0 (nth 0 angles []) (0, 0)%R)) example_sun 1 [1; 1] [8; 9] 1 0 1 0 = [Some (INR 0); Some (INR 1)].
Proof. split; reflexivity. Qed.

(** C109 (full statement: a tracer can be used after the number of rays of the light source or of surface points of the group was
    changed, and the traced power does not depend on these numbers).  With unchanged numbers it traces its samples. *)
Theorem C109_unchanged_partial : forall width height magnitude extinction reflectivity s, proper_sample s ->
  trace_stored width height magnitude extinction reflectivity (length (s_distortions s)) (length (s_surface s)) s
  = trace_sample width height magnitude extinction reflectivity s (repeat 0%R (ray_count s)).
Proof. exact unchanged_sizes. Qed.
Print Assumptions C109_unchanged_partial.

(** Another number of rays or surface points is an error, ... *)
Theorem C109_rays_refuted : forall width height magnitude extinction reflectivity rays points s, proper_sample s -> points = length (s_surface s) ->
  length (s_distortions s) <> rays -> length (s_distortions s) <> 1 ->
  trace_stored width height magnitude extinction reflectivity rays points s = Err RuntimeError.
Proof. exact changed_rays. Qed.
Print Assumptions C109_rays_refuted.
Theorem C109_points_refuted : forall width height magnitude extinction reflectivity rays points s, proper_sample s -> 1 <= length (s_distortions s) ->
  length (s_surface s) <> points -> length (s_surface s) <> 1 ->
  trace_stored width height magnitude extinction reflectivity rays points s = Err RuntimeError.
Proof. exact changed_points. Qed.
Print Assumptions C109_points_refuted.

(** ... except that a tracer created for a single ray counts this ray as often as there are rays now: the power is multiplied. *)
Theorem C109_single_ray_refuted : forall width height magnitude extinction reflectivity rays s, 2 <= width -> 2 <= height ->
  proper_sample s -> (0 <= magnitude)%R -> length (s_distortions s) = 1 ->
  exists t t', trace_stored width height magnitude extinction reflectivity 1 (length (s_surface s)) s = Ok t
  /\ trace_stored width height magnitude extinction reflectivity rays (length (s_surface s)) s = Ok t'
  /\ image_total (t_bitmap t') = (INR rays * image_total (t_bitmap t))%R.
Proof. exact single_ray_multiplied. Qed.
Print Assumptions C109_single_ray_refuted.

(** In terms of the scenario: once its number of rays has been set, a tracer created before fails, unless the number is the old one or the tracer
    has a single ray, and one created afterwards traces its samples with the new number of rays. *)
Theorem C109_set_rays_refuted : forall {G} (seeded : nat -> G) draw sun new heliostats seed before width height magnitude extinction reflectivity s, proper_sample s ->
  In (s_distortions s) (fst (get_distortions seeded draw sun (length (s_surface s)) heliostats seed before)) -> sun_rays sun <> new -> sun_rays sun <> 1 ->
  trace_stored width height magnitude extinction reflectivity (sun_rays (set_number_of_rays sun new)) (length (s_surface s)) s = Err RuntimeError.
Proof.
  intros G seeded draw sun new heliostats seed before width height magnitude extinction reflectivity s P I N O.
  destruct (C107_shape seeded draw sun (length (s_surface s)) heliostats seed before before) as (_ & _ & H). destruct (H _ I) as (L & _).
  cbn [set_number_of_rays sun_rays]. apply C109_rays_refuted; auto; congruence.
Qed.
Print Assumptions C109_set_rays_refuted.
Theorem C109_new_tracer_partial : forall {G} (seeded : nat -> G) draw sun new heliostats seed before width height magnitude extinction reflectivity s, proper_sample s ->
  In (s_distortions s) (fst (get_distortions seeded draw (set_number_of_rays sun new) (length (s_surface s)) heliostats seed before)) ->
  ray_count s = new * length (s_surface s)
  /\ trace_stored width height magnitude extinction reflectivity (sun_rays (set_number_of_rays sun new)) (length (s_surface s)) s
     = trace_sample width height magnitude extinction reflectivity s (repeat 0%R (ray_count s)).
Proof.
  intros G seeded draw sun new heliostats seed before width height magnitude extinction reflectivity s P I.
  destruct (C107_shape seeded draw (set_number_of_rays sun new) (length (s_surface s)) heliostats seed before before) as (_ & _ & H). destruct (H _ I) as (L & _).
  cbn [set_number_of_rays sun_rays] in L |- *. split; [unfold ray_count; rewrite L; reflexivity|]. rewrite <- L. apply C109_unchanged_partial. auto.
Qed.
Print Assumptions C109_new_tracer_partial.

(** A flat mirror of two points with one ray per point, and then with five. *)
Definition one_ray : sample := {| s_incident := vec 0 0 (-1);
  s_surface := [(vec 1 0 0, vec 0 (-3/5) (4/5)); (vec (-1) 0 0, vec 0 (-3/5) (4/5))]%R;
  s_target := PlanarTarget {| plane_center := vec 0 (-48) 14; plane_normal := vec 0 1 0; plane_width := 8; plane_height := 6 |};
  s_distortions := [[(0, 0); (0, 0)]]%R |}.
Definition two_rays : sample := {| s_incident := s_incident one_ray; s_surface := s_surface one_ray; s_target := s_target one_ray;
  s_distortions := [[(0, 0); (0, 0)]; [(0, 0); (0, 0)]]%R |}.
Example C109_case : (exists t t', trace_stored 4 4 7 0 1 1 2 one_ray = Ok t /\ trace_stored 4 4 7 0 1 5 2 one_ray = Ok t' /\ image_total (t_bitmap t') = (5 * image_total (t_bitmap t))%R)
  /\ trace_stored 4 4 7 0 1 5 2 two_rays = Err RuntimeError /\ trace_stored 4 4 7 0 1 2 3 two_rays = Err RuntimeError.
Proof.
  assert (PS : proper_sample one_ray /\ proper_sample two_rays).
  { unfold proper_sample, two_rays, one_ray. cbn [s_incident s_surface s_target s_distortions].
    assert (A : unit (vec 0 0 (-1))) by (unfold unit; vunfold; lra).
    assert (B : forall p n, In (p, n) [(vec 1 0 0, vec 0 (-3/5) (4/5)); (vec (-1) 0 0, vec 0 (-3/5) (4/5))]%R -> unit n).
    { intros q n [E|[E|[]]]; injection E as <- <-; unfold unit; vunfold; lra. }
    assert (C : proper_target (PlanarTarget {| plane_center := vec 0 (-48) 14; plane_normal := vec 0 1 0; plane_width := 8; plane_height := 6 |})).
    { cbn [proper_target]. unfold sized, unit. cbn [plane_width plane_height plane_normal]. vunfold. lra. }
    split; (split; [exact A|split; [exact B|split; [exact C|]]]); intros row I; repeat (destruct I as [<-|I]; [reflexivity|]); destruct I. }
  destruct PS as (P1 & P2). split.
  - destruct (C109_single_ray_refuted 4 4 7 0 1 5 one_ray) as (t & t' & A & B & C); auto; try lia; try lra.
    exists t, t'. split; [exact A|]. split; [exact B|]. rewrite C. f_equal. cbn. lra.
  - split; [apply C109_rays_refuted|apply C109_points_refuted]; auto; cbn; lia.
Qed.
