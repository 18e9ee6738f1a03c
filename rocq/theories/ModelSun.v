(** Model of the distortions: [artist/scene/sun.py], [artist/raytracing/sampling.py] (the data set) and their use in
    [artist/raytracing/heliostat_ray_tracer.py] and [artist/optim]. *)
From Coq Require Import List Arith Reals Bool ZArith.
From Verif Require Import ModelField ModelDistributed ModelVectors ModelSplatting ModelIntersections ModelLBVH ModelTrace.
Import ListNotations.
Local Open Scope nat_scope.

(** The distribution types a configuration may name; the source compares strings, sun.py:80-92. *)
Inductive distribution := NormalDistribution | OtherDistribution.
(** The state of a [Sun]: number of rays, mean and covariance of the distribution of both angles. *)
Record sun := { sun_rays : nat; sun_mean : R; sun_covariance : R }.
(** [Sun.__init__], sun.py:36-117: the two angles are independent with the same mean and variance; [MultivariateNormal] rejects a
    covariance matrix that is not positive definite with a ValueError. *)
Definition make_sun (rays : nat) (kind : distribution) (mean covariance : R) : res sun :=
  match kind with
  | OtherDistribution => Err ValueError
  | NormalDistribution => if Rlt_dec 0 covariance then Ok {| sun_rays := rays; sun_mean := mean; sun_covariance := covariance |} else Err ValueError
  end.

Section Generator.
(** The global random generator of torch: [seeded s] is its state after [manual_seed(s)], [draw g sun shape] the pair (up, east) at
    every position of a sample of the distribution with the given shape (heliostats, rays, points), and the state afterwards.  Both
    are arbitrary: the values may depend on the whole shape. *)
Context {G : Type}.
Variables (seeded : nat -> G) (draw : G -> sun -> nat * nat * nat -> (nat -> nat -> nat -> R * R) * G).

(** [Sun.get_distortions], sun.py:199-234.  The dimensions of the result are heliostat, ray and point. *)
Definition get_distortions (s : sun) (points heliostats seed : nat) (before : G) : list (list (list (R * R))) * G :=
  let g := seeded seed in
  let '(values, g) := draw g s (heliostats, sun_rays s, points) in
  (map (fun h => map (fun r => map (values h r) (seq 0 points)) (seq 0 (sun_rays s))) (seq 0 heliostats), g).

(** [DistortionsDataset], sampling.py:22-85, as created by the ray tracer, heliostat_ray_tracer.py:131-139: one entry per sample. *)
Definition distortions_dataset (s : sun) (points : nat) (mask : list nat) (seed : nat) (before : G) : list (list (list (R * R))) * G :=
  get_distortions s points (list_sum mask) seed before.

(** The rows a tracer writes on one rank (C66), from its own data set. *)
Definition traced_rows {S A} (trace : list (list (R * R)) -> S -> A) (s : sun) (points : nat) (mask : list nat) (state : list S)
  (world rank batch_size seed : nat) (before : G) : list (option A) :=
  trace_batches trace (fst (distortions_dataset s points mask seed before)) state (tracer_sampler_indices mask world rank) batch_size.

(** The optimizers seed the tracer with the rank within the group, kinematics_reconstructor.py:587, surface_reconstructor.py:245
    and 564, aim_point_optimizer.py:475. *)
Definition optimizer_rows {S A} (trace : list (list (R * R)) -> S -> A) (s : sun) (points : nat) (mask : list nat) (state : list S)
  (group_world group_rank batch_size : nat) (before : G) : list (option A) :=
  traced_rows trace s points mask state group_world group_rank batch_size group_rank before.
End Generator.

(** ** Numbers of rays and points that change after the tracer was created *)

(** [Scenario.set_number_of_rays], scenario.py:421-430. *)
Definition set_number_of_rays (s : sun) (rays : nat) : sun := {| sun_rays := rays; sun_mean := sun_mean s; sun_covariance := sun_covariance s |}.

(** Assignment of values to a slice with [n] entries in a dimension: equal, or broadcast from one entry. *)
Definition broadcast_dim {A} (n : nat) (l : list A) : res (list A) :=
  if length l =? n then Ok l else match l with [x] => Ok (repeat x n) | _ => Err RuntimeError end.
Definition store_rays {A} (rays points : nat) (values : list (list A)) : res (list (list A)) :=
  bind (map_res (broadcast_dim points) values) (broadcast_dim rays).

(** [trace_rays] of one sample without blocking, heliostat_ray_tracer.py:358-508.  The intersections have the shape of the
    distortions; they are stored in tensors whose shape is the current number of rays of the light source and the number of surface
    points stored in the group, which also gives the number of rays in the fractions. *)
Definition intersection_rows (width height : nat) (magnitude : R) (s : sample) : list (list intersection) :=
  map (fun angles => map (fun '((origin, normal), (u, e)) =>
         intersect width height (s_target s) origin (scatter_ray (reflect (s_incident s) normal) u e) magnitude) (combine (s_surface s) angles)) (s_distortions s).
Definition trace_stored (width height : nat) (magnitude extinction reflectivity : R) (rays points : nat) (s : sample) : res traced :=
  bind (store_rays rays points (intersection_rows width height magnitude s)) (fun stored =>
  let values := concat stored in
  let intensities := map (fun i => (i_intensity i, 0%R)) values in
  let hits := map (fun i => {| hit_e := i_e i; hit_u := i_u i; hit_intensity := ray_intensity extinction reflectivity (i_intensity i) 0%R |}) values in
  bind (bilinear_splatting width height hits) (fun bitmap =>
  Ok {| t_bitmap := bitmap; t_intercept := intercept_factor extinction reflectivity intensities;
        t_on_target := on_target_factor intensities; t_blocking := blocking_factor intensities |})).
