(** Vocabulary of the property about whole calls of [trace_rays] (C125). *)
From Coq Require Import List Arith Reals.
From Verif Require Import ModelField ModelVectors ModelTransforms ModelIntersections ModelDistributed ModelTrace ModelRayTracer SpecTransforms.
Import ListNotations.
Local Open Scope R_scope.

(** The target area with a number: planar areas are numbered first, then the cylindrical ones. *)
Definition area_with_number (t : ray_tracer) (number : nat) (area : target) : Prop :=
  match area with
  | PlanarTarget p => nth_error (rt_planar t) number = Some p
  | CylindricalTarget c => exists k, number = (List.length (rt_planar t) + k)%nat /\ nth_error (rt_cylindrical t) k = Some c
  end.
(** The sample at position [i]: its own incident direction, surface, distortions and target area. *)
Definition sample_at (t : ray_tracer) (incident : list point) (targets : list nat) (i : nat) (s : sample) : Prop :=
  nth_error incident i = Some (s_incident s)
  /\ (exists points normals, nth_error (rt_points t) i = Some points /\ nth_error (rt_normals t) i = Some normals
        /\ s_surface s = combine (map enu points) (map enu normals))
  /\ nth_error (rt_distortions t) i = Some (s_distortions s)
  /\ exists number, nth_error targets i = Some number /\ area_with_number t number (s_target s).
(** The tracer of one rank. *)
Definition on_rank (t : ray_tracer) (world rank : nat) : ray_tracer :=
  {| rt_mask := rt_mask t; rt_points := rt_points t; rt_normals := rt_normals t; rt_planar := rt_planar t; rt_cylindrical := rt_cylindrical t;
     rt_distortions := rt_distortions t; rt_sampler := tracer_sampler_indices (rt_mask t) world rank; rt_batch_size := rt_batch_size t;
     rt_width := rt_width t; rt_height := rt_height t; rt_magnitude := rt_magnitude t; rt_blocking := rt_blocking t |}.
(** One surface and one set of distortions for each active sample. *)
Definition one_per_sample (t : ray_tracer) : Prop :=
  List.length (rt_points t) = list_sum (rt_mask t) /\ List.length (rt_normals t) = list_sum (rt_mask t)
  /\ List.length (rt_distortions t) = list_sum (rt_mask t).
