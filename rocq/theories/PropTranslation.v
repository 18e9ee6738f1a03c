(** C121: moved scenes. *)
From Coq Require Import List Arith ZArith Reals Lra Lia.
From Verif Require Import RealSums ModelField ModelVectors ModelTransforms SpecTransforms ModelLBVH SpecLBVH ModelBlocking SpecBlocking ModelSplatting
  SpecSplatting ModelIntersections SpecIntersections ModelTrace SpecTrace ModelKinematics SpecKinematics SpecTranslation ProofsTraceBatch ProofsKinematics
  ProofsTranslationTrace.
Import ListNotations.
Local Open Scope R_scope.

(** C121. If the surfaces, the target areas and the mirrors that block rays are all moved by the same vector, tracing gives the same
    result in all pixels and fractions, or fails in the same way, with and without blocking ... *)
Theorem C121_traced : forall sort fuel width height magnitude extinction reflectivity blocking samples v,
  (forall corners, blocking = Some corners -> sorts sort /\ forall c, In c corners -> (4 <= List.length c)%nat) ->
  trace_samples sort fuel width height magnitude extinction reflectivity (option_map (map (map (moved v))) blocking)
    (map (fun '(s, owner) => (moved_sample v s, owner)) samples)
  = trace_samples sort fuel width height magnitude extinction reflectivity blocking samples.
Proof. exact trace_moved. Qed.
Print Assumptions C121_traced.

(** ... and if heliostats and aim points are moved by the same vector, aligning gives the same motor positions, and orientations that
    take every point of a surface to a place moved by the vector and every normal to the same normal. *)
Theorem C121_aligned : forall iterations epsilon batch v,
  match incident_ray_directions_to_orientations iterations epsilon batch with
  | Err e => incident_ray_directions_to_orientations iterations epsilon (map (moved_request v) batch) = Err e
  | Ok (orientations, motors) => exists orientations',
      incident_ray_directions_to_orientations iterations epsilon (map (moved_request v) batch) = Ok (orientations', motors)
      /\ List.length orientations' = List.length orientations
      /\ forall i o o', nth_error orientations i = Some o -> nth_error orientations' i = Some o' -> forall p,
           enu (mapply o' (as_point p)) = moved v (enu (mapply o (as_point p)))
           /\ enu (mapply o' (as_direction p)) = enu (mapply o (as_direction p))
  end.
Proof. exact aligned_moved. Qed.
Print Assumptions C121_aligned.

(** The scene of C66_blocking_refuted, in which one sample loses at least three quarters of its flux to blocking, moved far away. *)
Example C121_case : forall sort, sorts sort -> exists ta tb,
  trace_samples sort 9 3 3 1 0 1 (Some (map (map (moved (vec 1000 (-2000) 30))) stacked))
    [(moved_sample (vec 1000 (-2000) 30) (upward (-5) 95), 1%nat); (moved_sample (vec 1000 (-2000) 30) (upward (-3) (-2)), 2%nat)]
  = Traced [Some ta; Some tb] /\ image_total (t_bitmap tb) <= 1/4.
Proof.
  intros sort HS. destruct (stacked_pair sort HS) as (ta & tb & E & B). exists ta, tb. split; auto. rewrite <- E.
  apply (C121_traced sort 9 3 3 1 0 1 (Some stacked) [(upward (-5) 95, 1%nat); (upward (-3) (-2), 2%nat)] (vec 1000 (-2000) 30)).
  intros c Q. injection Q as <-. split; auto. intros c [<-|[<-|[<-|[]]]]; cbn; lia.
Qed.
