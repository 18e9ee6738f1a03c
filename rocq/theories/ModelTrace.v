(** Model of the tracing of whole samples (an active heliostat with its target) in
    [artist/raytracing/heliostat_ray_tracer.py], composed of the models of reflection, distortion, intersection,
    blocking and splatting. *)
From Coq Require Import List Arith ZArith Reals Bool.
From Verif Require Import RealSums ModelField ModelVectors ModelTransforms ModelLBVH ModelBlocking ModelSplatting ModelIntersections.
Import ListNotations.
Local Open Scope R_scope.

(** The surface area used for the ray magnitude, heliostat_ray_tracer.py:184-190.  [cantings] lists, for every
    heliostat of the group and every facet, the canting vectors in east and north direction.
    [torch.norm(canting[0], dim=1)] runs over the two canting vectors, [[0]] selects the first facet, [[:2]] the
    east and north components. *)
Definition heliostat_area (cantings : list (list (point * point))) : res R :=
  match cantings with
  | ((c_e, c_n) :: _) :: _ =>
    let width := sqrt (pe c_e ^ 2 + pe c_n ^ 2) * 4 + 2 / 100 in
    let height := sqrt (pn c_e ^ 2 + pn c_n ^ 2) * 4 + 2 / 100 in
    Ok (width * height)
  | _ => Err IndexError
  end.

(** [HeliostatRayTracer.__init__], heliostat_ray_tracer.py:183-203. *)
Definition tracer_magnitude (dni : option R) (cantings : list (list (point * point))) (points rays_per_point : nat) : res R :=
  match dni with
  | Some _ => bind (heliostat_area cantings) (fun area => Ok (ray_magnitude dni area points rays_per_point))
  | None => Ok (ray_magnitude None 0 points rays_per_point)
  end.

(** Target areas: planar areas come first in the index, heliostat_ray_tracer.py:328-349, 378-419. *)
Inductive target := PlanarTarget (p : plane) | CylindricalTarget (c : cylinder).
Definition target_at (planar : list plane) (cylindrical : list cylinder) (index : nat) : res target :=
  if (index <? List.length planar)%nat
  then match nth_error planar index with Some p => Ok (PlanarTarget p) | None => Err IndexError end
  else match nth_error cylindrical (index - List.length planar) with
       | Some c => Ok (CylindricalTarget c) | None => Err IndexError end.
Definition intersect (width height : nat) (t : target) (origin direction : point) (magnitude : R) : intersection :=
  match t with
  | PlanarTarget p => line_plane width height p origin direction magnitude
  | CylindricalTarget c => line_cylinder width height c origin direction magnitude
  end.

(** A sample: the incident direction, the aligned surface points with their normals, the target, and for every ray
    number and surface point the distortion angles (up, east). *)
Record sample := { s_incident : point; s_surface : list (point * point); s_target : target;
                   s_distortions : list (list (R * R)) }.

(** [scatter_rays] for one ray, heliostat_ray_tracer.py:510-561. *)
Definition scatter_ray (direction : point) (u e : R) : point :=
  let x := mapply (rotate_distortion e u) (hv (pe direction) (pn direction) (pu direction) 0) in
  vec (he x) (hn x) (hu x).

(** Origins and directions of the rays of a sample, by ray number and surface point; reflection at lines 270-275. *)
Definition sample_rays (s : sample) : list (point * point) :=
  flat_map (fun angles => map (fun '((origin, normal), (u, e)) => (origin, scatter_ray (reflect (s_incident s) normal) u e))
                              (combine (s_surface s) angles)) (s_distortions s).
Definition sample_intersections (width height : nat) (magnitude : R) (s : sample) : list intersection :=
  map (fun '(origin, direction) => intersect width height (s_target s) origin direction magnitude) (sample_rays s).

(** The rays of a sample as seen by the blocking filter, heliostat_ray_tracer.py:440-460. *)
Definition blocking_rays (width height : nat) (magnitude : R) (s : sample) (owner : nat) : list ray :=
  map (fun '((origin, direction), i) =>
         {| r_origin := origin; r_direction := direction; r_target_distance := i_distance i; r_owner := owner |})
      (combine (sample_rays s) (sample_intersections width height magnitude s)).

(** The result row of a sample: bitmap and fractions, heliostat_ray_tracer.py:481-506. *)
Record traced := { t_bitmap : list (list R); t_intercept : R; t_on_target : R; t_blocking : R }.
Definition trace_sample (width height : nat) (magnitude extinction reflectivity : R) (s : sample) (blocked : list R) : res traced :=
  let rays := combine (sample_intersections width height magnitude s) blocked in
  let intensities := map (fun '(i, b) => (i_intensity i, b)) rays in
  let hits := map (fun '(i, b) => {| hit_e := i_e i; hit_u := i_u i;
                                     hit_intensity := ray_intensity extinction reflectivity (i_intensity i) b |}) rays in
  bind (bilinear_splatting width height hits) (fun bitmap =>
  Ok {| t_bitmap := bitmap; t_intercept := intercept_factor extinction reflectivity intensities;
        t_on_target := on_target_factor intensities; t_blocking := blocking_factor intensities |}).

(** The blocked values of a batch cut into samples of the given numbers of rays. *)
Fixpoint split_at {A} (sizes : list nat) (l : list A) : list (list A) :=
  match sizes with
  | [] => []
  | n :: sizes' => firstn n l :: split_at sizes' (skipn n l)
  end.
(** NaN anywhere among the blocked values of a sample makes its bitmap NaN; such a row is [None]. *)
Fixpoint all_some {A} (l : list (option A)) : option (list A) :=
  match l with
  | [] => Some []
  | Some x :: l' => option_map (cons x) (all_some l')
  | None :: _ => None
  end.

Inductive batch_result := Traced (rows : list (option traced)) | TraceError (e : error) | TraceNoFuel.

Definition trace_rows (width height : nat) (magnitude extinction reflectivity : R) (samples : list sample)
  (blocked : list (option R)) : batch_result :=
  let per_sample := split_at (map (fun s => List.length (sample_rays s)) samples) blocked in
  match map_res (fun '(s, b) =>
          match all_some b with
          | Some values => bind (trace_sample width height magnitude extinction reflectivity s values) (fun t => Ok (Some t))
          | None => Ok None
          end) (combine samples per_sample) with
  | Ok rows => Traced rows
  | Err e => TraceError e
  end.

(** One batch of [trace_rays], heliostat_ray_tracer.py:303-506.  [blocking] holds the corners of the blocking
    primitives if blocking is active; the samples are given with the positions of their heliostats in the group. *)
Definition trace_samples (sort : list Z -> list Z * list nat) (fuel : nat) (width height : nat)
  (magnitude extinction reflectivity : R) (blocking : option (list (list point))) (samples : list (sample * nat)) : batch_result :=
  match blocking with
  | None =>
    trace_rows width height magnitude extinction reflectivity (map fst samples)
      (map (fun _ => Some 0) (flat_map sample_rays (map fst samples)))
  | Some corners =>
    match batch_blocked sort fuel corners
            (flat_map (fun '(s, owner) => blocking_rays width height magnitude s owner) samples) with
    | Blocked values => trace_rows width height magnitude extinction reflectivity (map fst samples) values
    | BlockedError e => TraceError e
    | BlockedNoFuel => TraceNoFuel
    end
  end.
