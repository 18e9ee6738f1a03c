(** Model of the whole of [HeliostatRayTracer.trace_rays], artist/raytracing/heliostat_ray_tracer.py:220-508: the batch loop over the
    samples of a rank (ModelSplatting), each batch with its distortions, surfaces, targets and blocking (ModelTrace). *)
From Coq Require Import List Arith ZArith Reals Bool.
From Verif Require Import RealSums ModelField ModelVectors ModelTransforms ModelLBVH ModelBlocking ModelSplatting ModelIntersections ModelKinematics ModelTrace.
Import ListNotations.
Local Open Scope R_scope.

(** What a ray tracer refers to: the mask and the aligned surfaces of its group, the target areas of the scenario, the data set of
    distortions and the samples of its rank (ModelSun, ModelDistributed), and the corners of the blocking primitives of the scenario
    if blocking is active (ModelBlocking). *)
Record ray_tracer := { rt_mask : list nat; rt_points : list (list hvec); rt_normals : list (list hvec);
  rt_planar : list plane; rt_cylindrical : list cylinder; rt_distortions : list (list (list (R * R))); rt_sampler : list nat;
  rt_batch_size : nat; rt_width : nat; rt_height : nat; rt_magnitude : R; rt_blocking : option (list (list point)) }.

(** The first three of the four coordinates are used. *)
Definition spatial (x : hvec) : point := vec (he x) (hn x) (hu x).

(** One row for every active sample: [None] if it is not written ([torch.empty]), [Some None] if it is not a number. *)
Inductive trace_result := Rows (rows : list (option (option traced))) | RowsError (e : error) | RowsNoFuel.

(** One pass of the loop, heliostat_ray_tracer.py:313-506.  Distortions and owners are in the order of the sampler, everything else is
    read and written with the mask of the batch. *)
Definition rays_batch (sort : list Z -> list Z * list nat) (fuel : nat) (t : ray_tracer) (incident : list point) (targets : list nat)
  (extinction reflectivity : R) (out : list (option (option traced))) (batch : list nat) : trace_result :=
  let mask := fun i => existsb (Nat.eqb i) batch in
  let distortions := flat_map (fun i => match nth_error (rt_distortions t) i with Some d => [d] | None => [] end) batch in
  match map_res (target_at (rt_planar t) (rt_cylindrical t)) (read_masked targets mask),
        match rt_blocking t with Some _ => batch_owners (rt_mask t) batch | None => Ok (map (fun _ => 0%nat) batch) end with
  | Ok areas, Ok owners =>
    let samples := map (fun '(d, (i, ((p, n), a))) =>
          {| s_incident := i; s_surface := combine (map spatial p) (map spatial n); s_target := a; s_distortions := d |})
        (combine distortions (combine (read_masked incident mask)
           (combine (combine (read_masked (rt_points t) mask) (read_masked (rt_normals t) mask)) areas))) in
    match trace_samples sort fuel (rt_width t) (rt_height t) (rt_magnitude t) extinction reflectivity (rt_blocking t) (combine samples owners) with
    | Traced rows => Rows (write_masked out 0 mask rows)
    | TraceError e => RowsError e
    | TraceNoFuel => RowsNoFuel
    end
  | Err e, _ | _, Err e => RowsError e
  end.
Fixpoint rays_batches (sort : list Z -> list Z * list nat) (fuel : nat) (t : ray_tracer) (incident : list point) (targets : list nat)
  (extinction reflectivity : R) (out : list (option (option traced))) (batches : list (list nat)) : trace_result :=
  match batches with
  | [] => Rows out
  | batch :: rest =>
    match rays_batch sort fuel t incident targets extinction reflectivity out batch with
    | Rows out' => rays_batches sort fuel t incident targets extinction reflectivity out' rest
    | failure => failure
    end
  end.

(** heliostat_ray_tracer.py:280-311 and the loop.  Incident directions and target indices have one entry per active sample; other
    numbers of entries are reported as a shape error (a single entry, which torch would broadcast, included).  Target indices are not
    negative. *)
Definition trace_rays (sort : list Z -> list Z * list nat) (fuel : nat) (t : ray_tracer) (incident : list point) (mask : list nat) (targets : list nat)
  (extinction reflectivity : R) : trace_result :=
  if negb (list_nat_eqb (rt_mask t) mask) then RowsError AssertionError
  else if negb ((List.length incident =? list_sum mask) && (List.length targets =? list_sum mask))%nat then RowsError ShapeError
  else rays_batches sort fuel t incident targets extinction reflectivity (repeat None (list_sum mask))
         (chunks (List.length (rt_sampler t)) (rt_batch_size t) (rt_sampler t)).
