(** Model of the bitmap generation in [artist/raytracing/heliostat_ray_tracer.py]: bilinear splatting,
    bitmaps per target area, ray fractions and the batch loop of [trace_rays]. *)
From Coq Require Import List Arith ZArith Reals Bool.
From Verif Require Import RealSums ModelField.
Import ListNotations.
Local Open Scope R_scope.

(** [tensor.long()] of a float: truncation towards zero. *)
Definition to_long (x : R) : Z := if Rle_dec 0 x then Int_part x else (- Int_part (- x))%Z.

(** A ray's bitmap coordinates and its intensity. *)
Record ray_hit := { hit_e : R; hit_u : R; hit_intensity : R }.

(** [t.scatter_add_(1, index, values)] on one row; an index outside the row raises RuntimeError. *)
Fixpoint add_at (l : list R) (i : nat) (v : R) : list R :=
  match l, i with
  | [], _ => []
  | x :: l', 0%nat => (x + v) :: l'
  | x :: l', S i' => x :: add_at l' i' v
  end.
Fixpoint scatter_add (bitmap : list R) (values : list (Z * R)) : res (list R) :=
  match values with
  | [] => Ok bitmap
  | (i, v) :: values' =>
    if (0 <=? i)%Z && (i <? Z.of_nat (List.length bitmap))%Z
    then scatter_add (add_at bitmap (Z.to_nat i) v) values'
    else Err RuntimeError
  end.

(** [intersection_indices_on_target], heliostat_ray_tracer.py:724-729. *)
Definition on_bitmap (width height : nat) (r : ray_hit) : bool :=
  let low_e := to_long (hit_e r) in
  let low_u := to_long (hit_u r) in
  (0 <=? low_e)%Z && (low_e + 1 <? Z.of_nat width)%Z
  && (0 <=? low_u)%Z && (low_u + 1 <? Z.of_nat height)%Z.

(** The contributions of a ray to its four pixels, heliostat_ray_tracer.py:689-719 (weights and
    intensities), 747-768 (flat indices, masked).  [pixel] is 1, 2, 3 or 4 as in the source. *)
Definition contribution (width height : nat) (pixel : nat) (r : ray_hit) : Z * R :=
  let low_e := to_long (hit_e r) in
  let low_u := to_long (hit_u r) in
  let w := Z.of_nat width in
  let contributions_low_e := IZR low_e + 1 - hit_e r in
  let contributions_low_u := IZR low_u + 1 - hit_u r in
  let contributions_high_e := hit_e r - IZR low_e in
  let contributions_high_u := hit_u r - IZR low_u in
  let '(index, intensity) :=
    match pixel with
    | 1%nat => (((low_u + 1) * w + low_e)%Z, contributions_low_e * contributions_high_u * hit_intensity r)
    | 2%nat => (((low_u + 1) * w + low_e + 1)%Z, contributions_high_e * contributions_high_u * hit_intensity r)
    | 3%nat => ((low_u * w + low_e + 1)%Z, contributions_high_e * contributions_low_u * hit_intensity r)
    | _ => ((low_u * w + low_e)%Z, contributions_low_e * contributions_low_u * hit_intensity r)
    end in
  if on_bitmap width height r then (index, intensity * 1) else (0%Z, intensity * 0).

(** [HeliostatRayTracer.bilinear_splatting] for one heliostat, heliostat_ray_tracer.py:610-778.  The
    result is the list of image rows.  The heliostat dimension is a plain map (scatter along dim 1) and is
    left to the caller. *)
Definition splat_flat (width height : nat) (rays : list ray_hit) : res (list R) :=
  bind (scatter_add (repeat 0 (height * width)) (map (contribution width height 1) rays)) (fun b =>
  bind (scatter_add b (map (contribution width height 2) rays)) (fun b =>
  bind (scatter_add b (map (contribution width height 3) rays)) (fun b =>
  scatter_add b (map (contribution width height 4) rays)))).

(** [bitmaps_flat.view(height, width)], heliostat_ray_tracer.py:772-774. *)
Definition view_rows (width height : nat) (flat : list R) : list (list R) :=
  map (fun r => map (fun c => nth (r * width + c) flat 0) (seq 0 width)) (seq 0 height).

(** The final up-down flip, heliostat_ray_tracer.py:778. *)
Definition bilinear_splatting (width height : nat) (rays : list ray_hit) : res (list (list R)) :=
  bind (splat_flat width height rays) (fun flat => Ok (rev (view_rows width height flat))).

(** [HeliostatRayTracer.get_bitmaps_per_target], heliostat_ray_tracer.py:563-608.  A bitmap is the list
    of its [pixels] values; boolean indexing with a mask of another length raises IndexError. *)
Definition add_bitmaps (a b : list R) : list R := map (fun '(x, y) => x + y) (combine a b).
Definition bitmaps_per_target (number_of_targets pixels : nat) (bitmaps : list (list R)) (targets : list Z)
  : res (list (list R)) :=
  if (List.length bitmaps =? List.length targets)%nat then
    Ok (map (fun index =>
               let selected := map fst (filter (fun '(_, t) => (t =? Z.of_nat index)%Z) (combine bitmaps targets)) in
               match selected with
               | [] => repeat 0 pixels
               | _ => fold_right add_bitmaps (repeat 0 pixels) selected
               end) (seq 0 number_of_targets))
  else
    (* the comparison with the target indices is only evaluated if there is a target area *)
    match number_of_targets with 0%nat => Ok [] | _ => Err IndexError end.

(** Intensity of a traced ray, heliostat_ray_tracer.py:481-486. *)
Definition ray_intensity (extinction reflectivity angle_reduced blocked : R) : R :=
  angle_reduced * (1 - blocked) * (1 - extinction) * reflectivity.

(** The fractions of one heliostat, heliostat_ray_tracer.py:497-506; [rays] lists its rays' angle-reduced
    intensities and blocked values.  [Rgtb] is the strict comparison. *)
Definition positive (x : R) : bool := if Rlt_dec 0 x then true else false.
Definition fraction {A} (p : A -> bool) (rays : list A) : R :=
  INR (List.length (filter p rays)) / INR (List.length rays).
Definition on_target_factor (rays : list (R * R)) : R :=
  fraction (fun '(angle_reduced, _) => positive angle_reduced) rays.
Definition blocking_factor (rays : list (R * R)) : R :=
  fraction (fun '(_, blocked) => if Rlt_dec blocked (1 / 1000) then true else false) rays.
Definition intercept_factor (extinction reflectivity : R) (rays : list (R * R)) : R :=
  fraction (fun '(angle_reduced, blocked) =>
              positive (ray_intensity extinction reflectivity angle_reduced blocked)) rays.

(** The ray magnitude for a given direct normal irradiance, heliostat_ray_tracer.py:183-203.
    [area] is the heliostat surface area computed there from the canting vectors. *)
Definition ray_magnitude (dni : option R) (area : R) (points rays_per_point : nat) : R :=
  match dni with
  | Some i => i * area / INR (points * rays_per_point)
  | None => 1
  end.

(** ** The batch loop *)

(** Batches of a [DataLoader] with this sampler order ([drop_last] is off; [fuel] is the list length). *)
Fixpoint chunks {A} (fuel batch_size : nat) (l : list A) : list (list A) :=
  match fuel, l with
  | S fuel', _ :: _ => firstn batch_size l :: chunks fuel' batch_size (skipn batch_size l)
  | _, _ => []
  end.

(** [t[mask] = rows] for a boolean mask given by the set of its true positions: rows are consumed in
    ascending position. *)
Fixpoint write_masked {A} (out : list (option A)) (position : nat) (mask : nat -> bool) (rows : list A)
  : list (option A) :=
  match out with
  | [] => []
  | o :: out' =>
    if mask position then
      match rows with
      | [] => o :: write_masked out' (S position) mask []
      | r :: rows' => Some r :: write_masked out' (S position) mask rows'
      end
    else o :: write_masked out' (S position) mask rows
  end.

(** [t[mask]]: rows at the true positions, ascending. *)
Definition read_masked {A} (l : list A) (mask : nat -> bool) : list A :=
  map snd (filter (fun '(i, _) => mask i) (combine (seq 0 (List.length l)) l)).

(** The batch loop of [HeliostatRayTracer.trace_rays], heliostat_ray_tracer.py:303-508: every batch reads
    its distortions in sampler order (from the data loader) and the per-sample state (directions, surface
    points, targets) in mask order, and writes its result rows in mask order.  [trace d s] stands for the
    result row of one sample.  Rows never written stay [None] ([torch.empty]). *)
Definition trace_batch {D S A} (trace : D -> S -> A) (distortions : list D) (state : list S)
  (out : list (option A)) (batch : list nat) : list (option A) :=
  let mask := fun i => existsb (Nat.eqb i) batch in
  let batch_distortions := flat_map (fun i => match nth_error distortions i with Some d => [d] | None => [] end) batch in
  let rows := map (fun '(d, s) => trace d s) (combine batch_distortions (read_masked state mask)) in
  write_masked out 0 mask rows.
Definition trace_batches {D S A} (trace : D -> S -> A) (distortions : list D) (state : list S)
  (sampler : list nat) (batch_size : nat) : list (option A) :=
  fold_left (trace_batch trace distortions state)
            (chunks (List.length sampler) batch_size sampler)
            (repeat None (List.length state)).
