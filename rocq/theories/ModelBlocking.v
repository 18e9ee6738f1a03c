(** Model of the blocking primitives and the soft blocking mask of [artist/raytracing/blocking.py], and of
    their use in [artist/raytracing/heliostat_ray_tracer.py]. *)
From Coq Require Import List Arith ZArith Reals Bool.
From Verif Require Import RealSums ModelField ModelVectors ModelLBVH.
Import ListNotations.
Local Open Scope R_scope.

(** ** Blocking primitives *)

(** A blocking rectangle: first corner, two spans and normal (three components each). *)
Record primitive := { corner0 : point; span_u : point; span_v : point; prim_normal : point }.

(** Spans and normal from the four corners, blocking.py:105-120 and 193-209. *)
Definition primitive_of (c0 c1 c3 : point) : primitive :=
  let su := vsub c1 c0 in
  let sv := vsub c3 c0 in
  {| corner0 := c0; span_u := su; span_v := sv; prim_normal := normalize (cross su sv) |}.
Definition primitive_of_corners (corners : list point) : primitive :=
  primitive_of (nth 0 corners zero_point) (nth 1 corners zero_point) (nth 3 corners zero_point).

(** Corner indices of a mirror with [n] surface points,
    [create_blocking_primitives_rectangles_by_index], blocking.py:176-191.  [int(sqrt(n / 4))] is modelled
    with the integer square root, which agrees where the documented assumption holds that [n / 4] is a
    square number. *)
Definition corner_indices_by_index (n : nat) : list nat :=
  let side := Nat.sqrt (n / 4) in
  [(n / 2)%nat; (side - 1)%nat; (n / 2 - 1)%nat; (n - side)%nat].

(** [argmin] along a dimension, first minimum. *)
Fixpoint argmin_from (best : nat) (best_value : R) (i : nat) (l : list R) : nat :=
  match l with
  | [] => best
  | x :: l' => if Rlt_dec x best_value then argmin_from i x (S i) l' else argmin_from best best_value (S i) l'
  end.
Definition argmin (l : list R) : nat :=
  match l with [] => 0%nat | x :: l' => argmin_from 0 x 1 l' end.

(** Corner indices from the horizontal surface points, [create_blocking_primitives_rectangle],
    blocking.py:68-104. *)
Definition corner_indices_by_distance (surface : list point) : list nat :=
  let min_e := Rmin_list (map pe surface) in
  let max_e := Rmax_list (map pe surface) in
  let min_n := Rmin_list (map pn surface) in
  let max_n := Rmax_list (map pn surface) in
  map (fun '(e, n) => argmin (map (fun p => sqrt ((pe p - e) ^ 2 + (pn p - n) ^ 2)) surface))
      [(min_e, min_n); (min_e, max_n); (max_e, max_n); (max_e, min_n)].

(** ** Soft blocking mask *)

(** Value of a float division: IEEE division by zero gives an infinity or is undefined. *)
Inductive quotient := Finite (x : R) | Infinite | NotANumber.
Definition divide (a b : R) : quotient :=
  if Req_EM_T b 0 then (if Req_EM_T a 0 then NotANumber else Infinite) else Finite (a / b).

Definition sigmoid (x : R) : R := / (1 + exp (- x)).

(** [sigmoid(softness * x) * sigmoid(softness * (1 - x))], blocking.py:334-339.  At an infinite coordinate
    one of the factors vanishes (the softness is not zero). *)
Definition inside_unit (softness : R) (x : quotient) : option R :=
  match x with
  | Finite x => Some (sigmoid (softness * x) * sigmoid (softness * (1 - x)))
  | Infinite => Some 0
  | NotANumber => None
  end.

Definition sign (x : R) : R := if Rlt_dec 0 x then 1 else if Rlt_dec x 0 then -1 else 0.

Section Mask.
Variables epsilon softness alpha offset : R.

(** Distance along the ray to the plane of a primitive, blocking.py:293-302. *)
Definition plane_distance (origin direction : point) (p : primitive) : R :=
  let denominator := dot direction (prim_normal p) in
  let denominator_safe :=
    if Rlt_dec (Rabs denominator) epsilon
    then (if Rle_dec 0 denominator then epsilon else - epsilon)
    else denominator in
  dot (vsub (corner0 p) origin) (prim_normal p) / denominator_safe.

(** Coordinates of the intersection in the frame of the spans, blocking.py:307-326. *)
Definition plane_coordinates (origin direction : point) (p : primitive) : quotient * quotient :=
  let intersection := vadd origin (smul (plane_distance origin direction p) direction) in
  let from_corner := vsub intersection (corner0 p) in
  let uu := dot (span_u p) (span_u p) in
  let vv := dot (span_v p) (span_v p) in
  let uv := dot (span_u p) (span_v p) in
  let pu := dot from_corner (span_u p) in
  let pv := dot from_corner (span_v p) in
  let det := uu * vv - uv * uv in
  let det_safe := if Rlt_dec (Rabs det) epsilon then sign det * epsilon else det in
  (divide (pu * vv - pv * uv) det_safe, divide (pv * uu - pu * uv) det_safe).

(** The density of one primitive, blocking.py:303-305, 334-344; [None] is NaN. *)
Definition density (origin direction : point) (p : primitive) : option R :=
  let front := sigmoid (softness * (plane_distance origin direction p - offset)) in
  let '(u, v) := plane_coordinates origin direction p in
  match inside_unit softness u, inside_unit softness v with
  | Some inside_u, Some inside_v => Some (Rmin (Rmax (inside_u * inside_v * front) 0) 1)
  | _, _ => None
  end.

(** [soft_ray_blocking_mask] for one ray, blocking.py:212-350; [None] is NaN. *)
Fixpoint densities (origin direction : point) (ps : list primitive) : option (list R) :=
  match ps with
  | [] => Some []
  | p :: ps' =>
    match density origin direction p, densities origin direction ps' with
    | Some s, Some l => Some (s :: l)
    | _, _ => None
    end
  end.
Definition soft_mask (origin direction : point) (ps : list primitive) : option R :=
  option_map (fun l => 1 - exp (- (alpha * Rsum l))) (densities origin direction ps).
End Mask.

(** ** Use in the ray tracer *)

(** Parameters used by [trace_rays], heliostat_ray_tracer.py:462-477 and the defaults, blocking.py:218-221. *)
Definition traced_mask (r : ray) (ps : list primitive) : option R :=
  soft_mask (/ 10 ^ 12) 1000 100 (5 / 100) (r_origin r) (r_direction r) ps.

(** The blocked values of the rays of a batch, heliostat_ray_tracer.py:434-477. *)
Inductive blocked_result := Blocked (values : list (option R)) | BlockedError (e : error) | BlockedNoFuel.
Definition batch_blocked (sort : list Z -> list Z * list nat) (fuel : nat) (corners : list (list point))
  (rays : list ray) : blocked_result :=
  match filter_primitives sort fuel corners rays with
  | Filtered [] => Blocked (map (fun _ => Some 0) rays)
  | Filtered found =>
    let ps := map (fun p => primitive_of_corners (nth p corners [])) found in
    Blocked (map (fun r => traced_mask r ps) rays)
  | FilterError e => BlockedError e
  | FilterNoFuel => BlockedNoFuel
  end.

(** [torch.nonzero(mask, as_tuple=True)[0]]. *)
Definition nonzero (mask : list nat) : list nat :=
  map fst (filter (fun '(_, m) => negb (m =? 0)%nat) (combine (seq 0 (List.length mask)) mask)).

(** The primitive skipped for the rays of each sample of a batch, heliostat_ray_tracer.py:302, 442-445 (the
    [repeat_interleave] over a sample's rays is left out). *)
Definition batch_owners (mask : list nat) (batch : list nat) : res (list nat) :=
  map_res (fun i => match nth_error (nonzero mask) i with Some g => Ok g | None => Err IndexError end) batch.

(** The blocking surfaces, heliostat_ray_tracer.py:160-181.  A group is its activation mask, its horizontal
    surfaces (already shifted to the positions) and its active surfaces.  [surfaces[mask] = values] needs as
    many values as true entries, or a single one. *)
Fixpoint assign_masked {A} (l : list A) (mask : list nat) (values : list A) : list A :=
  match l, mask with
  | x :: l', m :: mask' =>
    if (m =? 0)%nat then x :: assign_masked l' mask' values
    else match values with
         | v :: values' => v :: assign_masked l' mask' values'
         | [] => x :: assign_masked l' mask' []
         end
  | _, _ => l
  end.
Definition masked_assignment {A} (l : list A) (mask : list nat) (values : list A) : res (list A) :=
  if negb (List.length l =? List.length mask)%nat then Err IndexError
  else
    let selected := List.length (nonzero mask) in
    match values with
    | [v] => Ok (assign_masked l mask (repeat v selected))
    | _ => if (List.length values =? selected)%nat then Ok (assign_masked l mask values) else Err ShapeError
    end.
Record blocking_group A := { g_mask : list nat; g_horizontal : list A; g_active : list A }.
Arguments g_mask {A}. Arguments g_horizontal {A}. Arguments g_active {A}.
Definition blocking_surfaces {A} (groups : list (blocking_group A)) : res (list A) :=
  bind (map_res (fun g => if existsb (fun m => negb (m =? 0)%nat) (g_mask g)
                          then masked_assignment (g_horizontal g) (g_mask g) (g_active g)
                          else Ok (g_horizontal g)) groups)
       (fun l => Ok (List.concat l)).
