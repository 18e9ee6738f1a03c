(** Model of [artist/nurbs/surfaces.py], [artist/nurbs/utils.py] and [artist/field/surface.py].
    All surfaces, facets and evaluation points are treated independently by the code, so the model evaluates one
    facet at one parameter pair.  [None] is an index out of range or NaN (division by zero). *)
From Coq Require Import List Arith ZArith Reals Bool.
From Verif Require Import ModelField ModelVectors ModelTransforms ModelActuators RealSums.
Import ListNotations.
Local Open Scope R_scope.

(** [torch.linspace(a, b, n)[i]]. *)
Definition linspace (a b : R) (n i : nat) : R := if (n <=? 1)%nat then a else a + (b - a) * INR i / INR (n - 1).

(** [calculate_uniform_knot_vectors], surfaces.py:98-155, for [n] control points and degree [p].  The slice
    [-degree:] is everything when the degree is 0, and [degree:-degree] is then empty. *)
Definition knot_vector (n p : nat) : list R :=
  let len := (n + p + 1)%nat in
  let high := if (p =? 0)%nat then 0%nat else (len - p)%nat in
  map (fun i => if (high <=? i)%nat then 1
                else if (p <=? i)%nat then linspace 0 1 (high - p) (i - p)
                else 0) (seq 0 len).

(** [torch.floor(x).long()]. *)
Definition floor (x : R) : Z := Int_part x.
(** [find_spans], surfaces.py:157-245, uniform branch (206-215). *)
Definition uniform_span (knots : list R) (p : nat) (x : R) : Z :=
  (floor (x * (INR (length (nodup Req_EM_T knots)) - 1)) + Z.of_nat p)%Z.
(** [torch.isclose]. *)
Definition isclose (rtol atol x y : R) : bool := if Rle_dec (Rabs (x - y)) (atol + rtol * Rabs y) then true else false.
(** [argmax] of a boolean row: the first [true], or 0. *)
Fixpoint argmax_from (row : list bool) (i : nat) : option nat :=
  match row with [] => None | true :: _ => Some i | false :: rest => argmax_from rest (S i) end.
Definition argmax (row : list bool) : nat := match argmax_from row 0 with Some i => i | None => 0%nat end.
(** General branch, surfaces.py:217-243, for one surface with one facet. *)
Definition general_span (knots : list R) (p : nat) (x : R) : Z :=
  let n := (length knots - p - 1)%nat in
  let in_span := map (fun i => (if Rle_dec (nth i knots 0) x then true else false)
                             && (if Rlt_dec x (nth (S i) knots 0) then true else false)) (seq p (n - p)) in
  if isclose (/ 10 ^ 5) (/ 10 ^ 5) x (nth n knots 0) then (Z.of_nat n - 1)%Z else Z.of_nat (argmax in_span + p).
(** Its result shape: [evaluation_points] has shape [surfaces, facets, points], the last knots
    [surfaces, facets]; they are broadcast from the right, surfaces.py:232-243. *)
Definition broadcast (a b : nat) : option nat :=
  if (a =? b)%nat then Some a else if (a =? 1)%nat then Some b else if (b =? 1)%nat then Some a else None.
Definition general_shape (surfaces facets points : nat) : option (nat * nat * nat) :=
  match broadcast facets surfaces, broadcast points facets with
  | Some f, Some p => Some (surfaces, f, p)
  | _, _ => None
  end.

(** ** Basis functions, [basis_functions_and_derivatives], surfaces.py:247-417 *)
Definition in_range {A} (l : list A) (i : Z) : bool := ((0 <=? i) && (i <? Z.of_nat (length l)))%Z.
Definition at_index (knots : list R) (i : Z) : R := nth (Z.to_nat i) knots 0.
Definition table := nat -> nat -> R.
Definition set (t : table) (i j : nat) (x : R) : table :=
  fun a b => if ((a =? i) && (b =? j))%nat then x else t a b.
(** The loop over [r] inside column [j], lines 344-349; [saved] is carried along. *)
Fixpoint inner (left right : nat -> R) (j : nat) (rs : list nat) (ndu : table) (saved : R) : option (table * R) :=
  match rs with
  | [] => Some (ndu, saved)
  | r :: rest =>
      let ndu := set ndu j r (right (S r) + left (j - r)%nat) in
      obind (div_opt (ndu r (j - 1)%nat) (ndu j r)) (fun tmp =>
      inner left right j rest (set ndu r j (saved + right (S r) * tmp)) (left (j - r)%nat * tmp))
  end.
(** The loop over [j], lines 333-350. *)
Fixpoint outer (left right : nat -> R) (js : list nat) (ndu : table) : option table :=
  match js with
  | [] => Some ndu
  | j :: rest =>
      obind (inner left right j (seq 0 j) ndu 0) (fun '(ndu, saved) => outer left right rest (set ndu j j saved))
  end.
(** The first derivatives, lines 366-415 for [k = 1] (then the loop over [j] is empty), including the final
    factor.  The surface evaluation requests [min(1, degree)] derivatives; for degree 0 none. *)
Definition derivative (ndu : table) (p r : nat) : option R :=
  obind (if (1 <=? r)%nat then obind (div_opt 1 (ndu p (r - 1)%nat)) (fun a => Some (a * ndu (r - 1)%nat (p - 1)%nat)) else Some 0) (fun d =>
  obind (if (r <=? p - 1)%nat then obind (div_opt (- 1) (ndu p r)) (fun a => Some (d + a * ndu r (p - 1)%nat)) else Some d) (fun d =>
  Some (d * INR p))).
Fixpoint collect {A} (l : list (option A)) : option (list A) :=
  match l with [] => Some [] | x :: rest => obind x (fun a => obind (collect rest) (fun b => Some (a :: b))) end.
Definition basis_functions (knots : list R) (p : nat) (span : Z) (x : R) : option (list R * list R) :=
  if forallb (fun j => in_range knots (span - Z.of_nat j + 1) && in_range knots (span + Z.of_nat j)) (seq 1 p) then
    let left j := x - at_index knots (span - Z.of_nat j + 1) in
    let right j := at_index knots (span + Z.of_nat j) - x in
    obind (outer left right (seq 1 p) (set (fun _ _ => 0) 0 0 1)) (fun ndu =>
    obind (if (p =? 0)%nat then Some [0] else collect (map (derivative ndu p) (seq 0 (S p)))) (fun derivatives =>
    Some (map (fun j => ndu j p) (seq 0 (S p)), derivatives)))
  else None.

(** ** Surface points and normals, [calculate_surface_points_and_normals], surfaces.py:475-689 *)
(** The control points of one facet with their numbers in u and v direction. *)
Record net := { n_u : nat; n_v : nat; control : nat -> nat -> point }.
(** Advanced indexing wraps negative indices. *)
Definition wrapped (size : nat) (i : Z) : option nat :=
  if ((0 <=? i) && (i <? Z.of_nat size))%Z then Some (Z.to_nat i)
  else if ((- Z.of_nat size <=? i) && (i <? 0))%Z then Some (Z.to_nat (i + Z.of_nat size)) else None.
(** [_batched_gather_control_points], surfaces.py:419-473, with the weight 1 appended (545-559). *)
Definition gather (c : net) (i j : Z) : option hvec :=
  obind (wrapped (n_u c) i) (fun a => obind (wrapped (n_v c) j) (fun b => Some
    (hv (pe (control c a b)) (pn (control c a b)) (pu (control c a b)) 1))).
Definition hscale (k : R) (x : hvec) : hvec := hv (k * he x) (k * hn x) (k * hu x) (k * hw x).
Definition hadd (x y : hvec) : hvec := hv (he x + he y) (hn x + hn y) (hu x + hu y) (hw x + hw y).
Definition hzero : hvec := hv 0 0 0 0.
Definition hsum (l : list hvec) : hvec := fold_right hadd hzero l.
(** [temp[s]] and [derivatives[..., k, t]], lines 608-635, from the basis values of order [k] and [t].  The sums
    are accumulated from the left in the code. *)
Definition combination (c : net) (p_u p_v : nat) (span_u span_v : Z) (b_u b_v : list R) : option hvec :=
  obind (collect (map (fun s =>
    obind (collect (map (fun r =>
      obind (gather c (span_u - Z.of_nat p_u + Z.of_nat r) (span_v - Z.of_nat p_v + Z.of_nat s))
        (fun g => Some (hscale (nth r b_u 0) g))) (seq 0 (S p_u))))
      (fun terms => Some (hscale (nth s b_v 0) (hsum terms)))) (seq 0 (S p_v))))
    (fun terms => Some (hsum terms)).
Definition euclidean (x : hvec) : point := vec (he x) (hn x) (hu x).
(** Surface point and normal before the placement of the facet, lines 511-668.  For degree 0 the derivative
    is left at zero. *)
Definition evaluate (c : net) (p_u p_v : nat) (x y : R) : option (hvec * hvec) :=
  let knots_u := knot_vector (n_u c) p_u in
  let knots_v := knot_vector (n_v c) p_v in
  let span_u := uniform_span knots_u p_u x in
  let span_v := uniform_span knots_v p_v y in
  obind (basis_functions knots_u p_u span_u x) (fun '(b_u, d_u) =>
  obind (basis_functions knots_v p_v span_v y) (fun '(b_v, d_v) =>
  obind (combination c p_u p_v span_u span_v b_u b_v) (fun s =>
  obind (if (p_u =? 0)%nat then Some hzero else combination c p_u p_v span_u span_v d_u b_v) (fun s_u =>
  obind (if (p_v =? 0)%nat then Some hzero else combination c p_u p_v span_u span_v b_u d_v) (fun s_v =>
  let normal := normalize (cross (euclidean s_u) (euclidean s_v)) in
  obind (div_opt (he s) (hw s)) (fun e => obind (div_opt (hn s) (hw s)) (fun n => obind (div_opt (hu s) (hw s)) (fun u =>
  Some (hv e n u 1, hv (pe normal) (pn normal) (pu normal) 0))))))))).
(** Placement, lines 670-687: [canting] holds the two canting vectors of the facet and its translation; [None] when
    no canting is passed. *)
Definition place (placement : option (point * point * hvec)) (s : hvec * hvec) : hvec * hvec :=
  match placement with
  | Some (c_e, c_n, translation) =>
      (hadd (perform_canting false c_e c_n (fst s)) translation, perform_canting false c_e c_n (snd s))
  | None => s
  end.
Definition calculate (c : net) (p_u p_v : nat) (placement : option (point * point * hvec)) (x y : R) : option (hvec * hvec) :=
  obind (evaluate c p_u p_v x y) (fun s => Some (place placement s)).

(** [create_nurbs_evaluation_grid], nurbs/utils.py:7-49 ([torch.cartesian_prod]). *)
Definition evaluation_grid (eps : R) (n_e n_n : nat) : list (R * R) :=
  flat_map (fun i => map (fun j => (linspace eps (1 - eps) n_e i, linspace eps (1 - eps) n_n j)) (seq 0 n_n)) (seq 0 n_e).
(** [create_planar_nurbs_control_points], nurbs/utils.py:52-121, for one facet. *)
Definition planar_net (n_u n_v : nat) (length_e length_n : R) : net :=
  {| n_u := n_u; n_v := n_v;
     control := fun i j => vec (- length_e + 2 * length_e * linspace 0 1 n_u i) (- length_n + 2 * length_n * linspace 0 1 n_v j) 0 |}.

(** [get_surface_points_and_normals], field/surface.py:60-121: all facets have the degrees of the first one, and the
    facets are canted and translated only if all control points of all facets have height zero. *)
Definition heights_zero (facets : list net) : bool :=
  forallb (fun c => forallb (fun i => forallb (fun j => if Req_EM_T (pu (control c i j)) 0 then true else false)
    (seq 0 (n_v c))) (seq 0 (n_u c))) facets.
Definition surface_points_and_normals (p_u p_v : nat) (facets : list (net * (point * point * hvec))) (n_e n_n : nat)
  : option (list (list (hvec * hvec))) :=
  let cant := heights_zero (map fst facets) in
  collect (map (fun '(c, placement) =>
    collect (map (fun '(x, y) => calculate c p_u p_v (if cant then Some placement else None) x y)
      (evaluation_grid (/ 10 ^ 7) n_e n_n))) facets).
