(** Model of the linear bounding volume hierarchy of [artist/raytracing/blocking.py]. *)
From Coq Require Import List Arith ZArith Reals Bool.
From Verif Require Import ModelField ModelSplatting.
From Verif Require Export ModelVectors.
Import ListNotations.
Local Open Scope Z_scope.

(** ** Morton codes *)

(** 32-bit signed integers ([torch.int32]) as integers; left shifts wrap around. *)
Definition wrap32 (x : Z) : Z := (x + 2^31) mod 2^32 - 2^31.
Definition shl32 (x s : Z) : Z := wrap32 (Z.shiftl x s).

(** [expand_bits], blocking.py:357-389, on one integer of dtype int32. *)
Definition expand_bits (x : Z) : res Z :=
  if (x <? 0) || (1023 <? x) then Err ValueError
  else
    Ok (fold_left (fun y '(shift, mask) => Z.land (Z.lor y (shl32 y shift)) mask)
                  [(16, 0x030000FF); (8, 0x0300F00F); (4, 0x030C30C3); (2, 0x09249249)]
                  (Z.land x 0x3FF)).

(** Interleaving of the integer cell coordinates, [morton_codes], blocking.py:434-443. *)
Definition morton_of_cell (e n u : Z) : res Z :=
  bind (expand_bits u) (fun u =>
  bind (expand_bits e) (fun e =>
  bind (expand_bits n) (fun n =>
  Ok (Z.lor (Z.lor (shl32 n 2) (shl32 e 1)) u)))).

Local Open Scope R_scope.
Definition Rmin_list (l : list R) : R := match l with [] => 0 | x :: l' => fold_left Rmin l' x end.
Definition Rmax_list (l : list R) : R := match l with [] => 0 | x :: l' => fold_left Rmax l' x end.

(** The quantized cell of a centroid, blocking.py:424-432.  Truncation to int32 is [to_long]; the values
    are below 1024, see C17. *)
Definition grid_scale (epsilon : R) (coordinates : list point) : R :=
  let extent (f : point -> R) := Rmax_list (map f coordinates) - Rmin_list (map f coordinates) in
  1023 / (Rmax (Rmax (extent pe) (extent pn)) (extent pu) + epsilon).
Definition grid_cell (epsilon : R) (coordinates : list point) (p : point) : Z * Z * Z :=
  let cell (f : point -> R) :=
    to_long ((f p - Rmin_list (map f coordinates)) * grid_scale epsilon coordinates) in
  (cell pe, cell pn, cell pu).

(** [morton_codes], blocking.py:392-443. *)
Fixpoint map_res {A B} (f : A -> res B) (l : list A) : res (list B) :=
  match l with
  | [] => Ok []
  | x :: l' => bind (f x) (fun y => bind (map_res f l') (fun ys => Ok (y :: ys)))
  end.
Definition morton_codes (epsilon : R) (coordinates : list point) : res (list Z) :=
  map_res (fun p => let '(e, n, u) := grid_cell epsilon coordinates p in morton_of_cell e n u) coordinates.
Local Open Scope Z_scope.

(** ** Longest common prefix *)

(** One step of the leading-zero count, blocking.py:497-504. *)
Definition clz_step (state : Z * Z) (shift : Z) : Z * Z :=
  let '(leading_zeros, bits) := state in
  if Z.shiftr bits (32 - shift) =? 0
  then (leading_zeros + shift, shl32 bits shift)
  else (leading_zeros, bits).

(** [longest_common_prefix], blocking.py:446-510, for one pair of positions. *)
Definition longest_common_prefix (codes : list Z) (i j : Z) : Z :=
  if (0 <=? j) && (j <? Z.of_nat (List.length codes)) then
    let differing_bits := Z.lxor (nth (Z.to_nat i) codes 0) (nth (Z.to_nat j) codes 0) in
    let '(leading_zeros, differing_bits) :=
      if differing_bits =? 0 then (0, differing_bits)
      else fold_left clz_step [16; 8; 4; 2; 1] (0, differing_bits) in
    if differing_bits =? 0 then 30 else (30 - 1) - (31 - leading_zeros)
  else -1.

(** ** Tree construction *)

(** The doubling loop, blocking.py:603-614; the loop over all nodes is elementwise because [l_max] of a
    node that stopped expanding does not change any more. *)
Fixpoint expand_range (fuel : nat) (codes : list Z) (i direction threshold l_max : Z) : option Z :=
  match fuel with
  | O => None
  | S fuel' =>
    if threshold <? longest_common_prefix codes i (i + l_max * direction)
    then expand_range fuel' codes i direction threshold (l_max * 2)
    else Some l_max
  end.

(** The two halving searches, blocking.py:616-627 and 639-650; also elementwise, because a step with
    [t = 0] changes nothing. *)
Fixpoint halving_search (fuel : nat) (codes : list Z) (i direction threshold l t : Z) : option Z :=
  match fuel with
  | O => None
  | S fuel' =>
    if t <? 1 then Some l
    else
      let l' := if threshold <? longest_common_prefix codes i (i + (l + t) * direction)
                then l + t else l in
      halving_search fuel' codes i direction threshold l' (t / 2)
  end.

Record node_ranges := {
  nr_direction : Z;  (* direction_to_similar_codes *)
  nr_length : Z;     (* l_ *)
  nr_farthest : Z;   (* farthest_index *)
  nr_split : Z;
  nr_gamma : Z;
}.

(** Everything computed for node [i], blocking.py:574-656.  [fuel] bounds the loops. *)
Definition analyse_node (fuel : nat) (codes : list Z) (i : Z) : option node_ranges :=
  let lcp := longest_common_prefix codes i in
  let single := Z.of_nat (List.length codes) <=? 1 in
  let lcp_right := if single then -1 else lcp (i + 1) in
  let lcp_left := if single then -1 else lcp (i - 1) in
  let direction := (if lcp_left <? lcp_right then 1 else 0) * 2 - 1 in
  let delta_min := Z.min lcp_left lcp_right in
  match expand_range fuel codes i direction delta_min 2 with
  | None => None
  | Some l_max =>
    match halving_search fuel codes i direction delta_min 0 (l_max / 2) with
    | None => None
    | Some l =>
      let farthest := i + l * direction in
      let delta_node := lcp farthest in
      match halving_search fuel codes i direction delta_node 0 ((l + 1) / 2) with
      | None => None
      | Some split =>
        Some {| nr_direction := direction; nr_length := l; nr_farthest := farthest; nr_split := split;
                nr_gamma := i + split * direction + Z.min direction 0 |}
      end
    end
  end.

(** Children of internal node [i], blocking.py:683-700. *)
Definition node_children (codes : list Z) (i : Z) (r : node_ranges) : Z * Z :=
  let leaf_offset := Z.of_nat (List.length codes) - 1 in
  let gamma := nr_gamma r in
  (if Z.min i (nr_farthest r) =? gamma then leaf_offset + gamma else gamma,
   if Z.max i (nr_farthest r) =? gamma + 1 then leaf_offset + gamma + 1 else gamma + 1).

(** Fuel for the loops of [analyse_node]: never exhausted, see C20. *)
Definition node_fuel (codes : list Z) : nat := List.length codes + 4.

(** The child arrays [left] and [right] of length [2n-1], -1 for leaves, blocking.py:663-704.  [None] is
    "out of fuel". *)
Definition children_of (codes : list Z) (node : Z) : option (Z * Z) :=
  if node <? Z.of_nat (List.length codes) - 1 then
    option_map (node_children codes node) (analyse_node (node_fuel codes) codes node)
  else Some (-1, -1).
Definition total_nodes (codes : list Z) : nat := 2 * List.length codes - 1.
Fixpoint sequence {A} (l : list (option A)) : option (list A) :=
  match l with
  | [] => Some []
  | Some x :: l' => option_map (cons x) (sequence l')
  | None :: _ => None
  end.
Definition child_arrays (codes : list Z) : option (list Z * list Z) :=
  option_map (fun cs => (map fst cs, map snd cs))
             (sequence (map (fun k => children_of codes (Z.of_nat k)) (seq 0 (total_nodes codes)))).

(** ** Bounding boxes *)
Local Open Scope R_scope.
Record box := { box_min : point; box_max : point }.
Definition point_map2 (f : R -> R -> R) (p q : point) : point :=
  {| pe := f (pe p) (pe q); pn := f (pn p) (pn q); pu := f (pu p) (pu q) |}.
Definition box_union (a b : box) : box :=
  {| box_min := point_map2 Rmin (box_min a) (box_min b);
     box_max := point_map2 Rmax (box_max a) (box_max b) |}.

(** Box of a primitive given by its corner points, blocking.py:568-569. *)
Definition corners_box (corners : list point) : box :=
  {| box_min := {| pe := Rmin_list (map pe corners); pn := Rmin_list (map pn corners); pu := Rmin_list (map pu corners) |};
     box_max := {| pe := Rmax_list (map pe corners); pn := Rmax_list (map pn corners); pu := Rmax_list (map pu corners) |} |}.

(** Centroid of a primitive, blocking.py:570. *)
Definition centroid (corners : list point) : point :=
  let mean (f : point -> R) := fold_right Rplus 0 (map f corners) / INR (List.length corners) in
  {| pe := mean pe; pn := mean pn; pu := mean pu |}.

Definition zero_point : point := {| pe := 0; pn := 0; pu := 0 |}.
Definition zero_box : box := {| box_min := zero_point; box_max := zero_point |}.

(** One round of the bottom-up propagation, blocking.py:719-737.  [complete] and [boxes] are the tensors as
    functions; a negative index counts from the end ([boxes] has [total] rows). *)
Definition wrap_index (total : nat) (i : Z) : nat :=
  if (i <? 0)%Z then Z.to_nat (i + Z.of_nat total) else Z.to_nat i.
Definition ready (internal : nat) (left right : nat -> Z) (complete : nat -> bool) (i : nat) : bool :=
  let done c := if ((0 <=? c) && (c <? Z.of_nat internal))%Z then complete (Z.to_nat c) else true in
  negb (complete i) && done (left i) && done (right i).
Fixpoint propagate (rounds internal total : nat) (left right : nat -> Z)
  (complete : nat -> bool) (boxes : nat -> box) : (nat -> bool) * (nat -> box) :=
  match rounds with
  | O => (complete, boxes)
  | S rounds' =>
    if forallb complete (seq 0 internal) then (complete, boxes)
    else if existsb (ready internal left right complete) (seq 0 internal) then
      propagate rounds' internal total left right
        (fun i => complete i || ((i <? internal)%nat && ready internal left right complete i))
        (fun i => if (i <? internal)%nat && ready internal left right complete i
                  then box_union (boxes (wrap_index total (left i))) (boxes (wrap_index total (right i)))
                  else boxes i)
    else (complete, boxes)
  end.
Local Open Scope Z_scope.

(** The hierarchy returned by [build_linear_bounding_volume_hierarchies], blocking.py:513-749, for the
    sorted codes and the sorting permutation [order] (any result [torch.sort] may return).  [prim_boxes]
    are the boxes of the primitives. *)
Record hierarchy := {
  h_left : nat -> Z; h_right : nat -> Z; h_boxes : nat -> box;
  h_is_leaf : nat -> bool; h_primitive : nat -> nat; h_total : nat;
}.
Definition build_hierarchy (sorted_codes : list Z) (order : list nat) (prim_boxes : nat -> box)
  : option hierarchy :=
  let n := List.length sorted_codes in
  let internal := (n - 1)%nat in
  match child_arrays sorted_codes with
  | None => None
  | Some (lefts, rights) =>
    let l k := nth k lefts (-1) in
    let r k := nth k rights (-1) in
    let initial := fun k => if (internal <=? k)%nat then prim_boxes (nth (k - internal) order 0%nat) else zero_box in
    let '(_, boxes) := propagate (internal * 2) internal (total_nodes sorted_codes) l r (fun _ => false) initial in
    Some {| h_left := l; h_right := r; h_boxes := boxes;
            h_is_leaf := fun k => (internal <=? k)%nat;
            h_primitive := fun k => nth (k - internal) order 0%nat;
            h_total := total_nodes sorted_codes |}
  end.

(** ** Depth *)

(** [compute_lbvh_max_depth], blocking.py:794-828; the stack's top is the list head. *)
Fixpoint max_depth_loop (fuel : nat) (left right : nat -> Z) (stack : list (nat * nat)) (max_depth : nat)
  : option nat :=
  match stack with
  | [] => Some max_depth
  | (node, depth) :: stack =>
    match fuel with
    | O => None
    | S fuel' =>
      let max_depth := Nat.max max_depth depth in
      let stack := if 0 <=? left node then (Z.to_nat (left node), S depth) :: stack else stack in
      let stack := if 0 <=? right node then (Z.to_nat (right node), S depth) :: stack else stack in
      max_depth_loop fuel' left right stack max_depth
    end
  end.
Definition max_depth (fuel : nat) (h : hierarchy) : option nat :=
  max_depth_loop fuel (h_left h) (h_right h) [(0%nat, 1%nat)] 1.

(** ** Traversal *)

Inductive traversal := Visited (primitives : list nat) | StackOverflow | NoFuel.

(** The traversal of one ray, blocking.py:921-993 (all rays are independent; only the set of marked
    primitives is shared).  [capacity] is the stack size, [hit] the box test of the ray, [owner] the
    primitive to skip.  Children are written at the positions [pointer] and [pointer+1]. *)
Fixpoint traverse (fuel capacity : nat) (h : hierarchy) (hit : nat -> bool) (owner : nat)
  (stack : list nat) (marked : list nat) : traversal :=
  match stack with
  | [] => Visited marked
  | node :: stack =>
    match fuel with
    | O => NoFuel
    | S fuel' =>
      if hit node then
        if h_is_leaf h node then
          let p := h_primitive h node in
          traverse fuel' capacity h hit owner stack (if (owner =? p)%nat then marked else p :: marked)
        else
          let has_left := 0 <=? h_left h node in
          let has_right := 0 <=? h_right h node in
          let pointer := List.length stack in
          let index_right := (pointer + (if has_left then 1 else 0))%nat in
          if (has_left && (capacity <=? pointer)%nat) || (has_right && (capacity <=? index_right)%nat)
          then StackOverflow
          else
            let stack := if has_left then Z.to_nat (h_left h node) :: stack else stack in
            let stack := if has_right then Z.to_nat (h_right h node) :: stack else stack in
            traverse fuel' capacity h hit owner stack marked
      else traverse fuel' capacity h hit owner stack marked
    end
  end.

(** ** Box test *)
Local Open Scope R_scope.

(** [ray_aabb_intersect], blocking.py:752-791. *)
Definition slab (origin inverse low high : R) : R * R :=
  let a := (low - origin) * inverse in
  let b := (high - origin) * inverse in
  (Rmin a b, Rmax a b).
Definition ray_box (origin inverse : point) (b : box) : R * R :=
  let '(e0, e1) := slab (pe origin) (pe inverse) (pe (box_min b)) (pe (box_max b)) in
  let '(n0, n1) := slab (pn origin) (pn inverse) (pn (box_min b)) (pn (box_max b)) in
  let '(u0, u1) := slab (pu origin) (pu inverse) (pu (box_min b)) (pu (box_max b)) in
  (Rmax (Rmax e0 n0) u0, Rmin (Rmin e1 n1) u1).

Record ray := { r_origin : point; r_direction : point; r_target_distance : R; r_owner : nat }.

(** [inverse_directions], blocking.py:917, and the hit mask, blocking.py:935-939. *)
Definition inverse_direction (d : point) : point :=
  {| pe := 1 / (pe d + / 10 ^ 12); pn := 1 / (pn d + / 10 ^ 12); pu := 1 / (pu d + / 10 ^ 12) |}.
Definition Rleb (a b : R) : bool := if Rle_dec a b then true else false.
Definition Rltb (a b : R) : bool := if Rlt_dec a b then true else false.
Definition box_hit (r : ray) (b : box) : bool :=
  let '(entry, exit) := ray_box (r_origin r) (inverse_direction (r_direction r)) b in
  Rleb entry exit && Rltb (/ 10 ^ 6) exit && Rleb entry (r_target_distance r).

(** [lbvh_filter_blocking_planes], blocking.py:831-995: the marked primitives of all rays, in ascending
    order.  [fuel] bounds the depth computation and each traversal. *)
Inductive filter_result := Filtered (primitives : list nat) | FilterError (e : error) | FilterNoFuel.
Fixpoint traverse_all (fuel capacity : nat) (h : hierarchy) (rays : list ray) (marked : list nat) : filter_result :=
  match rays with
  | [] => Filtered marked
  | r :: rays' =>
    match traverse fuel capacity h (fun node => box_hit r (h_boxes h node)) (r_owner r) [0%nat] [] with
    | Visited m => traverse_all fuel capacity h rays' (m ++ marked)
    | StackOverflow => FilterError RuntimeError
    | NoFuel => FilterNoFuel
    end
  end.
Definition lbvh_filter (fuel : nat) (sorted_codes : list Z) (order : list nat) (prim_boxes : nat -> box)
  (rays : list ray) : filter_result :=
  let n := List.length sorted_codes in
  if (n =? 0)%nat then FilterError IndexError
  else
    match build_hierarchy sorted_codes order prim_boxes with
    | None => FilterNoFuel
    | Some h =>
      match max_depth fuel h with
      | None => FilterNoFuel
      | Some depth =>
        match traverse_all fuel depth h rays [] with
        | Filtered m => Filtered (filter (fun p => existsb (Nat.eqb p) m) (seq 0 n))
        | other => other
        end
      end
    end.

(** The same from the corner points of the primitives: [sort] is [torch.sort] (sorted values and their
    positions), any function will do in the model; see [sorts] in [SpecLBVH]. *)
Definition filter_primitives (sort : list Z -> list Z * list nat) (fuel : nat) (corners : list (list point))
  (rays : list ray) : filter_result :=
  match morton_codes (/ 10 ^ 6) (map centroid corners) with
  | Err e => FilterError e
  | Ok codes =>
    let '(sorted_codes, order) := sort codes in
    lbvh_filter fuel sorted_codes order (fun p => corners_box (nth p corners [])) rays
  end.
