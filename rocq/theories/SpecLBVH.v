(** Vocabulary for the properties of Morton codes and the bounding volume hierarchy (C16-C25). *)
From Coq Require Import List Arith ZArith Reals Bool Permutation.
From Verif Require Import ModelLBVH.
Import ListNotations.

(** ** Morton codes *)
Local Open Scope R_scope.

(** [m] is the least value of coordinate [f] among the points. *)
Definition least (f : point -> R) (ps : list point) (m : R) : Prop :=
  (exists p, In p ps /\ f p = m) /\ forall p, In p ps -> m <= f p.

(** [D] is the largest difference of a coordinate between two of the points. *)
Definition largest_span (ps : list point) (D : R) : Prop :=
  (forall f, In f [pe; pn; pu] -> forall p q, In p ps -> In q ps -> f p - f q <= D)
  /\ exists f p q, In f [pe; pn; pu] /\ In p ps /\ In q ps /\ f p - f q = D.

(** Along coordinate [f] the point [p] lies in cell [c] of the grid with 1023 cells over [D + eps]. *)
Definition in_cell (ps : list point) (D eps : R) (f : point -> R) (p : point) (c : Z) : Prop :=
  exists m, least f ps m /\ IZR c <= (f p - m) / (D + eps) * 1023 < IZR c + 1.
Definition same_cell (ps : list point) (D eps : R) (p q : point) : Prop :=
  forall f, In f [pe; pn; pu] -> exists c, in_cell ps D eps f p c /\ in_cell ps D eps f q c.

Local Open Scope Z_scope.
(** The bits of [c] are those of [n], [e] and [u] in turn, [u] lowest. *)
Definition interleaves (n e u c : Z) : Prop :=
  forall k, 0 <= k -> Z.testbit c (3 * k + 2) = Z.testbit n k
                   /\ Z.testbit c (3 * k + 1) = Z.testbit e k
                   /\ Z.testbit c (3 * k) = Z.testbit u k.

(** [L] is the number of leading bits, of 30, in which [a] and [b] agree. *)
Definition common_prefix_length (a b L : Z) : Prop :=
  0 <= L <= 30
  /\ (forall k, 30 - L <= k < 30 -> Z.testbit a k = Z.testbit b k)
  /\ (L < 30 -> Z.testbit a (29 - L) <> Z.testbit b (29 - L)).

Definition thirty_bit (codes : list Z) : Prop := forall c, In c codes -> 0 <= c < 2 ^ 30.
Definition ascending (codes : list Z) : Prop :=
  forall i j, (i <= j < List.length codes)%nat -> nth i codes 0 <= nth j codes 0.
(** How many codes start with the [L] bits [p]. *)
Definition prefix_count (codes : list Z) (L p : Z) : Z :=
  Z.of_nat (List.length (filter (fun c => Z.shiftr c (30 - L) =? p) codes)).
(** No value occurs three times. *)
Definition at_most_twice (codes : list Z) : Prop := forall c, prefix_count codes 30 c <= 2.

(** ** Trees in child arrays *)

(** The nodes [0 .. internal-1] are inner nodes with a left and a right child, all others are leaves.
    [subtree k leaves]: unfolding the children below [k] ends and meets the leaves [leaves], left to right. *)
Inductive subtree (internal : nat) (left right : nat -> Z) : nat -> list nat -> Prop :=
| subtree_leaf : forall k, (internal <= k)%nat -> subtree internal left right k [k]
| subtree_node : forall k a b la lb, (k < internal)%nat ->
    left k = Z.of_nat a -> right k = Z.of_nat b ->
    subtree internal left right a la -> subtree internal left right b lb ->
    subtree internal left right k (la ++ lb).

(** The root (node 0) of a tree over [n] primitives reaches every leaf [n-1 .. 2n-2] exactly once. *)
Definition reaches_all_once (n : nat) (left right : nat -> Z) : Prop :=
  exists leaves, subtree (n - 1) left right 0 leaves /\ Permutation leaves (seq (n - 1) n).

(** Greedily subtracting [t], [t/2], [t/4], ... (rounded down) from [r] where possible leaves nothing. *)
Inductive halving_exact : Z -> Z -> Prop :=
| halving_end : forall t, t < 1 -> halving_exact t 0
| halving_take : forall t r, 1 <= t -> t <= r -> halving_exact (t / 2) (r - t) -> halving_exact t r
| halving_skip : forall t r, 1 <= t -> r < t -> halving_exact (t / 2) r -> halving_exact t r.

(** Wherever codes with a common prefix of [L] bits continue with both 0 and 1, the numbers of codes on
    both sides can be found by halving from half of the total. *)
Definition halvable (codes : list Z) : Prop :=
  forall L p, 0 <= L < 30 ->
    let zeros := prefix_count codes (L + 1) (2 * p) in
    let ones := prefix_count codes (L + 1) (2 * p + 1) in
    0 < zeros -> 0 < ones ->
    halving_exact ((zeros + ones) / 2) (zeros - 1) /\ halving_exact ((zeros + ones) / 2) (ones - 1).

(** The number of codes with a common prefix is always zero, one, a power of two or one more. *)
Definition power_of_two_clusters (codes : list Z) : Prop :=
  forall L p, 0 <= L < 30 -> prefix_count codes L p = 0 \/
    exists k, 0 <= k /\ (prefix_count codes L p = 2 ^ k \/ prefix_count codes L p = 2 ^ k + 1).

(** ** Boxes and rays *)
Local Open Scope R_scope.
Definition axes : list (point -> R) := [pe; pn; pu].
Definition in_box (p : point) (b : box) : Prop :=
  forall f, In f axes -> f (box_min b) <= f p <= f (box_max b).
Definition proper_box (b : box) : Prop := forall f, In f axes -> f (box_min b) <= f (box_max b).
Definition box_inside (inner outer : box) : Prop :=
  forall f, In f axes -> f (box_min outer) <= f (box_min inner) /\ f (box_max inner) <= f (box_max outer).
(** [b] is the smallest box around the boxes [bs]. *)
Definition hull (b : box) (bs : list box) : Prop :=
  (forall b', In b' bs -> box_inside b' b)
  /\ forall f, In f axes -> (exists b', In b' bs /\ f (box_min b') = f (box_min b))
                         /\ (exists b', In b' bs /\ f (box_max b') = f (box_max b)).

(** Points of a ray; 1e-12 is added to every component of the direction. *)
Definition ray_at (r : ray) (t : R) : point :=
  let shift (f : point -> R) := f (r_origin r) + t * (f (r_direction r) + / 10 ^ 12) in
  {| pe := shift pe; pn := shift pn; pu := shift pu |}.
Definition sane_ray (r : ray) : Prop := forall f, In f axes -> f (r_direction r) + / 10 ^ 12 <> 0.
(** The ray meets the box somewhere not beyond the target distance and somewhere after 1e-6. *)
Definition meets (r : ray) (b : box) : Prop :=
  (exists t, t <= r_target_distance r /\ in_box (ray_at r t) b)
  /\ (exists t, / 10 ^ 6 < t /\ in_box (ray_at r t) b).

(** The leaf numbers of a hierarchy over [n] primitives. *)
Definition is_permutation (order : list nat) : Prop := Permutation order (seq 0 (List.length order)).

(** A sorting function that returns the sorted values and the position each came from. *)
Definition sorts (sort : list Z -> list Z * list nat) : Prop :=
  forall l, let '(sorted, order) := sort l in
    Permutation order (seq 0 (List.length l)) /\ sorted = map (fun i => nth i l 0%Z) order /\ ascending sorted.

(** The number of levels below and including node [k]. *)
Inductive levels (internal : nat) (left right : nat -> Z) : nat -> nat -> Prop :=
| levels_leaf : forall k, (internal <= k)%nat -> levels internal left right k 1
| levels_node : forall k a b da db, (k < internal)%nat ->
    left k = Z.of_nat a -> right k = Z.of_nat b ->
    levels internal left right a da -> levels internal left right b db ->
    levels internal left right k (1 + Nat.max da db).
