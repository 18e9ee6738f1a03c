(** C16-C22: Morton codes, prefix lengths and the bounding volume hierarchy. *)
From Coq Require Import List Arith ZArith Reals Bool Lia Lra Permutation.
From Verif Require Import ModelField ModelLBVH SpecLBVH ProofsMorton ProofsRadix ProofsRadixCounts ProofsTraversal ProofsLBVHRefuted ProofsRadixBroken.
Import ListNotations.
Local Open Scope Z_scope.

(** C16. Bit expansion: bit [k] of an integer in 0..1023 goes to bit [3k], all other bits are zero; any
    other integer is rejected. *)
Theorem C16_expand_bits : forall x,
  (0 <= x <= 1023 -> exists y, expand_bits x = Ok y
     /\ forall k, 0 <= k -> Z.testbit y (3 * k) = Z.testbit x k
                         /\ Z.testbit y (3 * k + 1) = false /\ Z.testbit y (3 * k + 2) = false)
  /\ (~ (0 <= x <= 1023) -> expand_bits x = Err ValueError).
Proof. exact expand_bits_correct. Qed.
Print Assumptions C16_expand_bits.

Example C16_case : expand_bits 1000 = Ok (2^9 + 2^15 + 2^18 + 2^21 + 2^24 + 2^27) /\ expand_bits 1024 = Err ValueError.
Proof. split; reflexivity. Qed.

(** C17. Morton codes of any non-empty set of centroids fit in 30 bits, interleave the cell coordinates and
    are equal exactly for centroids in the same cell. *)
Theorem C17_morton_codes : forall eps ps D, (0 < eps)%R -> ps <> [] -> largest_span ps D ->
  exists codes, morton_codes eps ps = Ok codes /\ List.length codes = List.length ps /\ thirty_bit codes
    /\ (forall i p c, nth_error ps i = Some p -> nth_error codes i = Some c ->
         exists n e u, in_cell ps D eps pn p n /\ in_cell ps D eps pe p e /\ in_cell ps D eps pu p u
                       /\ 0 <= n <= 1023 /\ 0 <= e <= 1023 /\ 0 <= u <= 1023 /\ interleaves n e u c)
    /\ (forall i j p q c d, nth_error ps i = Some p -> nth_error ps j = Some q ->
         nth_error codes i = Some c -> nth_error codes j = Some d ->
         (c = d <-> same_cell ps D eps p q)).
Proof. exact morton_codes_correct. Qed.
Print Assumptions C17_morton_codes.

(** Seven centroids with different codes. *)
Example C17_case : morton_codes (/ 10 ^ 6) (map centroid seven) = Ok [0; 1; 2; 8; 9; 10; 306783376]
  /\ largest_span (map centroid seven) 1023.
Proof.
  split; [exact seven_morton|]. rewrite seven_centroids. split.
  - intros f [<-|[<-|[<-|[]]]] p q Hp Hq; unfold axis_points in *; cbn [map] in *; simpl in Hp, Hq;
    repeat (destruct Hp as [<-|Hp]; [repeat (destruct Hq as [<-|Hq]; [cbn; lra|]); destruct Hq|]); destruct Hp.
  - exists pe, {| pe := 1023; pn := 0; pu := 0 |}, {| pe := 0; pn := 0; pu := 0 |}. simpl. repeat split; auto 10. lra.
Qed.

(** C18. Prefix length of two positions of a code list. *)
Theorem C18_longest_common_prefix : forall codes i j, thirty_bit codes -> (i < List.length codes)%nat ->
  ((j < List.length codes)%nat ->
     common_prefix_length (nth i codes 0) (nth j codes 0) (longest_common_prefix codes (Z.of_nat i) (Z.of_nat j)))
  /\ (forall j', j' < 0 \/ Z.of_nat (List.length codes) <= j' -> longest_common_prefix codes (Z.of_nat i) j' = -1).
Proof. exact lcp_correct. Qed.
Print Assumptions C18_longest_common_prefix.

(** The specification determines the length. *)
Theorem C18_unique : forall a b L L', common_prefix_length a b L -> common_prefix_length a b L' -> L = L'.
Proof. exact common_prefix_unique. Qed.
Print Assumptions C18_unique.

Example C18_case : longest_common_prefix [5; 7; 2^29] 0 1 = 28 /\ longest_common_prefix [5; 7; 2^29] 1 2 = 0
  /\ longest_common_prefix [5; 7; 2^29] 2 2 = 30.
Proof. repeat split; reflexivity. Qed.

(** C19. The full claim is false: for seven mirrors with different, sorted Morton codes the root does not
    reach every leaf.  (The split search starts at half the range and halves with rounding down, so it
    cannot land on every position.) *)
Theorem C19_hierarchy_complete_refuted : exists corners codes lefts rights,
  morton_codes (/ 10 ^ 6) (map centroid corners) = Ok codes /\ ascending codes /\ NoDup codes
  /\ child_arrays codes = Some (lefts, rights)
  /\ ~ reaches_all_once (List.length codes) (fun k => nth k lefts (-1)) (fun k => nth k rights (-1)).
Proof. exact seven_not_a_tree. Qed.
Print Assumptions C19_hierarchy_complete_refuted.

(** The same for every set of codes: if the numbers of codes that continue with 0 and with 1 after the bits
    common to all codes cannot be found by halving, the root does not reach every leaf, for example for
    three and three codes. *)
Theorem C19_unbalanced_root_refuted : forall codes L p, thirty_bit codes -> ascending codes -> 0 <= L < 30 ->
  let zeros := prefix_count codes (L + 1) (2 * p) in
  let ones := prefix_count codes (L + 1) (2 * p + 1) in
  0 < zeros -> 0 < ones -> zeros + ones = Z.of_nat (List.length codes) ->
  ~ halving_exact ((zeros + ones) / 2) (zeros - 1) ->
  exists lefts rights, child_arrays codes = Some (lefts, rights)
    /\ ~ reaches_all_once (List.length codes) (fun k => nth k lefts (-1)) (fun k => nth k rights (-1)).
Proof. exact unbalanced_root. Qed.
Print Assumptions C19_unbalanced_root_refuted.

Example C19_unbalanced_case : exists lefts rights, child_arrays [0; 1; 2; 8; 9; 10] = Some (lefts, rights)
  /\ ~ reaches_all_once 6 (fun k => nth k lefts (-1)) (fun k => nth k rights (-1)).
Proof.
  apply (C19_unbalanced_root_refuted [0; 1; 2; 8; 9; 10] 26 0); try reflexivity; try lia.
  - intros c H. simpl in H. change (2 ^ 30) with 1073741824. lia.
  - intros i j H. cbn [List.length] in H.
    do 6 (destruct i as [|i]; [do 6 (destruct j as [|j]; [cbn [nth]; lia || (exfalso; lia)|]); exfalso; lia|]). exfalso; lia.
  - change (~ halving_exact 3 2). intros H. inversion H; subst; try lia.
    match goal with X : halving_exact (3 / 2) 2 |- _ => change (3 / 2) with 1 in X; inversion X; subst; try lia end.
    match goal with X : halving_exact (1 / 2) (2 - 1) |- _ => change (1 / 2) with 0 in X; inversion X; subst; lia end.
Qed.

(** What holds: no code three times, and halving finds every split. *)
Theorem C19_hierarchy_complete_partial : forall codes,
  codes <> [] -> thirty_bit codes -> ascending codes -> at_most_twice codes -> halvable codes ->
  exists lefts rights, child_arrays codes = Some (lefts, rights)
    /\ reaches_all_once (List.length codes) (fun k => nth k lefts (-1)) (fun k => nth k rights (-1)).
Proof. exact radix_tree_halvable. Qed.
Print Assumptions C19_hierarchy_complete_partial.

(** This includes all code lists whose clusters have 2^k or 2^k+1 members ... *)
Theorem C19_power_of_two_clusters_partial : forall codes,
  codes <> [] -> thirty_bit codes -> ascending codes -> at_most_twice codes -> power_of_two_clusters codes ->
  exists lefts rights, child_arrays codes = Some (lefts, rights)
    /\ reaches_all_once (List.length codes) (fun k => nth k lefts (-1)) (fun k => nth k rights (-1)).
Proof. exact radix_tree_powers. Qed.
Print Assumptions C19_power_of_two_clusters_partial.

(** ... and every set of at most five mirrors. *)
Theorem C19_five_mirrors_partial : forall codes,
  codes <> [] -> (List.length codes <= 5)%nat -> thirty_bit codes -> ascending codes -> at_most_twice codes ->
  exists lefts rights, child_arrays codes = Some (lefts, rights)
    /\ reaches_all_once (List.length codes) (fun k => nth k lefts (-1)) (fun k => nth k rights (-1)).
Proof. exact radix_tree_small. Qed.
Print Assumptions C19_five_mirrors_partial.

(** Five codes, one of them twice. *)
Example C19_case : exists lefts rights, child_arrays [3; 3; 8; 9; 40] = Some (lefts, rights)
    /\ reaches_all_once 5 (fun k => nth k lefts (-1)) (fun k => nth k rights (-1)).
Proof.
  apply (C19_five_mirrors_partial [3; 3; 8; 9; 40]); [discriminate|simpl; lia|..].
  - intros c H. simpl in H. change (2 ^ 30) with 1073741824. lia.
  - intros i j H. cbn [List.length] in H.
    do 5 (destruct i as [|i]; [do 5 (destruct j as [|j]; [cbn [nth]; lia || (exfalso; lia)|]); exfalso; lia|]). exfalso; lia.
  - intros c. unfold prefix_count. change (30 - 30) with 0. cbn [filter]. rewrite !Z.shiftr_0_r.
    destruct (Z.eqb_spec 3 c); destruct (Z.eqb_spec 8 c); destruct (Z.eqb_spec 9 c); destruct (Z.eqb_spec 40 c); cbn [List.length]; lia.
Qed.

(** C20. The full claim is false: with three centroids in one cell the depth computation runs forever, for
    every amount of fuel. *)
Theorem C20_termination_refuted : exists corners rays, forall sort, sorts sort ->
  forall fuel, filter_primitives sort fuel corners rays = FilterNoFuel.
Proof. exact four_never_ends. Qed.
Print Assumptions C20_termination_refuted.

(** Construction itself always ends ([node_fuel] is never used up), whatever the codes and their order. *)
Theorem C20_construction_terminates : forall codes, thirty_bit codes ->
  exists lefts rights, child_arrays codes = Some (lefts, rights)
    /\ List.length lefts = (2 * List.length codes - 1)%nat /\ List.length rights = (2 * List.length codes - 1)%nat.
Proof. exact construction_terminates. Qed.
Print Assumptions C20_construction_terminates.

(** The depth computation ends after at most [2n-1] steps if the children form a tree, and the result is the
    number of levels. *)
Theorem C20_depth_partial : forall codes lefts rights order boxes fuel,
  thirty_bit codes -> codes <> [] -> child_arrays codes = Some (lefts, rights) ->
  reaches_all_once (List.length codes) (fun k => nth k lefts (-1)) (fun k => nth k rights (-1)) ->
  (2 * List.length codes - 1 <= fuel)%nat ->
  exists h depth, build_hierarchy codes order boxes = Some h /\ max_depth fuel h = Some depth
    /\ levels (List.length codes - 1) (fun k => nth k lefts (-1)) (fun k => nth k rights (-1)) 0 depth.
Proof. exact depth_terminates. Qed.
Print Assumptions C20_depth_partial.

Example C20_case : exists lefts rights, child_arrays [5; 5; 5] = Some (lefts, rights).
Proof.
  destruct (C20_construction_terminates [5; 5; 5]) as (l & r & E & _); [|eauto].
  intros c H. simpl in H. change (2 ^ 30) with 1073741824. lia.
Qed.

(** C21. In a well-formed hierarchy the filter returns exactly the primitives whose own box is met by a ray
    of another heliostat; the traversal stays within its stack of the measured depth (an overflow would be
    a [FilterError]). *)
Theorem C21_filter_exact_partial : forall sort corners rays fuel codes lefts rights,
  sorts sort -> corners <> [] ->
  morton_codes (/ 10 ^ 6) (map centroid corners) = Ok codes ->
  child_arrays (fst (sort codes)) = Some (lefts, rights) ->
  reaches_all_once (List.length corners) (fun k => nth k lefts (-1)) (fun k => nth k rights (-1)) ->
  (forall r, In r rays -> sane_ray r) -> (2 * List.length corners - 1 <= fuel)%nat ->
  exists found, filter_primitives sort fuel corners rays = Filtered found /\ NoDup found
    /\ forall p, In p found <-> (p < List.length corners)%nat /\ exists r, In r rays /\ r_owner r <> p
                                 /\ meets r (corners_box (nth p corners [])).
Proof. exact filter_primitives_exact. Qed.
Print Assumptions C21_filter_exact_partial.

(** Without the assumption on the hierarchy it is false: a mirror in the way is dropped. *)
Theorem C21_filter_complete_refuted : exists corners ray,
  sane_ray ray /\ (0 < List.length corners)%nat /\ r_owner ray <> 0%nat /\ meets ray (corners_box (nth 0 corners []))
  /\ forall sort, sorts sort -> forall fuel, (13 <= fuel)%nat ->
     exists found, filter_primitives sort fuel corners [ray] = Filtered found /\ ~ In 0%nat found.
Proof. exact seven_filter_drops. Qed.
Print Assumptions C21_filter_complete_refuted.

(** In general: if halving cannot find the split at the root, no mirror whose code continues with 1 is ever
    returned, whatever the rays. *)
Theorem C21_unbalanced_root_refuted : forall sort corners rays fuel codes L p found, sorts sort ->
  morton_codes (/ 10 ^ 6) (map centroid corners) = Ok codes -> (0 <= L < 30)%Z ->
  let zeros := prefix_count codes (L + 1) (2 * p) in
  let ones := prefix_count codes (L + 1) (2 * p + 1) in
  (0 < zeros)%Z -> (0 < ones)%Z -> (zeros + ones = Z.of_nat (List.length codes))%Z ->
  ~ halving_exact ((zeros + ones) / 2) (zeros - 1) ->
  filter_primitives sort fuel corners rays = Filtered found ->
  forall m, In m found -> Z.shiftr (nth m codes 0%Z) (30 - (L + 1)) <> (2 * p + 1)%Z.
Proof. exact unbalanced_filter. Qed.
Print Assumptions C21_unbalanced_root_refuted.

(** For at most five mirrors with no three in one cell no assumption on the hierarchy is needed. *)
Theorem C21_five_mirrors : forall sort corners rays fuel codes,
  sorts sort -> corners <> [] -> (List.length corners <= 5)%nat ->
  morton_codes (/ 10 ^ 6) (map centroid corners) = Ok codes -> at_most_twice codes ->
  (forall r, In r rays -> sane_ray r) -> (9 <= fuel)%nat ->
  exists found, filter_primitives sort fuel corners rays = Filtered found /\ NoDup found
    /\ forall p, In p found <-> (p < List.length corners)%nat /\ exists r, In r rays /\ r_owner r <> p
                                 /\ meets r (corners_box (nth p corners [])).
Proof. exact five_mirrors_exact. Qed.
Print Assumptions C21_five_mirrors.

(** The boxes of a well-formed hierarchy are tight. *)
Theorem C21_boxes_tight : forall codes lefts rights order boxes,
  thirty_bit codes -> codes <> [] -> child_arrays codes = Some (lefts, rights) ->
  exists h, build_hierarchy codes order boxes = Some h
    /\ forall k leaves, subtree (List.length codes - 1) (fun k => nth k lefts (-1)) (fun k => nth k rights (-1)) k leaves ->
       hull (h_boxes h k) (map (fun x => boxes (nth (x - (List.length codes - 1)) order 0%nat)) leaves).
Proof. exact boxes_tight. Qed.
Print Assumptions C21_boxes_tight.

(** Two mirrors and a ray of the second that meets the first. *)
Example C21_case : forall sort, sorts sort ->
  let corners := [square 0 0; square 1023 0] in
  let ray := {| r_origin := {| pe := 0; pn := 0; pu := -5 |}; r_direction := {| pe := 0; pn := 0; pu := 1 |};
                r_target_distance := 100; r_owner := 1%nat |} in
  exists found, filter_primitives sort 9 corners [ray] = Filtered found /\ In 0%nat found /\ ~ In 1%nat found.
Proof. exact two_mirrors_case. Qed.

(** C22. The box test accepts exactly the boxes met by the ray; for target distances above 1e-6 that is: some
    point of the ray with parameter in (1e-6, target distance] is inside the box.  Larger boxes stay accepted. *)
Theorem C22_box_test_exact : forall r b, sane_ray r -> proper_box b ->
  (box_hit r b = true <-> meets r b)
  /\ ((/ 10 ^ 6 < r_target_distance r)%R ->
      (box_hit r b = true <-> exists t, (/ 10 ^ 6 < t <= r_target_distance r)%R /\ in_box (ray_at r t) b)).
Proof. exact box_test_exact. Qed.
Print Assumptions C22_box_test_exact.

Theorem C22_box_test_monotone : forall r b b', proper_box b -> box_inside b b' ->
  box_hit r b = true -> box_hit r b' = true.
Proof. exact box_hit_monotone. Qed.
Print Assumptions C22_box_test_monotone.

Example C22_case :
  let r := {| r_origin := {| pe := 0; pn := 0; pu := -5 |}; r_direction := {| pe := 0; pn := 0; pu := 1 |};
              r_target_distance := 100; r_owner := 1%nat |} in
  sane_ray r /\ proper_box (corners_box (square 0 0)) /\ box_hit r (corners_box (square 0 0)) = true.
Proof. exact box_hit_case. Qed.
