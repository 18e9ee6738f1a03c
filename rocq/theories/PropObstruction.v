(** C150: mirrors in the way of a ray. *)
From Coq Require Import List Arith ZArith Reals Lra Lia Permutation.
From Verif Require Import ModelField ModelVectors ModelLBVH SpecLBVH ProofsLBVHRefuted ProofsRadixBroken ModelBlocking SpecBlocking SpecObstruction ProofsBlocking ProofsBlockingTracer ProofsObstruction.
Import ListNotations.
Local Open Scope R_scope.

(** C150 (full statement: a ray that crosses the inside of another heliostat's mirror on its way to the target is
    reported as blocked, however many heliostats the field has and wherever they stand).
    Proved: this holds for every field whose hierarchy reaches each mirror once, and for every field of at most five
    heliostats of which no three share a grid cell; the reported value is then at least a bound that depends only on how
    far inside the crossing is.  Refuted: whenever the mirrors of a field split at the root into two sides whose sizes the
    halving search misses, no mirror of the second side ever blocks, wherever the rays go.
    [nudged]: the ray with 1e-12 added to its direction, which the filter uses, crosses inside the mirror as well. *)
Theorem C150_in_the_way_partial : forall sort corners rays fuel codes lefts rights i r p c0 c1 c2 c3 t a b m t' a' b',
  sorts sort -> nth_error corners p = Some [c0; c1; c2; c3] -> vadd c0 c2 = vadd c1 c3 ->
  morton_codes (/ 10 ^ 6) (map centroid corners) = Ok codes ->
  child_arrays (fst (sort codes)) = Some (lefts, rights) ->
  reaches_all_once (List.length corners) (fun k => nth k lefts (-1)%Z) (fun k => nth k rights (-1)%Z) ->
  (forall x, In x rays -> sane_ray x) -> (2 * List.length corners - 1 <= fuel)%nat ->
  nth_error rays i = Some r -> r_owner r <> p ->
  (forall q, In q corners -> regular_for (/ 10 ^ 12) (r_direction r) (primitive_of_corners q)) ->
  crosses_at (r_origin r) (r_direction r) (primitive_of_corners [c0; c1; c2; c3]) t a b -> clearly_blocks (5/100) m t a b ->
  crosses_at (r_origin r) (nudged (r_direction r)) (primitive_of_corners [c0; c1; c2; c3]) t' a' b' ->
  0 <= a' <= 1 -> 0 <= b' <= 1 -> / 10 ^ 6 < t' <= r_target_distance r ->
  exists values x, batch_blocked sort fuel corners rays = Blocked values /\ nth_error values i = Some (Some x)
    /\ 1 - exp (- (100 * sigmoid (1000 * m) ^ 5)) <= x < 1.
Proof. exact obstructed_crossing. Qed.
Print Assumptions C150_in_the_way_partial.

Theorem C150_few_mirrors_partial : forall sort corners rays fuel codes i r p t a b m,
  sorts sort -> (p < List.length corners <= 5)%nat ->
  morton_codes (/ 10 ^ 6) (map centroid corners) = Ok codes -> at_most_twice codes ->
  (forall x, In x rays -> sane_ray x) -> (9 <= fuel)%nat ->
  nth_error rays i = Some r -> r_owner r <> p -> meets r (corners_box (nth p corners [])) ->
  (forall q, (q < List.length corners)%nat -> regular_for (/ 10 ^ 12) (r_direction r) (primitive_of_corners (nth q corners []))) ->
  crosses_at (r_origin r) (r_direction r) (primitive_of_corners (nth p corners [])) t a b -> clearly_blocks (5/100) m t a b ->
  exists values x, batch_blocked sort fuel corners rays = Blocked values /\ nth_error values i = Some (Some x)
    /\ 1 - exp (- (100 * sigmoid (1000 * m) ^ 5)) <= x < 1.
Proof. exact obstructed_few. Qed.
Print Assumptions C150_few_mirrors_partial.

(** A ray through the middle of the second of two mirrors: at least three quarters of it are lost. *)
Example C150_case : forall sort, sorts sort ->
  exists x, batch_blocked sort 9 [square 0 0; square 1023 0] [east_ray] = Blocked [Some x] /\ 3/4 <= x < 1.
Proof.
  intros sort HS. set (corners := [square 0 0; square 1023 0]).
  destruct (ProofsMorton.morton_codes_spec (/ 10 ^ 6) (map centroid corners)) as (codes & E & L & _); [lra|].
  destruct (C150_few_mirrors_partial sort corners [east_ray] 9 codes 0 east_ray 1 5 (1/2) (1/2) 0) as (values & x & B & N & K); auto.
  - intros c. unfold prefix_count. assert (G : (List.length (filter (fun c0 => Z.eqb (Z.shiftr c0 (30 - 30)) c) codes) <= List.length codes)%nat).
    { generalize (fun c0 => Z.eqb (Z.shiftr c0 (30 - 30)) c). intros f. clear. induction codes; simpl; auto. destruct (f a); simpl; lia. }
    rewrite L in G. change (List.length (map centroid corners)) with 2%nat in G. lia.
  - intros x [<-|[]]. apply east_sane.
  - apply east_meets.
  - intros q Q. destruct q as [|[|q]]; [apply up_regular..|unfold corners in Q; cbn [List.length] in Q; lia].
  - apply east_crosses.
  - unfold clearly_blocks. lra.
  - exists x. assert (LV : List.length values = 1%nat).
    { destruct (blocked_depends sort 9 corners [east_ray] values HS) as (found & _ & ->); auto. intros y [<-|[]]. apply east_sane. }
    destruct values as [|v [|w values]]; try discriminate. cbn in N. injection N as ->. split; auto.
    rewrite Rmult_0_r, sigmoid_half in K. replace (100 * (/ 2) ^ 5) with (100 * / 32) in K by field. pose proof exp_minus_3. lra.
Qed.

(** Mirrors on the second side of a root the halving search misses block nothing: the values are those of a field without
    them. *)
Theorem C150_overlooked_refuted : forall sort corners rays fuel codes L p values, sorts sort ->
  morton_codes (/ 10 ^ 6) (map centroid corners) = Ok codes -> (0 <= L < 30)%Z ->
  let zeros := prefix_count codes (L + 1) (2 * p) in
  let ones := prefix_count codes (L + 1) (2 * p + 1) in
  (0 < zeros)%Z -> (0 < ones)%Z -> (zeros + ones = Z.of_nat (List.length codes))%Z ->
  ~ halving_exact ((zeros + ones) / 2) (zeros - 1) ->
  (forall x, In x rays -> sane_ray x) ->
  batch_blocked sort fuel corners rays = Blocked values ->
  exists found, (forall q, In q found -> (q < List.length corners)%nat /\ Z.shiftr (nth q codes 0%Z) (30 - (L + 1)) <> (2 * p + 1)%Z
                   /\ exists r, In r rays /\ r_owner r <> q /\ meets r (corners_box (nth q corners [])))
    /\ values = map (fun r => traced_mask r (map (fun q => primitive_of_corners (nth q corners [])) found)) rays.
Proof. exact overlooked. Qed.
Print Assumptions C150_overlooked_refuted.

(** So rays that stay clear of the first side are never blocked. *)
Theorem C150_never_blocked_refuted : forall sort corners rays fuel codes L p values, sorts sort ->
  morton_codes (/ 10 ^ 6) (map centroid corners) = Ok codes -> (0 <= L < 30)%Z ->
  let zeros := prefix_count codes (L + 1) (2 * p) in
  let ones := prefix_count codes (L + 1) (2 * p + 1) in
  (0 < zeros)%Z -> (0 < ones)%Z -> (zeros + ones = Z.of_nat (List.length codes))%Z ->
  ~ halving_exact ((zeros + ones) / 2) (zeros - 1) ->
  (forall x, In x rays -> sane_ray x) ->
  (forall r q, In r rays -> (q < List.length corners)%nat -> Z.shiftr (nth q codes 0%Z) (30 - (L + 1)) = (2 * p)%Z ->
     ~ meets r (corners_box (nth q corners []))) ->
  batch_blocked sort fuel corners rays = Blocked values ->
  values = map (fun _ => Some 0) rays.
Proof. exact overlooked_free. Qed.
Print Assumptions C150_never_blocked_refuted.

(** Six mirrors with pairwise different cells, three in the west and three in the east: the ray through the middle of the
    fifth mirror, which blocks it with three quarters when only two mirrors stand there, arrives undiminished. *)
Example C150_six_case : nth 4 six [] = square 1023 0
  /\ crosses_at (r_origin east_ray) (r_direction east_ray) (primitive_of_corners (nth 4 six [])) 5 (1/2) (1/2)
  /\ meets east_ray (corners_box (nth 4 six [])) /\ r_owner east_ray <> 4%nat
  /\ forall sort fuel, sorts sort -> (9 <= fuel)%nat -> batch_blocked sort fuel six [east_ray] = Blocked [Some 0].
Proof.
  split; [reflexivity|]. split; [apply east_crosses|]. split; [apply east_meets|]. split; [cbn; lia|exact six_overlooked].
Qed.
