(** Mirrors in the way of a ray (C150). *)
From Coq Require Import List Arith ZArith Reals Bool Lia Lra Permutation.
From Verif Require Import RealSums ModelField ModelVectors ProofsVectors ModelLBVH SpecLBVH ProofsMorton ProofsTraversal ProofsRadixCounts ProofsLBVHRefuted ProofsRadixBroken
  ModelBlocking SpecBlocking SpecObstruction ProofsBlocking ProofsBlockingTracer.
Import ListNotations.
Local Open Scope R_scope.

Theorem obstructed : forall sort corners rays fuel codes lefts rights i r p t a b m,
  sorts sort -> (p < List.length corners)%nat ->
  morton_codes (/ 10 ^ 6) (map centroid corners) = Ok codes ->
  child_arrays (fst (sort codes)) = Some (lefts, rights) ->
  reaches_all_once (List.length corners) (fun k => nth k lefts (-1)%Z) (fun k => nth k rights (-1)%Z) ->
  (forall x, In x rays -> sane_ray x) -> (2 * List.length corners - 1 <= fuel)%nat ->
  nth_error rays i = Some r -> r_owner r <> p -> meets r (corners_box (nth p corners [])) ->
  (forall q, (q < List.length corners)%nat -> regular_for (/ 10 ^ 12) (r_direction r) (primitive_of_corners (nth q corners []))) ->
  crosses_at (r_origin r) (r_direction r) (primitive_of_corners (nth p corners [])) t a b -> clearly_blocks (5/100) m t a b ->
  exists values x, batch_blocked sort fuel corners rays = Blocked values /\ nth_error values i = Some (Some x)
    /\ 1 - exp (- (100 * sigmoid (1000 * m) ^ 5)) <= x < 1.
Proof.
  intros sort corners rays fuel codes lefts rights i r p t a b m HS HP HM HC HR SR HF HI O' M' RG CR CB.
  assert (NE : corners <> []) by (intros ->; cbn in HP; lia).
  destruct (filter_primitives_exact sort corners rays fuel codes lefts rights) as (found & F & ND & M); auto.
  assert (IP : In p found) by (apply M; split; auto; exists r; split; [apply (nth_error_In _ _ HI)|auto]).
  unfold batch_blocked. rewrite F. destruct found as [|f0 found]; [destruct IP|].
  set (ps := map (fun p => primitive_of_corners (nth p corners [])) (f0 :: found)).
  assert (RP : forall q, In q ps -> regular_for (/ 10 ^ 12) (r_direction r) q).
  { intros q Q. apply in_map_iff in Q. destruct Q as (q' & <- & I). apply M in I. destruct I as (I & _). auto. }
  destruct (soft_mask_blocks (/ 10 ^ 12) 1000 100 (5/100) (r_origin r) (r_direction r) ps (primitive_of_corners (nth p corners [])) t a b m) as (x & B & K); try lra; auto.
  { apply (in_map (fun p => primitive_of_corners (nth p corners []))). auto. }
  destruct (soft_mask_fraction (/ 10 ^ 12) 1000 100 (5/100) (r_origin r) (r_direction r) ps) as (x' & B' & K' & _); try lra.
  { intros q Q. apply (regular_independent (/ 10 ^ 12) (r_direction r)); [lra|auto]. }
  rewrite B in B'. injection B' as <-.
  exists (map (fun r => traced_mask r ps) rays), x. split; auto. split; [|lra].
  rewrite nth_error_map, HI. cbn [option_map]. unfold traced_mask. rewrite B. auto.
Qed.

Theorem obstructed_few : forall sort corners rays fuel codes i r p t a b m,
  sorts sort -> (p < List.length corners <= 5)%nat ->
  morton_codes (/ 10 ^ 6) (map centroid corners) = Ok codes -> at_most_twice codes ->
  (forall x, In x rays -> sane_ray x) -> (9 <= fuel)%nat ->
  nth_error rays i = Some r -> r_owner r <> p -> meets r (corners_box (nth p corners [])) ->
  (forall q, (q < List.length corners)%nat -> regular_for (/ 10 ^ 12) (r_direction r) (primitive_of_corners (nth q corners []))) ->
  crosses_at (r_origin r) (r_direction r) (primitive_of_corners (nth p corners [])) t a b -> clearly_blocks (5/100) m t a b ->
  exists values x, batch_blocked sort fuel corners rays = Blocked values /\ nth_error values i = Some (Some x)
    /\ 1 - exp (- (100 * sigmoid (1000 * m) ^ 5)) <= x < 1.
Proof.
  intros sort corners rays fuel codes i r p t a b m HS HP HM AT SR HF HI O' M' RG CR CB.
  destruct (morton_codes_spec (/ 10 ^ 6) (map centroid corners)) as (codes' & E' & L & Bd & _).
  { apply Rinv_0_lt_compat. apply pow_lt. lra. }
  rewrite HM in E'. injection E' as <-. rewrite map_length in L.
  pose proof (HS codes) as HS'. destruct (sort codes) as (sorted & order) eqn:ES. destruct HS' as (PO & EQ & AS).
  assert (LO : List.length sorted = List.length codes) by (rewrite EQ, map_length; apply Permutation_length in PO; rewrite seq_length in PO; auto).
  assert (PM : Permutation sorted codes).
  { rewrite EQ. transitivity (map (fun i => nth i codes 0%Z) (seq 0 (List.length codes))); [apply Permutation_map; auto|].
    clear. assert (Q : map (fun i => nth i codes 0%Z) (seq 0 (List.length codes)) = codes); [|rewrite Q; auto].
    apply (nth_ext _ _ 0%Z 0%Z); [rewrite map_length, seq_length; auto|]. intros k Hk. rewrite map_length, seq_length in Hk.
    rewrite (nth_indep _ 0%Z (nth 0 codes 0%Z)) by (rewrite map_length, seq_length; auto).
    rewrite (map_nth (fun i => nth i codes 0%Z) _ 0%nat), seq_nth by auto. auto. }
  destruct (radix_tree_small sorted) as (ls & rs & CA & RA).
  - intros ->. cbn in LO. lia.
  - lia.
  - intros c C. apply Bd. apply (Permutation_in _ PM). auto.
  - exact AS.
  - intros c. rewrite (prefix_count_perm _ _ _ _ PM). apply AT.
  - apply (obstructed sort corners rays fuel codes ls rs i r p t a b m); auto; try lia.
    + rewrite ES. exact CA.
    + rewrite <- L, <- LO. exact RA.
Qed.

(** A crossing inside a mirror with four corners is inside its box. *)
Lemma between : forall x0 x1 x2 x3 a b, x2 = x1 + x3 - x0 -> 0 <= a <= 1 -> 0 <= b <= 1 ->
  Rmin_list [x0; x1; x2; x3] <= x0 + (a * (x1 - x0) + b * (x3 - x0)) <= Rmax_list [x0; x1; x2; x3].
Proof.
  intros x0 x1 x2 x3 a b E A B.
  set (l := [x0; x1; x2; x3]).
  pose proof (Rmin_list_le l x0 ltac:(cbn; auto)). pose proof (Rmin_list_le l x1 ltac:(cbn; auto)).
  pose proof (Rmin_list_le l x2 ltac:(cbn; auto)). pose proof (Rmin_list_le l x3 ltac:(cbn; auto)).
  pose proof (Rmax_list_ge l x0 ltac:(cbn; auto)). pose proof (Rmax_list_ge l x1 ltac:(cbn; auto)).
  pose proof (Rmax_list_ge l x2 ltac:(cbn; auto)). pose proof (Rmax_list_ge l x3 ltac:(cbn; auto 6)).
  set (lo := Rmin_list l) in *. set (hi := Rmax_list l) in *. clearbody lo hi. clear l.
  replace (x0 + (a * (x1 - x0) + b * (x3 - x0))) with ((1 - b) * ((1 - a) * x0 + a * x1) + b * ((1 - a) * x3 + a * x2)) by (subst x2; ring).
  assert (P1 : lo <= (1 - a) * x0 + a * x1 <= hi) by (split; nra).
  assert (P2 : lo <= (1 - a) * x3 + a * x2 <= hi) by (split; nra).
  set (p := (1 - a) * x0 + a * x1) in *. set (q := (1 - a) * x3 + a * x2) in *. clearbody p q. split; nra.
Qed.
Lemma crossing_meets : forall r c0 c1 c2 c3 t a b,
  vadd c0 c2 = vadd c1 c3 ->
  crosses_at (r_origin r) (nudged (r_direction r)) (primitive_of_corners [c0; c1; c2; c3]) t a b ->
  0 <= a <= 1 -> 0 <= b <= 1 -> / 10 ^ 6 < t <= r_target_distance r ->
  meets r (corners_box [c0; c1; c2; c3]).
Proof.
  intros r c0 c1 c2 c3 t a b P C A B T.
  assert (I : in_box (ray_at r t) (corners_box [c0; c1; c2; c3])).
  { unfold crosses_at, nudged, primitive_of_corners, primitive_of in C. cbn [nth corner0 span_u span_v] in C.
    unfold vadd, smul, vsub in C, P. unfold ray_at, corners_box. generalize dependent (/ 10 ^ 12). intros e C.
    injection C as C1 C2 C3. injection P as P1 P2 P3.
    intros f [<-|[<-|[<-|[]]]]; cbn [map box_min box_max pe pn pu] in *; rewrite ?C1, ?C2, ?C3; apply between; auto; lra. }
  split; exists t; (split; [lra|auto]).
Qed.
Theorem obstructed_crossing : forall sort corners rays fuel codes lefts rights i r p c0 c1 c2 c3 t a b m t' a' b',
  sorts sort -> nth_error corners p = Some [c0; c1; c2; c3] -> vadd c0 c2 = vadd c1 c3 ->
  morton_codes (/ 10 ^ 6) (map centroid corners) = Ok codes ->
  child_arrays (fst (sort codes)) = Some (lefts, rights) ->
  reaches_all_once (List.length corners) (fun k => nth k lefts (-1)%Z) (fun k => nth k rights (-1)%Z) ->
  (forall x, In x rays -> sane_ray x) -> (2 * List.length corners - 1 <= fuel)%nat ->
  nth_error rays i = Some r -> r_owner r <> p ->
  (forall q, In q corners -> regular_for (/ 10 ^ 12) (r_direction r) (primitive_of_corners q)) ->
  crosses_at (r_origin r) (r_direction r) (primitive_of_corners [c0; c1; c2; c3]) t a b -> clearly_blocks (5/100) m t a b ->
  crosses_at (r_origin r) (nudged (r_direction r)) (primitive_of_corners [c0; c1; c2; c3]) t' a' b' ->
  0 <= a' <= 1 -> 0 <= b' <= 1 -> / 10 ^ 6 < t' <= r_target_distance r ->
  exists values x, batch_blocked sort fuel corners rays = Blocked values /\ nth_error values i = Some (Some x)
    /\ 1 - exp (- (100 * sigmoid (1000 * m) ^ 5)) <= x < 1.
Proof.
  intros sort corners rays fuel codes lefts rights i r p c0 c1 c2 c3 t a b m t' a' b' HS HP PA HM HC HR SR HF HI O' RG CR CB CN A' B' T'.
  assert (E : nth p corners [] = [c0; c1; c2; c3]) by (apply nth_error_nth; auto).
  apply (obstructed sort corners rays fuel codes lefts rights i r p t a b m); auto.
  - apply nth_error_Some. congruence.
  - rewrite E. apply (crossing_meets r c0 c1 c2 c3 t' a' b'); auto.
  - intros q Q. apply RG. apply nth_In. auto.
  - rewrite E. auto.
Qed.

(** The mirrors behind a root that halving cannot split are never used. *)
Theorem overlooked : forall sort corners rays fuel codes L p values, sorts sort ->
  morton_codes (/ 10 ^ 6) (map centroid corners) = Ok codes -> (0 <= L < 30)%Z ->
  let zeros := prefix_count codes (L + 1) (2 * p) in
  let ones := prefix_count codes (L + 1) (2 * p + 1) in
  (0 < zeros)%Z -> (0 < ones)%Z -> (zeros + ones = Z.of_nat (List.length codes))%Z ->
  ~ halving_exact ((zeros + ones) / 2) (zeros - 1) ->
  (forall x, In x rays -> sane_ray x) ->
  batch_blocked sort fuel corners rays = Blocked values ->
  exists found, (forall q, In q found -> (q < List.length corners)%nat /\ Z.shiftr (nth q codes 0%Z) (30 - (L + 1)) <> (2 * p + 1)%Z
                   /\ exists r, In r rays /\ r_owner r <> q /\ meets r (corners_box (nth q corners [])))
    /\ values = map (fun r => traced_mask r (map (fun q => primitive_of_corners (nth q corners [])) found)) rays.
Proof.
  intros sort corners rays fuel codes L p values HS HM HL zeros ones Z0 O0 SUM NH SR B. unfold batch_blocked in B.
  destruct (filter_primitives sort fuel corners rays) as [found| |] eqn:F; try discriminate.
  exists found. split.
  - intros q I. destruct (filter_primitives_sound _ _ _ _ _ HS F SR q I) as (Q1 & Q2). split; auto. split; auto.
    apply (unbalanced_filter sort corners rays fuel codes L p found HS HM HL Z0 O0 SUM NH F q I).
  - destruct found as [|q found].
    + injection B as <-. apply map_ext. intros r. unfold traced_mask, soft_mask. cbn [map densities option_map]. rewrite Rsum_nil, Rmult_0_r, Ropp_0, exp_0.
      f_equal. ring.
    + injection B as <-. reflexivity.
Qed.

Theorem overlooked_free : forall sort corners rays fuel codes L p values, sorts sort ->
  morton_codes (/ 10 ^ 6) (map centroid corners) = Ok codes -> (0 <= L < 30)%Z ->
  let zeros := prefix_count codes (L + 1) (2 * p) in
  let ones := prefix_count codes (L + 1) (2 * p + 1) in
  (0 < zeros)%Z -> (0 < ones)%Z -> (zeros + ones = Z.of_nat (List.length codes))%Z ->
  ~ halving_exact ((zeros + ones) / 2) (zeros - 1) ->
  (forall x, In x rays -> sane_ray x) ->
  (forall r q, In r rays -> (q < List.length corners)%nat -> Z.shiftr (nth q codes 0%Z) (30 - (L + 1)) = (2 * p)%Z ->
     ~ meets r (corners_box (nth q corners []))) ->
  batch_blocked sort fuel corners rays = Blocked values ->
  values = map (fun _ => Some 0) rays.
Proof.
  intros sort corners rays fuel codes L p values HS HM HL zeros ones Z0 O0 SUM NH SR MISS B.
  destruct (morton_codes_spec (/ 10 ^ 6) (map centroid corners)) as (codes' & E' & LC & _).
  { apply Rinv_0_lt_compat. apply pow_lt. lra. }
  rewrite HM in E'. injection E' as <-. rewrite map_length in LC.
  destruct (overlooked sort corners rays fuel codes L p values HS HM HL Z0 O0 SUM NH SR B) as (found & F & ->).
  assert (N : found = []).
  { destruct found as [|q found]; auto. exfalso. destruct (F q (or_introl eq_refl)) as (Q1 & Q2 & r & R1 & _ & R2).
    destruct (filter_two_all (fun c => Z.shiftr c (30 - (L + 1)) =? 2 * p)%Z (fun c => Z.shiftr c (30 - (L + 1)) =? 2 * p + 1)%Z codes) with (x := nth q codes 0%Z) as [E|E].
    - intros x X1 X2. apply Z.eqb_eq in X1, X2. lia.
    - unfold zeros, ones, prefix_count in SUM. lia.
    - apply nth_In. lia.
    - apply Z.eqb_eq in E. apply (MISS r q R1 Q1 E R2).
    - apply Z.eqb_eq in E. auto. }
  subst found. apply map_ext. intros r. unfold traced_mask, soft_mask. cbn [map densities option_map]. rewrite Rsum_nil, Rmult_0_r, Ropp_0, exp_0.
  f_equal. ring.
Qed.

(** ** Three mirrors in the west and three in the east *)
Definition six : list (list point) := [square 0 0; square 0 (3/2); square (3/2) 0; square (2043/2) 0; square 1023 0; square 1023 (3/2)].
Definition six_codes : list Z := [0; 1; 2; 306783362; 306783376; 306783377]%Z.
Definition east_ray : ray :=
  {| r_origin := {| pe := 1023; pn := 0; pu := -5 |}; r_direction := {| pe := 0; pn := 0; pu := 1 |}; r_target_distance := 100; r_owner := 0%nat |}.

Lemma six_centroids : map centroid six = axis_points [(0, 0); (0, 3/2); (3/2, 0); (2043/2, 0); (1023, 0); (1023, 3/2)].
Proof. unfold six, axis_points. cbn [map]. rewrite !centroid_square. auto. Qed.
Lemma six_morton : morton_codes (/ 10 ^ 6) (map centroid six) = Ok six_codes.
Proof.
  rewrite six_centroids. set (ps := axis_points _).
  assert (E1 : Rmin_list (map pe ps) = 0) by (unfold ps; cbn [axis_points map Rmin_list fold_left pe]; eval_minmax; auto).
  assert (E2 : Rmax_list (map pe ps) = 1023) by (unfold ps; cbn [axis_points map Rmax_list fold_left pe]; eval_minmax; auto).
  assert (N1 : Rmin_list (map pn ps) = 0) by (unfold ps; cbn [axis_points map Rmin_list fold_left pn]; eval_minmax; auto).
  assert (N2 : Rmax_list (map pn ps) = 0) by (unfold ps; cbn [axis_points map Rmax_list fold_left pn]; eval_minmax; auto).
  assert (U1 : Rmin_list (map pu ps) = 0) by (unfold ps; cbn [axis_points map Rmin_list fold_left pu]; eval_minmax; auto).
  assert (U2 : Rmax_list (map pu ps) <= 1023) by (unfold ps; cbn [axis_points map Rmax_list fold_left pu]; eval_minmax; lra).
  pose proof (fun p ce cu => grid_cell_1023 ps p ce cu E1 E2 N1 N2 U1 U2) as G.
  unfold morton_codes. unfold ps at 2. unfold axis_points. cbn [map map_res].
  rewrite (G _ 0%Z 0%Z) by (cbn [pe pn pu]; lia || lra).
  rewrite (G _ 0%Z 1%Z) by (cbn [pe pn pu]; lia || lra).
  rewrite (G _ 1%Z 0%Z) by (cbn [pe pn pu]; lia || lra).
  rewrite (G _ 1021%Z 0%Z) by (cbn [pe pn pu]; lia || lra).
  assert (S : Rmax (Rmax (1023 - 0) (0 - 0)) (Rmax_list (map pu ps) - 0) = 1023) by (eval_minmax; lra).
  assert (L : grid_cell (/ 10 ^ 6) ps {| pe := 1023; pn := 0; pu := 0 |} = (1022, 0, 0)%Z).
  { unfold grid_cell, grid_scale. rewrite E1, E2, N1, N2, U1. cbn [pe pn pu]. rewrite S. f_equal; [f_equal|]; apply to_long_eq; try lia; try lra. }
  assert (L' : grid_cell (/ 10 ^ 6) ps {| pe := 1023; pn := 0; pu := 3/2 |} = (1022, 0, 1)%Z).
  { unfold grid_cell, grid_scale. rewrite E1, E2, N1, N2, U1. cbn [pe pn pu]. rewrite S. f_equal; [f_equal|]; apply to_long_eq; try lia; try lra. }
  rewrite L, L'. vm_compute. reflexivity.
Qed.
Lemma six_ascending : ascending six_codes.
Proof.
  intros i j H. unfold six_codes in *. cbn [List.length] in H.
  do 6 (destruct i as [|i]; [do 6 (destruct j as [|j]; [cbn [nth]; lia || (exfalso; lia)|]); exfalso; lia|]). exfalso; lia.
Qed.
Lemma six_nodup : NoDup six_codes.
Proof. unfold six_codes. repeat constructor; simpl; lia. Qed.
Lemma six_thirty : thirty_bit six_codes.
Proof. intros c H. unfold six_codes in H. simpl in H. change (2 ^ 30)%Z with 1073741824%Z. lia. Qed.
Lemma not_three : ~ halving_exact 3 2.
Proof.
  intros H. inversion H; subst; try lia.
  match goal with X : halving_exact (3 / 2) 2 |- _ => change (3 / 2)%Z with 1%Z in X; inversion X; subst; try lia end.
  match goal with X : halving_exact (1 / 2) (2 - 1) |- _ => change (1 / 2)%Z with 0%Z in X; inversion X; subst; lia end.
Qed.
Lemma six_arrays : child_arrays six_codes = Some ([1; 5; 1; 8; 9; -1; -1; -1; -1; -1; -1], [2; 6; 7; 4; 10; -1; -1; -1; -1; -1; -1])%Z.
Proof. vm_compute. reflexivity. Qed.
Lemma six_unfold : subtree 5 (fun k => nth k [1; 5; 1; 8; 9; -1; -1; -1; -1; -1; -1]%Z (-1)%Z)
   (fun k => nth k [2; 6; 7; 4; 10; -1; -1; -1; -1; -1; -1]%Z (-1)%Z) 0 [5; 6; 5; 6; 7]%nat.
Proof. apply (unfold_subtree 10). vm_compute. reflexivity. Qed.
Lemma six_ends : forall sort rays fuel, sorts sort -> (9 <= fuel)%nat -> exists values, batch_blocked sort fuel six rays = Blocked values.
Proof.
  intros sort rays fuel HS HF. unfold batch_blocked, filter_primitives. rewrite six_morton.
  rewrite (sorts_identity sort six_codes HS six_ascending six_nodup).
  destruct (filter_bounded six_codes _ _ (seq 0 (List.length six_codes)) (fun p => corners_box (nth p six []))
     rays fuel _ six_thirty ltac:(discriminate) six_arrays six_unfold) as (found & E & _).
  { cbn [List.length]. lia. }
  rewrite E. destruct found; eauto.
Qed.

Lemma east_sane : sane_ray east_ray.
Proof. intros f [<-|[<-|[<-|[]]]]; cbn [east_ray r_direction pe pn pu]; lra. Qed.
Lemma east_crosses : crosses_at (r_origin east_ray) (r_direction east_ray) (primitive_of_corners (square 1023 0)) 5 (1/2) (1/2).
Proof. rewrite square_primitive. unfold crosses_at, east_ray. cbn [r_origin r_direction corner0 span_u span_v]. vunfold. apply point_eq; cbn [pe pn pu]; lra. Qed.
Lemma east_meets : meets east_ray (corners_box (square 1023 0)).
Proof.
  set (k := 5 / (1 + / 10 ^ 12)).
  assert (K2 : k * (1 + / 10 ^ 12) = 5) by (unfold k; field; lra).
  assert (K : 4 <= k <= 5) by (clearbody k; split; nra).
  assert (B : in_box (ray_at east_ray k) (corners_box (square 1023 0))).
  { clearbody k. intros f [<-|[<-|[<-|[]]]]; unfold ray_at, east_ray, square; cbn [nth corners_box map Rmin_list Rmax_list fold_left box_min box_max pe pn pu r_origin r_direction];
    eval_minmax; split; lra. }
  split; exists k; (split; [cbn [east_ray r_target_distance]; lra|exact B]).
Qed.
Lemma east_misses : forall e u, 0 <= e <= 3/2 -> 0 <= u -> ~ meets east_ray (corners_box (square e u)).
Proof.
  intros e u He Hu ((t & _ & B) & _).
  pose proof (B pe (or_introl eq_refl)) as B1. pose proof (B pu (or_intror (or_intror (or_introl eq_refl)))) as B2.
  unfold ray_at, east_ray, square in B1, B2. cbn [corners_box map Rmin_list Rmax_list fold_left box_min box_max pe pn pu r_origin r_direction] in B1, B2.
  revert B1 B2. eval_minmax; intros; nra.
Qed.

Theorem six_overlooked : forall sort fuel, sorts sort -> (9 <= fuel)%nat ->
  batch_blocked sort fuel six [east_ray] = Blocked [Some 0].
Proof.
  intros sort fuel HS HF. destruct (six_ends sort [east_ray] fuel HS HF) as (values & E). rewrite E. f_equal.
  apply (overlooked_free sort six [east_ray] fuel six_codes 1 0 values HS six_morton); auto.
  - lia.
  - vm_compute. auto.
  - vm_compute. auto.
  - exact not_three.
  - intros x [<-|[]]. apply east_sane.
  - intros r q [<-|[]] Q C.
    destruct q as [|[|[|q]]]; [apply east_misses; lra..|].
    exfalso. do 3 (destruct q as [|q]; [vm_compute in C; discriminate|]). cbn in Q. lia.
Qed.
