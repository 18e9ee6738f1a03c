(** C23-C25, C71-C73: blocking. *)
From Coq Require Import List Arith ZArith Reals Lra Lia Permutation.
From Verif Require Import ModelField ModelVectors ModelLBVH SpecLBVH ProofsLBVHRefuted ModelBlocking SpecBlocking ProofsBlocking ProofsBlockingTracer ProofsCorners ProofsOwnMirror.
Import ListNotations.
Local Open Scope R_scope.

(** C23. *)
Theorem C23_soft_blocking_fraction : forall epsilon softness alpha offset origin direction ps,
  0 < epsilon -> 0 < alpha -> (forall p, In p ps -> independent (span_u p) (span_v p)) ->
  exists b, soft_mask epsilon softness alpha offset origin direction ps = Some b /\ 0 <= b < 1 /\ (b = 0 <-> ps = []).
Proof. exact soft_mask_fraction. Qed.
Print Assumptions C23_soft_blocking_fraction.

(** Considering more primitives strictly increases the value; the order does not matter. *)
Theorem C23_monotone : forall epsilon softness alpha offset origin direction ps extra qs,
  0 < epsilon -> 0 < alpha -> (forall p, In p qs -> independent (span_u p) (span_v p)) ->
  Permutation qs (ps ++ extra) ->
  exists b b', soft_mask epsilon softness alpha offset origin direction ps = Some b
    /\ soft_mask epsilon softness alpha offset origin direction qs = Some b' /\ b <= b' /\ (extra <> [] -> b < b').
Proof. exact soft_mask_monotone. Qed.
Print Assumptions C23_monotone.

(** Without the assumption the value may be undefined: a primitive shrunk to a point gives NaN for every ray. *)
Theorem C23_degenerate_not_a_number : forall epsilon softness alpha offset origin direction corner normal ps,
  soft_mask epsilon softness alpha offset origin direction
    ({| corner0 := corner; span_u := zero_point; span_v := zero_point; prim_normal := normal |} :: ps) = None.
Proof. exact soft_mask_degenerate. Qed.
Print Assumptions C23_degenerate_not_a_number.

Example C23_case : exists b, traced_mask example_ray [primitive_of_corners (square 0 0); primitive_of_corners (square 1023 0)] = Some b /\ 0 < b < 1.
Proof.
  destruct (C23_soft_blocking_fraction (/ 10 ^ 12) 1000 100 (5/100) (r_origin example_ray) (r_direction example_ray)
              [primitive_of_corners (square 0 0); primitive_of_corners (square 1023 0)]) as (b & B & I & Z); try lra.
  - intros p [<-|[<-|[]]]; apply (regular_independent (/ 10 ^ 12) {| pe := 0; pn := 0; pu := 1 |}); try lra; apply up_regular.
  - exists b. split; [exact B|]. assert (b <> 0) by (intros Q; apply Z in Q; discriminate). lra.
Qed.

(** C24. The full claim is false: the mask ignores the distance of the target, so a mirror lying wholly behind
    the target of a ray takes at least three quarters of its power as soon as another ray of the batch meets it. *)
Theorem C24_blocking_before_target_refuted : forall sort corners rays fuel codes lefts rights i r r' p t a b,
  sorts sort -> (p < List.length corners)%nat ->
  morton_codes (/ 10 ^ 6) (map centroid corners) = Ok codes ->
  child_arrays (fst (sort codes)) = Some (lefts, rights) ->
  reaches_all_once (List.length corners) (fun k => nth k lefts (-1)%Z) (fun k => nth k rights (-1)%Z) ->
  (forall x, In x rays -> sane_ray x) -> (2 * List.length corners - 1 <= fuel)%nat ->
  nth_error rays i = Some r -> (forall q, (q < List.length corners)%nat -> regular_for (/ 10 ^ 12) (r_direction r) (primitive_of_corners (nth q corners []))) ->
  crosses_at (r_origin r) (r_direction r) (primitive_of_corners (nth p corners [])) t a b -> 0 <= a <= 1 -> 0 <= b <= 1 ->
  5/100 <= t -> r_target_distance r < t ->
  In r' rays -> r_owner r' <> p -> meets r' (corners_box (nth p corners [])) ->
  exists values x, batch_blocked sort fuel corners rays = Blocked values /\ nth_error values i = Some (Some x) /\ 3/4 <= x.
Proof. exact behind_target_blocks_all. Qed.
Print Assumptions C24_blocking_before_target_refuted.

(** A batch of two rays, the second with all mirrors behind its target. *)
Example C24_behind_case : exists corners rays r,
  In r rays /\ (forall p, (p < List.length corners)%nat -> beyond_target r (primitive_of_corners (nth p corners [])))
  /\ forall sort, sorts sort -> exists values b,
     batch_blocked sort 9 corners rays = Blocked values /\ nth_error values 1 = Some (Some b)
     /\ nth_error rays 1 = Some r /\ 3/4 <= b.
Proof. exact behind_target_blocks. Qed.

(** What holds: the values depend only on primitives whose box some ray of another heliostat in the batch meets
    before its own target. *)
Theorem C24_unmet_primitives_partial : forall sort fuel corners rays values,
  sorts sort -> (forall r, In r rays -> sane_ray r) ->
  batch_blocked sort fuel corners rays = Blocked values ->
  exists found, (forall p, In p found -> (p < List.length corners)%nat /\
                   exists r, In r rays /\ r_owner r <> p /\ meets r (corners_box (nth p corners [])))
    /\ values = map (fun r => traced_mask r (map (fun p => primitive_of_corners (nth p corners [])) found)) rays.
Proof. exact blocked_depends. Qed.
Print Assumptions C24_unmet_primitives_partial.

(** The hypotheses are met by the batch of the refutation. *)
Example C24_case : forall sort, sorts sort -> exists values,
  batch_blocked sort 9 [square 0 0; square 1023 0] [example_ray; up_ray (-5) 1 1] = Blocked values
  /\ (forall r, In r [example_ray; up_ray (-5) 1 1] -> sane_ray r).
Proof.
  intros sort HS. assert (S : forall r, In r [example_ray; up_ray (-5) 1 1] -> sane_ray r).
  { intros r [<-|[<-|[]]]; [apply example_sane|apply up_sane]. }
  destruct (two_found sort _ HS S) as (found & F & _). unfold batch_blocked. rewrite F.
  destruct found; eexists; split; auto.
Qed.

(** C25. The full claim is false in two ways.  First, in all but the first group the skipped primitive belongs to
    a heliostat of another group (the position of the group in the field is not added). *)
Theorem C25_own_mirror_skipped_refuted : forall A (groups : list (blocking_group A)) k g i,
  (forall x, In x groups -> consistent_group x /\ no_repetition (g_mask x)) ->
  (1 <= k)%nat -> nth_error groups k = Some g -> (i < list_sum (g_mask g))%nat ->
  (exists first, nth_error groups 0 = Some first /\ g_horizontal first <> []) ->
  exists surfaces owner surface, blocking_surfaces groups = Ok surfaces /\ batch_owners (g_mask g) [i] = Ok [owner]
  /\ nth_error (g_active g) i = Some surface /\ nth_error surfaces (field_index groups k owner) = Some surface
  /\ (owner < field_index groups k owner)%nat.
Proof. exact owner_other_group. Qed.
Print Assumptions C25_own_mirror_skipped_refuted.

Example C25_skipped_case :
  let groups := [{| g_mask := [1]; g_horizontal := [10]; g_active := [11] |}; {| g_mask := [1]; g_horizontal := [20]; g_active := [21] |}]%nat in
  (forall x, In x groups -> consistent_group x /\ no_repetition (g_mask x))
  /\ blocking_surfaces groups = Ok [11; 21]%nat /\ batch_owners [1%nat] [0%nat] = Ok [0%nat] /\ field_index groups 1 0 = 1%nat.
Proof.
  split; [|repeat split; reflexivity]. intros x [<-|[<-|[]]]; (split; [split; reflexivity|intros m [<-|[]]; auto]).
Qed.

(** Second, the primitives found for the batch are applied to all its rays, so the own mirror of a ray is used
    against it when another ray meets that mirror. *)
Theorem C25_own_mirror_excluded_refuted : exists corners rays r, r_owner r = 0%nat
  /\ forall sort, sorts sort -> exists values b,
     batch_blocked sort 9 corners rays = Blocked values
     /\ nth_error rays 1 = Some r /\ nth_error values 1 = Some (Some b)
     /\ traced_mask r [primitive_of_corners (nth 0 corners [])] = Some b /\ 0 < b.
Proof. exact own_mirror_kept. Qed.
Print Assumptions C25_own_mirror_excluded_refuted.
(** In general: in every field whose hierarchy reaches each mirror once, the own mirror of a ray is applied to it as soon as a ray of another
    heliostat in the batch meets that mirror, and takes away at least what it would take away on its own. *)
Theorem C25_own_mirror_applied_refuted : forall sort corners rays fuel codes lefts rights i r r' p,
  sorts sort -> (p < List.length corners)%nat ->
  morton_codes (/ 10 ^ 6) (map centroid corners) = Ok codes -> child_arrays (fst (sort codes)) = Some (lefts, rights) ->
  reaches_all_once (List.length corners) (fun k => nth k lefts (-1)%Z) (fun k => nth k rights (-1)%Z) ->
  (forall c, In c corners -> independent (span_u (primitive_of_corners c)) (span_v (primitive_of_corners c))) ->
  (forall x, In x rays -> sane_ray x) -> (2 * List.length corners - 1 <= fuel)%nat ->
  nth_error rays i = Some r -> r_owner r = p ->
  In r' rays -> r_owner r' <> p -> meets r' (corners_box (nth p corners [])) ->
  exists values b own, batch_blocked sort fuel corners rays = Blocked values /\ nth_error values i = Some (Some b)
    /\ traced_mask r [primitive_of_corners (nth p corners [])] = Some own /\ 0 < own <= b.
Proof. exact own_mirror_applied. Qed.
Print Assumptions C25_own_mirror_applied_refuted.

(** What holds: in the first group, without repeated heliostats, the skipped primitive is the own one. *)
Theorem C25_first_group_partial : forall A (g : blocking_group A) groups batch,
  (forall x, In x (g :: groups) -> consistent_group x /\ no_repetition (g_mask x)) ->
  (forall i, In i batch -> (i < list_sum (g_mask g))%nat) ->
  exists surfaces owners, blocking_surfaces (g :: groups) = Ok surfaces /\ batch_owners (g_mask g) batch = Ok owners
    /\ List.length owners = List.length batch
    /\ forall k i o, nth_error batch k = Some i -> nth_error owners k = Some o ->
         nth_error surfaces o = nth_error (g_active g) i.
Proof. exact owner_first_group. Qed.
Print Assumptions C25_first_group_partial.

(** And the own mirror, where it is applied, takes at most 1e-13 from rays starting in its plane. *)
Theorem C25_own_mirror_negligible_partial : forall r p a b,
  regular_for (/ 10 ^ 12) (r_direction r) p -> crosses_at (r_origin r) (r_direction r) p 0 a b ->
  exists x, traced_mask r [p] = Some x /\ 0 < x <= / 10 ^ 13.
Proof. exact own_mirror_negligible. Qed.
Print Assumptions C25_own_mirror_negligible_partial.

Example C25_case : exists surfaces owners,
  blocking_surfaces [{| g_mask := [0; 1; 1]; g_horizontal := [10; 20; 30]; g_active := [21; 31] |}]%nat = Ok surfaces
  /\ batch_owners [0; 1; 1]%nat [1%nat] = Ok owners /\ nth_error surfaces (nth 0 owners 0%nat) = Some 31%nat.
Proof. exists [10; 21; 31]%nat, [2%nat]. split; [reflexivity|split; reflexivity]. Qed.
Example C25_negligible_case : exists x, traced_mask (up_ray 0 100 0) [primitive_of_corners (square 0 0)] = Some x /\ 0 < x <= / 10 ^ 13.
Proof.
  apply (C25_own_mirror_negligible_partial _ _ (1/2) (1/2)); [apply up_regular|]. apply up_crosses. lra.
Qed.

(** C71. *)
Theorem C71_blocking_surfaces : forall A (groups : list (blocking_group A)),
  (forall g, In g groups -> consistent_group g /\ no_repetition (g_mask g)) ->
  exists surfaces, blocking_surfaces groups = Ok surfaces
    /\ forall k g h, nth_error groups k = Some g -> (h < List.length (g_horizontal g))%nat ->
       nth_error surfaces (field_index groups k h)
       = if (nth h (g_mask g) 0 =? 1)%nat then nth_error (g_active g) (active_before (g_mask g) h)
         else nth_error (g_horizontal g) h.
Proof. exact blocking_surfaces_ok. Qed.
Print Assumptions C71_blocking_surfaces.

(** The documented use of a heliostat more than once makes the construction of the tracer fail, whatever else the field contains. *)
Theorem C71_repeated_heliostat_refuted : forall A (groups : list (blocking_group A)),
  (forall g, In g groups -> consistent_group g) -> (exists g, In g groups /\ ~ no_repetition (g_mask g)) ->
  blocking_surfaces groups = Err ShapeError.
Proof. exact repetition_fails. Qed.
Print Assumptions C71_repeated_heliostat_refuted.

Example C71_repeated_case : let g := {| g_mask := [2; 0]; g_horizontal := [10; 20]; g_active := [11; 11] |}%nat in
  consistent_group g /\ ~ no_repetition (g_mask g) /\ blocking_surfaces [g] = Err ShapeError.
Proof. split; [split; reflexivity|]. split; [|reflexivity]. intros N. specialize (N 2%nat (or_introl eq_refl)). lia. Qed.

Example C71_case : blocking_surfaces
  [{| g_mask := [0; 1; 1]; g_horizontal := [10; 20; 30]; g_active := [21; 31] |};
   {| g_mask := [0; 0]; g_horizontal := [40; 50]; g_active := [] |};
   {| g_mask := [1]; g_horizontal := [60]; g_active := [61] |}]%nat = Ok [10; 21; 31; 40; 50; 61]%nat.
Proof. reflexivity. Qed.

(** C72. A ray through a primitive, at least [m] (in units of the spans) away from its edges and at least
    [offset + m] from the ray's start, is blocked ... *)
Theorem C72_blocked_if_inside : forall epsilon softness alpha offset origin direction ps p t a b m,
  0 < epsilon -> 0 < softness -> 0 < alpha ->
  (forall q, In q ps -> regular_for epsilon direction q) -> In p ps ->
  crosses_at origin direction p t a b -> clearly_blocks offset m t a b ->
  exists x, soft_mask epsilon softness alpha offset origin direction ps = Some x
    /\ 1 - exp (- (alpha * sigmoid (softness * m) ^ 5)) <= x.
Proof. exact soft_mask_blocks. Qed.
Print Assumptions C72_blocked_if_inside.

(** ... and a ray that passes every primitive with a margin is not. *)
Theorem C72_free_if_outside : forall epsilon softness alpha offset origin direction ps m,
  0 < epsilon -> 0 < softness -> 0 < alpha ->
  (forall q, In q ps -> regular_for epsilon direction q
     /\ exists t a b, crosses_at origin direction q t a b /\ clearly_misses offset m t a b) ->
  exists x, soft_mask epsilon softness alpha offset origin direction ps = Some x
    /\ x <= alpha * INR (List.length ps) * exp (- (softness * m)).
Proof. exact soft_mask_misses. Qed.
Print Assumptions C72_free_if_outside.

(** Primitives behind the start of the ray never block, also when the ray is almost parallel to them. *)
Theorem C72_free_if_behind : forall epsilon softness alpha offset origin direction ps, 0 < epsilon -> 0 < softness -> 0 < alpha ->
  (forall q, In q ps -> independent (span_u q) (span_v q) /\ dot (span_u q) (prim_normal q) = 0 /\ dot (span_v q) (prim_normal q) = 0
     /\ exists t a b, crosses_at origin direction q t a b /\ t <= 0) ->
  exists x, soft_mask epsilon softness alpha offset origin direction ps = Some x
    /\ x <= alpha * INR (List.length ps) * exp (- (softness * offset)).
Proof. exact soft_mask_behind. Qed.
Print Assumptions C72_free_if_behind.

Example C72_case : exists x, traced_mask example_ray [primitive_of_corners (square 0 0); primitive_of_corners (square 1023 0)] = Some x
  /\ 1 - exp (- (100 * sigmoid (1000 * (1/4)) ^ 5)) <= x.
Proof.
  apply (C72_blocked_if_inside (/ 10 ^ 12) 1000 100 (5/100) (r_origin example_ray) (r_direction example_ray) _
           (primitive_of_corners (square 0 0)) 5 (1/2) (1/2) (1/4)); try lra.
  - intros q [<-|[<-|[]]]; apply up_regular.
  - left; auto.
  - apply (up_crosses (-5) 100 1). lra.
  - unfold clearly_blocks. lra.
Qed.
Example C72_free_case : exists x, traced_mask example_ray [primitive_of_corners (square 1023 0); primitive_of_corners (square 0 (-7))] = Some x
  /\ x <= 100 * INR 2 * exp (- (1000 * 2)).
Proof.
  apply (C72_free_if_outside (/ 10 ^ 12) 1000 100 (5/100) (r_origin example_ray) (r_direction example_ray)
           [primitive_of_corners (square 1023 0); primitive_of_corners (square 0 (-7))] 2); try lra.
  intros q [<-|[<-|[]]]; (split; [apply up_regular|]).
  - exists 5, (1/2 - 2 * 1023), (1/2). split; [apply (up_crosses (-5) 100 1); lra|]. right; left. lra.
  - exists (-2), (1/2), (1/2). split; [apply (up_crosses (-5) 100 1); lra|]. left. lra.
Qed.

Example C72_behind_case : exists x, traced_mask example_ray [primitive_of_corners (square 0 (-7))] = Some x /\ x <= 100 * INR 1 * exp (- (1000 * (5/100))).
Proof.
  apply (C72_free_if_behind (/ 10 ^ 12) 1000 100 (5/100) (r_origin example_ray) (r_direction example_ray) [primitive_of_corners (square 0 (-7))]); try lra.
  intros q [<-|[]]. split; [|split; [|split]]; try apply (up_regular _ _ : regular_for (/ 10 ^ 12) (r_direction example_ray) _).
  - eapply regular_independent; [|apply up_regular]. lra.
  - exists (-2), (1/2), (1/2). split; [apply (up_crosses (-5) 100 1); lra|lra].
Qed.

(** C73. *)
Theorem C73_corner_selection : forall side west east south north,
  (0 < side)%nat -> increasing side west -> increasing side east -> increasing side south -> increasing side north ->
  west (side - 1)%nat < east 0%nat -> south (side - 1)%nat < north 0%nat ->
  let surface := four_facets side west east south north in
  corner_indices_by_distance surface = corner_indices_by_index (List.length surface)
  /\ map (nth_error surface) (corner_indices_by_index (List.length surface))
     = [Some {| pe := west 0%nat; pn := south 0%nat; pu := 0 |}; Some {| pe := west 0%nat; pn := north (side - 1)%nat; pu := 0 |};
        Some {| pe := east (side - 1)%nat; pn := north (side - 1)%nat; pu := 0 |}; Some {| pe := east (side - 1)%nat; pn := south 0%nat; pu := 0 |}].
Proof. exact corners_agree. Qed.
Print Assumptions C73_corner_selection.

(** The blocking rectangle is exactly what its four corners span, and its normal is perpendicular to it. *)
Theorem C73_rectangle : forall c0 c1 c2 c3, vadd c0 c2 = vadd c1 c3 ->
  let p := primitive_of_corners [c0; c1; c2; c3] in
  (forall x, (exists a b, 0 <= a <= 1 /\ 0 <= b <= 1 /\ x = vadd (corner0 p) (vadd (smul a (span_u p)) (smul b (span_v p))))
     <-> (exists w0 w1 w2 w3, (0 <= w0 /\ 0 <= w1 /\ 0 <= w2 /\ 0 <= w3 /\ w0 + w1 + w2 + w3 = 1)
          /\ x = vadd (vadd (smul w0 c0) (smul w1 c1)) (vadd (smul w2 c2) (smul w3 c3))))
  /\ (/ 10 ^ 12 <= norm (cross (vsub c1 c0) (vsub c3 c0)) ->
      dot (prim_normal p) (prim_normal p) = 1 /\ dot (prim_normal p) (vsub c1 c0) = 0 /\ dot (prim_normal p) (vsub c3 c0) = 0).
Proof. exact rectangle_of_corners. Qed.
Print Assumptions C73_rectangle.

(** Facets of 3 x 3 points, 2 m apart. *)
Example C73_case : let surface := four_facets 3 (fun i => INR i - 5) (fun i => INR i + 1) (fun i => INR i - 5) (fun i => INR i + 1) in
  corner_indices_by_distance surface = [18; 2; 17; 33]%nat.
Proof.
  intros surface. destruct (C73_corner_selection 3 (fun i => INR i - 5) (fun i => INR i + 1) (fun i => INR i - 5) (fun i => INR i + 1)) as (E & _);
    try (intros i j H; pose proof (lt_INR i j ltac:(lia)); lra); try (simpl; lra); [lia|].
  unfold surface. rewrite E. reflexivity.
Qed.
