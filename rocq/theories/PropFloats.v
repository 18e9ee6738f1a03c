(** C112-C114: counts, indices and weights in floating point. *)
From Coq Require Import List Arith ZArith Reals Lra Lia.
From Flocq Require Import Core.
From Verif Require Import RealSums ModelBlocking ModelFloats ProofsFloats ProofsSplattingFloats.
Import ListNotations.
Local Open Scope R_scope.

(** C112. The number of samples per heliostat is the integer quotient, ... *)
Theorem C112_samples : forall total heliostats, (0 < heliostats)%nat -> (Z.of_nat total + Z.of_nat heliostats <= 2 ^ 53)%Z ->
  samples_per_heliostat total heliostats = Z.of_nat (total / heliostats).
Proof. exact samples_exact. Qed.
Print Assumptions C112_samples.

(** ... a fraction below one never takes all samples for testing, ... *)
Theorem C112_fraction : forall samples fraction, is_binary64 fraction -> 0 <= fraction < 1 -> (1 <= samples)%nat -> (Z.of_nat samples <= 2 ^ 53)%Z ->
  (0 <= test_samples samples fraction < Z.of_nat samples)%Z.
Proof. exact fraction_below. Qed.
Print Assumptions C112_fraction.

(** ... the number of surface points per facet and direction is the integer square root of the quotient, ... *)
Theorem C112_points : forall points facets, (0 < facets)%nat -> (16 * (Z.of_nat points + Z.of_nat facets) <= 2 ^ 52)%Z ->
  points_per_facet_and_direction points facets = Z.of_nat (Nat.sqrt (points / facets)).
Proof. exact points_exact. Qed.
Print Assumptions C112_points.

(** ... and the corner indices of a mirror with four facets of [n] times [n] points are the ones of the model of C72 and C73. *)
Theorem C112_corners : forall n, (1 <= n)%nat -> (Z.of_nat n <= 2 ^ 24)%Z ->
  corner_indices_float (4 * (n * n)) = map Z.of_nat (corner_indices_by_index (4 * (n * n))).
Proof. exact corners_index. Qed.
Print Assumptions C112_corners.

(** Half of seven samples for testing; 2500 points on four facets. *)
Example C112_case : is_binary64 (/ 2) /\ (0 <= test_samples 7 (/ 2) < 7)%Z /\ samples_per_heliostat 21 3 = 7%Z /\ points_per_facet_and_direction 2500 4 = 25%Z
  /\ corner_indices_float (4 * (3 * 3)) = [18; 2; 17; 33]%Z.
Proof.
  assert (H : is_binary64 (/ 2)). { unfold is_binary64. change (/ 2) with (bpow radix2 (-1)). apply generic_format_FLT_bpow; [reflexivity|lia]. }
  split; auto. split; [apply (C112_fraction 7 (/ 2)); auto; try lia; lra|]. split; [apply (C112_samples 21 3); lia|].
  split; [|rewrite C112_corners by lia; reflexivity]. rewrite C112_points by lia. reflexivity.
Qed.

(** C113. Every single precision number from zero up to but excluding one has a knot span of the surface, ... *)
Theorem C113_spans : forall n p x, (p < n)%nat -> (Z.of_nat (n - p) <= 2 ^ 24)%Z -> is_binary32 x -> 0 <= x < 1 ->
  (Z.of_nat p <= uniform_span_float n p x < Z.of_nat n)%Z.
Proof. exact span_valid. Qed.
Print Assumptions C113_spans.

(** ... so the points of every evaluation grid have one, for every number of points and control points and every degree. *)
Theorem C113_grid : forall steps i n p, (i < steps)%nat -> (Z.of_nat steps <= 2 ^ 24)%Z -> (p < n)%nat -> (Z.of_nat (n - p) <= 2 ^ 24)%Z ->
  (Z.of_nat p <= uniform_span_float n p (linspace_float grid_first grid_last steps i) < Z.of_nat n)%Z.
Proof. exact grid_spans. Qed.
Print Assumptions C113_grid.

(** The margin of the grid matters: 1e-9 instead of 1e-7 would round to one, which has no span. *)
Theorem C113_margin : forall n p, (p < n)%nat -> (Z.of_nat (n - p) <= 2 ^ 24)%Z -> uniform_span_float n p (binary32 (1 - / 10 ^ 9)) = Z.of_nat n.
Proof. exact one_invalid. Qed.
Print Assumptions C113_margin.

(** Ten control points of degree three and fifty points in a direction; the parameter three quarters of seven spans. *)
Example C113_case : (3 <= uniform_span_float 10 3 (linspace_float grid_first grid_last 50 49) < 10)%Z /\ uniform_span_float 10 3 (3 / 4) = 8%Z.
Proof.
  split; [apply (C113_grid 50 49 10 3); lia|]. unfold uniform_span_float.
  replace (binary32 (3 / 4 * INR (10 - 3))) with (21 / 4).
  - replace (Zfloor (21 / 4)) with 5%Z; [reflexivity|]. symmetry. apply Zfloor_imp. cbn. lra.
  - replace (3 / 4 * INR (10 - 3)) with (F2R (Float radix2 21 (-2))) by (unfold F2R; cbn; lra). rewrite exact32; [unfold F2R; cbn; lra|].
    apply generic_format_FLT. apply (FLT_spec _ _ _ _ (Float radix2 21 (-2))); cbn; [reflexivity|lia|lia].
Qed.

(** C114. In single precision, the weights of a ray are between zero and one; from the second pixel on they add up to exactly one in
    both directions. *)
Theorem C114_weights : forall x, is_binary32 x -> 0 <= x -> x < IZR (2 ^ 23) ->
  0 <= low_weight x <= 1 /\ 0 <= high_weight x <= 1 /\ is_binary32 (low_weight x) /\ is_binary32 (high_weight x)
  /\ (1 <= x -> low_weight x + high_weight x = 1) /\ Rabs (low_weight x + high_weight x - 1) <= 2 * u32.
Proof. exact weights32. Qed.
Print Assumptions C114_weights.

(** No pixel loses intensity to a ray, and the four pixels of a ray share its intensity up to one part in two million. *)
Theorem C114_intensities : forall e u intensity, is_binary32 e -> is_binary32 u -> 0 <= e < IZR (2 ^ 23) -> 0 <= u < IZR (2 ^ 23) -> 0 <= intensity ->
  (forall w, In w (pixel_intensities e u intensity) -> 0 <= w)
  /\ Rabs (Rsum (pixel_intensities e u intensity) - intensity) <= / 2 ^ 21 * intensity + / 2 ^ 140 * (intensity + 1).
Proof. exact splatting32. Qed.
Print Assumptions C114_intensities.

(** The coordinates 11/4 and 1/2. *)
Example C114_case : is_binary32 (11 / 4) /\ is_binary32 (/ 2) /\ low_weight (11 / 4) = / 4 /\ high_weight (11 / 4) = 3 / 4.
Proof.
  assert (F : forall m ex, (Z.abs m < 2 ^ 24)%Z -> (-149 <= ex)%Z -> is_binary32 (F2R (Float radix2 m ex))).
  { intros m ex M E. apply generic_format_FLT. apply (FLT_spec _ _ _ _ (Float radix2 m ex)); cbn; auto. }
  assert (T : Ztrunc (11 / 4) = 2%Z) by (rewrite Ztrunc_floor by lra; apply Zfloor_imp; cbn; lra).
  split; [replace (11 / 4) with (F2R (Float radix2 11 (-2))) by (unfold F2R; cbn; lra); apply F; lia|].
  split; [replace (/ 2) with (F2R (Float radix2 1 (-1))) by (unfold F2R; cbn; lra); apply F; lia|].
  unfold low_weight, high_weight. rewrite T. split; rewrite exact32.
  - cbn. lra.
  - replace (IZR (2 + 1) - 11 / 4) with (F2R (Float radix2 1 (-2))) by (unfold F2R; cbn; lra). apply F; lia.
  - lra.
  - replace (11 / 4 - 2) with (F2R (Float radix2 3 (-2))) by (unfold F2R; cbn; lra). apply F; lia.
Qed.
