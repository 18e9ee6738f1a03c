(** C48-C51: losses, reduction per heliostat and regularizers. *)
From Coq Require Import List Arith Reals Lra Lia.
From Verif Require Import RealSums ModelField ModelVectors ProofsVectors ModelTransforms ModelLosses SpecLosses ProofsLosses.
Import ListNotations.
Local Open Scope R_scope.

(** C48. *)
Theorem C48_vector_loss : forall p g, length p = length g ->
  exists v, vector_loss p g = Ok v /\ 0 <= v /\ (v = 0 <-> p = g).
Proof. exact vector_all. Qed.
Print Assumptions C48_vector_loss.

Theorem C48_pixel_loss : forall p g, length p = length g -> 0 < Rsum g ->
  exists v, pixel_loss p g = Ok (Some v) /\ 0 <= v /\ (v = 0 <-> p = g).
Proof. exact pixel_all. Qed.
Print Assumptions C48_pixel_loss.

(** The Kullback-Leibler loss compares shares; its value is the divergence of the shares, each raised by the epsilon. *)
Theorem C48_kl_loss_partial : forall q p, length q = length p -> non_negative q -> non_negative p -> kl_eps <= Rsum q -> kl_eps <= Rsum p ->
  exists v, kl_loss q p = Ok (Some v) /\ 0 <= v /\ (v = 0 <-> shares q = shares p)
  /\ v = kullback_leibler (map (fun a => a + kl_eps) (shares p)) (map (fun a => a + kl_eps) (shares q)).
Proof. exact kl_shares. Qed.
Print Assumptions C48_kl_loss_partial.

Theorem C48_kl_scale : forall q p c d, 0 < c -> 0 < d -> length q = length p -> non_negative q -> non_negative p ->
  kl_eps <= Rsum q -> kl_eps <= c * Rsum q -> kl_eps <= Rsum p -> kl_eps <= d * Rsum p ->
  kl_loss (map (Rmult c) q) (map (Rmult d) p) = kl_loss q p.
Proof. exact kl_scaled. Qed.
Print Assumptions C48_kl_scale.

(** With a ground truth without any flux the loss of every prediction with flux is negative. *)
Theorem C48_kl_empty_truth_refuted : forall q, non_negative q -> 0 < Rsum q -> exists v, kl_loss q (repeat 0 (length q)) = Ok (Some v) /\ v < 0.
Proof. exact kl_negative. Qed.
Print Assumptions C48_kl_empty_truth_refuted.

Example C48_empty_case : non_negative [1; 0; 2] /\ 0 < Rsum [1; 0; 2].
Proof. split; [intros x [<-|[<-|[<-|[]]]]; lra|cbn; lra]. Qed.

Theorem C48_angle_loss : forall x y, / 10 ^ 12 <= norm (first_three x) -> / 10 ^ 12 <= norm (first_three y) ->
  angle_loss x y = angle_between (first_three x) (first_three y) /\ 0 <= angle_loss x y <= PI
  /\ (angle_loss x y = 0 <-> same_direction (first_three x) (first_three y)).
Proof. exact angle_all. Qed.
Print Assumptions C48_angle_loss.

Theorem C48_cosine_loss : forall x y, 0 <= cosine_loss x y <= 2
  /\ (/ 10 ^ 8 <= hnorm x -> / 10 ^ 8 <= hnorm y -> cosine_loss x y = 1 - hdot x y / (hnorm x * hnorm y))
  /\ (/ 10 ^ 8 <= hnorm x -> cosine_loss x x = 0).
Proof. exact cosine_all. Qed.
Print Assumptions C48_cosine_loss.

Example C48_case : vector_loss [1; 2; 5] [1; 4; 4] = Ok 5
  /\ pixel_loss [1; 3] [2; 2] = Ok (Some (1/2))
  /\ kl_loss [1; 3] [2; 6] = Ok (Some 0)
  /\ angle_loss (hv 3 0 0 0) (hv 0 2 0 0) = PI / 2
  /\ cosine_loss (hv 3 4 0 0) (hv 3 4 0 0) = 0.
Proof.
  assert (EP : 0 < kl_eps < 1) by (unfold kl_eps; lra).
  split; [|split; [|split; [|split]]].
  - unfold vector_loss, same_length, squared_error. cbn [length Nat.eqb combine map Rsum fold_right]. f_equal. lra.
  - unfold pixel_loss, same_length, squared_error, ModelActuators.div_opt. cbn [length Nat.eqb combine map Rsum fold_right].
    destruct Req_EM_T; [lra|]. do 2 f_equal. lra.
  - destruct (C48_kl_loss_partial [1; 3] [2; 6]) as (v & E & _ & Z & _); auto; try (intros x [<-|[<-|[]]]; lra); try (cbn [Rsum fold_right]; lra).
    rewrite E. do 2 f_equal. apply Z. unfold shares. cbn [map Rsum fold_right]. f_equal; [|f_equal]; field.
  - assert (N1 : norm (first_three (hv 3 0 0 0)) = 3).
    { unfold norm, first_three. vunfold. cbn [hv he hn hu]. replace (3 * 3 + 0 * 0 + 0 * 0) with (3 * 3) by ring. apply sqrt_square. lra. }
    assert (N2 : norm (first_three (hv 0 2 0 0)) = 2).
    { unfold norm, first_three. vunfold. cbn [hv he hn hu]. replace (0 * 0 + 2 * 2 + 0 * 0) with (2 * 2) by ring. apply sqrt_square. lra. }
    destruct (C48_angle_loss (hv 3 0 0 0) (hv 0 2 0 0)) as (-> & _); [rewrite N1; lra|rewrite N2; lra|].
    unfold angle_between. rewrite N1, N2. unfold first_three. vunfold. cbn [hv he hn hu]. replace ((3 * 0 + 0 * 2 + 0 * 0) / (3 * 2)) with 0 by field. apply acos_0.
  - apply C48_cosine_loss; [exact (hv 0 0 0 0)|]. unfold hnorm, hdot. cbn [hv he hn hu hw].
    replace (3 * 3 + 4 * 4 + 0 * 0 + 0 * 0) with (5 * 5) by ring. rewrite sqrt_square; lra.
Qed.

(** C49. Scaling prediction and ground truth scales the pixel loss by the same factor, so it does depend on the flux level. *)
Theorem C49_scale_refuted : forall p g v c, 0 < c -> pixel_loss p g = Ok (Some v) ->
  pixel_loss (map (Rmult c) p) (map (Rmult c) g) = Ok (Some (c * v)).
Proof. exact pixel_scaled. Qed.
Print Assumptions C49_scale_refuted.

Example C49_case : exists p g c v w, 0 < c /\ pixel_loss p g = Ok (Some v)
  /\ pixel_loss (map (Rmult c) p) (map (Rmult c) g) = Ok (Some w) /\ v <> w.
Proof. exact pixel_not_invariant. Qed.

(** C50. *)
Theorem C50_samples_per_heliostat : forall A loss k (reduction : list R -> A), (0 < k)%nat ->
  exists out, reduce_loss_per_sample loss k reduction = Ok out /\ length out = (length loss / k)%nat
  /\ (forall i, (i < length loss / k)%nat -> nth_error out i = Some (reduction (samples_of k i loss)) /\ length (samples_of k i loss) = k).
Proof. exact reduce_all. Qed.
Print Assumptions C50_samples_per_heliostat.

Theorem C50_nothing_dropped : forall loss n k, (0 < k)%nat -> length loss = (n * k)%nat ->
  exists rows, reduce_loss_per_sample loss k (fun r => r) = Ok rows /\ length rows = n /\ concat rows = loss.
Proof. exact reduce_complete. Qed.
Print Assumptions C50_nothing_dropped.

Example C50_case : reduce_loss_per_sample [1; 2; 3; 4; 5; 6] 2 Rsum = Ok [1 + (2 + 0); 3 + (4 + 0); 5 + (6 + 0)]
  /\ samples_of 2 1 [1; 2; 3; 4; 5; 6] = [3; 4].
Proof. split; reflexivity. Qed.

(** C51. *)
Theorem C51_smoothness : forall n m facets, (0 < n)%nat -> (0 < m)%nat ->
  exists v, smoothness n m facets = Some v /\ 0 <= v
  /\ (v = 0 <-> forall current original, In (current, original) facets -> shifted n m current original).
Proof. exact smoothness_all. Qed.
Print Assumptions C51_smoothness.

Theorem C51_ideal_surface : forall n m facets, (0 < n)%nat -> (0 < m)%nat ->
  exists v, ideal_surface n m facets = Some v /\ 0 <= v
  /\ (v = 0 <-> forall current original i j, In (current, original) facets -> (i < n)%nat -> (j < m)%nat -> current i j = original i j).
Proof. exact ideal_all. Qed.
Print Assumptions C51_ideal_surface.

Theorem C51_relative : forall n m facets (d : nat -> nat -> point),
  let moved := map (fun '(current, original) => (fun i j => vadd (current i j) (d i j), fun i j => vadd (original i j) (d i j))) facets in
  smoothness n m moved = smoothness n m facets /\ ideal_surface n m moved = ideal_surface n m facets.
Proof. exact regularizers_relative. Qed.
Print Assumptions C51_relative.

Theorem C51_shift : forall n m facets t,
  smoothness n m (map (fun '(current, original) => (fun i j => vadd (current i j) t, original)) facets) = smoothness n m facets.
Proof. exact smoothness_shift. Qed.
Print Assumptions C51_shift.

(** A facet of two by two control points with one corner lifted by 1. *)
Example C51_case :
  let original := fun i j => vec (INR i) (INR j) 0 in
  let lifted := fun i j => if (i + j =? 0)%nat then vec (INR i) (INR j) 1 else vec (INR i) (INR j) 0 in
  (exists v, ideal_surface 2 2 [(lifted, original)] = Some v /\ 0 < v)
  /\ (exists v, smoothness 2 2 [(lifted, original)] = Some v /\ 0 < v)
  /\ smoothness 2 2 [(fun i j => vadd (original i j) (vec 1 2 3), original)] = Some 0.
Proof.
  intros original lifted. split; [|split].
  - destruct (C51_ideal_surface 2 2 [(lifted, original)]) as (v & E & V & Z); try lia. exists v. split; auto.
    assert (v <> 0); [|lra]. intros H. assert (H' := proj1 Z H lifted original 0%nat 0%nat (or_introl eq_refl) ltac:(lia) ltac:(lia)). clear H. rename H' into H. apply (f_equal pu) in H. cbn in H. lra.
  - destruct (C51_smoothness 2 2 [(lifted, original)]) as (v & E & V & Z); try lia. exists v. split; auto.
    assert (v <> 0); [|lra]. intros H. destruct (proj1 Z H lifted original (or_introl eq_refl)) as (t & H').
    clear H. rename H' into H.
    pose proof (H 0%nat 0%nat ltac:(lia) ltac:(lia)) as H0. pose proof (H 1%nat 1%nat ltac:(lia) ltac:(lia)) as H1.
    apply (f_equal pu) in H0. apply (f_equal pu) in H1. cbn in H0, H1. lra.
  - destruct (C51_smoothness 2 2 [(fun i j => vadd (original i j) (vec 1 2 3), original)]) as (v & E & V & Z); try lia. rewrite E. f_equal. apply Z.
    intros c o [Q|[]]. inversion Q; subst. exists (vec 1 2 3). intros; auto.
Qed.
