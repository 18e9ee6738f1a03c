(** Proofs about generated surfaces (C90). *)
From Coq Require Import List Arith ZArith Reals Bool Lra Lia Psatz.
From Verif Require Import RealSums ModelField ModelVectors ProofsVectors ModelTransforms ModelActuators ModelLBVH ModelNurbs ModelCoordinates ModelTraining SpecIntersections
  SpecTransforms SpecNurbs ProofsTransforms ProofsBasis ProofsKnots ProofsSurface ProofsSplineMonotone ModelSurfaceGenerator SpecSurfaceGenerator.
Import ListNotations.
Local Open Scope R_scope.

Lemma norm_is : forall v x, 0 <= x -> dot v v = x * x -> norm v = x.
Proof. intros v x X E. unfold norm. rewrite E. apply sqrt_square. auto. Qed.

(** ** Upright flat nets *)
Lemma grid_sum_u : forall n m f g e, Rsum (map g (seq 0 m)) = 1 -> grid_sum n m f g (fun a _ => e a) = Rsum (map (fun a => e a * f a) (seq 0 n)).
Proof.
  intros n m f g e G. unfold grid_sum. apply Rsum_map_ext. intros a _.
  rewrite (Rsum_map_ext _ (fun b => f a * e a * g b)) by (intros; ring). rewrite Rsum_map_scal, G. ring.
Qed.
Lemma grid_sum_u0 : forall n m f g e, Rsum (map g (seq 0 m)) = 0 -> grid_sum n m f g (fun a _ => e a) = 0.
Proof.
  intros n m f g e G. unfold grid_sum. apply Rsum_map_zero. intros a _.
  rewrite (Rsum_map_ext _ (fun b => f a * e a * g b)) by (intros; ring). rewrite Rsum_map_scal, G. ring.
Qed.
Lemma tensor_grid : forall n m N M e f c, (forall a b, (a < n)%nat -> (b < m)%nat -> c a b = vec (e a) (f b) 0) ->
  tensor n m N M c = vec (grid_sum n m N M (fun a _ => e a)) (grid_sum m n M N (fun b _ => f b)) 0.
Proof.
  intros n m N M e f c C. rewrite (grid_sum_swap m n M N). unfold tensor, grid_sum. apply point_eq; cbn [pe pn pu vec].
  - apply Rsum_map_ext. intros a A. apply in_seq in A. apply Rsum_map_ext. intros b B. apply in_seq in B. rewrite C by lia. auto.
  - apply Rsum_map_ext. intros a A. apply in_seq in A. apply Rsum_map_ext. intros b B. apply in_seq in B. rewrite C by lia. auto.
  - apply Rsum_map_zero. intros a A. apply in_seq in A. apply Rsum_map_zero. intros b B. apply in_seq in B. rewrite C by lia. cbn [pu vec]. ring.
Qed.
Lemma grid_evaluate : forall c p q e f d1 d2 x y, fits c p q -> 0 <= x < 1 -> 0 <= y < 1 ->
  (forall a b, (a < n_u c)%nat -> (b < n_v c)%nat -> control c a b = vec (e a) (f b) 0) ->
  0 <= d1 -> 0 <= d2 -> (forall a, (S a < n_u c)%nat -> d1 <= e (S a) - e a) -> (forall b, (S b < n_v c)%nat -> d2 <= f (S b) - f b) ->
  / 10 ^ 12 <= d1 * d2 ->
  evaluate c p q x y = Some (as_point (vec (curve (n_u c) p e x) (curve (n_v c) q f y) 0), as_direction (vec 0 0 1)).
Proof.
  intros c p q e f d1 d2 x y (FU & FV) X Y C D1 D2 E1 E2 DD. rewrite (evaluate_textbook c p q x y (conj FU FV) X Y).
  destruct (weights _ _ _ FU X) as (_ & W1 & W1'). destruct (weights _ _ _ FV Y) as (_ & W2 & W2').
  rewrite !(tensor_grid _ _ _ _ e f) by auto. 
  rewrite (grid_sum_u (n_u c) (n_v c) _ _ e W2), (grid_sum_u (n_v c) (n_u c) _ _ f W1).
  rewrite (grid_sum_u (n_u c) (n_v c) _ _ e W2), (grid_sum_u (n_v c) (n_u c) _ _ f W1).
  rewrite (grid_sum_u0 (n_u c) (n_v c) _ _ e W2'), (grid_sum_u0 (n_v c) (n_u c) _ _ f W1').
  fold (curve (n_u c) p e x). fold (curve (n_v c) q f y). fold (slope_of_curve (n_u c) p e x). fold (slope_of_curve (n_v c) q f y).
  pose proof (slope_bound (n_u c) p e FU d1 x X D1 E1) as S1. pose proof (slope_bound (n_v c) q f FV d2 y Y D2 E2) as S2.
  assert (P1 : 1 <= INR p) by (apply (le_INR 1); lia). assert (P2 : 1 <= INR q) by (apply (le_INR 1); lia).
  set (s1 := slope_of_curve (n_u c) p e x) in *. set (s2 := slope_of_curve (n_v c) q f y) in *.
  assert (G1 : d1 <= s1) by nra. assert (G2 : d2 <= s2) by nra. assert (G : / 10 ^ 12 <= s1 * s2) by nra.
  do 3 f_equal.
  replace (cross (vec s1 0 0) (vec 0 s2 0)) with (vec 0 0 (s1 * s2)) by (apply point_eq; vunfold; ring).
  assert (N : norm (vec 0 0 (s1 * s2)) = s1 * s2) by (apply norm_is; [nra|vunfold; ring]).
  unfold normalize. rewrite normalize_eps_long by (rewrite N; auto). rewrite N. apply point_eq; vunfold; try ring. apply Rinv_l. intros Z. rewrite Z in G. pose proof (Rinv_0_lt_compat (10 ^ 12) ltac:(lra)). lra.
Qed.
Lemma curve_bounds : forall n p e x lo hi, (1 <= p < n)%nat -> 0 <= x < 1 -> (forall a, (a < n)%nat -> lo <= e a <= hi) -> lo <= curve n p e x <= hi.
Proof.
  intros n p e x lo hi P X E. destruct (weights n p x P X) as (W0 & W1 & _). unfold curve.
  split; [rewrite <- (Rmult_1_r lo), <- W1, <- Rsum_map_scal|rewrite <- (Rmult_1_r hi), <- W1, <- Rsum_map_scal];
    apply Rsum_map_le; intros a A; apply in_seq in A; specialize (W0 a ltac:(lia)); specialize (E a ltac:(lia)); nra.
Qed.
Lemma curve_scaled : forall n p k e x, curve n p (fun a => k * e a) x = k * curve n p e x.
Proof. intros. unfold curve. rewrite <- Rsum_map_scal. apply Rsum_map_ext. intros. ring. Qed.

(** ** Placement of facets with orthogonal canting vectors *)
Section Orthogonal.
Variables (c_e c_n : point).
Hypothesis E : / 10 ^ 12 <= norm c_e.
Hypothesis N : / 10 ^ 8 <= norm c_n.
Hypothesis O : dot c_e c_n = 0.
Lemma orthogonal_cross : norm (cross c_e c_n) = norm c_e * norm c_n.
Proof.
  apply norm_is; [apply Rmult_le_pos; apply norm_nonneg|]. rewrite <- gram, O.
  rewrite <- !norm_sq. ring.
Qed.
Lemma orthogonal_wide : / 10 ^ 8 * norm c_e <= norm (cross c_e c_n).
Proof. rewrite orthogonal_cross. nra. Qed.
Lemma canting_axes : forall a b h w, perform_canting false c_e c_n (hv a b h w)
  = let p := vadd (smul (a / norm c_e) c_e) (vadd (smul (b / norm c_n) c_n) (smul h (rectangle_normal c_e c_n))) in hv (pe p) (pn p) (pu p) w.
Proof.
  intros a b h w. cbv zeta.
  assert (NE : 0 < norm c_e) by (pose proof (Rinv_0_lt_compat (10 ^ 12) ltac:(lra)); lra).
  assert (NN : 0 < norm c_n) by (pose proof (Rinv_0_lt_compat (10 ^ 8) ltac:(lra)); lra).
  assert (E1 : normalize c_e = smul (/ norm c_e) c_e) by (apply normalize_eps_long; auto).
  assert (C1 : cross (smul (/ norm c_e) c_e) c_n = smul (/ norm c_e) (cross c_e c_n)) by vring.
  assert (N1 : norm (cross (normalize c_e) c_n) = norm c_n).
  { rewrite E1, C1. rewrite norm_smul, Rabs_pos_eq by (left; apply Rinv_0_lt_compat; auto). rewrite orthogonal_cross. field. lra. }
  unfold perform_canting. rewrite vapply_mtr.
  rewrite canting_matrix_eq; [|auto|rewrite N1; auto].
  rewrite (normalize_eps_long (/ 10 ^ 8)) by (rewrite N1; auto). rewrite N1, E1, C1.
  unfold rectangle_normal. rewrite orthogonal_cross.
  assert (CR : cross (smul (/ norm c_n) (smul (/ norm c_e) (cross c_e c_n))) (smul (/ norm c_e) c_e) = smul (/ norm c_n) c_n).
  { assert (T : cross (cross c_e c_n) c_e = smul (norm c_e * norm c_e) c_n).
    { transitivity (vsub (smul (dot c_e c_e) c_n) (smul (dot c_e c_n) c_e)); [vring|]. rewrite O, <- norm_sq. vring. }
    transitivity (smul (/ norm c_n * / norm c_e * / norm c_e) (cross (cross c_e c_n) c_e)); [vring|]. rewrite T.
    apply point_eq; vunfold; field; lra. }
  rewrite CR. set (ie := / norm c_e). set (i_n := / norm c_n). 
  replace (/ (norm c_e * norm c_n)) with (i_n * ie) by (unfold i_n, ie; field; lra).
  apply hvec_eq; henu; cbn [pe pn pu he hn hu hw hv vadd smul vec]; unfold Rdiv; fold ie; fold i_n; ring.
Qed.
End Orthogonal.

(** ** Rows *)
Lemma map_res_at : forall {A B} (f : A -> res B) l ys, map_res f l = Ok ys -> List.length ys = List.length l
  /\ forall k x, nth_error l k = Some x -> exists y, nth_error ys k = Some y /\ f x = Ok y.
Proof.
  intros A B f l. induction l as [|a l IH]; intros ys E; cbn [map_res] in E.
  - injection E as <-. split; auto. intros k x Q. destruct k; discriminate.
  - destruct (f a) as [b|] eqn:FA; [|discriminate]. cbn [bind] in E. destruct (map_res f l) as [bs|] eqn:FL; [|discriminate]. cbn [bind] in E.
    injection E as <-. destruct (IH bs eq_refl) as (L & Q). split; [cbn; auto|].
    intros [|k] x N; cbn in *; [injection N as <-; eauto|eauto].
Qed.
Lemma collect_at : forall {A B} (f : A -> option B) l ys, collect (map f l) = Some ys -> length ys = length l
  /\ forall k x, nth_error l k = Some x -> exists y, nth_error ys k = Some y /\ f x = Some y.
Proof.
  intros A B f l. induction l as [|a l IH]; intros ys E; cbn [map collect] in E.
  - injection E as <-. split; auto. intros k x Q. destruct k; discriminate.
  - destruct (f a) as [b|] eqn:FA; [|discriminate]. cbn [obind] in E. destruct (collect (map f l)) as [bs|] eqn:FL; [|discriminate]. cbn [obind] in E.
    injection E as <-. destruct (IH bs eq_refl) as (L & Q). split; [cbn; auto|].
    intros [|k] x N; cbn in *; [injection N as <-; eauto|eauto].
Qed.
Lemma seq_at : forall n a k, (k < n)%nat -> nth_error (seq a n) k = Some (a + k)%nat.
Proof.
  induction n as [|n IH]; intros a k K; [lia|]. destruct k as [|k]; cbn [seq nth_error]; [f_equal; lia|]. rewrite IH by lia. f_equal. lia.
Qed.
Lemma blocks_at : forall {A} (f : nat -> nat -> A) m l j k i, nth_error l j = Some i -> (k < m)%nat ->
  nth_error (flat_map (fun i => map (f i) (seq 0 m)) l) (j * m + k) = Some (f i k).
Proof.
  intros A f m l. induction l as [|x l IH]; intros j k i J K; [destruct j; discriminate|]. cbn [flat_map].
  destruct j as [|j]; cbn [nth_error] in J.
  - injection J as <-. cbn [Nat.mul Nat.add]. rewrite nth_error_app1 by (rewrite map_length, seq_length; auto).
    rewrite (map_nth_error (f x) k (seq 0 m) (seq_at m 0 k K)). auto.
  - rewrite nth_error_app2 by (rewrite map_length, seq_length; cbn; lia). rewrite map_length, seq_length.
    replace (S j * m + k - m)%nat with (j * m + k)%nat by (cbn; lia). auto.
Qed.
Lemma grid_at : forall eps n m j k, (j < n)%nat -> (k < m)%nat ->
  nth_error (evaluation_grid eps n m) (j * m + k) = Some (linspace eps (1 - eps) n j, linspace eps (1 - eps) m k).
Proof.
  intros eps n m j k J K. unfold evaluation_grid.
  apply (blocks_at (fun i j => (linspace eps (1 - eps) n i, linspace eps (1 - eps) m j)) m (seq 0 n) j k j); auto.
  rewrite seq_at by auto. auto.
Qed.
Lemma linspace_increasing : forall a b n i j, a < b -> (i < j < n)%nat -> linspace a b n i < linspace a b n j.
Proof.
  intros a b n i j AB IJ. unfold linspace. destruct (Nat.leb_spec n 1); [lia|]. apply Rplus_lt_compat_l.
  assert (0 < INR (n - 1)) by (apply lt_0_INR; lia). unfold Rdiv. apply Rmult_lt_compat_r; [apply Rinv_0_lt_compat; auto|].
  apply Rmult_lt_compat_l; [lra|apply lt_INR; lia].
Qed.
Lemma linspace_step : forall a b n i, (2 <= n)%nat -> linspace a b n (S i) - linspace a b n i = (b - a) / INR (n - 1).
Proof.
  intros a b n i N. unfold linspace. destruct (Nat.leb_spec n 1); [lia|]. rewrite S_INR. field. apply not_0_INR. lia.
Qed.

(** ** Ideal facets *)
Definition unit_curve (n p : nat) : R -> R := curve n p (fun i => - 1 + 2 * linspace 0 1 n i).
Lemma unit_curve_bounds : forall n p x, (1 <= p < n)%nat -> 0 <= x < 1 -> - 1 <= unit_curve n p x <= 1.
Proof.
  intros n p x P X. apply curve_bounds; auto. intros a A. pose proof (linspace_bounds 0 1 n a ltac:(lra) A). lra.
Qed.
Lemma unit_curve_increasing : forall n p x y, (1 <= p < n)%nat -> 0 <= x -> x < y -> y < 1 -> unit_curve n p x < unit_curve n p y.
Proof.
  intros n p x y P X XY Y. apply (curve_increasing n p _ P x y (2 / INR (n - 1))); auto.
  - apply Rdiv_lt_0_compat; [lra|apply lt_0_INR; lia].
  - intros a A. pose proof (linspace_step 0 1 n a ltac:(lia)) as LS. unfold Rdiv in *. lra.
Qed.
Lemma flat_net_evaluate : forall c n_u' n_v' L1 L2 p q x y, n_u c = n_u' -> n_v c = n_v' -> (1 <= p < n_u')%nat -> (1 <= q < n_v')%nat ->
  (forall i j, (i < n_u')%nat -> (j < n_v')%nat -> control c i j = vec (- L1 + 2 * L1 * linspace 0 1 n_u' i) (- L2 + 2 * L2 * linspace 0 1 n_v' j) 0) ->
  0 <= L1 -> 0 <= L2 -> INR (n_u' - 1) * INR (n_v' - 1) <= 4 * 10 ^ 12 * (L1 * L2) -> 0 <= x < 1 -> 0 <= y < 1 ->
  evaluate c p q x y = Some (as_point (vec (L1 * unit_curve n_u' p x) (L2 * unit_curve n_v' q y) 0), as_direction (vec 0 0 1)).
Proof.
  intros c a b L1 L2 p q x y EA EB PA PB C H1 H2 H X Y. subst a b.
  assert (N1 : 0 < INR (n_u c - 1)) by (apply lt_0_INR; lia). assert (N2 : 0 < INR (n_v c - 1)) by (apply lt_0_INR; lia).
  rewrite (grid_evaluate c p q (fun i => L1 * (- 1 + 2 * linspace 0 1 (n_u c) i)) (fun j => L2 * (- 1 + 2 * linspace 0 1 (n_v c) j))
    (2 * L1 / INR (n_u c - 1)) (2 * L2 / INR (n_v c - 1)) x y).
  - rewrite !curve_scaled. reflexivity.
  - split; auto.
  - auto.
  - auto.
  - intros i j I J. rewrite C by auto. apply point_eq; cbn [pe pn pu vec]; ring.
  - apply Rmult_le_pos; [lra|left; apply Rinv_0_lt_compat; auto].
  - apply Rmult_le_pos; [lra|left; apply Rinv_0_lt_compat; auto].
  - intros i I. pose proof (linspace_step 0 1 (n_u c) i ltac:(lia)) as LS.
    replace (L1 * (- 1 + 2 * linspace 0 1 (n_u c) (S i)) - L1 * (- 1 + 2 * linspace 0 1 (n_u c) i))
      with (2 * L1 * (linspace 0 1 (n_u c) (S i) - linspace 0 1 (n_u c) i)) by ring. rewrite LS. unfold Rdiv. lra.
  - intros i I. pose proof (linspace_step 0 1 (n_v c) i ltac:(lia)) as LS.
    replace (L2 * (- 1 + 2 * linspace 0 1 (n_v c) (S i)) - L2 * (- 1 + 2 * linspace 0 1 (n_v c) i))
      with (2 * L2 * (linspace 0 1 (n_v c) (S i) - linspace 0 1 (n_v c) i)) by ring. rewrite LS. unfold Rdiv. lra.
  - replace (2 * L1 / INR (n_u c - 1) * (2 * L2 / INR (n_v c - 1))) with (4 * (L1 * L2) / (INR (n_u c - 1) * INR (n_v c - 1))) by (field; lra).
    apply (Rmult_le_reg_r (INR (n_u c - 1) * INR (n_v c - 1))); [nra|].
    unfold Rdiv. rewrite (Rmult_assoc (4 * (L1 * L2))), Rinv_l by nra.
    apply (Rmult_le_reg_l (10 ^ 12)); [lra|]. rewrite <- !Rmult_assoc, Rinv_r by lra. lra.
Qed.
Theorem ideal_facets : forall n_u n_v p q cantings translations facets n_e n_n, (1 <= p < n_u)%nat -> (1 <= q < n_v)%nat ->
  (forall c_e c_n, In (c_e, c_n) cantings -> proper_canting n_u n_v c_e c_n) -> (forall t, In t translations -> hw t = 0) ->
  ideal_surface n_u n_v cantings translations = Ok facets ->
  exists rows (a b : nat -> R), surface_points_and_normals p q facets n_e n_n = Some rows
    /\ length rows = length translations
    /\ (forall j, (j < n_e)%nat -> - 1 <= a j <= 1) /\ (forall k, (k < n_n)%nat -> - 1 <= b k <= 1)
    /\ (forall j j', (j < j' < n_e)%nat -> a j < a j') /\ (forall k k', (k < k' < n_n)%nat -> b k < b k')
    /\ forall i c_e c_n t, nth_error cantings i = Some (c_e, c_n) -> nth_error translations i = Some t ->
       exists row, nth_error rows i = Some row /\ length row = (n_e * n_n)%nat
       /\ forall j k, (j < n_e)%nat -> (k < n_n)%nat ->
          nth_error row (j * n_n + k) = Some (as_point (rectangle_point t c_e c_n (a j) (b k)), as_direction (rectangle_normal c_e c_n)).
Proof.
  intros n_u0 n_v0 p q cantings translations facets n_e n_n PU PV C T E.
  destruct (map_res_at _ _ _ E) as (LF & FAT). rewrite seq_length in LF.
  assert (FACET : forall i f, nth_error facets i = Some f -> exists c_e c_n t, nth_error cantings i = Some (c_e, c_n) /\ nth_error translations i = Some t
    /\ f = (planar_net n_u0 n_v0 (norm c_e) (norm c_n), (c_e, c_n, t))).
  { intros i f NF. assert (I : (i < length translations)%nat) by (rewrite <- LF; apply nth_error_Some; congruence).
    destruct (FAT i i) as (y & NY & FY); [rewrite seq_at; auto|]. assert (y = f) by congruence. subst y.
    unfold planar_control_points in FY. rewrite nth_error_map in FY.
    destruct (nth_error cantings i) as [[c_e c_n]|]; [|discriminate]. cbn [option_map] in FY.
    destruct (nth_error translations i) as [t|]; [|discriminate]. injection FY as <-. exists c_e, c_n, t. auto. }
  assert (FITS : Forall (fun f => fits (fst f) p q) facets).
  { apply Forall_forall. intros f IF. destruct (In_nth_error _ _ IF) as (i & NI). destruct (FACET i f NI) as (c_e & c_n & t & _ & _ & ->). split; auto. }
  destruct (surface_defined p q facets n_e n_n FITS) as (rows & ER & LR & _ & _).
  set (eps := / 10 ^ 7) in *. assert (EPS : 0 < eps < / 2) by (unfold eps; split; [apply Rinv_0_lt_compat; lra|lra]).
  exists rows, (fun j => unit_curve n_u0 p (linspace eps (1 - eps) n_e j)), (fun k => unit_curve n_v0 q (linspace eps (1 - eps) n_n k)).
  split; auto. split; [rewrite LR; exact LF|].
  assert (BND : forall n j, (j < n)%nat -> 0 <= linspace eps (1 - eps) n j < 1).
  { intros n j J. pose proof (linspace_bounds eps (1 - eps) n j ltac:(lra) J). lra. }
  split; [intros; apply unit_curve_bounds; auto|]. split; [intros; apply unit_curve_bounds; auto|].
  split; [|split].
  - intros j j' J. apply unit_curve_increasing; auto; try (apply BND; lia). apply linspace_increasing; [lra|auto].
  - intros j j' J. apply unit_curve_increasing; auto; try (apply BND; lia). apply linspace_increasing; [lra|auto].
  - intros i c_e c_n t NC NT. unfold surface_points_and_normals in ER.
    assert (HZ : heights_zero (map fst facets) = true).
    { apply heights_zero_iff. intros c i0 j0 IC _ _. apply in_map_iff in IC. destruct IC as (f & <- & IF).
      destruct (In_nth_error _ _ IF) as (i1 & NI). destruct (FACET i1 f NI) as (? & ? & ? & _ & _ & ->). reflexivity. }
    rewrite HZ in ER. destruct (collect_at _ _ _ ER) as (_ & RAT).
    destruct (nth_error facets i) as [f|] eqn:NF.
    2: { apply nth_error_None in NF. rewrite LF in NF. assert (i < length translations)%nat by (apply nth_error_Some; congruence). lia. }
    destruct (FACET i f NF) as (c_e' & c_n' & t' & NC' & NT' & ->).
    rewrite NC in NC'. injection NC' as <- <-. rewrite NT in NT'. injection NT' as <-.
    destruct (RAT i _ NF) as (row & NR & CR). exists row. split; auto.
    destruct (collect_at _ _ _ CR) as (LROW & ROW). rewrite grid_length in LROW. split; auto.
    intros j k J K. destruct (ROW _ _ (grid_at eps n_e n_n j k J K)) as (y & NY & CY). rewrite NY. rewrite <- CY. clear CY NY ROW CR NR RAT.
    destruct (C c_e c_n (nth_error_In _ _ NC)) as (O & N1 & N2 & DEN).
    unfold calculate.
    rewrite (flat_net_evaluate (planar_net n_u0 n_v0 (norm c_e) (norm c_n)) n_u0 n_v0 (norm c_e) (norm c_n) p q); auto; try apply norm_nonneg.
    cbn [obind place fst snd]. unfold as_point at 1, as_direction at 1. cbn [pe pn pu vec].
    assert (N1' : / 10 ^ 12 <= norm c_e) by lra.
    assert (0 < norm c_e) by (pose proof (Rinv_0_lt_compat (10 ^ 8) ltac:(lra)); lra). assert (0 < norm c_n) by (pose proof (Rinv_0_lt_compat (10 ^ 8) ltac:(lra)); lra).
    rewrite !canting_axes by auto. cbv zeta. set (s := unit_curve n_u0 p _). set (r := unit_curve n_v0 q _).
    assert (W : hw t = 0) by (apply T; eapply nth_error_In; eauto).
    f_equal. apply (f_equal2 pair).
    + replace (norm c_e * s / norm c_e) with s by (field; lra). replace (norm c_n * r / norm c_n) with r by (field; lra).
      unfold rectangle_point, as_point, hadd. apply hvec_eq; cbn [he hn hu hw hv enu pe pn pu vadd smul vec]; try ring. rewrite W. ring.
    + unfold as_direction. apply hvec_eq; cbn [he hn hu hw hv enu pe pn pu vadd smul vec]; unfold Rdiv; ring.
Qed.
Lemma ideal_surface_defined : forall n_u n_v cantings translations, length translations = length cantings ->
  exists facets, ideal_surface n_u n_v cantings translations = Ok facets.
Proof.
  intros a b cantings translations L.
  assert (G : forall l, (forall i, In i l -> (i < length cantings)%nat) -> exists facets, map_res (fun i =>
    match nth_error (planar_control_points a b cantings) i, nth_error translations i, nth_error cantings i with
    | Some c, Some t, Some (c_e, c_n) => Ok (c, (c_e, c_n, t)) | _, _, _ => Err IndexError end) l = Ok facets).
  { induction l as [|i l IH]; intros H; [exists []; auto|]. destruct IH as (fs & EF); [intros; apply H; right; auto|].
    specialize (H i (or_introl eq_refl)). cbn [map_res]. rewrite EF. unfold planar_control_points. rewrite nth_error_map.
    destruct (nth_error cantings i) as [[c_e c_n]|] eqn:NC; [|apply nth_error_None in NC; lia].
    destruct (nth_error translations i) as [t|] eqn:NT; [|apply nth_error_None in NT; lia]. cbn. eauto. }
  apply G. intros i I. apply in_seq in I. lia.
Qed.
