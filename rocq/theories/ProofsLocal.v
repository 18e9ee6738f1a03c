(** Proofs about the part of a surface that a control point shapes (C153). *)
From Coq Require Import List Arith ZArith Reals Bool Lra Lia Psatz.
From Verif Require Import RealSums ModelField ModelVectors ProofsVectors ModelTransforms ModelActuators ModelNurbs SpecTransforms SpecNurbs
  ProofsBasis ProofsKnots ProofsSurface.
Import ListNotations.
Local Open Scope R_scope.

(** ** Where a basis function vanishes and where not *)
Lemma slope_support : forall U m p k x, mono U m -> (k + p + 1 <= m)%nat -> x < U k \/ U (k + p + 1)%nat <= x -> cox_de_boor' U p k x = 0.
Proof.
  intros U m [|q] k x M K H; cbn [cox_de_boor']; auto.
  rewrite (cox_support U m q k), (cox_support U m q (S k)); auto; try lia; try ring.
  - destruct H as [H|H]; [left|right].
    + pose proof (M k (S k) ltac:(lia)). lra.
    + replace (S k + q + 1)%nat with (k + S q + 1)%nat by lia. auto.
  - destruct H as [H|H]; [left; auto|right]. pose proof (M (k + q + 1)%nat (k + S q + 1)%nat ltac:(lia)). lra.
Qed.
Lemma cox_positive : forall U m p k x, mono U m -> (k + p + 1 <= m)%nat -> U k < x \/ U (k + p)%nat <= x -> x < U (k + p + 1)%nat -> 0 < cox_de_boor U p k x.
Proof.
  intros U m p k x M. revert k. induction p as [|q IH]; intros k K H X; cbn [cox_de_boor].
  - rewrite Nat.add_0_r in H, X. rewrite Nat.add_1_r in X.
    destruct (Rle_dec (U k) x); [|destruct H; lra]. destruct (Rlt_dec x (U (S k))); lra.
  - pose proof (cox_nonneg U m q k x M ltac:(lia)) as P1. pose proof (cox_nonneg U m q (S k) x M ltac:(lia)) as P2.
    replace (S k + S q)%nat with (k + S q + 1)%nat by lia.
    assert (K0 : U k <= x) by (destruct H as [H|H]; [lra|pose proof (M k (k + S q)%nat ltac:(lia)); lra]).
    pose proof (gap_nonneg (U k) (U (k + S q)%nat) (M k (k + S q)%nat ltac:(lia))) as G1.
    pose proof (gap_nonneg (U (S k)) (U (k + S q + 1)%nat) (M (S k) (k + S q + 1)%nat ltac:(lia))) as G2.
    destruct (Rlt_le_dec x (U (k + S q)%nat)) as [L|L].
    + assert (H1 : U k < x) by (destruct H; lra).
      assert (0 < cox_de_boor U q k x) by (apply IH; [lia|auto|replace (k + q + 1)%nat with (k + S q)%nat by lia; auto]).
      assert (0 < inverse_gap (U k) (U (k + S q)%nat)) by (rewrite gap_div by lra; apply Rinv_0_lt_compat; lra).
      assert (0 < (x - U k) * inverse_gap (U k) (U (k + S q)%nat) * cox_de_boor U q k x) by (repeat apply Rmult_lt_0_compat; lra).
      assert (0 <= (U (k + S q + 1)%nat - x) * inverse_gap (U (S k)) (U (k + S q + 1)%nat) * cox_de_boor U q (S k) x) by (repeat apply Rmult_le_pos; lra).
      lra.
    + assert (0 < cox_de_boor U q (S k) x).
      { apply IH; [lia|right; replace (S k + q)%nat with (k + S q)%nat by lia; auto|replace (S k + q + 1)%nat with (k + S q + 1)%nat by lia; auto]. }
      pose proof (M (S k) (k + S q)%nat ltac:(lia)).
      assert (0 < inverse_gap (U (S k)) (U (k + S q + 1)%nat)) by (rewrite gap_div by lra; apply Rinv_0_lt_compat; lra).
      assert (0 <= (x - U k) * inverse_gap (U k) (U (k + S q)%nat) * cox_de_boor U q k x) by (repeat apply Rmult_le_pos; lra).
      assert (0 < (U (k + S q + 1)%nat - x) * inverse_gap (U (S k)) (U (k + S q + 1)%nat) * cox_de_boor U q (S k) x) by (repeat apply Rmult_lt_0_compat; lra).
      lra.
Qed.
(** The support in terms of the uniform knots. *)
Lemma knot_start : forall n p i x, (1 <= p < n)%nat -> (i < n)%nat -> 0 <= x -> x * INR (n - p) < INR i - INR p <-> x < knot_of (knot_vector n p) i.
Proof.
  intros n p i x P I X. assert (Q : 0 < INR (n - p)) by (apply lt_0_INR; lia). destruct (Nat.le_gt_cases i p) as [L|L].
  - rewrite knot_low by lia. pose proof (le_INR _ _ L). assert (0 <= x * INR (n - p)) by nra. split; intros; lra.
  - rewrite knot_mid by lia. rewrite <- minus_INR by lia. split; intros H.
    + apply (Rmult_lt_reg_r (INR (n - p))); auto. unfold Rdiv. rewrite Rmult_assoc, Rinv_l, Rmult_1_r by lra. auto.
    + apply (Rmult_lt_compat_r (INR (n - p))) in H; auto. unfold Rdiv in H. rewrite Rmult_assoc, Rinv_l, Rmult_1_r in H by lra. auto.
Qed.
Lemma knot_stop : forall n p i x, (1 <= p < n)%nat -> (i < n)%nat -> 0 <= x < 1 -> INR i + 1 <= x * INR (n - p) <-> knot_of (knot_vector n p) (i + p + 1) <= x.
Proof.
  intros n p i x P I X. assert (Q : 0 < INR (n - p)) by (apply lt_0_INR; lia). destruct (Nat.le_gt_cases n (i + p + 1)) as [L|L].
  - rewrite knot_high by lia. assert (INR (n - p) <= INR i + 1) by (rewrite <- S_INR; apply le_INR; lia).
    assert (x * INR (n - p) < INR (n - p)) by nra. split; intros; lra.
  - rewrite knot_mid by lia. replace (i + p + 1 - p)%nat with (S i) by lia. rewrite S_INR. split; intros H.
    + apply (Rmult_le_reg_r (INR (n - p))); auto. unfold Rdiv. rewrite Rmult_assoc, Rinv_l, Rmult_1_r by lra. auto.
    + apply (Rmult_le_compat_r (INR (n - p))) in H; [|lra]. unfold Rdiv in H. rewrite Rmult_assoc, Rinv_l, Rmult_1_r in H by lra. auto.
Qed.
Lemma outside_zero : forall n p i x, (1 <= p < n)%nat -> (i < n)%nat -> 0 <= x < 1 ->
  x * INR (n - p) < INR i - INR p \/ INR i + 1 <= x * INR (n - p) ->
  cox_de_boor (knot_of (knot_vector n p)) p i x = 0 /\ cox_de_boor' (knot_of (knot_vector n p)) p i x = 0.
Proof.
  intros n p i x P I X H. pose proof (mono_knots n p P) as M.
  assert (O : x < knot_of (knot_vector n p) i \/ knot_of (knot_vector n p) (i + p + 1) <= x).
  { destruct H as [H|H]; [left; apply (knot_start n p i x); auto; lra|right; apply (knot_stop n p i x); auto]. }
  split; [apply (cox_support _ (n + p)); auto; lia|apply (slope_support _ (n + p)); auto; lia].
Qed.
Lemma inside_positive : forall n p i x, (1 <= p < n)%nat -> (i < n)%nat -> 0 < x < 1 ->
  INR i - INR p < x * INR (n - p) < INR i + 1 -> 0 < cox_de_boor (knot_of (knot_vector n p)) p i x.
Proof.
  intros n p i x P I X (H1 & H2). apply (cox_positive _ (n + p)); [apply mono_knots; auto|lia| |].
  - left. assert (Q : 0 < INR (n - p)) by (apply lt_0_INR; lia). destruct (Nat.le_gt_cases i p) as [L|L]; [rewrite knot_low by lia; lra|].
    rewrite knot_mid by lia. rewrite <- minus_INR in H1 by lia. apply (Rmult_lt_reg_r (INR (n - p))); auto. unfold Rdiv.
    rewrite Rmult_assoc, Rinv_l, Rmult_1_r by lra. auto.
  - apply Rnot_le_lt. intros H. apply (knot_stop n p i x) in H; auto; lra.
Qed.
Lemma at_most_one : forall n p i x, (1 <= p < n)%nat -> (i < n)%nat -> 0 <= x < 1 -> 0 <= cox_de_boor (knot_of (knot_vector n p)) p i x <= 1.
Proof.
  intros n p i x P I X. destruct (weights n p x P X) as (N & S1 & _). split; auto. rewrite <- S1. apply Rsum_in_le.
  - intros y Y. apply in_map_iff in Y as (a & <- & A). apply in_seq in A. apply N. lia.
  - apply in_map_iff. exists i. split; auto. apply in_seq. lia.
Qed.

(** ** One control point changes *)
Lemma Rsum_one : forall (h : nat -> R) n i, (i < n)%nat -> (forall a, (a < n)%nat -> a <> i -> h a = 0) -> Rsum (map h (seq 0 n)) = h i.
Proof. intros h n i I H. exact (Rsum_n_single n h i I H). Qed.
Lemma tensor_at : forall n m f g (c c' : nat -> nat -> point) i j, (i < n)%nat -> (j < m)%nat ->
  (forall a b, (a < n)%nat -> (b < m)%nat -> (a <> i \/ b <> j)%nat -> c' a b = c a b) ->
  tensor n m f g c' = vadd (tensor n m f g c) (smul (f i * g j) (vsub (c' i j) (c i j))).
Proof.
  intros n m f g c c' i j I J H.
  assert (G : forall part : point -> R, Rsum (map (fun a => Rsum (map (fun b => f a * g b * part (c' a b)) (seq 0 m))) (seq 0 n))
    = Rsum (map (fun a => Rsum (map (fun b => f a * g b * part (c a b)) (seq 0 m))) (seq 0 n)) + f i * g j * (part (c' i j) - part (c i j))).
  { intros part.
    assert (D : Rsum (map (fun a => Rsum (map (fun b => f a * g b * part (c' a b)) (seq 0 m)) - Rsum (map (fun b => f a * g b * part (c a b)) (seq 0 m))) (seq 0 n))
      = f i * g j * (part (c' i j) - part (c i j))).
    { rewrite (Rsum_one _ n i I).
      - rewrite <- Rsum_map_minus. rewrite (Rsum_one _ m j J); [ring|]. intros b B NB. rewrite (H i b) by (auto; lia). ring.
      - intros a A NA. rewrite <- Rsum_map_minus. apply Rsum_map_zero. intros b B. apply in_seq in B. rewrite (H a b) by (auto; lia). ring. }
    rewrite Rsum_map_minus in D. lra. }
  apply point_eq; unfold tensor; cbn [pe pn pu vec vadd smul vsub]; apply G.
Qed.
Lemma same_net : forall n m f g (c c' : nat -> nat -> point) i j, (i < n)%nat -> (j < m)%nat -> f i * g j = 0 ->
  (forall a b, (a < n)%nat -> (b < m)%nat -> (a <> i \/ b <> j)%nat -> c' a b = c a b) -> tensor n m f g c' = tensor n m f g c.
Proof. intros n m f g c c' i j I J Z H. rewrite (tensor_at n m f g c c' i j), Z by auto. apply point_eq; vunfold; ring. Qed.

(** * Results *)
Theorem shaped_locally : forall c c' p q x y i j, fits c p q -> n_u c' = n_u c -> n_v c' = n_v c -> (i < n_u c)%nat -> (j < n_v c)%nat ->
  (forall a b, (a < n_u c)%nat -> (b < n_v c)%nat -> (a <> i \/ b <> j)%nat -> control c' a b = control c a b) ->
  0 <= x < 1 -> 0 <= y < 1 ->
  (x * INR (n_u c - p) < INR i - INR p \/ INR i + 1 <= x * INR (n_u c - p)
   \/ y * INR (n_v c - q) < INR j - INR q \/ INR j + 1 <= y * INR (n_v c - q)) ->
  evaluate c' p q x y = evaluate c p q x y.
Proof.
  intros c c' p q x y i j F NU NV I J H X Y O.
  assert (F' : fits c' p q) by (destruct F; split; lia).
  rewrite (evaluate_textbook c p q x y F X Y), (evaluate_textbook c' p q x y F' X Y). rewrite NU, NV. destruct F as (FU & FV).
  rewrite !(same_net (n_u c) (n_v c) _ _ (control c) (control c') i j); auto.
  - destruct O as [O|[O|[O|O]]];
      [destruct (outside_zero _ _ _ _ FU I X (or_introl O)) as (Z1 & Z2)|destruct (outside_zero _ _ _ _ FU I X (or_intror O)) as (Z1 & Z2)
      |destruct (outside_zero _ _ _ _ FV J Y (or_introl O)) as (Z1 & Z2)|destruct (outside_zero _ _ _ _ FV J Y (or_intror O)) as (Z1 & Z2)];
      rewrite ?Z1, ?Z2; ring.
  - destruct O as [O|[O|[O|O]]];
      [destruct (outside_zero _ _ _ _ FU I X (or_introl O)) as (Z1 & Z2)|destruct (outside_zero _ _ _ _ FU I X (or_intror O)) as (Z1 & Z2)
      |destruct (outside_zero _ _ _ _ FV J Y (or_introl O)) as (Z1 & Z2)|destruct (outside_zero _ _ _ _ FV J Y (or_intror O)) as (Z1 & Z2)];
      rewrite ?Z1, ?Z2; ring.
  - destruct O as [O|[O|[O|O]]];
      [destruct (outside_zero _ _ _ _ FU I X (or_introl O)) as (Z1 & Z2)|destruct (outside_zero _ _ _ _ FU I X (or_intror O)) as (Z1 & Z2)
      |destruct (outside_zero _ _ _ _ FV J Y (or_introl O)) as (Z1 & Z2)|destruct (outside_zero _ _ _ _ FV J Y (or_intror O)) as (Z1 & Z2)];
      rewrite ?Z1, ?Z2; ring.
Qed.
Theorem shaped_by_weight : forall n m p q x y i j, (1 <= p < n)%nat -> (1 <= q < m)%nat -> (i < n)%nat -> (j < m)%nat -> 0 <= x < 1 -> 0 <= y < 1 ->
  exists w, 0 <= w <= 1
  /\ (0 < x -> 0 < y -> INR i - INR p < x * INR (n - p) < INR i + 1 -> INR j - INR q < y * INR (m - q) < INR j + 1 -> 0 < w)
  /\ forall c c' v, n_u c = n -> n_v c = m -> n_u c' = n -> n_v c' = m ->
     (forall a b, (a < n)%nat -> (b < m)%nat -> (a <> i \/ b <> j)%nat -> control c' a b = control c a b) -> control c' i j = vadd (control c i j) v ->
     exists point normal normal', evaluate c p q x y = Some (as_point point, normal) /\ evaluate c' p q x y = Some (as_point (vadd point (smul w v)), normal').
Proof.
  intros n m p q x y i j P Q I J X Y.
  exists (cox_de_boor (knot_of (knot_vector n p)) p i x * cox_de_boor (knot_of (knot_vector m q)) q j y).
  pose proof (at_most_one n p i x P I X) as B1. pose proof (at_most_one m q j y Q J Y) as B2.
  split; [split; [apply Rmult_le_pos; lra|rewrite <- (Rmult_1_r 1); apply Rmult_le_compat; lra]|]. split.
  - intros X0 Y0 IX IY. apply Rmult_lt_0_compat; apply inside_positive; auto; lra.
  - intros c c' v NU NV NU' NV' H E. assert (F : fits c p q) by (split; lia). assert (F' : fits c' p q) by (split; lia).
    rewrite (evaluate_textbook c p q x y F X Y), (evaluate_textbook c' p q x y F' X Y). rewrite NU, NV, NU', NV'.
    eexists. eexists. eexists. split; [reflexivity|].
    rewrite (tensor_at n m (fun a => cox_de_boor (knot_of (knot_vector n p)) p a x) (fun b => cox_de_boor (knot_of (knot_vector m q)) q b y) (control c) (control c') i j) by auto.
    rewrite E. replace (vsub (vadd (control c i j) v) (control c i j)) with v by (apply point_eq; vunfold; ring). reflexivity.
Qed.
Theorem moved_little : forall c c' p q x y d point normal point' normal', fits c p q -> n_u c' = n_u c -> n_v c' = n_v c ->
  (forall i j, (i < n_u c)%nat -> (j < n_v c)%nat -> norm (vsub (control c' i j) (control c i j)) <= d) -> 0 <= x < 1 -> 0 <= y < 1 ->
  evaluate c p q x y = Some (point, normal) -> evaluate c' p q x y = Some (point', normal') -> norm (vsub (enu point') (enu point)) <= d.
Proof.
  intros c c' p q x y d pt nm pt' nm' F NU NV H X Y E E'.
  assert (F' : fits c' p q) by (destruct F; split; lia).
  rewrite (evaluate_textbook c p q x y F X Y) in E. rewrite (evaluate_textbook c' p q x y F' X Y) in E'. rewrite NU, NV in E'.
  injection E as <- _. injection E' as <- _. destruct F as (FU & FV).
  destruct (weights _ _ _ FU X) as (N1 & S1 & _). destruct (weights _ _ _ FV Y) as (N2 & S2 & _).
  match goal with |- norm (vsub (enu (as_point ?v)) (enu (as_point ?w))) <= _ =>
    replace (enu (as_point v)) with v by (apply point_eq; reflexivity); replace (enu (as_point w)) with w by (apply point_eq; reflexivity); set (t' := v); set (t := w) end.
  set (a := vsub t' t).
  assert (B : dot a a <= norm a * d).
  { unfold a at 2. replace (dot a (vsub t' t)) with (dot a t' - dot a t) by (vunfold; ring). unfold t', t. rewrite !tensor_linear.
    rewrite <- (grid_sum_const (n_u c) (n_v c) _ _ (norm a * d) S1 S2) at 1. unfold grid_sum. rewrite <- Rsum_map_minus.
    apply Rsum_map_le. intros k K. apply in_seq in K. rewrite <- Rsum_map_minus. apply Rsum_map_le. intros l L. apply in_seq in L.
    specialize (N1 k ltac:(lia)). specialize (N2 l ltac:(lia)). specialize (H k l ltac:(lia) ltac:(lia)).
    rewrite <- Rmult_minus_distr_l. apply Rmult_le_compat_l; [apply Rmult_le_pos; auto|].
    replace (dot a (control c' k l) - dot a (control c k l)) with (dot a (vsub (control c' k l) (control c k l))) by (vunfold; ring).
    pose proof (dot_le_norm a (vsub (control c' k l) (control c k l))). pose proof (Rle_abs (dot a (vsub (control c' k l) (control c k l)))). pose proof (norm_nonneg a). nra. }
  rewrite <- (norm_sq a) in B. pose proof (norm_nonneg a) as NA. destruct (Rle_lt_or_eq_dec _ _ NA) as [L|Z].
  - apply (Rmult_le_reg_l (norm a)); auto.
  - rewrite <- Z. eapply Rle_trans; [|apply (H 0%nat 0%nat); lia]. apply norm_nonneg.
Qed.
(** The corner of a flat facet of five by five control points, lifted by [h]. *)
Definition lifted (h : R) : net :=
  {| n_u := 5; n_v := 5; control := fun i j => match i, j with O, O => vec (-2) (-3) h | _, _ => control (planar_net 5 5 2 3) i j end |}.
Lemma local_case : fits (planar_net 5 5 2 3) 3 3
  /\ (forall h y, 0 <= y < 1 -> evaluate (lifted h) 3 3 (3 / 4) y = evaluate (planar_net 5 5 2 3) 3 3 (3 / 4) y)
  /\ exists w, 0 < w <= 1 /\ forall h, exists point normal normal', evaluate (planar_net 5 5 2 3) 3 3 (/ 4) (/ 4) = Some (as_point point, normal)
     /\ evaluate (lifted h) 3 3 (/ 4) (/ 4) = Some (as_point (vadd point (vec 0 0 (w * h))), normal').
Proof.
  assert (F : fits (planar_net 5 5 2 3) 3 3) by (split; cbn; lia).
  assert (O : forall h a b, (a < 5)%nat -> (b < 5)%nat -> (a <> 0 \/ b <> 0)%nat -> control (lifted h) a b = control (planar_net 5 5 2 3) a b).
  { intros h [|a] [|b] A B N; try reflexivity. lia. }
  split; auto. split.
  - intros h y Y. apply (shaped_locally _ _ 3 3 (3 / 4) y 0 0); auto; try (cbn; lia); try lra.
    right. left. cbn [n_u planar_net]. change (5 - 3)%nat with 2%nat. cbn [INR]. lra.
  - destruct (shaped_by_weight 5 5 3 3 (/ 4) (/ 4) 0 0) as (w & W & P & H); try lia; try lra.
    exists w. split.
    + split; [|lra]. apply P; try lra; change (5 - 3)%nat with 2%nat; cbn [INR]; lra.
    + intros h. destruct (H (planar_net 5 5 2 3) (lifted h) (vec 0 0 h)) as (pt & n1 & n2 & E1 & E2); auto.
      * cbn [control lifted planar_net]. unfold linspace. cbn [INR Nat.sub Nat.eqb]. apply point_eq; vunfold; cbn; lra.
      * exists pt, n1, n2. split; auto. rewrite E2. do 3 f_equal. apply point_eq; vunfold; ring.
Qed.
