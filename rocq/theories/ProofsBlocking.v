(** Proofs about blocking (C23-C25, C71-C73). *)
From Coq Require Import List Arith ZArith Reals Bool Lra Lia Psatz Permutation Sorted.
From Verif Require Import RealSums ModelField SpecField ModelVectors ProofsVectors ModelLBVH SpecLBVH ProofsTraversal ModelBlocking SpecBlocking.
Import ListNotations.
Local Open Scope R_scope.

Lemma sigmoid_pos : forall x, 0 < sigmoid x.
Proof. intros. unfold sigmoid. apply Rinv_0_lt_compat. pose proof (exp_pos (- x)). lra. Qed.
Lemma sigmoid_lt_1 : forall x, sigmoid x < 1.
Proof.
  intros. unfold sigmoid. rewrite <- Rinv_1. pose proof (exp_pos (- x)).
  apply Rinv_lt_contravar; lra.
Qed.
Lemma sigmoid_le : forall x y, x <= y -> sigmoid x <= sigmoid y.
Proof.
  intros. unfold sigmoid. pose proof (exp_pos (- y)).
  apply Rinv_le_contravar; [lra|]. apply Rplus_le_compat_l.
  destruct H as [H| ->]; [left; apply exp_increasing; lra|right; auto].
Qed.
Lemma sigmoid_half : sigmoid 0 = / 2.
Proof. unfold sigmoid. rewrite Ropp_0, exp_0. reflexivity. Qed.
Lemma sigmoid_le_exp : forall x, sigmoid x <= exp x.
Proof.
  intros. unfold sigmoid. rewrite <- (Rinv_inv (exp x)), <- exp_Ropp. pose proof (exp_pos (- x)).
  apply Rinv_le_contravar; lra.
Qed.

Lemma independent_gram : forall a b, independent a b -> dot a a * dot b b - dot a b * dot a b <> 0.
Proof.
  intros a b I H.
  assert (Q : vadd (smul (dot b b) a) (smul (- dot a b) b) = zero_point).
  { apply dot_self_zero.
    transitivity (dot b b * (dot a a * dot b b - dot a b * dot a b)); [vunfold; ring|rewrite H; ring]. }
  apply I in Q. destruct Q as [Q1 Q2].
  apply dot_self_zero in Q1. subst b.
  destruct (I 0 1) as [_ X]; [|lra]. unfold zero_point; vring.
Qed.

Lemma divide_finite : forall a b, b <> 0 -> divide a b = Finite (a / b).
Proof. intros. unfold divide. destruct (Req_EM_T b 0); [contradiction|auto]. Qed.

Lemma safe_det_nonzero : forall eps det, 0 < eps -> det <> 0 ->
  (if Rlt_dec (Rabs det) eps then sign det * eps else det) <> 0.
Proof.
  intros. destruct (Rlt_dec (Rabs det) eps); auto. unfold sign.
  destruct (Rlt_dec 0 det); [lra|]. destruct (Rlt_dec det 0); lra.
Qed.

Lemma density_some : forall eps s off o d p, 0 < eps -> independent (span_u p) (span_v p) ->
  exists x, density eps s off o d p = Some x /\ 0 < x <= 1.
Proof.
  intros. unfold density, plane_coordinates. cbv zeta.
  pose proof (independent_gram _ _ H0) as G. pose proof (safe_det_nonzero eps _ H G) as N.
  rewrite !divide_finite by exact N. cbn [inside_unit].
  eexists; split; [reflexivity|].
  match goal with |- context [sigmoid ?a * sigmoid ?b * (sigmoid ?c * sigmoid ?e) * sigmoid ?f] =>
    pose proof (sigmoid_pos a); pose proof (sigmoid_pos b); pose proof (sigmoid_pos c);
    pose proof (sigmoid_pos e); pose proof (sigmoid_pos f);
    assert (0 < sigmoid a * sigmoid b * (sigmoid c * sigmoid e) * sigmoid f)
      by (repeat apply Rmult_lt_0_compat; auto);
    set (y := sigmoid a * sigmoid b * (sigmoid c * sigmoid e) * sigmoid f) in *
  end.
  rewrite Rmax_left by lra. split; [apply Rmin_glb_lt; lra|apply Rmin_r].
Qed.

Lemma densities_some : forall eps s off o d ps, 0 < eps -> (forall p, In p ps -> independent (span_u p) (span_v p)) ->
  exists l, densities eps s off o d ps = Some l /\ (forall x, In x l -> 0 < x <= 1) /\ List.length l = List.length ps.
Proof.
  intros eps s off o d ps E. induction ps as [|p ps IH]; intros H.
  - exists []. simpl. split; auto. split; auto. intros x [].
  - destruct IH as (l & D & Q & L) ; [intros; apply H; right; auto|].
    destruct (density_some eps s off o d p E) as (x & X & B); [apply H; left; auto|].
    exists (x :: l). simpl. rewrite X, D. split; auto. split; [intros y [<-|I]; auto|simpl; lia].
Qed.

Lemma densities_perm : forall eps s off o d ps qs, Permutation ps qs -> forall l, densities eps s off o d ps = Some l ->
  exists l', densities eps s off o d qs = Some l' /\ Permutation l l'.
Proof.
  intros eps s off o d ps qs P. induction P; intros m D.
  - exists m. auto.
  - simpl in *. destruct (density eps s off o d x); [|discriminate].
    destruct (densities eps s off o d l); [|discriminate]. injection D as <-.
    destruct (IHP _ eq_refl) as (l'' & -> & P'). eexists; split; eauto.
  - simpl in *. destruct (density eps s off o d x), (density eps s off o d y); try discriminate;
    destruct (densities eps s off o d l); try discriminate. injection D as <-. eexists; split; eauto. constructor.
  - destruct (IHP1 _ D) as (a & A & PA). destruct (IHP2 _ A) as (b & B & PB). exists b; split; auto. eapply perm_trans; eauto.
Qed.
Lemma densities_app : forall eps s off o d ps qs a b, densities eps s off o d ps = Some a -> densities eps s off o d qs = Some b ->
  densities eps s off o d (ps ++ qs) = Some (a ++ b).
Proof.
  intros eps s off o d ps qs. induction ps as [|p ps IH]; intros a b A B; simpl in *.
  - injection A as <-. auto.
  - destruct (density eps s off o d p); [|discriminate]. destruct (densities eps s off o d ps); [|discriminate].
    injection A as <-. rewrite (IH _ _ eq_refl B). reflexivity.
Qed.

Theorem soft_mask_fraction : forall eps s alpha off o d ps, 0 < eps -> 0 < alpha ->
  (forall p, In p ps -> independent (span_u p) (span_v p)) ->
  exists b, soft_mask eps s alpha off o d ps = Some b /\ 0 <= b < 1 /\ (b = 0 <-> ps = []).
Proof.
  intros eps s alpha off o d ps E A I. destruct (densities_some eps s off o d ps E I) as (l & D & B & L).
  unfold soft_mask. rewrite D. simpl. eexists; split; [reflexivity|].
  assert (N : 0 <= Rsum l) by (apply Rsum_nonneg; intros x H; specialize (B x H); lra).
  pose proof (exp_pos (- (alpha * Rsum l))).
  assert (0 <= alpha * Rsum l) by (apply Rmult_le_pos; lra).
  assert (U : exp (- (alpha * Rsum l)) <= 1).
  { rewrite <- exp_0. destruct H0 as [H0|H0]; [left; apply exp_increasing; lra|right; f_equal; lra]. }
  split; [lra|]. split.
  - intros Z. assert (EX : exp (- (alpha * Rsum l)) = exp 0) by (rewrite exp_0; lra). apply exp_inv in EX.
    assert (S0 : Rsum l = 0). { destruct (Rmult_integral alpha (Rsum l)); lra. }
    destruct l as [|x l]; [destruct ps; [auto|discriminate]|].
    exfalso. assert (x = 0) by (apply (Rsum_zero_nonneg (x :: l)); [intros y H2; specialize (B y H2); lra|auto|left; auto]).
    specialize (B x (or_introl eq_refl)). lra.
  - intros ->. simpl in D. injection D as <-. rewrite Rsum_nil, Rmult_0_r, Ropp_0, exp_0. lra.
Qed.

Theorem soft_mask_monotone : forall eps s alpha off o d ps extra qs, 0 < eps -> 0 < alpha ->
  (forall p, In p qs -> independent (span_u p) (span_v p)) -> Permutation qs (ps ++ extra) ->
  exists b b', soft_mask eps s alpha off o d ps = Some b /\ soft_mask eps s alpha off o d qs = Some b'
    /\ b <= b' /\ (extra <> [] -> b < b').
Proof.
  intros eps s alpha off o d ps extra qs E A I P.
  destruct (densities_some eps s off o d ps E) as (l & D & B & L).
  { intros p H. apply I. eapply Permutation_in; [apply Permutation_sym; eauto|]. apply in_or_app; auto. }
  destruct (densities_some eps s off o d extra E) as (m & D' & B' & L').
  { intros p H. apply I. eapply Permutation_in; [apply Permutation_sym; eauto|]. apply in_or_app; auto. }
  pose proof (densities_app _ _ _ _ _ _ _ _ _ D D') as DA.
  destruct (densities_perm _ _ _ _ _ _ _ (Permutation_sym P) _ DA) as (lq & Dq & PQ).
  unfold soft_mask. rewrite D, Dq. simpl. do 2 eexists. split; [reflexivity|]. split; [reflexivity|].
  rewrite <- (Rsum_perm _ _ PQ), Rsum_app.
  assert (N : 0 <= Rsum m) by (apply Rsum_nonneg; intros x H; specialize (B' x H); lra).
  assert (M : 0 <= alpha * Rsum m) by (apply Rmult_le_pos; lra).
  rewrite Rmult_plus_distr_l. split.
  - destruct M as [M| <-]; [left; apply Rplus_lt_compat_l, Ropp_lt_contravar, exp_increasing; lra|]. rewrite Rplus_0_r. lra.
  - intros NE. destruct m as [|x m]; [destruct extra; [contradiction|discriminate]|].
    assert (0 < Rsum (x :: m)).
    { rewrite Rsum_cons. specialize (B' x (or_introl eq_refl)) as X.
      assert (0 <= Rsum m) by (apply Rsum_nonneg; intros y H; specialize (B' y (or_intror H)); lra). lra. }
    apply Rplus_lt_compat_l, Ropp_lt_contravar, exp_increasing. assert (0 < alpha * Rsum (x :: m)) by (apply Rmult_lt_0_compat; auto). lra.
Qed.

(** A primitive whose spans vanish makes the value undefined. *)
Lemma soft_mask_degenerate : forall eps s alpha off o d c n ps,
  soft_mask eps s alpha off o d ({| corner0 := c; span_u := zero_point; span_v := zero_point; prim_normal := n |} :: ps) = None.
Proof.
  intros. unfold soft_mask. simpl densities.
  assert (H : density eps s off o d {| corner0 := c; span_u := zero_point; span_v := zero_point; prim_normal := n |} = None).
  { unfold density, plane_coordinates. cbn [span_u span_v corner0 prim_normal].
    assert (Z : dot zero_point zero_point = 0) by (unfold zero_point; vunfold; ring). rewrite Z.
    replace (0 * 0 - 0 * 0) with 0 by ring. rewrite !Rmult_0_r.
    assert (N : (if Rlt_dec (Rabs 0) eps then sign 0 * eps else 0) = 0).
    { destruct (Rlt_dec (Rabs 0) eps); auto. unfold sign. destruct (Rlt_dec 0 0); [lra|]. ring. }
    rewrite N. unfold divide at 1. destruct (Req_EM_T 0 0); [|lra]. destruct (Req_EM_T (0 - 0) 0); [|lra]. reflexivity. }
  rewrite H. reflexivity.
Qed.

(** ** Approximation of geometric blocking *)
Lemma regular_plane : forall eps o d p t a b, 0 < eps -> regular_for eps d p -> crosses_at o d p t a b ->
  plane_distance eps o d p = t /\ plane_coordinates eps o d p = (Finite a, Finite b).
Proof.
  intros eps o d p t a b E (NU & NV & G & DN) C.
  assert (D0 : dot d (prim_normal p) <> 0).
  { intros Z. rewrite Z, Rabs_R0 in DN. lra. }
  assert (T : plane_distance eps o d p = t).
  { unfold plane_distance. destruct (Rlt_dec (Rabs (dot d (prim_normal p))) eps); [lra|].
    assert (Q : dot (vsub (corner0 p) o) (prim_normal p) = t * dot d (prim_normal p)).
    { assert (X : dot (vadd o (smul t d)) (prim_normal p)
                  = dot (vadd (corner0 p) (vadd (smul a (span_u p)) (smul b (span_v p)))) (prim_normal p)) by (rewrite C; auto).
      rewrite !dot_vadd_l, !dot_smul_l, NU, NV in X. rewrite dot_vsub_l. lra. }
    rewrite Q. field. auto. }
  split; auto. unfold plane_coordinates. rewrite T.
  assert (W : vsub (vadd o (smul t d)) (corner0 p) = vadd (smul a (span_u p)) (smul b (span_v p))).
  { rewrite C. vring. }
  rewrite W, !dot_vadd_l, !dot_smul_l, gram, (dot_comm (span_v p) (span_u p)).
  rewrite Rabs_right by lra.
  destruct (Rlt_dec (dot (cross (span_u p) (span_v p)) (cross (span_u p) (span_v p))) eps); [lra|].
  rewrite !divide_finite by lra. rewrite <- gram. rewrite <- gram in G.
  f_equal; f_equal; field; lra.
Qed.

Lemma pow5_bound : forall q a b c d e, 0 <= q -> q <= a -> q <= b -> q <= c -> q <= d -> q <= e -> q ^ 5 <= a * b * (c * d) * e.
Proof.
  intros. replace (q ^ 5) with (q * q * (q * q) * q) by ring.
  apply Rmult_le_compat; auto; [apply Rmult_le_pos; apply Rmult_le_pos; auto|].
  apply Rmult_le_compat; try (apply Rmult_le_pos; auto); apply Rmult_le_compat; auto.
Qed.

Lemma density_blocks : forall eps s off o d p t a b m, 0 < eps -> 0 < s -> regular_for eps d p -> crosses_at o d p t a b ->
  clearly_blocks off m t a b -> exists x, density eps s off o d p = Some x /\ sigmoid (s * m) ^ 5 <= x.
Proof.
  intros eps s off o d p t a b m E S R C (B1 & B2 & B3).
  destruct (regular_plane _ _ _ _ _ _ _ E R C) as (T & P).
  unfold density. rewrite P, T. cbn [inside_unit]. eexists; split; [reflexivity|].
  assert (K : sigmoid (s * m) ^ 5 <= sigmoid (s * a) * sigmoid (s * (1 - a)) * (sigmoid (s * b) * sigmoid (s * (1 - b))) * sigmoid (s * (t - off))).
  { apply pow5_bound; [left; apply sigmoid_pos| | | | |]; apply sigmoid_le, Rmult_le_compat_l; lra. }
  pose proof (sigmoid_pos (s * m)). pose proof (sigmoid_lt_1 (s * m)).
  apply Rmin_glb; [eapply Rle_trans; [apply K|apply Rmax_l]|].
  rewrite <- (pow1 5). apply pow_incr. lra.
Qed.

Lemma density_misses : forall eps s off o d p t a b m, 0 < eps -> 0 < s -> regular_for eps d p -> crosses_at o d p t a b ->
  clearly_misses off m t a b -> exists x, density eps s off o d p = Some x /\ 0 <= x <= exp (- (s * m)).
Proof.
  intros eps s off o d p t a b m E S R C B.
  destruct (regular_plane _ _ _ _ _ _ _ E R C) as (T & P).
  unfold density. rewrite P, T. cbn [inside_unit]. eexists; split; [reflexivity|].
  set (x1 := s * a); set (x2 := s * (1 - a)); set (x3 := s * b); set (x4 := s * (1 - b)); set (x5 := s * (t - off)).
  assert (P1 := sigmoid_pos x1). assert (P2 := sigmoid_pos x2). assert (P3 := sigmoid_pos x3). assert (P4 := sigmoid_pos x4). assert (P5 := sigmoid_pos x5).
  assert (L1 := sigmoid_lt_1 x1). assert (L2 := sigmoid_lt_1 x2). assert (L3 := sigmoid_lt_1 x3). assert (L4 := sigmoid_lt_1 x4). assert (L5 := sigmoid_lt_1 x5).
  assert (PP : 0 < sigmoid x1 * sigmoid x2 * (sigmoid x3 * sigmoid x4) * sigmoid x5) by (repeat apply Rmult_lt_0_compat; auto).
  rewrite Rmax_left by lra.
  split; [apply Rmin_glb; lra|]. eapply Rle_trans; [apply Rmin_l|].
  assert (F : forall u v, 0 < u -> 0 < v -> u < 1 -> v < 1 -> 0 < u * v /\ u * v < 1 /\ u * v <= u /\ u * v <= v).
  { intros u v ? ? ? ?. nra. }
  destruct (F _ _ P1 P2 L1 L2) as (a1 & a2 & a3 & a4). destruct (F _ _ P3 P4 L3 L4) as (b1 & b2 & b3 & b4).
  destruct (F _ _ a1 b1 a2 b2) as (c1 & c2 & c3 & c4). destruct (F _ _ c1 P5 c2 L5) as (d1 & d2 & d3 & d4).
  assert (EX : forall x, x <= - (s * m) -> sigmoid x <= exp (- (s * m))).
  { intros x H. eapply Rle_trans; [apply sigmoid_le_exp|]. destruct H as [H| ->]; [left; apply exp_increasing; auto|right; auto]. }
  destruct B as [B|[B|[B|[B|B]]]].
  - pose proof (EX x5). assert (x5 <= - (s * m)) by (unfold x5; nra). lra.
  - pose proof (EX x1). assert (x1 <= - (s * m)) by (unfold x1; nra). lra.
  - pose proof (EX x2). assert (x2 <= - (s * m)) by (unfold x2; nra). lra.
  - pose proof (EX x3). assert (x3 <= - (s * m)) by (unfold x3; nra). lra.
  - pose proof (EX x4). assert (x4 <= - (s * m)) by (unfold x4; nra). lra.
Qed.

Lemma regular_independent : forall eps d p, 0 < eps -> regular_for eps d p -> independent (span_u p) (span_v p).
Proof.
  intros eps d p E (_ & _ & G & _) x y H. rewrite <- gram in G.
  assert (A : dot (vadd (smul x (span_u p)) (smul y (span_v p))) (span_u p) = 0) by (rewrite H; unfold zero_point; vunfold; ring).
  assert (B : dot (vadd (smul x (span_u p)) (smul y (span_v p))) (span_v p) = 0) by (rewrite H; unfold zero_point; vunfold; ring).
  rewrite dot_vadd_l, !dot_smul_l in A, B. rewrite (dot_comm (span_v p) (span_u p)) in A.
  set (uu := dot (span_u p) (span_u p)) in *; set (vv := dot (span_v p) (span_v p)) in *; set (uv := dot (span_u p) (span_v p)) in *.
  assert (X : x * (uu * vv - uv * uv) = 0).
  { replace (x * (uu * vv - uv * uv)) with ((x * uu + y * uv) * vv - (x * uv + y * vv) * uv) by ring. rewrite A, B. ring. }
  assert (Y : y * (uu * vv - uv * uv) = 0).
  { replace (y * (uu * vv - uv * uv)) with ((x * uv + y * vv) * uu - (x * uu + y * uv) * uv) by ring. rewrite A, B. ring. }
  split; [destruct (Rmult_integral _ _ X)|destruct (Rmult_integral _ _ Y)]; lra.
Qed.

Lemma densities_in : forall eps s off o d ps l p, densities eps s off o d ps = Some l -> In p ps ->
  exists x, density eps s off o d p = Some x /\ In x l.
Proof.
  intros eps s off o d ps. induction ps as [|q ps IH]; intros l p D I; [destruct I|].
  simpl in D. destruct (density eps s off o d q) eqn:Q; [|discriminate]. destruct (densities eps s off o d ps) eqn:R; [|discriminate].
  injection D as <-. destruct I as [<-|I].
  - exists r. split; auto. left; auto.
  - destruct (IH _ _ eq_refl I) as (x & X & J). exists x. split; auto. right; auto.
Qed.

Theorem soft_mask_blocks : forall eps s alpha off o d ps p t a b m, 0 < eps -> 0 < s -> 0 < alpha ->
  (forall q, In q ps -> regular_for eps d q) -> In p ps -> crosses_at o d p t a b -> clearly_blocks off m t a b ->
  exists x, soft_mask eps s alpha off o d ps = Some x /\ 1 - exp (- (alpha * sigmoid (s * m) ^ 5)) <= x.
Proof.
  intros eps s alpha off o d ps p t a b m E S A R I C B.
  destruct (densities_some eps s off o d ps E) as (l & D & Q & L).
  { intros q H. apply (regular_independent eps d); auto. }
  unfold soft_mask. rewrite D. simpl. eexists; split; [reflexivity|].
  destruct (density_blocks eps s off o d p t a b m E S (R _ I) C B) as (x & X & K).
  destruct (densities_in _ _ _ _ _ _ _ _ D I) as (x' & X' & J). rewrite X in X'. injection X' as <-.
  assert (x <= Rsum l) by (apply Rsum_in_le; auto; intros y H; specialize (Q y H); lra).
  assert (alpha * sigmoid (s * m) ^ 5 <= alpha * Rsum l) by (apply Rmult_le_compat_l; lra).
  assert (exp (- (alpha * Rsum l)) <= exp (- (alpha * sigmoid (s * m) ^ 5))).
  { destruct H0 as [H0|H0]; [left; apply exp_increasing; lra|rewrite H0; lra]. }
  apply Rplus_le_compat_l, Ropp_le_contravar. auto.
Qed.

Lemma one_minus_exp : forall x, 1 - exp (- x) <= x.
Proof.
  intros. pose proof (exp_ineq1_le (- x)). lra.
Qed.

Theorem soft_mask_misses : forall eps s alpha off o d ps m, 0 < eps -> 0 < s -> 0 < alpha ->
  (forall q, In q ps -> regular_for eps d q /\ exists t a b, crosses_at o d q t a b /\ clearly_misses off m t a b) ->
  exists x, soft_mask eps s alpha off o d ps = Some x /\ x <= alpha * INR (List.length ps) * exp (- (s * m)).
Proof.
  intros eps s alpha off o d ps m E SP A R.
  destruct (densities_some eps s off o d ps E) as (l & D & Q & L).
  { intros q H. apply (regular_independent eps d); auto. apply R; auto. }
  unfold soft_mask. rewrite D. simpl. eexists; split; [reflexivity|].
  eapply Rle_trans; [apply one_minus_exp|]. rewrite Rmult_assoc. apply Rmult_le_compat_l; [lra|].
  clear Q. revert l D L. induction ps as [|p ps IH]; intros l D L.
  - simpl in D. injection D as <-. rewrite Rsum_nil. simpl. lra.
  - simpl in D. destruct (density eps s off o d p) eqn:X; [|discriminate]. destruct (densities eps s off o d ps) eqn:Y; [|discriminate].
    injection D as <-. rewrite Rsum_cons. change (List.length (p :: ps)) with (S (List.length ps)). rewrite S_INR.
    destruct (R p (or_introl eq_refl)) as (RG & t & a & b & C & M).
    destruct (density_misses eps s off o d p t a b m E SP RG C M) as (x & X' & K). rewrite X in X'. injection X' as <-.
    assert (Rsum l0 <= INR (List.length ps) * exp (- (s * m))).
    { apply IH; auto. intros q I. apply R. right; auto. }
    lra.
Qed.

(** ** Primitives behind the ray, also for almost parallel rays *)
Lemma plane_behind : forall eps o d p t a b, 0 < eps -> dot (span_u p) (prim_normal p) = 0 -> dot (span_v p) (prim_normal p) = 0 ->
  crosses_at o d p t a b -> t <= 0 -> plane_distance eps o d p <= 0.
Proof.
  intros eps o d p t a b E U V C T.
  assert (D : dot (vsub (corner0 p) o) (prim_normal p) = t * dot d (prim_normal p)).
  { assert (X : dot (vadd o (smul t d)) (prim_normal p) = dot (vadd (corner0 p) (vadd (smul a (span_u p)) (smul b (span_v p)))) (prim_normal p)) by (rewrite C; auto).
    rewrite !dot_vadd_l, !dot_smul_l, U, V in X.
    assert (Y : dot (vsub (corner0 p) o) (prim_normal p) = dot (corner0 p) (prim_normal p) - dot o (prim_normal p)) by (vunfold; ring). rewrite Y. lra. }
  unfold plane_distance. rewrite D. set (x := dot d (prim_normal p)).
  assert (S : forall s, 0 < s * x \/ x = 0 -> t * x / s <= 0).
  { intros s [H|H]; [|rewrite H; unfold Rdiv; rewrite Rmult_0_r, Rmult_0_l; lra].
    assert (s <> 0) by (intros ->; lra). replace (t * x / s) with (t * (s * x) * (/ s * / s)) by (field; auto).
    assert (0 <= / s * / s) by (pose proof (Rle_0_sqr (/ s)); unfold Rsqr in *; lra). assert (t * (s * x) <= 0) by nra. nra. }
  apply S. destruct (Req_dec x 0) as [Z|Z]; [right; auto|left].
  destruct (Rlt_dec (Rabs x) eps); [|nra]. destruct (Rle_dec 0 x); nra.
Qed.
Theorem soft_mask_behind : forall eps s alpha off o d ps, 0 < eps -> 0 < s -> 0 < alpha ->
  (forall q, In q ps -> independent (span_u q) (span_v q) /\ dot (span_u q) (prim_normal q) = 0 /\ dot (span_v q) (prim_normal q) = 0
     /\ exists t a b, crosses_at o d q t a b /\ t <= 0) ->
  exists x, soft_mask eps s alpha off o d ps = Some x /\ x <= alpha * INR (List.length ps) * exp (- (s * off)).
Proof.
  intros eps s alpha off o d ps E SP A R.
  destruct (densities_some eps s off o d ps E) as (l & D & Q & L); [intros q H; apply R; auto|].
  unfold soft_mask. rewrite D. simpl. eexists; split; [reflexivity|].
  eapply Rle_trans; [apply one_minus_exp|]. rewrite Rmult_assoc. apply Rmult_le_compat_l; [lra|].
  clear Q. revert l D L. induction ps as [|p ps IH]; intros l D L.
  - simpl in D. injection D as <-. rewrite Rsum_nil. simpl. lra.
  - simpl in D. destruct (density eps s off o d p) eqn:X; [|discriminate]. destruct (densities eps s off o d ps) eqn:Y; [|discriminate].
    injection D as <-. rewrite Rsum_cons. change (List.length (p :: ps)) with (S (List.length ps)). rewrite S_INR.
    destruct (R p (or_introl eq_refl)) as (I & NU & NV & t & a & b & C & T).
    assert (B := plane_behind eps o d p t a b E NU NV C T).
    assert (K : r <= exp (- (s * off))).
    { unfold density, plane_coordinates in X. cbv zeta in X. pose proof (independent_gram _ _ I) as G. pose proof (safe_det_nonzero eps _ E G) as N.
      rewrite !divide_finite in X by exact N. cbn [inside_unit] in X. injection X as <-.
      match goal with |- context [sigmoid ?x1 * sigmoid ?x2 * (sigmoid ?x3 * sigmoid ?x4) * sigmoid ?x5] =>
        assert (P1 := sigmoid_pos x1); assert (P2 := sigmoid_pos x2); assert (P3 := sigmoid_pos x3); assert (P4 := sigmoid_pos x4); assert (P5 := sigmoid_pos x5);
        assert (L1 := sigmoid_lt_1 x1); assert (L2 := sigmoid_lt_1 x2); assert (L3 := sigmoid_lt_1 x3); assert (L4 := sigmoid_lt_1 x4);
        assert (XX : x5 <= - (s * off)) by nra; assert (EX : sigmoid x5 <= exp (- (s * off))) by (eapply Rle_trans; [apply sigmoid_le_exp|destruct XX as [XX|XX]; [left; apply exp_increasing; auto|rewrite XX; lra]]);
        assert (PP : 0 < sigmoid x1 * sigmoid x2 * (sigmoid x3 * sigmoid x4) * sigmoid x5) by (repeat apply Rmult_lt_0_compat; auto);
        assert (F : forall u v, 0 < u -> 0 < v -> u < 1 -> v < 1 -> 0 < u * v /\ u * v < 1) by (intros u v ? ? ? ?; nra);
        destruct (F _ _ P1 P2 L1 L2) as (a1 & a2); destruct (F _ _ P3 P4 L3 L4) as (b1 & b2); destruct (F _ _ a1 b1 a2 b2) as (c1 & c2)
      end.
      rewrite Rmax_left by lra. eapply Rle_trans; [apply Rmin_l|]. nra. }
    assert (Rsum l0 <= INR (List.length ps) * exp (- (s * off))).
    { apply IH; auto. intros q J. apply R. right; auto. }
    lra.
Qed.
