(** Proofs about losses and regularizers (C48-C51). *)
From Coq Require Import List Arith Reals Bool Lra Lia Psatz.
From Verif Require Import RealSums ModelField ModelVectors ProofsVectors ModelTransforms ModelActuators ModelNurbs ModelLosses ModelBitmap SpecLosses ProofsBasis.
Import ListNotations.
Local Open Scope R_scope.

(** ** Squared errors *)
Lemma squared_nonneg : forall p g, 0 <= squared_error p g.
Proof. intros. apply Rsum_map_nonneg. intros [a b] _. rewrite <- Rsqr_pow2. apply Rle_0_sqr. Qed.
Lemma squared_self : forall p, squared_error p p = 0.
Proof. induction p as [|a p IH]; auto. unfold squared_error in *. cbn [combine map Rsum fold_right]. unfold Rsum in IH. rewrite IH. ring. Qed.
Lemma squared_zero : forall p g, length p = length g -> squared_error p g = 0 -> p = g.
Proof.
  induction p as [|a p IH]; intros [|b g] L E; try discriminate; auto.
  unfold squared_error in E. cbn [combine map Rsum fold_right] in E. pose proof (squared_nonneg p g) as N. unfold squared_error, Rsum in N, E.
  assert (Q : 0 <= (a - b) * (a - b)) by apply Rle_0_sqr. replace ((a - b) ^ 2) with ((a - b) * (a - b)) in E by ring.
  f_equal; [assert (Z : (a - b) * (a - b) = 0) by lra; apply Rmult_integral in Z; lra|]. apply IH; [injection L; auto|]. unfold squared_error, Rsum. lra.
Qed.
Theorem vector_all : forall p g, length p = length g ->
  exists v, vector_loss p g = Ok v /\ 0 <= v /\ (v = 0 <-> p = g).
Proof.
  intros p g L. unfold vector_loss, same_length. rewrite L, Nat.eqb_refl. eexists. split; [reflexivity|]. split; [apply squared_nonneg|].
  split; [apply squared_zero; auto|]. intros ->. apply squared_self.
Qed.
Theorem pixel_all : forall p g, length p = length g -> 0 < Rsum g ->
  exists v, pixel_loss p g = Ok (Some v) /\ 0 <= v /\ (v = 0 <-> p = g).
Proof.
  intros p g L P. unfold pixel_loss, same_length, div_opt. rewrite L, Nat.eqb_refl. destruct (Req_EM_T (Rsum g) 0); [lra|].
  eexists. split; [reflexivity|]. pose proof (squared_nonneg p g). split; [apply Rmult_le_pos; auto; left; apply Rinv_0_lt_compat; auto|]. split.
  - intros E. apply squared_zero; auto. unfold Rdiv in E. apply Rmult_integral in E. destruct E as [E|E]; auto.
    pose proof (Rinv_0_lt_compat _ P). lra.
  - intros ->. rewrite squared_self. lra.
Qed.
Theorem pixel_scaled : forall p g v c, 0 < c -> pixel_loss p g = Ok (Some v) -> pixel_loss (map (Rmult c) p) (map (Rmult c) g) = Ok (Some (c * v)).
Proof.
  intros p g v c C E. unfold pixel_loss, same_length in *. rewrite !map_length. destruct (length p =? length g)%nat; [|discriminate].
  injection E as E. f_equal. unfold div_opt in *. destruct (Req_EM_T (Rsum g) 0) as [|N]; [discriminate|]. injection E as <-.
  assert (S1 : Rsum (map (Rmult c) g) = c * Rsum g). { rewrite <- (map_id g) at 2. rewrite <- Rsum_map_scal. auto. }
  assert (S2 : squared_error (map (Rmult c) p) (map (Rmult c) g) = c * c * squared_error p g).
  { clear. revert g. induction p as [|a p IH]; intros [|b g]; unfold squared_error in *; cbn [map combine Rsum fold_right] in *; try ring.
    specialize (IH g). unfold Rsum in IH. rewrite IH. ring. }
  rewrite S1, S2. destruct (Req_EM_T (c * Rsum g) 0) as [Z|_]; [apply Rmult_integral in Z; destruct Z; lra|]. f_equal. field. split; auto. lra.
Qed.
Theorem pixel_not_invariant : exists p g c v w, 0 < c /\ pixel_loss p g = Ok (Some v)
  /\ pixel_loss (map (Rmult c) p) (map (Rmult c) g) = Ok (Some w) /\ v <> w.
Proof.
  exists [1; 0], [0; 1], 2, 2, 4. assert (E : pixel_loss [1; 0] [0; 1] = Ok (Some 2)).
  { unfold pixel_loss, same_length, squared_error, div_opt. cbn [length Nat.eqb combine map Rsum fold_right].
    destruct (Req_EM_T (0 + (1 + 0)) 0); [lra|]. do 2 f_equal. field. }
  split; [lra|]. split; auto. split; [|lra]. rewrite (pixel_scaled _ _ 2 2) by (auto; lra). do 2 f_equal; lra.
Qed.

(** ** Kullback-Leibler *)
Lemma eps_pos : 0 < kl_eps. Proof. unfold kl_eps. lra. Qed.
Lemma abs_sum : forall x, non_negative x -> Rsum (map Rabs x) = Rsum x.
Proof. intros x N. rewrite <- (map_id x) at 2. apply Rsum_map_ext. intros a A. apply Rabs_right. apply Rle_ge. auto. Qed.
Lemma distribution_length : forall x, length (distribution x) = length x.
Proof. intros. apply map_length. Qed.
Lemma distribution_nonneg : forall x, non_negative x -> non_negative (distribution x).
Proof.
  intros x N a A. apply in_map_iff in A. destruct A as (b & <- & B). apply Rmult_le_pos; auto. left. apply Rinv_0_lt_compat.
  pose proof eps_pos. pose proof (Rmax_r (Rsum (map Rabs x)) kl_eps). lra.
Qed.
Lemma distribution_sum : forall x, non_negative x -> Rsum (distribution x) = Rsum x / Rmax (Rsum x) kl_eps.
Proof. intros x N. unfold distribution. rewrite abs_sum by auto. rewrite (Rsum_map_div (Rmax (Rsum x) kl_eps) (fun a => a) x), map_id. auto. Qed.
Lemma distribution_le_one : forall x, non_negative x -> Rsum (distribution x) <= 1.
Proof.
  intros x N. rewrite distribution_sum by auto. pose proof eps_pos. pose proof (Rmax_r (Rsum x) kl_eps). pose proof (Rmax_l (Rsum x) kl_eps).
  apply (Rmult_le_reg_r (Rmax (Rsum x) kl_eps)); [lra|]. unfold Rdiv. rewrite Rmult_assoc, Rinv_l by lra. lra.
Qed.
Lemma distribution_one : forall x, non_negative x -> kl_eps <= Rsum x -> Rsum (distribution x) = 1.
Proof. intros x N S0. rewrite distribution_sum by auto. pose proof eps_pos. rewrite Rmax_left by auto. field. lra. Qed.
Lemma distribution_scaled : forall x c, 0 < c -> non_negative x -> kl_eps <= Rsum x -> kl_eps <= c * Rsum x ->
  distribution (map (Rmult c) x) = distribution x.
Proof.
  intros x c C N S1 S2. unfold distribution. rewrite map_map.
  assert (E : Rsum (map Rabs (map (Rmult c) x)) = c * Rsum x).
  { rewrite abs_sum. 2: { intros a A. apply in_map_iff in A. destruct A as (b & <- & B). apply Rmult_le_pos; auto. lra. }
    rewrite <- (map_id x) at 2. rewrite <- Rsum_map_scal. auto. }
  rewrite E, abs_sum by auto. rewrite !Rmax_left by auto. apply map_ext. intros a. pose proof eps_pos. field. lra.
Qed.
Lemma ln_ratio : forall a b, 0 < a -> 0 < b -> ln (a / b) = ln a - ln b.
Proof. intros. unfold Rdiv. rewrite ln_mult, ln_Rinv by (auto using Rinv_0_lt_compat). lra. Qed.
Definition lifted (x : list R) : list R := map (fun a => a + kl_eps) (distribution x).
Theorem kl_value : forall q p, length q = length p -> non_negative q -> non_negative p ->
  kl_loss q p = Ok (Some (kullback_leibler (lifted p) (lifted q))).
Proof.
  intros q p L NQ NP. unfold kl_loss, same_length. rewrite L, Nat.eqb_refl. f_equal.
  assert (G : forall a b, length a = length b -> non_negative a -> non_negative b ->
    collect (map (fun '(x, y) => kl_term x y) (combine a b))
    = Some (map (fun '(x, y) => x * ln (x / y)) (combine (map (fun v => v + kl_eps) b) (map (fun v => v + kl_eps) a)))).
  { clear. induction a as [|x a IH]; intros [|y b] LL NA NB; try discriminate; auto. cbn [combine map collect].
    assert (X : 0 <= x) by (apply NA; cbn; auto). assert (Y : 0 <= y) by (apply NB; cbn; auto). pose proof eps_pos as EP.
    unfold kl_term, ln_opt. destruct (Rlt_dec 0 (x + kl_eps)); [|lra]. destruct (Rlt_dec 0 (y + kl_eps)); [|lra]. cbn [obind].
    rewrite IH; [|injection LL; auto|intros z Z; apply NA; cbn; auto|intros z Z; apply NB; cbn; auto]. cbn [obind].
    rewrite exp_ln, ln_ratio by lra. reflexivity. }
  rewrite G by (auto using distribution_nonneg; rewrite !distribution_length; auto). reflexivity.
Qed.
Lemma gibbs_term : forall a b, 0 < a -> 0 < b -> a - b <= a * ln (a / b) /\ (a * ln (a / b) = a - b -> a = b).
Proof.
  intros a b A B. rewrite ln_ratio by auto. set (t := ln b - ln a).
  assert (E : b = a * exp t). { unfold t. unfold Rminus. rewrite exp_plus, exp_Ropp, !exp_ln by auto. field. lra. }
  replace (ln a - ln b) with (- t) by (unfold t; lra). destruct (Req_EM_T t 0) as [Z|NZ].
  - rewrite Z, exp_0 in E. rewrite Z. split; [lra|intros; lra].
  - pose proof (exp_ineq1 t NZ). split; [nra|]. intros H0. exfalso. nra.
Qed.
Lemma gibbs_sum : forall p q, length p = length q -> (forall x, In x p -> 0 < x) -> (forall x, In x q -> 0 < x) ->
  Rsum p - Rsum q <= kullback_leibler p q /\ (kullback_leibler p q = Rsum p - Rsum q -> p = q).
Proof.
  induction p as [|a p IH]; intros [|b q] L P Q; try discriminate.
  - unfold kullback_leibler. cbn. split; [lra|auto].
  - destruct (IH q) as (I1 & I2); [injection L; auto|intros; apply P; cbn; auto|intros; apply Q; cbn; auto|].
    destruct (gibbs_term a b) as (G1 & G2); [apply P; cbn; auto|apply Q; cbn; auto|].
    unfold kullback_leibler, Rsum in *. cbn [combine map fold_right]. split; [lra|]. intros E. f_equal; [apply G2; lra|apply I2; lra].
Qed.
Lemma lifted_sum : forall x, Rsum (lifted x) = Rsum (distribution x) + INR (length x) * kl_eps.
Proof.
  intros. unfold lifted. rewrite Rsum_map_plus, map_id, Rsum_map_const, distribution_length. auto.
Qed.
Lemma lifted_pos : forall x, non_negative x -> forall a, In a (lifted x) -> 0 < a.
Proof. intros x N a A. apply in_map_iff in A. destruct A as (b & <- & B). apply distribution_nonneg in B; auto. pose proof eps_pos. lra. Qed.
Theorem kl_all : forall q p, length q = length p -> non_negative q -> non_negative p -> kl_eps <= Rsum p ->
  exists v, kl_loss q p = Ok (Some v) /\ 0 <= v /\ (v = 0 <-> distribution q = distribution p).
Proof.
  intros q p L NQ NP S0. eexists. split; [apply kl_value; auto|].
  assert (LL : length (lifted p) = length (lifted q)) by (unfold lifted; rewrite !map_length, !distribution_length; auto).
  destruct (gibbs_sum (lifted p) (lifted q) LL (lifted_pos p NP) (lifted_pos q NQ)) as (G1 & G2).
  rewrite !lifted_sum, L, distribution_one in * by auto. pose proof (distribution_le_one q NQ) as D1.
  split; [lra|]. split.
  - intros E. assert (Z : lifted p = lifted q) by (apply G2; lra). unfold lifted in Z. revert Z. generalize (distribution p) (distribution q). clear.
    induction l as [|a l IH]; intros [|b l']; cbn [map]; try discriminate; auto. intros E. injection E as E1 E2. f_equal; [lra|auto].
  - intros E. assert (Z : lifted p = lifted q) by (unfold lifted; rewrite E; auto). rewrite <- Z. clear - NP.
    pose proof (lifted_pos p NP) as P. induction (lifted p) as [|a l IH]; auto. unfold kullback_leibler, Rsum in *. cbn [combine map fold_right].
    rewrite IH by (intros; apply P; cbn; auto). assert (0 < a) by (apply P; cbn; auto). replace (a / a) with 1 by (field; lra). rewrite ln_1. ring.
Qed.
Lemma distribution_shares : forall x, non_negative x -> kl_eps <= Rsum x -> distribution x = shares x.
Proof. intros x N E. unfold distribution, shares. rewrite abs_sum, Rmax_left by auto. auto. Qed.
Theorem kl_shares : forall q p, length q = length p -> non_negative q -> non_negative p -> kl_eps <= Rsum q -> kl_eps <= Rsum p ->
  exists v, kl_loss q p = Ok (Some v) /\ 0 <= v /\ (v = 0 <-> shares q = shares p)
  /\ v = kullback_leibler (map (fun a => a + kl_eps) (shares p)) (map (fun a => a + kl_eps) (shares q)).
Proof.
  intros q p L NQ NP EQ EP. destruct (kl_all q p L NQ NP EP) as (v & E & V & Z). exists v. split; auto. split; auto.
  rewrite !distribution_shares in Z by auto. split; auto. rewrite kl_value in E by auto. injection E as <-. unfold lifted. rewrite !distribution_shares by auto. auto.
Qed.
Theorem kl_scaled : forall q p c d, 0 < c -> 0 < d -> length q = length p -> non_negative q -> non_negative p ->
  kl_eps <= Rsum q -> kl_eps <= c * Rsum q -> kl_eps <= Rsum p -> kl_eps <= d * Rsum p ->
  kl_loss (map (Rmult c) q) (map (Rmult d) p) = kl_loss q p.
Proof.
  intros q p c d C D L NQ NP Q1 Q2 P1 P2. unfold kl_loss, same_length. rewrite !map_length, !distribution_scaled by auto. auto.
Qed.
(** A ground truth without flux can give a negative loss. *)
Lemma empty_terms : forall ds, non_negative ds ->
  let total := kullback_leibler (repeat kl_eps (length ds)) (map (fun d => d + kl_eps) ds) in
  total <= 0 /\ (0 < Rsum ds -> total < 0).
Proof.
  pose proof eps_pos as EP. unfold kullback_leibler. induction ds as [|d ds IH]; intros N; cbn [length repeat map combine Rsum fold_right]; [split; lra|].
  destruct IH as (A & B); [intros x I; apply N; right; auto|]. cbv zeta in A, B. unfold Rsum in A, B.
  assert (D : 0 <= d) by (apply N; left; auto). rewrite ln_ratio by lra.
  assert (T : kl_eps * (ln kl_eps - ln (d + kl_eps)) <= 0 /\ (0 < d -> kl_eps * (ln kl_eps - ln (d + kl_eps)) < 0)).
  { split.
    - destruct D as [D|<-]; [assert (ln kl_eps < ln (d + kl_eps)) by (apply ln_increasing; lra); nra|rewrite Rplus_0_l; lra].
    - intros D'. assert (ln kl_eps < ln (d + kl_eps)) by (apply ln_increasing; lra). nra. }
  split; [lra|]. intros S0. destruct D as [D|<-]; [destruct T as (_ & T); specialize (T D); lra|]. rewrite Rplus_0_l in S0. specialize (B S0). lra.
Qed.
Theorem kl_negative : forall q, non_negative q -> 0 < Rsum q -> exists v, kl_loss q (repeat 0 (length q)) = Ok (Some v) /\ v < 0.
Proof.
  intros q NQ SQ. pose proof eps_pos as EP.
  assert (NP : non_negative (repeat 0 (length q))) by (intros x I; apply repeat_spec in I; lra).
  eexists. split; [apply kl_value; auto; rewrite repeat_length; auto|].
  assert (DP : lifted (repeat 0 (length q)) = repeat kl_eps (length (distribution q))).
  { rewrite distribution_length. unfold lifted, distribution. set (s := Rmax _ _). clearbody s. generalize (length q). induction n; cbn [repeat map]; auto. rewrite IHn. f_equal. unfold Rdiv. ring. }
  rewrite DP. apply empty_terms; [apply distribution_nonneg; auto|]. rewrite distribution_sum by auto.
  apply Rdiv_lt_0_compat; auto. apply (Rlt_le_trans _ _ _ EP (Rmax_r _ _)).
Qed.

(** ** Angles *)
Lemma unit_equal : forall a b, norm a = 1 -> norm b = 1 -> dot a b = 1 -> a = b.
Proof.
  intros a b A B E. apply norm_unit_dot in A. apply norm_unit_dot in B.
  assert (Z : dot (vsub a b) (vsub a b) = 0) by (rewrite dot_vsub_l, !dot_vsub_r, (dot_comm b a); lra).
  apply dot_self_zero in Z. apply point_eq; [apply (f_equal pe) in Z|apply (f_equal pn) in Z|apply (f_equal pu) in Z]; cbn [vsub vec pe pn pu] in Z; lra.
Qed.
Lemma first_three_dot : forall a b : point, hdot (hv (pe a) (pn a) (pu a) 0) (hv (pe b) (pn b) (pu b) 0) = dot a b.
Proof. intros. unfold hdot, dot. cbn [he hn hu hw hv]. ring. Qed.
Theorem angle_all : forall x y, / 10 ^ 12 <= norm (first_three x) -> / 10 ^ 12 <= norm (first_three y) ->
  angle_loss x y = angle_between (first_three x) (first_three y) /\ 0 <= angle_loss x y <= PI
  /\ (angle_loss x y = 0 <-> same_direction (first_three x) (first_three y)).
Proof.
  intros x y X Y. unfold angle_loss, angle_between. generalize dependent (first_three y). generalize dependent (first_three x). clear. intros a A b B.
  assert (UA : norm (normalize a) = 1) by (apply normalize_eps_unit; auto; lra).
  assert (UB : norm (normalize b) = 1) by (apply normalize_eps_unit; auto; lra).
  pose proof (dot_unit_bound _ _ UA UB) as BD.
  assert (NA : 0 < norm a) by lra. assert (NB : 0 < norm b) by lra.
  assert (D : dot (normalize a) (normalize b) = dot a b / (norm a * norm b)).
  { unfold normalize. rewrite !normalize_eps_long by auto. rewrite dot_smul_l, dot_smul_r. field. lra. }
  assert (CL : clamp (-1) 1 (dot (normalize a) (normalize b)) = dot (normalize a) (normalize b)).
  { unfold clamp. rewrite Rmax_left by lra. apply Rmin_left. lra. }
  rewrite CL. split; [rewrite D; auto|]. split; [apply acos_bound|]. split.
  - intros E. assert (O : dot (normalize a) (normalize b) = 1) by (rewrite <- (cos_acos (dot (normalize a) (normalize b))), E by auto; apply cos_0).
    apply unit_equal in O; auto. unfold normalize in O. rewrite !normalize_eps_long in O by auto.
    exists (norm a / norm b). split; [apply Rdiv_lt_0_compat; auto|].
    assert (F : smul (norm a) (smul (/ norm a) a) = smul (norm a) (smul (/ norm b) b)) by (rewrite O; auto).
    transitivity (smul (norm a) (smul (/ norm a) a)); [apply point_eq; cbn [smul vec pe pn pu]; field; lra|].
    rewrite F. apply point_eq; cbn [smul vec pe pn pu]; field; lra.
  - intros (k & K & E). assert (N : norm a = k * norm b) by (rewrite E, norm_smul, Rabs_right by lra; auto).
    rewrite D, N, E, dot_smul_l, <- norm_sq. replace (k * (norm b * norm b) / (k * norm b * norm b)) with 1 by (field; lra). apply acos_1.
Qed.
Lemma hdot_cauchy : forall x y, hdot x y * hdot x y <= hdot x x * hdot y y.
Proof.
  intros [a b c d] [a' b' c' d']. unfold hdot. cbn [he hn hu hw].
  pose proof (Rle_0_sqr (a * b' - b * a')) as H1. pose proof (Rle_0_sqr (a * c' - c * a')) as H2. pose proof (Rle_0_sqr (a * d' - d * a')) as H3.
  pose proof (Rle_0_sqr (b * c' - c * b')) as H4. pose proof (Rle_0_sqr (b * d' - d * b')) as H5. pose proof (Rle_0_sqr (c * d' - d * c')) as H6.
  unfold Rsqr in *. lra.
Qed.
Lemma hdot_self : forall x, 0 <= hdot x x.
Proof. intros [a b c d]. unfold hdot. cbn [he hn hu hw]. pose proof (Rle_0_sqr a). pose proof (Rle_0_sqr b). pose proof (Rle_0_sqr c). pose proof (Rle_0_sqr d). unfold Rsqr in *. lra. Qed.
Lemma hnorm_sq : forall x, hnorm x * hnorm x = hdot x x.
Proof. intros. apply sqrt_sqrt, hdot_self. Qed.
Lemma hdot_bound : forall x y, Rabs (hdot x y) <= hnorm x * hnorm y.
Proof.
  intros x y. rewrite <- (Rabs_right (hnorm x * hnorm y)).
  2: { apply Rle_ge, Rmult_le_pos; apply sqrt_pos. }
  apply Rsqr_le_abs_0. unfold Rsqr. replace (hnorm x * hnorm y * (hnorm x * hnorm y)) with ((hnorm x * hnorm x) * (hnorm y * hnorm y)) by ring.
  rewrite !hnorm_sq. apply hdot_cauchy.
Qed.
Theorem cosine_all : forall x y, 0 <= cosine_loss x y <= 2
  /\ (/ 10 ^ 8 <= hnorm x -> / 10 ^ 8 <= hnorm y -> cosine_loss x y = 1 - hdot x y / (hnorm x * hnorm y))
  /\ (/ 10 ^ 8 <= hnorm x -> cosine_loss x x = 0).
Proof.
  intros x y. pose proof (sqrt_pos (hdot x x)) as PX. pose proof (sqrt_pos (hdot y y)) as PY. fold (hnorm x) in PX. fold (hnorm y) in PY.
  split; [|split].
  - unfold cosine_loss, cosine_similarity. set (u := Rmax (hnorm x) (/ 10 ^ 8)). set (v := Rmax (hnorm y) (/ 10 ^ 8)).
    assert (U1 : hnorm x <= u) by apply Rmax_l. assert (U2 : / 10 ^ 8 <= u) by apply Rmax_r.
    assert (V1 : hnorm y <= v) by apply Rmax_l. assert (V2 : / 10 ^ 8 <= v) by apply Rmax_r.
    assert (W : 0 < u * v) by (apply Rmult_lt_0_compat; lra).
    assert (B : Rabs (hdot x y) <= u * v) by (eapply Rle_trans; [apply hdot_bound|apply Rmult_le_compat; auto]).
    assert (B1 : - (u * v) <= hdot x y <= u * v) by (revert B; unfold Rabs; destruct (Rcase_abs (hdot x y)); lra).
    assert (C : -1 <= hdot x y / (u * v) <= 1).
    { split; apply (Rmult_le_reg_r (u * v)); auto; unfold Rdiv; rewrite Rmult_assoc, Rinv_l by lra; lra. }
    lra.
  - intros X Y. unfold cosine_loss, cosine_similarity. rewrite !Rmax_left by auto. auto.
  - intros X. unfold cosine_loss, cosine_similarity. rewrite !Rmax_left by auto. rewrite hnorm_sq.
    assert (0 < hdot x x) by (rewrite <- hnorm_sq; apply Rmult_lt_0_compat; lra). field. lra.
Qed.

(** ** Reduction per heliostat *)
Lemma rows_length : forall A n k (l : list A), length (rows_of n k l) = n.
Proof. induction n; intros; cbn [rows_of length]; auto. Qed.
Lemma rows_nth : forall A n k (l : list A) i, (i < n)%nat -> nth_error (rows_of n k l) i = Some (samples_of k i l).
Proof.
  induction n as [|n IH]; intros k l i I; [lia|]. destruct i as [|i]; cbn [rows_of nth_error]; auto. rewrite IH by lia. unfold samples_of. do 2 f_equal.

  assert (G : forall a b (l : list A), skipn a (skipn b l) = skipn (b + a) l).
  { intros a b. revert a. induction b as [|b IHb]; intros a l0; auto. destruct l0; [rewrite !skipn_nil; auto|]. cbn [skipn Nat.add]. apply IHb. }
  apply G.
Qed.
Lemma skipn_firstn_comm' : forall A a b (l : list A), skipn a (firstn b l) = firstn (b - a) (skipn a l).
Proof. intros. apply skipn_firstn_comm. Qed.
Lemma samples_firstn : forall A k i n (l : list A), (i < n)%nat -> samples_of k i (firstn (n * k) l) = samples_of k i l.
Proof.
  intros A k i n l I. unfold samples_of. rewrite skipn_firstn_comm', firstn_firstn. f_equal. apply Nat.min_l. nia.
Qed.
Theorem reduce_all : forall A loss k (reduction : list R -> A), (0 < k)%nat ->
  exists out, reduce_loss_per_sample loss k reduction = Ok out /\ length out = (length loss / k)%nat
  /\ (forall i, (i < length loss / k)%nat -> nth_error out i = Some (reduction (samples_of k i loss)) /\ length (samples_of k i loss) = k).
Proof.
  intros A loss k reduction K. unfold reduce_loss_per_sample. destruct (Nat.eqb_spec k 0); [lia|]. eexists. split; [reflexivity|].
  rewrite map_length, rows_length. split; auto. intros i I. split.
  - rewrite nth_error_map, rows_nth by auto. cbn [option_map]. rewrite samples_firstn by auto. auto.
  - unfold samples_of. rewrite firstn_length, skipn_length. apply Nat.min_l. pose proof (Nat.mul_div_le (length loss) k). nia.
Qed.
Theorem reduce_complete : forall loss n k, (0 < k)%nat -> length loss = (n * k)%nat ->
  exists rows, reduce_loss_per_sample loss k (fun r => r) = Ok rows /\ length rows = n /\ concat rows = loss.
Proof.
  intros loss n k K L. unfold reduce_loss_per_sample. destruct (Nat.eqb_spec k 0); [lia|]. rewrite L, Nat.div_mul by auto.
  eexists. split; [reflexivity|]. rewrite map_id, rows_length. split; auto. rewrite <- L, firstn_all. clear n0. revert loss L.
  induction n as [|n IH]; intros loss L; cbn [rows_of concat].
  - destruct loss; [auto|discriminate].
  - rewrite IH; [apply firstn_skipn|]. rewrite skipn_length, L. cbn [Nat.mul]. lia.
Qed.

(** ** Regularizers *)
Definition square_sum (n m : nat) (f : nat -> nat -> point) : R := Rsum (map (fun i => Rsum (map (fun j => dot (f i j) (f i j)) (seq 0 m))) (seq 0 n)).
Lemma square_sum_nonneg : forall n m f, 0 <= square_sum n m f.
Proof. intros. apply Rsum_map_nonneg. intros i _. apply Rsum_map_nonneg. intros j _. apply dot_self_nonneg. Qed.
Lemma square_sum_zero : forall n m f, square_sum n m f = 0 <-> forall i j, (i < n)%nat -> (j < m)%nat -> f i j = vec 0 0 0.
Proof.
  intros n m f. split.
  - intros E i j I J. apply dot_self_zero.
    assert (E1 : Rsum (map (fun j => dot (f i j) (f i j)) (seq 0 m)) = 0).
    { apply (Rsum_zero_nonneg _) with (2 := E); [|apply in_map_iff; exists i; split; auto; apply in_seq; lia].
      intros x X. apply in_map_iff in X. destruct X as (k & <- & _). apply Rsum_map_nonneg. intros; apply dot_self_nonneg. }
    apply (Rsum_zero_nonneg _) with (2 := E1); [|apply in_map_iff; exists j; split; auto; apply in_seq; lia].
    intros x X. apply in_map_iff in X. destruct X as (k & <- & _). apply dot_self_nonneg.
  - intros H. apply Rsum_map_zero. intros i I. apply in_seq in I. apply Rsum_map_zero. intros j J. apply in_seq in J. rewrite H by lia. vunfold. ring.
Qed.
Lemma facet_mean_some : forall n m f, (0 < n)%nat -> (0 < m)%nat ->
  exists v, facet_mean n m f = Some v /\ 0 <= v /\ (v = 0 <-> forall i j, (i < n)%nat -> (j < m)%nat -> f i j = vec 0 0 0).
Proof.
  intros n m f N M. unfold facet_mean. fold (square_sum n m f). assert (PN : 0 < INR n) by (apply lt_0_INR; auto). assert (PM : 0 < INR m) by (apply lt_0_INR; auto).
  assert (W : 0 < 3 * INR n * INR m) by (apply Rmult_lt_0_compat; lra).
  unfold div_opt. destruct (Req_EM_T (3 * INR n * INR m) 0); [lra|]. eexists. split; [reflexivity|].
  pose proof (square_sum_nonneg n m f) as P. pose proof (Rinv_0_lt_compat _ W) as WI. split; [apply Rmult_le_pos; lra|].
  rewrite <- square_sum_zero. split.
  - intros E. unfold Rdiv in E. apply Rmult_integral in E. destruct E; lra.
  - intros ->. lra.
Qed.
Lemma sum_facets_spec : forall (A : Type) (f : A -> option R) (P : A -> Prop) l, (forall a, In a l -> exists v, f a = Some v /\ 0 <= v /\ (v = 0 <-> P a)) ->
  exists v, sum_facets (map f l) = Some v /\ 0 <= v /\ (v = 0 <-> forall a, In a l -> P a).
Proof.
  intros A f P. unfold sum_facets. induction l as [|a l IH]; intros H.
  - exists 0. cbn. repeat split; auto; try lra. intros _ a [].
  - destruct (H a) as (v & E & V & Z); [cbn; auto|]. destruct IH as (w & F & W & ZW); [intros; apply H; cbn; auto|].
    cbn [map collect]. rewrite E. cbn [obind]. destruct (collect (map f l)) as [r|]; [|discriminate]. cbn [obind] in *. injection F as F.
    exists (v + w). split; [rewrite Rsum_cons, F; auto|]. split; [lra|]. split.
    + intros S0 b [<-|B]; [apply Z; lra|apply ZW; auto; lra].
    + intros S0. assert (v = 0) by (apply Z; apply S0; cbn; auto). assert (w = 0) by (apply ZW; intros; apply S0; cbn; auto). lra.
Qed.
Definition dir_energy (n : nat) (x : nat -> R) : R := Rsum_n n (fun i => x i * (2 * x i - x (i - 1)%nat - x (Nat.min (i + 1) (n - 1)))).
Lemma energy_edges : forall k x, dir_energy (S k) x = Rsum_n k (fun i => (x (S i) - x i) * (x (S i) - x i)).
Proof.
  intros k x. unfold dir_energy.
  transitivity (Rsum_n (S k) (fun i => x i * (x i - x (i - 1)%nat)) + Rsum_n (S k) (fun i => x i * (x i - x (Nat.min (i + 1) k)))).
  { rewrite <- Rsum_n_plus. apply Rsum_n_ext. intros i I. replace (S k - 1)%nat with k by lia. ring. }
  rewrite Rsum_n_shift, (Rsum_n_S k (fun i => x i * (x i - x (Nat.min (i + 1) k)))). cbn [Nat.sub].
  rewrite (Nat.min_r (k + 1) k) by lia.
  replace (x 0%nat * (x 0%nat - x 0%nat)) with 0 by ring. replace (x k * (x k - x k)) with 0 by ring.
  rewrite Rplus_0_l, Rplus_0_r, <- Rsum_n_plus. apply Rsum_n_ext. intros i I. rewrite Nat.min_l by lia. replace (i - 0)%nat with i by lia. replace (i + 1)%nat with (S i) by lia. ring.
Qed.
Lemma energy_nonneg : forall n x, 0 <= dir_energy n x.
Proof. intros [|k] x; [cbn; lra|]. rewrite energy_edges. apply Rsum_n_nonneg. intros. apply Rle_0_sqr. Qed.
Lemma Rsum_n_zero_nonneg : forall n f, (forall i, (i < n)%nat -> 0 <= f i) -> Rsum_n n f = 0 -> forall i, (i < n)%nat -> f i = 0.
Proof.
  intros n f N E i I. unfold Rsum_n in E. apply (Rsum_zero_nonneg _) with (2 := E); [|apply in_map_iff; exists i; split; auto; apply in_seq; lia].
  intros x X. apply in_map_iff in X. destruct X as (k & <- & K). apply in_seq in K. apply N. lia.
Qed.
Lemma energy_zero : forall n x, dir_energy n x = 0 -> forall i, (i < n)%nat -> x i = x 0%nat.
Proof.
  intros [|k] x E; [lia|]. rewrite energy_edges in E.
  assert (Z : forall i, (i < k)%nat -> x (S i) = x i).
  { intros i I. assert (E1 := Rsum_n_zero_nonneg k _ (fun j _ => Rle_0_sqr (x (S j) - x j)) E i I). cbn beta in E1. apply Rmult_integral in E1. destruct E1; lra. }
  intros i I. induction i as [|i IH]; auto. rewrite Z by lia. apply IH. lia.
Qed.
Definition scalar_laplace (n m : nat) (d : nat -> nat -> R) (i j : nat) : R :=
  4 * d i j - d (i - 1)%nat j - d (Nat.min (i + 1) (n - 1)) j - d i (j - 1)%nat - d i (Nat.min (j + 1) (m - 1)).
Lemma laplace_constant : forall n m (d : nat -> nat -> R), (forall i j, (i < n)%nat -> (j < m)%nat -> scalar_laplace n m d i j = 0) ->
  forall i j, (i < n)%nat -> (j < m)%nat -> d i j = d 0%nat 0%nat.
Proof.
  intros n m d H.
  assert (E : Rsum_n m (fun j => dir_energy n (fun i => d i j)) + Rsum_n n (fun i => dir_energy m (fun j => d i j)) = 0).
  { unfold dir_energy at 1. rewrite (Rsum_n_swap m n). rewrite <- Rsum_n_plus. apply Rsum_n_zero. intros i I. unfold dir_energy. rewrite <- Rsum_n_plus.
    apply Rsum_n_zero. intros j J. transitivity (d i j * scalar_laplace n m d i j); [unfold scalar_laplace; ring|]. rewrite H by auto. ring. }
  assert (P1 : 0 <= Rsum_n m (fun j => dir_energy n (fun i => d i j))) by (apply Rsum_n_nonneg; intros; apply energy_nonneg).
  assert (P2 : 0 <= Rsum_n n (fun i => dir_energy m (fun j => d i j))) by (apply Rsum_n_nonneg; intros; apply energy_nonneg).
  assert (Z1 : forall j, (j < m)%nat -> dir_energy n (fun i => d i j) = 0).
  { apply (Rsum_n_zero_nonneg m (fun j => dir_energy n (fun i => d i j))); [intros; apply energy_nonneg|lra]. }
  assert (Z2 : forall i, (i < n)%nat -> dir_energy m (fun j => d i j) = 0).
  { apply (Rsum_n_zero_nonneg n (fun i => dir_energy m (fun j => d i j))); [intros; apply energy_nonneg|lra]. }
  intros i j I J. rewrite (energy_zero n (fun i => d i j) (Z1 j J) i I). apply (energy_zero m (fun j => d 0%nat j)); auto. apply Z2. lia.
Qed.
Lemma smooth_facet : forall n m cur orig, (0 < n)%nat -> (0 < m)%nat ->
  (forall i j, (i < n)%nat -> (j < m)%nat -> laplace n m (displacement cur orig) i j = vec 0 0 0) <-> shifted n m cur orig.
Proof.
  intros n m cur orig N M. split.
  - intros H. set (d := displacement cur orig) in *. exists (d 0%nat 0%nat).
    assert (E : forall i j, (i < n)%nat -> (j < m)%nat -> d i j = d 0%nat 0%nat).
    { intros i j I J. apply point_eq.
      - apply (laplace_constant n m (fun i j => pe (d i j))); auto. intros a b A B. specialize (H a b A B). apply (f_equal pe) in H. unfold laplace in H.
        cbn [vsub smul vec pe] in H. unfold scalar_laplace. lra.
      - apply (laplace_constant n m (fun i j => pn (d i j))); auto. intros a b A B. specialize (H a b A B). apply (f_equal pn) in H. unfold laplace in H.
        cbn [vsub smul vec pn] in H. unfold scalar_laplace. lra.
      - apply (laplace_constant n m (fun i j => pu (d i j))); auto. intros a b A B. specialize (H a b A B). apply (f_equal pu) in H. unfold laplace in H.
        cbn [vsub smul vec pu] in H. unfold scalar_laplace. lra. }
    intros i j I J. rewrite <- (E i j I J). unfold d, displacement. apply point_eq; cbn [vadd vsub vec pe pn pu]; ring.
  - intros (t & H) i j I J. unfold laplace, displacement. rewrite !H by (auto; lia). apply point_eq; cbn [vadd vsub smul vec pe pn pu]; ring.
Qed.
Theorem smoothness_all : forall n m facets, (0 < n)%nat -> (0 < m)%nat ->
  exists v, smoothness n m facets = Some v /\ 0 <= v
  /\ (v = 0 <-> forall current original, In (current, original) facets -> shifted n m current original).
Proof.
  intros n m facets N M. unfold smoothness.
  destruct (sum_facets_spec _ (fun '(current, original) => facet_mean n m (laplace n m (displacement current original)))
    (fun '(current, original) => shifted n m current original) facets) as (v & E & V & Z).
  { intros [c o] _. destruct (facet_mean_some n m (laplace n m (displacement c o)) N M) as (v & E & V & Z). exists v. split; auto. split; auto. rewrite Z. apply smooth_facet; auto. }
  exists v. split; auto. split; auto. rewrite Z. split; [intros H c o I; apply (H (c, o) I)|intros H [c o] I; auto].
Qed.
Theorem ideal_all : forall n m facets, (0 < n)%nat -> (0 < m)%nat ->
  exists v, ideal_surface n m facets = Some v /\ 0 <= v
  /\ (v = 0 <-> forall current original i j, In (current, original) facets -> (i < n)%nat -> (j < m)%nat -> current i j = original i j).
Proof.
  intros n m facets N M. unfold ideal_surface.
  destruct (sum_facets_spec _ (fun '(current, original) => facet_mean n m (displacement current original))
    (fun '(current, original) => forall i j, (i < n)%nat -> (j < m)%nat -> current i j = original i j) facets) as (v & E & V & Z).
  { intros [c o] _. destruct (facet_mean_some n m (displacement c o) N M) as (v & E & V & Z). exists v. split; auto. split; auto. rewrite Z.
    split; intros H i j I J; specialize (H i j I J).
    - unfold displacement in H. apply point_eq; [apply (f_equal pe) in H|apply (f_equal pn) in H|apply (f_equal pu) in H]; cbn [vsub vec pe pn pu] in H; lra.
    - unfold displacement. rewrite H. apply point_eq; cbn [vsub vec pe pn pu]; ring. }
  exists v. split; auto. split; auto. rewrite Z. split; [intros H c o i j I; apply (H (c, o) I)|intros H [c o] I i j; apply H; auto].
Qed.
(** Adding the same net to current and original control points changes nothing. *)
Definition added (d f : nat -> nat -> point) : nat -> nat -> point := fun i j => vadd (f i j) (d i j).
Lemma facet_mean_ext : forall n m f g, (forall i j, f i j = g i j) -> facet_mean n m f = facet_mean n m g.
Proof. intros n m f g H. unfold facet_mean. f_equal. apply Rsum_map_ext. intros i _. apply Rsum_map_ext. intros j _. rewrite H. auto. Qed.
Lemma displacement_added : forall d c o i j, displacement (added d c) (added d o) i j = displacement c o i j.
Proof. intros. unfold displacement, added. apply point_eq; cbn [vadd vsub vec pe pn pu]; ring. Qed.
Theorem regularizers_relative : forall n m facets d,
  let moved := map (fun '(current, original) => (added d current, added d original)) facets in
  smoothness n m moved = smoothness n m facets /\ ideal_surface n m moved = ideal_surface n m facets.
Proof.
  intros n m facets d moved. unfold moved, smoothness, ideal_surface. rewrite !map_map. split; f_equal; apply map_ext; intros [c o].
  - apply facet_mean_ext. intros i j. unfold laplace. rewrite !displacement_added. auto.
  - apply facet_mean_ext. intros i j. apply displacement_added.
Qed.
(** Shifting the whole current net leaves the smoothness term alone. *)
Theorem smoothness_shift : forall n m facets t,
  smoothness n m (map (fun '(current, original) => (added (fun _ _ => t) current, original)) facets) = smoothness n m facets.
Proof.
  intros n m facets t. unfold smoothness. rewrite map_map. f_equal. apply map_ext. intros [c o]. apply facet_mean_ext. intros i j.
  unfold laplace, displacement, added. apply point_eq; cbn [vadd vsub smul vec pe pn pu]; ring.
Qed.
