(** Lemmas on vectors. *)
From Coq Require Import Reals Lra Psatz.
From Verif Require Import ModelVectors.
Local Open Scope R_scope.

Ltac vunfold := unfold dot, cross, vadd, vsub, smul, vec in *; cbn [pe pn pu] in *.
Lemma point_eq : forall a b, pe a = pe b -> pn a = pn b -> pu a = pu b -> a = b.
Proof. intros [a b c] [a' b' c']; simpl; intros -> -> ->; auto. Qed.
Lemma point_inv : forall a b c a' b' c', {| pe := a; pn := b; pu := c |} = {| pe := a'; pn := b'; pu := c' |} ->
  a = a' /\ b = b' /\ c = c'.
Proof. intros * H. inversion H; auto. Qed.
Ltac vring := apply point_eq; vunfold; ring.

Lemma dot_comm : forall a b, dot a b = dot b a.
Proof. intros; vunfold; ring. Qed.
Lemma dot_vadd_l : forall a b c, dot (vadd a b) c = dot a c + dot b c.
Proof. intros; vunfold; ring. Qed.
Lemma dot_vadd_r : forall a b c, dot c (vadd a b) = dot c a + dot c b.
Proof. intros; vunfold; ring. Qed.
Lemma dot_vsub_l : forall a b c, dot (vsub a b) c = dot a c - dot b c.
Proof. intros; vunfold; ring. Qed.
Lemma dot_vsub_r : forall a b c, dot c (vsub a b) = dot c a - dot c b.
Proof. intros; vunfold; ring. Qed.
Lemma dot_smul_l : forall k a b, dot (smul k a) b = k * dot a b.
Proof. intros; vunfold; ring. Qed.
Lemma dot_smul_r : forall k a b, dot a (smul k b) = k * dot a b.
Proof. intros; vunfold; ring. Qed.
Lemma dot_self_nonneg : forall a, 0 <= dot a a.
Proof. intros; vunfold; nra. Qed.
Lemma dot_self_zero : forall a, dot a a = 0 -> a = vec 0 0 0.
Proof.
  intros [x y z] H; vunfold. assert (x = 0) by nra. assert (y = 0) by nra. assert (z = 0) by nra. subst; auto.
Qed.
(** Lagrange's identity. *)
Lemma gram : forall a b, dot a a * dot b b - dot a b * dot a b = dot (cross a b) (cross a b).
Proof. intros; vunfold; ring. Qed.
Lemma cauchy_schwarz : forall a b, dot a b * dot a b <= dot a a * dot b b.
Proof. intros. pose proof (gram a b). pose proof (dot_self_nonneg (cross a b)). lra. Qed.
Lemma cross_orth_l : forall a b, dot a (cross a b) = 0.
Proof. intros; vunfold; ring. Qed.
Lemma cross_orth_r : forall a b, dot b (cross a b) = 0.
Proof. intros; vunfold; ring. Qed.
Lemma norm_sq : forall a, norm a * norm a = dot a a.
Proof. intros. unfold norm. apply sqrt_sqrt, dot_self_nonneg. Qed.
Lemma norm_nonneg : forall a, 0 <= norm a.
Proof. intros. apply sqrt_pos. Qed.
Lemma norm_smul : forall k a, norm (smul k a) = Rabs k * norm a.
Proof.
  intros. unfold norm. rewrite dot_smul_l, dot_smul_r. replace (k * (k * dot a a)) with (k² * dot a a) by (unfold Rsqr; ring).
  rewrite sqrt_mult; [|apply Rle_0_sqr|apply dot_self_nonneg]. f_equal. apply sqrt_Rsqr_abs.
Qed.
Lemma normalize_eps_unit : forall eps a, 0 < eps -> eps <= norm a -> norm (normalize_eps eps a) = 1.
Proof.
  intros. unfold normalize_eps. rewrite norm_smul, Rmax_left by lra.
  rewrite Rabs_right; [field; lra|]. left. apply Rinv_0_lt_compat. lra.
Qed.
Lemma normalize_eps_long : forall eps a, eps <= norm a -> normalize_eps eps a = smul (/ norm a) a.
Proof. intros. unfold normalize_eps. rewrite Rmax_left by lra. auto. Qed.
Lemma norm_unit_dot : forall a, norm a = 1 <-> dot a a = 1.
Proof.
  intros a; split; intros H.
  - rewrite <- norm_sq, H. ring.
  - unfold norm. rewrite H. apply sqrt_1.
Qed.
Lemma normalize_eps_id : forall eps a, eps <= 1 -> norm a = 1 -> normalize_eps eps a = a.
Proof. intros. unfold normalize_eps. rewrite Rmax_left by lra. rewrite H0, Rinv_1. vring. Qed.
Lemma dot_le_norm : forall a b, Rabs (dot a b) <= norm a * norm b.
Proof.
  intros. apply Rsqr_incr_0_var; [|apply Rmult_le_pos; apply norm_nonneg].
  unfold Rsqr. rewrite <- Rabs_mult. pose proof (Rle_0_sqr (dot a b)) as Q; unfold Rsqr in Q.
  rewrite Rabs_right by lra. pose proof (cauchy_schwarz a b).
  pose proof (norm_sq a); pose proof (norm_sq b). 
  replace (norm a * norm b * (norm a * norm b)) with ((norm a * norm a) * (norm b * norm b)) by ring.
  rewrite H0, H1. auto.
Qed.
Lemma dot_unit_bound : forall a b, norm a = 1 -> norm b = 1 -> -1 <= dot a b <= 1.
Proof.
  intros. pose proof (dot_le_norm a b). rewrite H, H0 in H1.
  split; [pose proof (Rle_abs (- dot a b)) as Q; rewrite Rabs_Ropp in Q; lra|pose proof (Rle_abs (dot a b)); lra].
Qed.
