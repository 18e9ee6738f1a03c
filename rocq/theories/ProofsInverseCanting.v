From Coq Require Import Reals Lra.
From Verif Require Import ModelField ModelVectors ModelTransforms ModelInverseCanting SpecIntersections SpecTransforms ProofsVectors ProofsTransforms.
Local Open Scope R_scope.

(** A facet point on the heliostat: canted, and moved by the translation of the facet. *)
Section Inverse.
Variables c_e c_n t : point.
Hypothesis E0 : / 10 ^ 12 <= norm c_e.
Hypothesis N0 : / 10 ^ 12 <= norm c_n.
Hypothesis C0 : / 10 ^ 8 * norm c_e <= norm (cross c_e c_n).
Hypothesis C1 : / 10 ^ 12 * (norm c_e * norm c_n) <= norm (cross c_e c_n).
Let e := normalize c_e.
Let m := normalize c_n.
Let u := normalize_eps (/ 10 ^ 8) (cross e c_n).
Let n := cross u e.
Let sine := norm (cross c_e c_n) / (norm c_e * norm c_n).
Let cosine := dot c_e c_n / (norm c_e * norm c_n).

Lemma pos_e : 0 < norm c_e. Proof. lra. Qed.
Lemma pos_n : 0 < norm c_n. Proof. lra. Qed.
Lemma e_eq : e = smul (/ norm c_e) c_e. Proof. apply normalize_eps_long. auto. Qed.
Lemma m_eq : m = smul (/ norm c_n) c_n. Proof. apply normalize_eps_long. auto. Qed.
Lemma cross_ec : cross e c_n = smul (/ norm c_e) (cross c_e c_n). Proof. rewrite e_eq. vring. Qed.
Lemma cross_em : cross e m = smul (/ (norm c_e * norm c_n)) (cross c_e c_n).
Proof. rewrite e_eq, m_eq. pose proof pos_e. pose proof pos_n. apply point_eq; vunfold; field; lra. Qed.
Lemma N0' : / 10 ^ 8 <= norm (cross (normalize c_e) c_n).
Proof.
  fold e. rewrite cross_ec, norm_smul. pose proof pos_e. rewrite Rabs_right by (apply Rle_ge; left; apply Rinv_0_lt_compat; auto).
  apply Rmult_le_reg_l with (norm c_e); auto. rewrite <- Rmult_assoc, Rinv_r, Rmult_1_l by lra. lra.
Qed.
Lemma norm_em : norm (cross e m) = sine.
Proof.
  rewrite cross_em, norm_smul. pose proof pos_e. pose proof pos_n. rewrite Rabs_right; [unfold sine; field; lra|]. apply Rle_ge. left. apply Rinv_0_lt_compat. apply Rmult_lt_0_compat; auto.
Qed.
Lemma sine_pos : 0 < sine.
Proof.
  unfold sine. pose proof pos_e. pose proof pos_n. apply Rdiv_lt_0_compat; [|apply Rmult_lt_0_compat; auto].
  apply Rlt_le_trans with (/ 10 ^ 8 * norm c_e); auto. apply Rmult_lt_0_compat; auto. lra.
Qed.
Lemma sine_eps : / 10 ^ 12 <= sine.
Proof.
  unfold sine. pose proof pos_e. pose proof pos_n. assert (P : 0 < norm c_e * norm c_n) by (apply Rmult_lt_0_compat; auto).
  apply Rmult_le_reg_r with (norm c_e * norm c_n); auto. unfold Rdiv. rewrite Rmult_assoc, Rinv_l by lra. lra.
Qed.
Lemma same_up : normalize (cross e m) = u.
Proof.
  unfold normalize. rewrite normalize_eps_long by (rewrite norm_em; apply sine_eps). unfold u. rewrite normalize_eps_long by apply N0'. rewrite norm_em, cross_em, cross_ec, norm_smul.
  pose proof pos_e. pose proof pos_n. pose proof sine_pos. rewrite Rabs_right by (apply Rle_ge; left; apply Rinv_0_lt_compat; auto).
  assert (Q : 0 < norm (cross c_e c_n)). { apply Rlt_le_trans with (/ 10 ^ 8 * norm c_e); auto. apply Rmult_lt_0_compat; auto. lra. }
  unfold sine. apply point_eq; vunfold; field; repeat split; lra.
Qed.
Lemma em_sine : cross e m = smul sine u.
Proof. rewrite <- same_up. unfold normalize. rewrite normalize_eps_long by (rewrite norm_em; apply sine_eps). rewrite norm_em. pose proof sine_pos. apply point_eq; vunfold; field; lra. Qed.
Lemma m_e : dot m e = cosine.
Proof. rewrite e_eq, m_eq. unfold cosine. pose proof pos_e. pose proof pos_n. vunfold. field. lra. Qed.
Lemma m_u : dot m u = 0.
Proof. rewrite <- same_up. unfold normalize, normalize_eps. rewrite dot_smul_r, cross_orth_r. ring. Qed.
Lemma m_n : dot m n = sine.
Proof.
  destruct (canting_units c_e c_n E0 N0') as (_ & UU & _ & _). unfold n.
  transitivity (dot u (cross e m)); [vunfold; ring|]. rewrite em_sine, dot_smul_r. change (dot u u = 1) in UU. rewrite UU. ring.
Qed.
Lemma canted_eq : forall x, perform_canting false c_e c_n x
  = let y := vadd (smul (he x) e) (vadd (smul (hn x) n) (smul (hu x) u)) in hv (pe y) (pn y) (pu y) (hw x).
Proof.
  intros x. unfold perform_canting. rewrite vapply_mtr, (canting_matrix_eq c_e c_n E0 N0'). fold e. fold u. fold n. clearbody e n u. apply hvec_eq; hunfold; vunfold; ring.
Qed.
Definition turned (p : point) : point := vadd (smul (pe p) e) (vadd (smul (pn p) n) (smul (pu p) u)).
Lemma dots_turned : forall p, dot e (turned p) = pe p /\ dot m (turned p) = pe p * cosine + pn p * sine /\ dot u (turned p) = pu p.
Proof.
  intros p. destruct (canting_units c_e c_n E0 N0') as (UE & UU & OR & UN). change (dot e e = 1) in UE. change (dot u u = 1) in UU. change (dot u e = 0) in OR.
  unfold turned. rewrite !dot_vadd_r, !dot_smul_r. rewrite m_e, m_n, m_u, UE, UU, OR.
  assert (A : dot e n = 0) by (unfold n; apply cross_orth_r). assert (B : dot u n = 0) by (unfold n; apply cross_orth_l). assert (C : dot e u = 0) by (rewrite dot_comm; auto).
  rewrite A, B, C. repeat split; ring.
Qed.
Theorem inverse_point : forall p, let y := perform_canting false c_e c_n (as_point p) in
  inverse_canting t c_e c_n (hv (he y + pe t) (hn y + pn t) (hu y + pu t) (hw y)) = vec (pe p) (pe p * cosine + pn p * sine) (pu p).
Proof.
  intros p y. unfold y. rewrite canted_eq. cbv zeta. unfold inverse_canting. fold e. fold m. rewrite same_up. destruct (dots_turned p) as (A & B & C).
  change (vadd (smul (he (as_point p)) e) (vadd (smul (hn (as_point p)) n) (smul (hu (as_point p)) u))) with (turned p). set (q := turned p) in *. clearbody q. clearbody e m u sine cosine n.
  unfold as_point. hunfold. rewrite <- A at 1. rewrite <- B, <- C. apply point_eq; vunfold; ring.
Qed.
Theorem inverse_direction : forall p s, inverse_canting s c_e c_n (perform_canting false c_e c_n (as_direction p)) = vec (pe p) (pe p * cosine + pn p * sine) (pu p).
Proof.
  intros p s. rewrite canted_eq. cbv zeta. unfold inverse_canting. fold e. fold m. rewrite same_up. destruct (dots_turned p) as (A & B & C).
  change (vadd (smul (he (as_direction p)) e) (vadd (smul (hn (as_direction p)) n) (smul (hu (as_direction p)) u))) with (turned p). set (q := turned p) in *. clearbody q. clearbody e m u sine cosine n.
  unfold as_direction. hunfold. rewrite <- A at 1. rewrite <- B, <- C. apply point_eq; vunfold; ring.
Qed.
Lemma sine_perpendicular : dot c_e c_n = 0 -> sine = 1 /\ cosine = 0.
Proof.
  intros D. pose proof pos_e. pose proof pos_n. split; [|unfold cosine; rewrite D; field; lra]. unfold sine.
  replace (norm (cross c_e c_n)) with (norm c_e * norm c_n); [field; lra|]. apply Rsqr_inj; try apply norm_nonneg; [apply Rmult_le_pos; lra|]. unfold Rsqr.
  transitivity (norm c_e * norm c_e * (norm c_n * norm c_n)); [ring|]. rewrite !norm_sq. rewrite <- gram, D. ring.
Qed.
End Inverse.
