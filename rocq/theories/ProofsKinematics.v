(** Proofs about the forward and inverse kinematics (C36-C38). *)
From Coq Require Import List Arith Reals Bool Lra Lia Psatz.
From Verif Require Import ModelField ModelVectors ProofsVectors ModelAngles ProofsAngles ModelTransforms ModelActuators ModelKinematics
  SpecIntersections SpecTransforms SpecKinematics ProofsTransforms.
Import ListNotations.
Local Open Scope R_scope.

Definition dir (m : mat) (v : point) : point := enu (mapply m (as_direction v)).

Lemma dir_mmul : forall a b v, rigid b -> dir (mmul a b) v = dir a (dir b v).
Proof.
  intros a b v (_ & D & _). unfold dir. rewrite mapply_mmul, as_direction_enu; auto.
Qed.
Lemma dir_unit : forall m v, rigid m -> unit v -> unit (dir m v).
Proof. intros m v (_ & _ & _ & _ & D & _) U. unfold unit, dir. rewrite D. auto. Qed.
Lemma dir_sub : forall m v w, rigid m -> dir m (vsub v w) = vsub (dir m v) (dir m w).
Proof.
  intros m v w _. unfold dir. apply point_eq; henu; ring.
Qed.
Lemma dir_norm : forall m v, rigid m -> norm (dir m v) = norm v.
Proof. intros m v (_ & _ & _ & _ & D & _). unfold norm, dir. rewrite D. auto. Qed.
Lemma dir_eye : forall v, dir eye v = v.
Proof. intros. unfold dir, eye. apply point_eq; henu; ring. Qed.
Lemma translate_by_rigid : forall t, rigid (translate_by t).
Proof. intros. apply translate_rigid. Qed.
Lemma dir_translate : forall t v, dir (translate_by t) v = v.
Proof. intros. unfold dir, translate_by, translate. apply point_eq; henu; ring. Qed.
Lemma eye_rigid : rigid eye.
Proof. destruct rotate_zero as (E & _). rewrite <- E. apply rotate_e_rigid. Qed.

Lemma first_rigid : forall k, rigid (first_deviations k).
Proof. intros. apply rigid_mmul; [apply rotate_n_rigid|apply rotate_u_rigid]. Qed.
Lemma second_rigid : forall k, rigid (second_deviations k).
Proof. intros. apply rigid_mmul; [apply rotate_e_rigid|apply rotate_n_rigid]. Qed.
Local Hint Resolve rigid_mmul rotate_e_rigid rotate_n_rigid rotate_u_rigid translate_by_rigid eye_rigid first_rigid second_rigid : rigid.
Lemma pose_rigid : forall k a b, rigid (pose k a b).
Proof. intros. unfold pose. auto 10 with rigid. Qed.
Lemma offsets_rigid : rigid initial_orientation_offsets.
Proof. unfold initial_orientation_offsets. auto with rigid. Qed.

Lemma pose_facing : forall k a b, facing (pose k a b)
  = dir (first_deviations k) (dir (rotate_e a) (dir (second_deviations k) (dir (rotate_u b) south))).
Proof.
  intros. change (facing (pose k a b)) with (dir (pose k a b) south). unfold pose.
  rewrite !dir_mmul by auto 10 with rigid. rewrite !dir_translate, dir_eye. auto.
Qed.

(** The sampled surfaces face up; the offsets turn them to the south. *)
Lemma normalize_unit : forall v, unit v -> normalize v = v.
Proof. intros v U. apply normalize_eps_id; [lra|]. apply norm_unit_dot. auto. Qed.
Lemma offsets_value : initial_orientation_offsets = rotate_e (PI / 2).
Proof.
  unfold initial_orientation_offsets.
  assert (D : decompose_rotations (vec 0 0 1) (vec 0 (-1) 0) = vec (PI / 2) 0 0).
  { unfold decompose_rotations. rewrite !(normalize_unit (vec _ _ _)) by (unfold unit; vunfold; ring).
    replace (cross (vec 0 0 1) (vec 0 (-1) 0)) with (vec 1 0 0) by vring.
    rewrite normalize_unit by (unfold unit; vunfold; ring).
    replace (dot (vec 0 0 1) (vec 0 (-1) 0)) with 0 by (vunfold; ring).
    rewrite clamp_id by lra. rewrite acos_0. vring. }
  rewrite D. cbn [pe pn pu vec]. destruct rotate_zero as (_ & -> & ->). rewrite !mmul_eye_r. auto.
Qed.
Lemma offsets_up : dir initial_orientation_offsets up = south.
Proof.
  rewrite offsets_value. unfold dir, rotate_e, up, south. rewrite cos_PI2, sin_PI2. apply point_eq; henu; ring.
Qed.

(** ** The inverse of the first deviations *)
Lemma mtr_rotate_n : forall x, mtr (rotate_n x) = rotate_n (- x).
Proof. intros. unfold rotate_n. rewrite cos_neg, sin_neg, Ropp_involutive. reflexivity. Qed.
Lemma mtr_rotate_u : forall x, mtr (rotate_u x) = rotate_u (- x).
Proof. intros. unfold rotate_u. rewrite cos_neg, sin_neg, Ropp_involutive. reflexivity. Qed.
Lemma mtr_first : forall k, mtr (first_deviations k) = mmul (rotate_u (- k_tilt_1u k)) (rotate_n (- k_tilt_1n k)).
Proof. intros. unfold first_deviations. rewrite mtr_mmul, mtr_rotate_n, mtr_rotate_u. auto. Qed.
Lemma dir_n_inv : forall x v, dir (rotate_n x) (dir (rotate_n (- x)) v) = v.
Proof.
  intros. rewrite <- dir_mmul by auto with rigid. rewrite rotate_n_add, Rplus_opp_r. destruct rotate_zero as (_ & -> & _). apply dir_eye.
Qed.
Lemma dir_u_inv : forall x v, dir (rotate_u x) (dir (rotate_u (- x)) v) = v.
Proof.
  intros. rewrite <- dir_mmul by auto with rigid. rewrite rotate_u_add, Rplus_opp_r. destruct rotate_zero as (_ & _ & ->). apply dir_eye.
Qed.
Lemma first_inv : forall k v, dir (first_deviations k) (dir (mtr (first_deviations k)) v) = v.
Proof.
  intros. rewrite mtr_first. unfold first_deviations. rewrite !dir_mmul by auto with rigid. rewrite dir_u_inv, dir_n_inv. auto.
Qed.
Lemma first_inv' : forall k v, dir (mtr (first_deviations k)) (dir (first_deviations k) v) = v.
Proof.
  intros. rewrite mtr_first. unfold first_deviations. rewrite !dir_mmul by auto with rigid.
  rewrite <- (Ropp_involutive (k_tilt_1n k)) at 2. rewrite dir_n_inv.
  rewrite <- (Ropp_involutive (k_tilt_1u k)) at 2. rewrite dir_u_inv. auto.
Qed.
Lemma mtr_first_rigid : forall k, rigid (mtr (first_deviations k)).
Proof. intros. rewrite mtr_first. auto with rigid. Qed.

(** ** The second joint *)
Definition arm (k : kinematics) (b : R) : point := dir (second_deviations k) (dir (rotate_u b) south).
Lemma arm_unit : forall k b, unit (arm k b).
Proof. intros. apply dir_unit; auto with rigid. apply dir_unit; auto with rigid. unfold unit, south. vunfold. ring. Qed.
Lemma arm_e : forall k b, pe (arm k b) = cos (k_tilt_2n k) * sin b.
Proof.
  intros. unfold arm, dir, second_deviations, rotate_e, rotate_n, rotate_u, south. henu. ring.
Qed.
Lemma second_row : forall k, he (row_e (second_deviations k)) = cos (k_tilt_2n k) /\ hn (row_e (second_deviations k)) = 0.
Proof. intros. unfold second_deviations, rotate_e, rotate_n. hunfold. split; ring. Qed.

Lemma wrap_cs : forall x, cos (wrap x) = cos x /\ sin (wrap x) = sin x.
Proof.
  intros. unfold wrap. destruct (atan2_polar (sin x) (cos x)) as (A & B).
  assert (E : sqrt (cos x * cos x + sin x * sin x) = 1) by (rewrite sc; apply sqrt_1).
  rewrite E in A, B. lra.
Qed.
Lemma wrap_bound : forall x, - PI < wrap x <= PI.
Proof. intros. apply atan2_bound. Qed.
Lemma wrap_id : forall x, - PI < x <= PI -> wrap x = x.
Proof.
  intros x H. destruct (wrap_cs x). apply angle_unique; auto. apply wrap_bound.
Qed.

(** Both angles of the second joint give the same east component. *)
Lemma phase : forall c r, -1 <= r <= 1 ->
  c * sin (wrap (asin r - atan2 (- 0) c)) = Rabs c * r /\ c * sin (wrap (PI - asin r - atan2 (- 0) c)) = Rabs c * r.
Proof.
  intros c r B. destruct (wrap_cs (asin r - atan2 (- 0) c)) as (_ & ->). destruct (wrap_cs (PI - asin r - atan2 (- 0) c)) as (_ & ->).
  rewrite Ropp_0. unfold atan2. destruct (Rlt_dec 0 c) as [P|P].
  - replace (0 / c) with 0 by (field; lra). rewrite atan_0, !Rminus_0_r, Rabs_right, Rtrigo_facts.sin_pi_minus, sin_asin by lra. auto.
  - destruct (Rlt_dec c 0) as [N|N].
    + destruct (Rle_dec 0 0); [|lra]. replace (0 / c) with 0 by (field; lra). rewrite atan_0, Rplus_0_l, Rabs_left by lra.
      replace (asin r - PI) with (- (PI - asin r)) by ring. replace (PI - asin r - PI) with (- asin r) by ring.
      rewrite !sin_neg, Rtrigo_facts.sin_pi_minus, sin_asin by lra. split; ring.
    + assert (c = 0) by lra. subst c. rewrite Rabs_R0. split; ring.
Qed.

Definition eps8 : R := / 10 ^ 8.
Lemma ratio_error : forall p c, Rabs p <= Rabs c -> Rabs c <= 1 ->
  Rabs (p - Rabs c * clamp (-1 + eps8) (1 - eps8) (p / (Rabs c + eps8))) <= eps8
  /\ -1 <= clamp (-1 + eps8) (1 - eps8) (p / (Rabs c + eps8)) <= 1.
Proof.
  intros p c H C. set (d := Rabs c) in *. assert (D : 0 <= d) by apply Rabs_pos.
  assert (E : 0 < eps8 < 1 / 100) by (unfold eps8; lra). set (e := eps8) in *. clearbody e.
  set (x := p / (d + e)). assert (X : x * (d + e) = p) by (unfold x; field; lra).
  assert (HP : - d <= p <= d) by (clear - H; unfold Rabs in H; destruct (Rcase_abs p); lra). clearbody x d.
  assert (XB : - 1 <= x <= 1) by (split; nra).
  unfold clamp. split.
  - destruct (Rle_dec x (-1 + e)) as [L|L]; [|destruct (Rle_dec x (1 - e)) as [U|U]].
    + rewrite Rmax_right by lra. rewrite Rmin_left by lra. apply Rabs_le. split; nra.
    + rewrite Rmax_left by lra. rewrite Rmin_left by lra. apply Rabs_le. split; nra.
    + rewrite Rmax_left by lra. rewrite Rmin_right by lra. apply Rabs_le. split; nra.
  - pose proof (Rmax_r x (-1 + e)). split; [apply Rmin_glb; lra|]. pose proof (Rmin_r (Rmax x (-1 + e)) (1 - e)). lra.
Qed.

(** ** The first joint *)
Lemma dir_rotate_e : forall a v, dir (rotate_e a) v = vec (pe v) (cos a * pn v - sin a * pu v) (sin a * pn v + cos a * pu v).
Proof. intros. unfold dir, rotate_e. apply point_eq; henu; ring. Qed.

Lemma swing : forall p v, let t := atan2 (pn v * pu p - pu v * pn p) (pn v * pn p + pu v * pu p) in
  let w := dir (rotate_e t) v in
  let rv := sqrt (pn v * pn v + pu v * pu v) in let rp := sqrt (pn p * pn p + pu p * pu p) in
  (pn w - pn p) * (pn w - pn p) + (pu w - pu p) * (pu w - pu p) = (rv - rp) * (rv - rp).
Proof.
  intros [pe' x y] [ve a b] t w rv rp. cbn [pe pn pu] in *.
  assert (V : rv * rv = a * a + b * b) by (apply sqrt_sqrt; nra).
  assert (P : rp * rp = x * x + y * y) by (apply sqrt_sqrt; nra).
  assert (V0 : 0 <= rv) by apply sqrt_pos. assert (P0 : 0 <= rp) by apply sqrt_pos.
  destruct (atan2_polar (a * y - b * x) (a * x + b * y)) as (C & S). fold t in C, S.
  assert (E : sqrt ((a * x + b * y) * (a * x + b * y) + (a * y - b * x) * (a * y - b * x)) = rv * rp).
  { apply sqrt_polar; [nra|]. transitivity ((rv * rv) * (rp * rp)); [ring|]. rewrite V, P. ring. }
  rewrite E in C, S. unfold w. rewrite dir_rotate_e. cbn [pe pn pu vec].
  pose proof (sc t) as Q.
  (* expand: |w|^2 + |p|^2 - 2 (w.p) with w.p = rv rp *)
  set (c := cos t) in *. set (s := sin t) in *. clearbody c s.
  assert (W2 : (c * a - s * b) * (c * a - s * b) + (s * a + c * b) * (s * a + c * b) = a * a + b * b).
  { transitivity ((c * c + s * s) * (a * a + b * b)); [ring|]. rewrite Q. ring. }
  assert (WP : (c * a - s * b) * x + (s * a + c * b) * y = rv * rp).
  { transitivity (c * (a * x + b * y) + s * (a * y - b * x)); [ring|]. rewrite <- C, <- S.
    transitivity ((c * c + s * s) * (rv * rp)); [ring|]. rewrite Q. ring. }
  transitivity ((a * a + b * b) - 2 * (rv * rp) + (x * x + y * y)).
  - rewrite <- W2, <- WP. ring.
  - rewrite <- V, <- P. ring.
Qed.

Lemma swing_error : forall p v d, unit p -> unit v -> 0 <= d <= 1 -> Rabs (pe p - pe v) <= d ->
  let t := atan2 (pn v * pu p - pu v * pn p) (pn v * pn p + pu v * pu p) in
  dot (vsub (dir (rotate_e t) v) p) (vsub (dir (rotate_e t) v) p) <= d * d + 2 * d
  /\ sqrt (1 - pe p * pe p) * norm (vsub (dir (rotate_e t) v) p) <= 3 * d.
Proof.
  intros p v d UP UV D E t. pose proof (swing p v) as SW. cbv zeta in SW. fold t in SW.
  set (w := dir (rotate_e t) v) in *.
  assert (WE : pe w = pe v) by (unfold w; rewrite dir_rotate_e; reflexivity).
  set (rv := sqrt (pn v * pn v + pu v * pu v)) in *. set (rp := sqrt (pn p * pn p + pu p * pu p)) in *.
  assert (V : rv * rv = pn v * pn v + pu v * pu v) by (apply sqrt_sqrt; nra).
  assert (P : rp * rp = pn p * pn p + pu p * pu p) by (apply sqrt_sqrt; nra).
  assert (V0 : 0 <= rv) by apply sqrt_pos. assert (P0 : 0 <= rp) by apply sqrt_pos.
  unfold unit in UP, UV.
  assert (UP' : pe p * pe p + rp * rp = 1) by (rewrite P; unfold dot in UP; lra).
  assert (UV' : pe v * pe v + rv * rv = 1) by (rewrite V; unfold dot in UV; lra).
  assert (RP : sqrt (1 - pe p * pe p) = rp). { apply sqrt_polar; auto. lra. }
  rewrite RP.
  assert (N2 : dot (vsub w p) (vsub w p) = (pe v - pe p) * (pe v - pe p) + (rv - rp) * (rv - rp)).
  { rewrite <- SW. destruct w as [w1 w2 w3]. cbn [pe pn pu] in *. rewrite <- WE. vunfold. ring. }
  assert (NN : 0 <= norm (vsub w p)) by apply norm_nonneg.
  assert (N2' : norm (vsub w p) * norm (vsub w p) = (pe v - pe p) * (pe v - pe p) + (rv - rp) * (rv - rp)) by (rewrite norm_sq; auto).
  rewrite N2. set (q := pe v - pe p) in *. set (g := rv - rp) in *.
  assert (QD : - d <= q <= d) by (unfold q; clear - E; unfold Rabs in E; destruct (Rcase_abs (pe p - pe v)); lra).
  assert (PE : -1 <= pe p <= 1) by nra. assert (VE : -1 <= pe v <= 1) by nra.
  assert (GP : g * (rv + rp) = - q * (pe v + pe p)) by (unfold g, q; lra).
  assert (RP1 : rp <= 1) by nra. assert (RV1 : rv <= 1) by nra.
  set (h := pe v + pe p) in *. assert (HB : -2 <= h <= 2) by (unfold h; lra).
  assert (GQ : - (2 * d) <= - q * h <= 2 * d) by nra.
  assert (QQ : q * q <= d * d) by nra.
  assert (G2 : g * g <= 2 * d).
  { destruct (Rle_dec 0 g) as [G|G].
    - assert (g <= rv + rp) by (unfold g; lra). nra.
    - assert (- g <= rv + rp) by (unfold g; lra). nra. }
  split; [lra|].
  (* rp * |w - p| <= rp * |q| + rp * |g| *)
  assert (RG : (rp * g) * (rp * g) <= (2 * d) * (2 * d)).
  { assert (0 <= rp * rp <= (rv + rp) * (rv + rp)) by nra.
    assert (g * g * (rp * rp) <= g * g * ((rv + rp) * (rv + rp))) by (apply Rmult_le_compat_l; nra).
    assert ((g * (rv + rp)) * (g * (rv + rp)) <= (2 * d) * (2 * d)) by (rewrite GP; nra). nra. }
  assert (RQ : (rp * q) * (rp * q) <= d * d).
  { assert (rp * rp <= 1) by nra. assert (0 <= q * q) by nra. nra. }
  apply Rsqr_incr_0_var; [|lra]. unfold Rsqr.
  replace (rp * norm (vsub w p) * (rp * norm (vsub w p))) with (rp * rp * (norm (vsub w p) * norm (vsub w p))) by ring.
  rewrite N2'. nra.
Qed.

(** ** Both solutions reach the normal *)
Section Inverse.
Variable k : kinematics.
Variable n : point.
Hypothesis REACH : reachable_normal k n.
Let p := dir (mtr (first_deviations k)) n.
Let c := cos (k_tilt_2n k).

Lemma reach_p : unit p /\ Rabs (pe p) <= Rabs c /\ dir (first_deviations k) p = n.
Proof.
  destruct REACH as (a & b & F). rewrite pose_facing in F. fold (arm k b) in F.
  assert (P : p = dir (rotate_e a) (arm k b)) by (unfold p; rewrite <- F, first_inv'; auto).
  repeat split.
  - rewrite P. apply dir_unit; auto with rigid. apply arm_unit.
  - rewrite P, dir_rotate_e. cbn [pe vec]. rewrite arm_e, Rabs_mult. fold c.
    pose proof (SIN_bound b). assert (Rabs (sin b) <= 1) by (apply Rabs_le; lra). pose proof (Rabs_pos c). nra.
  - unfold p. apply first_inv.
Qed.

Lemma solution_error : forall a b, (a, b) = fst (joint_angles k (as_direction n)) \/ (a, b) = snd (joint_angles k (as_direction n)) ->
  (norm (vsub (facing (pose k a b)) n) <= 2 / 10 ^ 4
  /\ norm (cross (first_axis k) n) * norm (vsub (facing (pose k a b)) n) <= 3 / 10 ^ 8)
  /\ - PI < a <= PI /\ - PI < b <= PI.
Proof.
  intros a b H. destruct reach_p as (UP & CP & FP).
  assert (N' : mapply (mtr (first_deviations k)) (as_direction n) = as_direction p).
  { unfold p, dir. rewrite as_direction_enu; auto. destruct (mtr_first_rigid k) as (_ & D & _). apply D. }
  destruct (second_row k) as (R0 & R1).
  unfold joint_angles in H. rewrite N', R0, R1 in H. fold c in H.
  assert (DEN : sqrt (c ^ 2 + 0 ^ 2) = Rabs c).
  { rewrite <- sqrt_Rsqr_abs. f_equal. unfold Rsqr. ring. }
  rewrite DEN in H. change (he (as_direction p)) with (pe p) in H. fold eps8 in H.
  set (ratio := clamp (-1 + eps8) (1 - eps8) (pe p / (Rabs c + eps8))) in *.
  assert (C1 : Rabs c <= 1). { apply Rabs_le. unfold c. pose proof (COS_bound (k_tilt_2n k)). lra. }
  destruct (ratio_error (pe p) c CP C1) as (ERR & RB). fold ratio in ERR, RB.
  destruct (phase c ratio RB) as (PH1 & PH2).
  assert (ARM : forall b, mapply (mmul (second_deviations k) (rotate_u b)) standard_orientation = as_direction (arm k b)).
  { intros x. change standard_orientation with (as_direction south). rewrite mapply_mmul.
    assert (E : mapply (rotate_u x) (as_direction south) = as_direction (dir (rotate_u x) south)).
    { unfold dir. rewrite as_direction_enu; auto. destruct (rotate_u_rigid x) as (_ & D & _). apply D. }
    rewrite E. unfold arm. unfold dir at 2. rewrite as_direction_enu; auto. destruct (second_rigid k) as (_ & D & _). apply D. }
  assert (B : (b = wrap (asin ratio - atan2 (- 0) c) \/ b = wrap (PI - asin ratio - atan2 (- 0) c))
    /\ a = wrap (atan2 (pn (arm k b) * pu p - pu (arm k b) * pn p) (pn (arm k b) * pn p + pu (arm k b) * pu p))).
  { cbv beta zeta in H. rewrite !ARM in H. cbn [fst snd] in H.
    destruct H as [H|H]; apply pair_equal_spec in H; destruct H as (HA & HB); split; auto; rewrite HA, HB; reflexivity. }
  destruct B as (B & A).
  assert (SIN : c * sin b = Rabs c * ratio) by (destruct B as [-> | ->]; auto).
  assert (AE : pe (arm k b) = Rabs c * ratio) by (rewrite arm_e; auto).
  set (t := atan2 (pn (arm k b) * pu p - pu (arm k b) * pn p) (pn (arm k b) * pn p + pu (arm k b) * pu p)) in *.
  assert (FC : facing (pose k a b) = dir (first_deviations k) (dir (rotate_e t) (arm k b))).
  { rewrite pose_facing. fold (arm k b). rewrite A. f_equal. rewrite !dir_rotate_e. destruct (wrap_cs t) as (-> & ->). auto. }
  assert (E8 : 0 <= eps8 <= 1) by (unfold eps8; lra).
  destruct (swing_error p (arm k b) eps8 UP (arm_unit k b) E8) as (S1 & S2); [rewrite AE; exact ERR|]. fold t in S1, S2.
  assert (NE : norm (vsub (facing (pose k a b)) n) = norm (vsub (dir (rotate_e t) (arm k b)) p)).
  { rewrite FC. rewrite <- FP. rewrite <- dir_sub by auto with rigid. apply dir_norm. auto with rigid. }
  rewrite NE. split; [split|split].
  - unfold norm. apply (Rle_trans _ (sqrt (2 / 10 ^ 4 * (2 / 10 ^ 4)))).
    + apply sqrt_le_1_alt. eapply Rle_trans; [apply S1|]. unfold eps8. lra.
    + rewrite sqrt_square by lra. lra.
  - assert (AX : norm (cross (first_axis k) n) = sqrt (1 - pe p * pe p)).
    { unfold norm. f_equal. rewrite <- gram. unfold first_axis. fold (dir (first_deviations k) east). rewrite <- FP.
      destruct (first_rigid k) as (_ & _ & _ & _ & D & _). unfold dir. rewrite !D. unfold unit in UP. rewrite UP. unfold east. vunfold. ring. }
    rewrite AX. eapply Rle_trans; [apply S2|]. unfold eps8. lra.
  - rewrite A. apply wrap_bound.
  - destruct B as [-> | ->]; apply wrap_bound.
Qed.
Lemma opposite_sides : forall r, cos (wrap (PI - asin r - atan2 (- 0) c)) = - cos (wrap (asin r - atan2 (- 0) c)).
Proof.
  intros r. destruct (wrap_cs (asin r - atan2 (- 0) c)) as (-> & _). destruct (wrap_cs (PI - asin r - atan2 (- 0) c)) as (-> & _).
  rewrite Ropp_0. set (f := atan2 0 c). assert (Z : sin f = 0).
  { unfold f, atan2. destruct (Rlt_dec 0 c) as [P|P]; [|destruct (Rlt_dec c 0) as [N|N]].
    - replace (0 / c) with 0 by (field; lra). rewrite atan_0. apply sin_0.
    - destruct (Rle_dec 0 0); [|lra]. replace (0 / c) with 0 by (field; lra). rewrite atan_0, Rplus_0_l. apply sin_PI.
    - destruct (Rlt_dec 0 0); [lra|]. apply sin_0. }
  replace (PI - asin r - f) with (PI - (asin r + f)) by ring. rewrite Rtrigo_facts.cos_pi_minus, cos_plus, cos_minus, Z. ring.
Qed.
Lemma every_solution : forall a b, facing (pose k a b) = n -> exists s, (s = fst (joint_angles k (as_direction n)) \/ s = snd (joint_angles k (as_direction n)))
  /\ 0 <= cos (snd s) * cos b /\ Rabs c * Rabs (sin (snd s) - sin b) <= / 10 ^ 8.
Proof.
  intros a b F. destruct reach_p as (UP & CP & FP).
  assert (N' : mapply (mtr (first_deviations k)) (as_direction n) = as_direction p).
  { unfold p, dir. rewrite as_direction_enu; auto. destruct (mtr_first_rigid k) as (_ & D & _). apply D. }
  destruct (second_row k) as (R0 & R1).
  assert (PE : pe p = c * sin b).
  { rewrite pose_facing in F. fold (arm k b) in F. assert (P : p = dir (rotate_e a) (arm k b)) by (unfold p; rewrite <- F, first_inv'; auto).
    rewrite P, dir_rotate_e. cbn [pe vec]. rewrite arm_e. auto. }
  unfold joint_angles. rewrite N', R0, R1. fold c.
  assert (DEN : sqrt (c ^ 2 + 0 ^ 2) = Rabs c).
  { rewrite <- sqrt_Rsqr_abs. f_equal. unfold Rsqr. ring. }
  rewrite DEN. change (he (as_direction p)) with (pe p). fold eps8.
  set (ratio := clamp (-1 + eps8) (1 - eps8) (pe p / (Rabs c + eps8))) in *.
  assert (C1 : Rabs c <= 1). { apply Rabs_le. unfold c. pose proof (COS_bound (k_tilt_2n k)). lra. }
  destruct (ratio_error (pe p) c CP C1) as (ERR & RB). fold ratio in ERR, RB.
  destruct (phase c ratio RB) as (PH1 & PH2). pose proof (opposite_sides ratio) as OP. cbn [fst snd].
  set (b1 := wrap (asin ratio - atan2 (- 0) c)) in *. set (b2 := wrap (PI - asin ratio - atan2 (- 0) c)) in *.
  assert (CL : forall b', c * sin b' = Rabs c * ratio -> Rabs c * Rabs (sin b' - sin b) <= / 10 ^ 8).
  { intros b' E. rewrite <- Rabs_mult. replace (c * (sin b' - sin b)) with (- (pe p - Rabs c * ratio)) by (rewrite PE, <- E; ring).
    rewrite Rabs_Ropp. exact ERR. }
  destruct (Rle_dec 0 (cos b1 * cos b)) as [S1|S1].
  - eexists. split; [left; reflexivity|]. cbn [snd]. split; auto.
  - eexists. split; [right; reflexivity|]. cbn [snd]. split; auto. rewrite OP. lra.
Qed.
End Inverse.
Theorem all_solutions : forall k n a b, facing (pose k a b) = n ->
  exists a' b', ((a', b') = fst (joint_angles k (as_direction n)) \/ (a', b') = snd (joint_angles k (as_direction n)))
  /\ 0 <= cos b' * cos b /\ Rabs (cos (k_tilt_2n k)) * Rabs (sin b' - sin b) <= / 10 ^ 8
  /\ norm (vsub (facing (pose k a' b')) n) <= 2 / 10 ^ 4.
Proof.
  intros k n a b F. assert (R : reachable_normal k n) by (exists a, b; auto).
  destruct (every_solution k n R a b F) as ([a' b'] & J & C & S). exists a', b'. cbn [snd] in *. repeat split; auto.
  destruct (solution_error k n R a' b' J) as ((N & _) & _). auto.
Qed.

Lemma forward_of_motors : forall k angles, drives_follow k angles -> forward k (to_motors k angles) = pose k (fst angles) (snd angles).
Proof. intros k [a b] (A & B). unfold forward, to_motors. cbn [fst snd] in *. rewrite A, B. auto. Qed.

Theorem inverse_reaches : forall k n, reachable_normal k n ->
  exists angles, inverse k (as_direction n) = to_motors k angles
  /\ (- PI < fst angles <= PI /\ - PI < snd angles <= PI)
  /\ norm (vsub (facing (pose k (fst angles) (snd angles))) n) <= 2 / 10 ^ 4
  /\ norm (cross (first_axis k) n) * norm (vsub (facing (pose k (fst angles) (snd angles))) n) <= 3 / 10 ^ 8
  /\ (drives_follow k angles -> forward k (inverse k (as_direction n)) = pose k (fst angles) (snd angles)).
Proof.
  intros k n R.
  assert (H : exists angles, (angles = fst (joint_angles k (as_direction n)) \/ angles = snd (joint_angles k (as_direction n)))
    /\ inverse k (as_direction n) = to_motors k angles).
  { unfold inverse. destruct (joint_angles k (as_direction n)) as [s1 s2]. destruct (solution_valid k (to_motors k s1)).
    - exists s1. auto.
    - exists s2. auto. }
  destruct H as ([a b] & J & I). exists (a, b). destruct (solution_error k n R a b J) as ((N & A) & B).
  rewrite I. split; auto. split; auto. split; auto. split; auto. apply forward_of_motors.
Qed.

(** ** Selection *)
Lemma solution_valid_iff : forall k m, solution_valid k m = true <-> in_limits k m.
Proof.
  intros k [a b]. unfold solution_valid, in_limits, within. cbn [fst snd].
  repeat match goal with |- context [Rle_dec ?x ?y] => destruct (Rle_dec x y) end; cbn; split; intros; try discriminate; try tauto; lra.
Qed.
Theorem selection : forall k n c1 c2, c1 = to_motors k (fst (joint_angles k n)) -> c2 = to_motors k (snd (joint_angles k n)) ->
  (in_limits k c1 \/ in_limits k c2 -> in_limits k (inverse k n))
  /\ (inverse k n = c1 \/ inverse k n = c2)
  /\ (in_limits k c1 -> inverse k n = c1).
Proof.
  intros k n c1 c2 -> ->. unfold inverse. destruct (joint_angles k n) as [s1 s2]. cbn [fst snd].
  destruct (solution_valid k (to_motors k s1)) eqn:V.
  - apply solution_valid_iff in V. tauto.
  - assert (~ in_limits k (to_motors k s1)). { intros L. apply solution_valid_iff in L. congruence. } tauto.
Qed.
Lemma invalid_rows_spec : forall batch row i, In i (invalid_rows row batch) <->
  exists j k n, i = (row + j)%nat /\ nth_error batch j = Some (k, n) /\ ~ in_limits k (inverse k n).
Proof.
  induction batch as [|(k, n) rest IH]; intros row i.
  - cbn. split; [tauto|]. intros (j & k & n & _ & N & _). destruct j; discriminate.
  - cbn [invalid_rows]. pose proof (selection k n _ _ eq_refl eq_refl) as (S1 & S2 & S3).
    destruct (joint_angles k n) as [s1 s2]. cbn [fst snd] in *.
    assert (V : solution_valid k (to_motors k s1) || solution_valid k (to_motors k s2) = true <-> in_limits k (inverse k n)).
    { rewrite orb_true_iff, !solution_valid_iff. split; auto. intros L. destruct S2 as [E|E]; rewrite E in L; auto. }
    destruct (solution_valid k (to_motors k s1) || solution_valid k (to_motors k s2)).
    + rewrite IH. split.
      * intros (j & k' & n' & -> & N & L). exists (S j), k', n'. repeat split; auto. lia.
      * intros ([|j] & k' & n' & -> & N & L); cbn in N.
        -- injection N as <- <-. exfalso. apply L, V. auto.
        -- exists j, k', n'. repeat split; auto. lia.
    + cbn [In]. rewrite IH. split.
      * intros [<-|(j & k' & n' & -> & N & L)].
        -- exists O, k, n. repeat split; auto. intros L. apply V in L. discriminate.
        -- exists (S j), k', n'. repeat split; auto. lia.
      * intros ([|j] & k' & n' & -> & N & L); cbn in N.
        -- left. lia.
        -- right. exists j, k', n'. repeat split; auto. lia.
Qed.
