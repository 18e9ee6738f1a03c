(** Proofs about the ray-cylinder intersection (C28). *)
From Coq Require Import List Arith Reals Bool Lra Lia Psatz.
From Verif Require Import ModelVectors ProofsVectors ModelAngles ProofsAngles ModelIntersections SpecIntersections ProofsIntersections.
Import ListNotations.
Local Open Scope R_scope.

(** ** The local frame *)
Lemma triple_sq : forall v n a, dot v (cross n a) * dot v (cross n a)
  = dot v v * (dot n n * dot a a - dot n a * dot n a) - dot v n * (dot v n * dot a a - dot n a * dot v a)
    + dot v a * (dot v n * dot n a - dot n n * dot v a).
Proof. intros; vunfold; ring. Qed.
Lemma frame_sq : forall v n a, unit n -> unit a -> dot n a = 0 ->
  dot v v = dot v (cross n a) * dot v (cross n a) + dot v n * dot v n + dot v a * dot v a.
Proof. intros v n a N A O. rewrite triple_sq. unfold unit in *. rewrite N, A, O. ring. Qed.
Lemma cross_unit : forall n a, unit n -> unit a -> dot n a = 0 -> dot (cross n a) (cross n a) = 1.
Proof. intros n a N A O. rewrite <- gram. unfold unit in *. rewrite N, A, O. ring. Qed.
Lemma frame_expand : forall v n a, unit n -> unit a -> dot n a = 0 ->
  v = vadd (smul (dot v (cross n a)) (cross n a)) (vadd (smul (dot v n) n) (smul (dot v a) a)).
Proof.
  intros v n a N A O. set (u := cross n a).
  assert (Z : vsub v (vadd (smul (dot v u) u) (vadd (smul (dot v n) n) (smul (dot v a) a))) = vec 0 0 0).
  { apply dot_self_zero. pose proof (frame_sq v n a N A O) as Q. fold u in Q.
    assert (UU : dot u u = 1) by (apply cross_unit; auto).
    assert (UN : dot u n = 0) by (unfold u; rewrite dot_comm; apply cross_orth_l).
    assert (UA : dot u a = 0) by (unfold u; rewrite dot_comm; apply cross_orth_r).
    unfold unit in *.
    rewrite !dot_vsub_l, !dot_vsub_r, !dot_vadd_l, !dot_vadd_r, !dot_smul_l, !dot_smul_r.
    rewrite (dot_comm u v), (dot_comm n v), (dot_comm a v), (dot_comm n u), (dot_comm a u), (dot_comm a n), UU, UN, UA, N, A, O, Q. ring. }
  assert (E : forall x y, vsub x y = vec 0 0 0 -> x = y).
  { intros [x1 x2 x3] [y1 y2 y3] H. vunfold. apply point_inv in H. f_equal; lra. }
  apply E. auto.
Qed.

Section Frame.
Variable c : cylinder.
Hypothesis PC : proper_cylinder c.
Let n := cyl_normal c. Let a := cyl_axis c.
Lemma na : dot n a = 0. Proof. destruct PC as (_ & _ & H & _). rewrite dot_comm. auto. Qed.
Lemma un : unit n. Proof. apply PC. Qed.
Lemma ua : unit a. Proof. apply PC. Qed.

Lemma local_linear : forall o d t, local_frame c (vadd o (smul t d)) = vadd (local_frame c o) (smul t (local_frame c d)).
Proof. intros. unfold local_frame. apply point_eq; cbn [vec vadd smul pe pn pu]; rewrite dot_vadd_l, dot_smul_l; ring. Qed.
Lemma local_off_axis : forall v, off_axis a v = vadd (smul (pe (local_frame c v)) (cross n a)) (smul (pn (local_frame c v)) n).
Proof.
  intros v. unfold off_axis, local_frame. cbn [vec pe pn pu]. fold n a.
  rewrite (frame_expand v n a un ua na) at 1. vring.
Qed.
Lemma off_axis_sq : forall v, dot (off_axis a v) (off_axis a v) = pe (local_frame c v) ^ 2 + pn (local_frame c v) ^ 2.
Proof.
  intros v. rewrite local_off_axis. rewrite dot_vadd_l, !dot_vadd_r, !dot_smul_l, !dot_smul_r.
  assert (UU : dot (cross n a) (cross n a) = 1) by (apply cross_unit; [apply un|apply ua|apply na]).
  assert (UN : dot (cross n a) n = 0) by (rewrite dot_comm; apply cross_orth_l).
  rewrite (dot_comm n (cross n a)), UU, UN. pose proof un as N. unfold unit in N. rewrite N. ring.
Qed.

(** ** Distances *)
Lemma distance_spec : forall o d t, cylinder_distance c o d = Some t ->
  let P := vsub (along o d t) (cyl_center c) in
  let A := dot (off_axis a d) (off_axis a d) in
  0 < t /\ / 10 ^ 8 < A /\ dot (off_axis a P) (off_axis a P) = cyl_radius c ^ 2 + / 10 ^ 12 / (4 * A).
Proof.
  intros o d t H P A. unfold cylinder_distance in H.
  set (ol := local_frame c (vsub o (cyl_center c))) in *. set (dl := local_frame c d) in *.
  assert (EA : A = pe dl ^ 2 + pn dl ^ 2) by (unfold A; rewrite off_axis_sq; auto).
  rewrite <- EA in H.
  set (b := 2 * (pe ol * pe dl + pn ol * pn dl)) in *.
  set (cc := pe ol ^ 2 + pn ol ^ 2 - cyl_radius c ^ 2) in *.
  destruct (Rle_dec 0 (b ^ 2 - 4 * A * cc)) as [D|D]; [|discriminate].
  destruct (Rlt_dec (/ 10 ^ 8) (Rabs A)) as [G|G]; [|discriminate].
  assert (A0 : 0 <= A) by (rewrite EA; nra). rewrite Rabs_right in G by lra.
  assert (SQ : sqrt (b ^ 2 - 4 * A * cc + / 10 ^ 12) * sqrt (b ^ 2 - 4 * A * cc + / 10 ^ 12) = b ^ 2 - 4 * A * cc + / 10 ^ 12).
  { apply sqrt_sqrt. lra. }
  set (s := sqrt (b ^ 2 - 4 * A * cc + / 10 ^ 12)) in *.
  assert (K : forall t, (t = (- b - s) / (2 * A) \/ t = (- b + s) / (2 * A)) -> A * t * t + b * t + cc = / 10 ^ 12 / (4 * A)).
  { intros t' [-> | ->];
    [replace (A * ((- b - s) / (2 * A)) * ((- b - s) / (2 * A)) + b * ((- b - s) / (2 * A)) + cc) with ((s * s - (b ^ 2 - 4 * A * cc)) / (4 * A)) by (field; lra)
    |replace (A * ((- b + s) / (2 * A)) * ((- b + s) / (2 * A)) + b * ((- b + s) / (2 * A)) + cc) with ((s * s - (b ^ 2 - 4 * A * cc)) / (4 * A)) by (field; lra)];
    rewrite SQ; f_equal; lra. }
  assert (T : 0 < t /\ (t = (- b - s) / (2 * A) \/ t = (- b + s) / (2 * A))).
  { destruct (Rlt_dec 0 ((- b - s) / (2 * A))) as [N|N].
    - destruct (Rlt_dec 0 ((- b + s) / (2 * A))) as [F|F]; injection H as <-; [|auto].
      unfold Rmin. destruct (Rle_dec ((- b - s) / (2 * A)) ((- b + s) / (2 * A))); auto.
    - destruct (Rlt_dec 0 ((- b + s) / (2 * A))) as [F|F]; [injection H as <-; auto|discriminate]. }
  destruct T as (T0 & T). split; auto. split; auto.
  rewrite off_axis_sq. unfold P, along.
  replace (vsub (vadd o (smul t d)) (cyl_center c)) with (vadd (vsub o (cyl_center c)) (smul t d)) by vring.
  rewrite local_linear. fold ol dl. cbn [vadd smul vec pe pn pu].
  replace ((pe ol + t * pe dl) ^ 2 + (pn ol + t * pn dl) ^ 2) with ((pe dl ^ 2 + pn dl ^ 2) * t * t + b * t + cc + cyl_radius c ^ 2) by (unfold b, cc; ring).
  rewrite <- EA, (K t T). ring.
Qed.

(** From outside, the nearest side is chosen: the ray enters the cylinder there. *)
Lemma distance_entering : forall o d t, cylinder_distance c o d = Some t ->
  cyl_radius c ^ 2 + / 10 ^ 4 < dot (off_axis a (vsub o (cyl_center c))) (off_axis a (vsub o (cyl_center c))) ->
  dot (off_axis a d) (off_axis a (vsub (along o d t) (cyl_center c))) < 0.
Proof.
  intros o d t H OUT. unfold cylinder_distance in H. rewrite off_axis_sq in OUT.
  set (ol := local_frame c (vsub o (cyl_center c))) in *. set (dl := local_frame c d) in *.
  set (A := pe dl ^ 2 + pn dl ^ 2) in *.
  set (b := 2 * (pe ol * pe dl + pn ol * pn dl)) in *.
  set (cc := pe ol ^ 2 + pn ol ^ 2 - cyl_radius c ^ 2) in *.
  destruct (Rle_dec 0 (b ^ 2 - 4 * A * cc)) as [D|D]; [|discriminate].
  destruct (Rlt_dec (/ 10 ^ 8) (Rabs A)) as [G|G]; [|discriminate].
  assert (A0 : 0 <= A) by (unfold A; nra). rewrite Rabs_right in G by lra.
  assert (SQ : sqrt (b ^ 2 - 4 * A * cc + / 10 ^ 12) * sqrt (b ^ 2 - 4 * A * cc + / 10 ^ 12) = b ^ 2 - 4 * A * cc + / 10 ^ 12).
  { apply sqrt_sqrt. lra. }
  assert (S0 : 0 < sqrt (b ^ 2 - 4 * A * cc + / 10 ^ 12)) by (apply sqrt_lt_R0; lra).
  set (s := sqrt (b ^ 2 - 4 * A * cc + / 10 ^ 12)) in *.
  assert (CC : / 10 ^ 4 < cc) by (unfold cc; lra).
  (* both roots have the same sign *)
  assert (AC : / 10 ^ 12 < 4 * A * cc).
  { assert (/ 10 ^ 8 * / 10 ^ 4 < A * cc) by (apply Rmult_gt_0_lt_compat; lra). lra. }
  assert (BS : s * s < b * b) by (rewrite SQ; nra).
  assert (T : t = (- b - s) / (2 * A)).
  { assert (I2 : 0 < / (2 * A)) by (apply Rinv_0_lt_compat; lra).
    destruct (Rlt_dec 0 ((- b - s) / (2 * A))) as [N|N].
    - destruct (Rlt_dec 0 ((- b + s) / (2 * A))) as [F|F]; injection H as <-; auto.
      rewrite Rmin_left; auto. apply Rmult_le_compat_r; lra.
    - destruct (Rlt_dec 0 ((- b + s) / (2 * A))) as [F|F]; [exfalso|discriminate].
      assert (b < s). { destruct (Rlt_dec b s); auto. exfalso. assert ((- b + s) * / (2 * A) <= 0) by nra. unfold Rdiv in F. lra. }
      assert (- s <= b). { destruct (Rle_dec (- s) b); auto. exfalso. apply N. unfold Rdiv. apply Rmult_lt_0_compat; lra. }
      nra. }
  assert (L : dot (off_axis a d) (off_axis a (vsub (along o d t) (cyl_center c))) = (2 * A * t + b) / 2).
  { rewrite !local_off_axis. unfold along.
    replace (vsub (vadd o (smul t d)) (cyl_center c)) with (vadd (vsub o (cyl_center c)) (smul t d)) by vring.
    rewrite local_linear. fold ol dl. rewrite !dot_vadd_l, !dot_vadd_r, !dot_smul_l, !dot_smul_r.
    assert (UU : dot (cross n a) (cross n a) = 1) by (apply cross_unit; [apply un|apply ua|apply na]).
    assert (UN : dot (cross n a) n = 0) by (rewrite dot_comm; apply cross_orth_l).
    rewrite (dot_comm n (cross n a)), UU, UN. pose proof un as N. unfold unit in N. rewrite N.
    cbn [vadd smul vec pe pn pu]. unfold A, b. field. }
  rewrite L, T. replace (2 * A * ((- b - s) / (2 * A)) + b) with (- s) by (field; lra). lra.
Qed.
End Frame.

(** ** The reported intersection *)
Definition accepted (c : cylinder) (q : point) : Prop :=
  let z := dot (vsub q (cyl_center c)) (cyl_axis c) in
  let l := local_frame c (vsub q (cyl_center c)) in
  let angle := atan2 (pn l) (pe l) - (atan2 (pn (cyl_normal c)) (pe (cyl_normal c)) - cyl_opening c / 2) in
  0 <= z + cyl_height c / 2 <= cyl_height c /\ 0 <= angle <= cyl_opening c.

Lemma cylinder_cases : forall width height c o d m, proper_cylinder c ->
  let r := line_cylinder width height c o d m in
  r = no_intersection \/
  exists t, cylinder_distance c o d = Some t /\ accepted c (along o d t) /\
    let q := along o d t in
    let l := local_frame c (vsub q (cyl_center c)) in
    let angle := atan2 (pn l) (pe l) - (atan2 (pn (cyl_normal c)) (pe (cyl_normal c)) - cyl_opening c / 2) in
    let rho := sqrt (dot (off_axis (cyl_axis c) (vsub q (cyl_center c))) (off_axis (cyl_axis c) (vsub q (cyl_center c)))) in
    r = {| i_e := angle / cyl_opening c * (INR width - 1);
           i_u := (dot (vsub q (cyl_center c)) (cyl_axis c) + cyl_height c / 2) / cyl_height c * (INR height - 1);
           i_distance := t;
           i_intensity := m * Rmax (- dot (off_axis (cyl_axis c) d) (off_axis (cyl_axis c) (vsub q (cyl_center c))) / rho) 0 |}.
Proof.
  intros width height c o d m PC r. unfold r, line_cylinder.
  destruct (cylinder_distance c o d) as [t|] eqn:T; [|left; auto].
  assert (EL : vadd (local_frame c (vsub o (cyl_center c))) (smul t (local_frame c d)) = local_frame c (vsub (along o d t) (cyl_center c))).
  { unfold along. replace (vsub (vadd o (smul t d)) (cyl_center c)) with (vadd (vsub o (cyl_center c)) (smul t d)) by vring.
    rewrite local_linear; auto. }
  rewrite EL. set (l := local_frame c (vsub (along o d t) (cyl_center c))).
  set (angle := atan2 (pn l) (pe l) - (atan2 (pn (cyl_normal c)) (pe (cyl_normal c)) - cyl_opening c / 2)).
  destruct (distance_spec c PC o d t T) as (T0 & TA & TD).
  match goal with |- context [indicator ?v] => destruct v eqn:E end.
  - right. exists t. split; auto. rewrite !andb_true_iff, !Rleb_iff in E. destruct E as (((Z1 & Z2) & A1) & A2).
    assert (ZE : pu l = dot (vsub (along o d t) (cyl_center c)) (cyl_axis c)) by reflexivity.
    rewrite <- ZE in *. split; [unfold accepted; fold l angle; rewrite <- ZE; split; split; auto|].
    cbn [indicator]. rewrite !Rmult_1_r. f_equal. f_equal. f_equal.
    rewrite !(local_off_axis c PC). fold l. unfold norm.
    assert (UU : dot (cross (cyl_normal c) (cyl_axis c)) (cross (cyl_normal c) (cyl_axis c)) = 1) by (apply cross_unit; [apply un|apply ua|apply na]; auto).
    assert (UN : dot (cross (cyl_normal c) (cyl_axis c)) (cyl_normal c) = 0) by (rewrite dot_comm; apply cross_orth_l).
    pose proof (un c PC) as N. unfold unit in N.
    assert (DD : forall x y x' y', dot (vadd (smul x (cross (cyl_normal c) (cyl_axis c))) (smul y (cyl_normal c))) (vadd (smul x' (cross (cyl_normal c) (cyl_axis c))) (smul y' (cyl_normal c))) = x * x' + y * y').
    { intros. rewrite !dot_vadd_l, !dot_vadd_r, !dot_smul_l, !dot_smul_r, (dot_comm (cyl_normal c) (cross _ _)), UU, UN, N. ring. }
    rewrite !DD. unfold dot at 1 2. cbn [vec smul pe pn pu].
    replace (pe l * pe l + pn l * pn l + 0 * 0) with (pe l * pe l + pn l * pn l) by ring.
    unfold Rdiv. ring.
  - left. cbn [indicator]. unfold no_intersection. f_equal; ring.
Qed.

Theorem cylinder_hit : forall width height c o d m, proper_cylinder c -> (1 <= width)%nat -> (1 <= height)%nat -> unit d -> 0 <= m ->
  let r := line_cylinder width height c o d m in
  r = no_intersection \/
  (let q := along o d (i_distance r) in
   let z := dot (vsub q (cyl_center c)) (cyl_axis c) in
   let radial := off_axis (cyl_axis c) (vsub q (cyl_center c)) in
   0 < i_distance r
   /\ cyl_radius c ^ 2 <= dot radial radial <= cyl_radius c ^ 2 + 25 / 10 ^ 6
   /\ Rabs z <= cyl_height c / 2
   /\ i_u r = (1/2 + z / cyl_height c) * (INR height - 1)
   /\ 0 <= i_e r <= INR width - 1 /\ 0 <= i_u r <= INR height - 1
   /\ i_intensity r = m * Rmax (- dot d radial / norm radial) 0
   /\ 0 <= i_intensity r <= m).
Proof.
  intros width height c o d m PC W H U M r.
  destruct (cylinder_cases width height c o d m PC) as [E|(t & T & (AZ & AA) & E)]; [left; exact E|right].
  fold r in E. cbv zeta in E. rewrite E. cbn [i_e i_u i_distance i_intensity].
  set (q := along o d t) in *. set (l := local_frame c (vsub q (cyl_center c))) in *.
  set (angle := atan2 (pn l) (pe l) - (atan2 (pn (cyl_normal c)) (pe (cyl_normal c)) - cyl_opening c / 2)) in *.
  destruct (distance_spec c PC o d t T) as (T0 & TA & TD). fold q in TD.
  set (z := dot (vsub q (cyl_center c)) (cyl_axis c)) in *.
  set (radial := off_axis (cyl_axis c) (vsub q (cyl_center c))) in *.
  destruct PC as (PA & PN & PO & R0 & H0 & O0).
  assert (IH : 0 <= INR height - 1) by (apply le_INR in H; simpl in H; lra).
  assert (IW : 0 <= INR width - 1) by (apply le_INR in W; simpl in W; lra).
  split; auto.
  assert (TD2 : 0 <= / 10 ^ 12 / (4 * dot (off_axis (cyl_axis c) d) (off_axis (cyl_axis c) d)) <= 25 / 10 ^ 6).
  { set (A := dot (off_axis (cyl_axis c) d) (off_axis (cyl_axis c) d)) in *. split.
    - left. apply Rdiv_lt_0_compat; lra.
    - assert (/ (4 * A) <= / (4 * / 10 ^ 8)) by (apply Rinv_le_contravar; lra). unfold Rdiv.
      apply (Rle_trans _ (/ 10 ^ 12 * / (4 * / 10 ^ 8))); [apply Rmult_le_compat_l; lra|lra]. }
  split; [rewrite TD; lra|].
  split; [apply Rabs_le; lra|].
  split; [field; lra|].
  assert (RB : forall x w k, 0 < w -> 0 <= k -> 0 <= x <= w -> 0 <= x / w * k <= k).
  { intros x w k W0 K0 X. assert (0 < / w) by (apply Rinv_0_lt_compat; auto).
    assert (0 <= x / w <= 1). { unfold Rdiv. split; [apply Rmult_le_pos; lra|]. apply (Rmult_le_reg_r w); auto. rewrite Rmult_assoc, Rinv_l by lra. lra. }
    nra. }
  split; [apply RB; auto|]. split; [apply RB; auto|].
  assert (PD : dot (off_axis (cyl_axis c) d) radial = dot d radial).
  { unfold off_axis at 1. rewrite dot_vsub_l, dot_smul_l.
    assert (dot (cyl_axis c) radial = 0). { unfold radial, off_axis. rewrite dot_vsub_r, dot_smul_r, (dot_comm (cyl_axis c)). unfold unit in PA. rewrite PA. ring. }
    rewrite H1. ring. }
  rewrite PD. fold (norm radial). split; auto.
  assert (NP : 0 < norm radial). { unfold norm. apply sqrt_lt_R0. rewrite TD. assert (0 < cyl_radius c ^ 2) by nra. lra. }
  pose proof (dot_le_norm d radial) as DL. apply norm_unit_dot in U. rewrite U, Rmult_1_l in DL.
  assert (BD : - dot d radial / norm radial <= 1).
  { apply (Rmult_le_reg_r (norm radial)); auto. unfold Rdiv. rewrite Rmult_assoc, Rinv_l by lra.
    pose proof (Rle_abs (- dot d radial)) as Q. rewrite Rabs_Ropp in Q. lra. }
  pose proof (Rmax_r (- dot d radial / norm radial) 0). 
  assert (Rmax (- dot d radial / norm radial) 0 <= 1) by (apply Rmax_lub; lra).
  split; nra.
Qed.

(** ** The opening angle *)
Lemma angle_local : forall c q delta, proper_cylinder c -> at_angle c q delta <->
  exists rho, 0 < rho /\ pe (local_frame c (vsub q (cyl_center c))) = rho * - sin delta
                      /\ pn (local_frame c (vsub q (cyl_center c))) = rho * cos delta.
Proof.
  intros c q delta PC. set (v := vsub q (cyl_center c)). unfold at_angle. fold v.
  assert (CX : cross (cyl_axis c) (cyl_normal c) = smul (-1) (cross (cyl_normal c) (cyl_axis c))) by vring.
  assert (UU : dot (cross (cyl_normal c) (cyl_axis c)) (cross (cyl_normal c) (cyl_axis c)) = 1) by (apply cross_unit; [apply un|apply ua|apply na]; auto).
  assert (UN : dot (cross (cyl_normal c) (cyl_axis c)) (cyl_normal c) = 0) by (rewrite dot_comm; apply cross_orth_l).
  pose proof (un c PC) as N. unfold unit in N.
  split; intros (rho & R & E); exists rho; split; auto.
  - rewrite (local_off_axis c PC), CX in E.
    assert (E1 := f_equal (fun w => dot w (cross (cyl_normal c) (cyl_axis c))) E).
    assert (E2 := f_equal (fun w => dot w (cyl_normal c)) E). cbv beta in E1, E2.
    repeat (rewrite dot_vadd_l in E1 || rewrite dot_smul_l in E1). repeat (rewrite dot_vadd_l in E2 || rewrite dot_smul_l in E2).
    rewrite (dot_comm (cyl_normal c) (cross _ _)), UU, UN in E1. rewrite UN, N in E2. lra.
  - destruct E as (E1 & E2). rewrite (local_off_axis c PC), CX, E1, E2. vring.
Qed.

Lemma accepted_north : forall c q, proper_cylinder c -> cyl_opening c <= PI ->
  pe (cyl_normal c) = 0 -> 0 < pn (cyl_normal c) -> 0 < dot (off_axis (cyl_axis c) (vsub q (cyl_center c))) (off_axis (cyl_axis c) (vsub q (cyl_center c))) ->
  let l := local_frame c (vsub q (cyl_center c)) in
  let angle := atan2 (pn l) (pe l) - (atan2 (pn (cyl_normal c)) (pe (cyl_normal c)) - cyl_opening c / 2) in
  forall delta, (0 <= angle <= cyl_opening c /\ delta = angle - cyl_opening c / 2) <-> (at_angle c q delta /\ Rabs delta <= cyl_opening c / 2).
Proof.
  intros c q PC OP NE NN POS l angle delta. pose proof PI_RGT_0.
  rewrite (off_axis_sq c PC) in POS. fold l in POS.
  assert (WN : atan2 (pn (cyl_normal c)) (pe (cyl_normal c)) = PI / 2).
  { apply (atan2_unique _ _ _ (pn (cyl_normal c))); auto; [lra| |]; rewrite ?cos_PI2, ?sin_PI2, ?NE; lra. }
  unfold angle. rewrite WN. rewrite (angle_local c q delta PC). fold l.
  destruct (atan2_polar (pn l) (pe l)) as (PX & PY). set (phi := atan2 (pn l) (pe l)) in *.
  set (r := sqrt (pe l * pe l + pn l * pn l)) in *. assert (R0 : 0 < r) by (apply sqrt_lt_R0; nra).
  pose proof (atan2_bound (pn l) (pe l)) as PB. fold phi in PB.
  split.
  - intros ((A1 & A2) & ->). split; [|apply Rabs_le; lra]. exists r. split; auto.
    replace (phi - (PI / 2 - cyl_opening c / 2) - cyl_opening c / 2) with (phi - PI / 2) by ring.
    rewrite sin_minus, cos_minus, cos_PI2, sin_PI2. lra.
  - intros ((rho & RP & E1 & E2) & B).
    assert (BD : - (cyl_opening c / 2) <= delta <= cyl_opening c / 2) by (unfold Rabs in B; destruct (Rcase_abs delta); lra).
    assert (PE : phi = delta + PI / 2).
    { apply (atan2_unique _ _ _ rho); auto; [lra| |]; rewrite ?cos_plus, ?sin_plus, cos_PI2, sin_PI2; lra. }
    rewrite PE. lra.
Qed.

Theorem cylinder_opening_north : forall width height c o d m t, proper_cylinder c -> cyl_opening c <= PI ->
  pe (cyl_normal c) = 0 -> 0 < pn (cyl_normal c) -> cylinder_distance c o d = Some t ->
  let r := line_cylinder width height c o d m in
  let q := along o d t in
  (forall delta, at_angle c q delta -> Rabs delta <= cyl_opening c / 2 ->
     Rabs (dot (vsub q (cyl_center c)) (cyl_axis c)) <= cyl_height c / 2 ->
     i_distance r = t /\ i_e r = (1/2 + delta / cyl_opening c) * (INR width - 1))
  /\ (0 < i_distance r -> exists delta, at_angle c q delta /\ Rabs delta <= cyl_opening c / 2).
Proof.
  intros width height c o d m t PC OP NE NN T r q.
  destruct (distance_spec c PC o d t T) as (T0 & TA & TD). fold q in TD.
  assert (POS : 0 < dot (off_axis (cyl_axis c) (vsub q (cyl_center c))) (off_axis (cyl_axis c) (vsub q (cyl_center c)))).
  { rewrite TD. assert (0 < cyl_radius c ^ 2) by (destruct PC as (_ & _ & _ & R0 & _); nra).
    assert (0 < / 10 ^ 12 / (4 * dot (off_axis (cyl_axis c) d) (off_axis (cyl_axis c) d))) by (apply Rdiv_lt_0_compat; lra). lra. }
  assert (H0 : 0 < cyl_height c) by apply PC. assert (O0 : 0 < cyl_opening c) by apply PC.
  assert (EL : vadd (local_frame c (vsub o (cyl_center c))) (smul t (local_frame c d)) = local_frame c (vsub q (cyl_center c))).
  { unfold q, along. replace (vsub (vadd o (smul t d)) (cyl_center c)) with (vadd (vsub o (cyl_center c)) (smul t d)) by vring.
    rewrite local_linear; auto. }
  pose proof (accepted_north c q PC OP NE NN POS) as AN. cbv zeta in AN.
  unfold r, line_cylinder. rewrite T, EL. set (l := local_frame c (vsub q (cyl_center c))) in *.
  set (angle := atan2 (pn l) (pe l) - (atan2 (pn (cyl_normal c)) (pe (cyl_normal c)) - cyl_opening c / 2)) in *.
  assert (ZE : pu l = dot (vsub q (cyl_center c)) (cyl_axis c)) by reflexivity.
  split.
  - intros delta AD BD ZB. destruct (proj2 (AN delta) (conj AD BD)) as ((A1 & A2) & DE).
    assert (ZB' : - (cyl_height c / 2) <= dot (vsub q (cyl_center c)) (cyl_axis c) <= cyl_height c / 2)
      by (unfold Rabs in ZB; destruct (Rcase_abs (dot (vsub q (cyl_center c)) (cyl_axis c))); lra).
    rewrite <- ZE in ZB'.
    match goal with |- context [indicator ?v] => assert (V : v = true) end.
    { rewrite !andb_true_iff, !Rleb_iff. repeat split; auto; lra. }
    rewrite V. cbn [i_distance i_e indicator]. split; [ring|]. rewrite DE. field. lra.
  - match goal with |- context [indicator ?v] => destruct v eqn:V end; cbn [i_distance indicator]; [|rewrite Rmult_0_r; intros X; exfalso; lra].
    intros _. rewrite !andb_true_iff, !Rleb_iff in V. destruct V as ((_ & A1) & A2).
    exists (angle - cyl_opening c / 2). apply AN. auto.
Qed.

(** Which angles are accepted for a normal in any direction.  Angles are counted from the east of a map, the normal is at [psi]; a
    point that is at [phi] in the frame of the cylinder is compared with it although there the normal is at a right angle. *)
Theorem cylinder_opening_any : forall width height c o d m t psi r phi, proper_cylinder c ->
  0 < r -> - PI < psi <= PI -> pe (cyl_normal c) = r * cos psi -> pn (cyl_normal c) = r * sin psi ->
  cylinder_distance c o d = Some t -> - PI < phi <= PI -> at_angle c (along o d t) (phi - PI / 2) ->
  let hit := line_cylinder width height c o d m in
  (Rabs (phi - psi) <= cyl_opening c / 2 -> Rabs (dot (vsub (along o d t) (cyl_center c)) (cyl_axis c)) <= cyl_height c / 2 ->
     i_distance hit = t /\ i_e hit = (1/2 + (phi - psi) / cyl_opening c) * (INR width - 1))
  /\ (cyl_opening c / 2 < Rabs (phi - psi) -> hit = no_intersection).
Proof.
  intros width height c o d m t psi r phi PC R0 PSI NE NN T PHI AT hit. set (q := along o d t) in *.
  assert (WN : atan2 (pn (cyl_normal c)) (pe (cyl_normal c)) = psi) by (apply (atan2_unique _ _ _ r); auto).
  apply (angle_local c q _ PC) in AT as (rho & RP & E1 & E2).
  rewrite sin_minus, cos_PI2, sin_PI2 in E1. rewrite cos_minus, cos_PI2, sin_PI2 in E2.
  assert (WL : atan2 (pn (local_frame c (vsub q (cyl_center c)))) (pe (local_frame c (vsub q (cyl_center c)))) = phi) by (apply (atan2_unique _ _ _ rho); auto; lra).
  assert (H0 : 0 < cyl_height c) by apply PC. assert (O0 : 0 < cyl_opening c) by apply PC.
  assert (EL : vadd (local_frame c (vsub o (cyl_center c))) (smul t (local_frame c d)) = local_frame c (vsub q (cyl_center c))).
  { unfold q, along. replace (vsub (vadd o (smul t d)) (cyl_center c)) with (vadd (vsub o (cyl_center c)) (smul t d)) by vring.
    rewrite local_linear; auto. }
  unfold hit, line_cylinder. rewrite T, EL. cbv zeta. rewrite WN, WL. set (l := local_frame c (vsub q (cyl_center c))) in *.
  assert (ZE : pu l = dot (vsub q (cyl_center c)) (cyl_axis c)) by reflexivity. rewrite <- ZE.
  split.
  - intros A ZB.
    assert (A' : - (cyl_opening c / 2) <= phi - psi <= cyl_opening c / 2) by (unfold Rabs in A; destruct (Rcase_abs (phi - psi)); lra).
    assert (ZB' : - (cyl_height c / 2) <= pu l <= cyl_height c / 2) by (unfold Rabs in ZB; destruct (Rcase_abs (pu l)); lra).
    match goal with |- context [indicator ?v] => assert (V : v = true) end.
    { rewrite !andb_true_iff, !Rleb_iff. repeat split; lra. }
    rewrite V. cbn [i_distance i_e indicator]. split; [ring|]. field. lra.
  - intros A. match goal with |- context [indicator ?v] => destruct v eqn:V end.
    + exfalso. rewrite !andb_true_iff, !Rleb_iff in V. destruct V as ((_ & V1) & V2).
      unfold Rabs in A. destruct (Rcase_abs (phi - psi)); lra.
    + cbn [indicator]. unfold no_intersection. f_equal; ring.
Qed.

Theorem centre_missed : forall c psi r, proper_cylinder c ->
  0 < r -> - PI < psi <= PI -> pe (cyl_normal c) = r * cos psi -> pn (cyl_normal c) = r * sin psi -> cyl_opening c / 2 < Rabs (PI / 2 - psi) ->
  forall o d t, cylinder_distance c o d = Some t -> at_angle c (along o d t) 0 ->
  forall width height m, line_cylinder width height c o d m = no_intersection.
Proof.
  intros c psi r PC R0 PSI NE NN A o d t T AT width height m. pose proof PI_RGT_0.
  destruct (cylinder_opening_any width height c o d m t psi r (PI / 2) PC R0 PSI NE NN T) as (_ & H'); [lra| |auto].
  replace (PI / 2 - PI / 2) with 0 by ring. auto.
Qed.
Theorem wide_missed : forall c, proper_cylinder c -> pe (cyl_normal c) = 0 -> 0 < pn (cyl_normal c) ->
  forall o d t delta, cylinder_distance c o d = Some t -> at_angle c (along o d t) delta -> cyl_opening c <= 2 * PI -> PI / 2 < delta < PI ->
  forall width height m, line_cylinder width height c o d m = no_intersection.
Proof.
  intros c PC NE NN o d t delta T AT DP D width height m. pose proof PI_RGT_0.
  destruct (cylinder_opening_any width height c o d m t (PI / 2) (pn (cyl_normal c)) (delta - 3 * (PI / 2)) PC NN) as (_ & H'); auto; try lra.
  - rewrite cos_PI2. lra.
  - rewrite sin_PI2. lra.
  - destruct AT as (rho & R & E). exists rho. split; auto. rewrite E.
    replace (delta - 3 * (PI / 2) - PI / 2) with (delta - 2 * PI) by field.
    rewrite <- (cos_period (delta - 2 * PI) 1), <- (sin_period (delta - 2 * PI) 1). cbn [INR].
    replace (delta - 2 * PI + 2 * 1 * PI) with delta by ring. auto.
  - apply H'. rewrite Rabs_left; lra.
Qed.

(** A cylinder facing south: its centre line is never hit. *)
Definition south_cylinder : cylinder :=
  {| cyl_center := vec 0 0 0; cyl_axis := vec 0 0 1; cyl_normal := vec 0 (-1) 0; cyl_radius := 1; cyl_height := 2; cyl_opening := PI |}.
Lemma south_proper : proper_cylinder south_cylinder.
Proof. unfold proper_cylinder, unit, south_cylinder. cbn [cyl_axis cyl_normal cyl_radius cyl_height cyl_opening]. vunfold. pose proof PI_RGT_0. repeat split; lra. Qed.

Lemma south_case : exists t, proper_cylinder south_cylinder
  /\ cylinder_distance south_cylinder (vec 0 (-5) 0) (vec 0 1 0) = Some t /\ at_angle south_cylinder (along (vec 0 (-5) 0) (vec 0 1 0) t) 0
  /\ dot (vsub (along (vec 0 (-5) 0) (vec 0 1 0) t) (cyl_center south_cylinder)) (cyl_axis south_cylinder) = 0.
Proof.
  assert (L1 : local_frame south_cylinder (vsub (vec 0 (-5) 0) (cyl_center south_cylinder)) = vec 0 5 0).
  { apply point_eq; unfold local_frame, south_cylinder; cbn [cyl_center cyl_axis cyl_normal]; vunfold; ring. }
  assert (L2 : local_frame south_cylinder (vec 0 1 0) = vec 0 (-1) 0).
  { apply point_eq; unfold local_frame, south_cylinder; cbn [cyl_center cyl_axis cyl_normal]; vunfold; ring. }
  assert (T : exists t, cylinder_distance south_cylinder (vec 0 (-5) 0) (vec 0 1 0) = Some t /\ 3 < t < 5).
  { unfold cylinder_distance. rewrite L1, L2. cbn [vec pe pn pu]. cbn [south_cylinder cyl_radius].
    replace ((2 * (0 * 0 + 5 * -1)) ^ 2 - 4 * (0 ^ 2 + (-1) ^ 2) * (0 ^ 2 + 5 ^ 2 - 1 ^ 2)) with 4 by ring.
    replace (0 ^ 2 + (-1) ^ 2) with 1 by ring. rewrite Rabs_R1.
    destruct (Rle_dec 0 4); [|lra]. destruct (Rlt_dec (/ 10 ^ 8) 1) as [_|X]; [|exfalso; lra].
    assert (S : 2 < sqrt (4 + / 10 ^ 12) < 3).
    { split; [apply (Rle_lt_trans _ (sqrt 4)); [right; symmetry; apply sqrt_polar; lra|apply sqrt_lt_1; lra]|].
      apply (Rlt_le_trans _ (sqrt 9)); [apply sqrt_lt_1; lra|right; apply sqrt_polar; lra]. }
    set (s := sqrt (4 + / 10 ^ 12)) in *.
    destruct (Rlt_dec 0 ((- (2 * (0 * 0 + 5 * -1)) - s) / (2 * 1))); [|exfalso; lra].
    destruct (Rlt_dec 0 ((- (2 * (0 * 0 + 5 * -1)) + s) / (2 * 1))); [|exfalso; lra].
    eexists; split; [reflexivity|]. rewrite Rmin_left by lra. lra. }
  destruct T as (t & T & TB).
  assert (QL : local_frame south_cylinder (vsub (along (vec 0 (-5) 0) (vec 0 1 0) t) (cyl_center south_cylinder)) = vec 0 (5 - t) 0).
  { apply point_eq; unfold local_frame, along, south_cylinder; cbn [cyl_center cyl_axis cyl_normal]; vunfold; ring. }
  exists t. split; [apply south_proper|]. split; auto. split.
  - apply (angle_local _ _ _ south_proper). exists (5 - t). rewrite QL, sin_0, cos_0. cbn [vec pe pn]. split; [lra|]. split; ring.
  - change (pu (local_frame south_cylinder (vsub (along (vec 0 (-5) 0) (vec 0 1 0) t) (cyl_center south_cylinder))) = 0). rewrite QL. reflexivity.
Qed.

(** A full cylinder facing north: its south-western quarter is never hit. *)
Definition full_cylinder : cylinder :=
  {| cyl_center := vec 0 0 0; cyl_axis := vec 0 0 1; cyl_normal := vec 0 1 0; cyl_radius := 1; cyl_height := 2; cyl_opening := 2 * PI |}.
Lemma full_proper : proper_cylinder full_cylinder.
Proof. unfold proper_cylinder, unit, full_cylinder. cbn [cyl_axis cyl_normal cyl_radius cyl_height cyl_opening]. vunfold. pose proof PI_RGT_0. repeat split; lra. Qed.

Theorem full_missed : exists c o d, proper_cylinder c /\ pe (cyl_normal c) = 0 /\ 0 < pn (cyl_normal c) /\ unit d
  /\ (exists t delta, cylinder_distance c o d = Some t /\ at_angle c (along o d t) delta /\ Rabs delta <= cyl_opening c / 2
        /\ dot (vsub (along o d t) (cyl_center c)) (cyl_axis c) = 0)
  /\ forall width height m, line_cylinder width height c o d m = no_intersection.
Proof.
  pose proof PI_RGT_0 as PI0.
  exists full_cylinder, (vec (-1/2) (-5) 0), (vec 0 1 0).
  split; [apply full_proper|]. split; [reflexivity|]. split; [cbn; lra|]. split; [unfold unit; vunfold; ring|].
  assert (L : forall v, local_frame full_cylinder v = v).
  { intros v. apply point_eq; unfold local_frame, full_cylinder; cbn [cyl_axis cyl_normal]; vunfold; ring. }
  assert (C0 : forall v, vsub v (cyl_center full_cylinder) = v) by (intros v; unfold full_cylinder; cbn [cyl_center]; vring).
  assert (T : exists t, cylinder_distance full_cylinder (vec (-1/2) (-5) 0) (vec 0 1 0) = Some t /\ 3 < t < 5).
  { unfold cylinder_distance. rewrite C0, !L. cbn [vec pe pn pu]. cbn [full_cylinder cyl_radius].
    replace ((2 * (-1 / 2 * 0 + -5 * 1)) ^ 2 - 4 * (0 ^ 2 + 1 ^ 2) * ((-1/2) ^ 2 + (-5) ^ 2 - 1 ^ 2)) with 3 by field.
    replace (0 ^ 2 + 1 ^ 2) with 1 by ring. rewrite Rabs_R1.
    destruct (Rle_dec 0 3); [|lra]. destruct (Rlt_dec (/ 10 ^ 8) 1) as [_|X]; [|exfalso; lra].
    assert (S : 1 < sqrt (3 + / 10 ^ 12) < 3).
    { split; [apply (Rle_lt_trans _ (sqrt 1)); [right; symmetry; apply sqrt_polar; lra|apply sqrt_lt_1; lra]|].
      apply (Rlt_le_trans _ (sqrt 9)); [apply sqrt_lt_1; lra|right; apply sqrt_polar; lra]. }
    set (s := sqrt (3 + / 10 ^ 12)) in *.
    destruct (Rlt_dec 0 ((- (2 * (-1/2 * 0 + -5 * 1)) - s) / (2 * 1))); [|exfalso; lra].
    destruct (Rlt_dec 0 ((- (2 * (-1/2 * 0 + -5 * 1)) + s) / (2 * 1))); [|exfalso; lra].
    eexists; split; [reflexivity|]. rewrite Rmin_left by lra. lra. }
  destruct T as (t & T & TB).
  assert (Q : along (vec (-1/2) (-5) 0) (vec 0 1 0) t = vec (-1/2) (t - 5) 0) by (unfold along; vring).
  assert (AB : - PI < atan2 (t - 5) (-1/2) < - (PI / 2)).
  { pose proof (atan2_bound (t - 5) (-1/2)) as B. split; [apply B|]. destruct (atan2_polar (t - 5) (-1/2)) as (PX & PY).
    set (phi := atan2 (t - 5) (-1/2)) in *. set (r := sqrt (-1/2 * (-1/2) + (t - 5) * (t - 5))) in *.
    assert (R0 : 0 < r) by (apply sqrt_lt_R0; nra).
    assert (CN : cos phi < 0) by nra. assert (SN : sin phi < 0) by nra.
    destruct (Rlt_dec phi (- (PI / 2))); auto. exfalso.
    destruct (Rle_dec phi (PI / 2)).
    - assert (0 <= cos phi) by (apply cos_ge_0; lra). lra.
    - assert (0 <= sin phi) by (apply sin_ge_0; lra). lra. }
  split.
  - exists t, (atan2 (t - 5) (-1/2) + 3 * (PI / 2)). split; auto. split; [|split].
    + apply (angle_local _ _ _ full_proper). rewrite C0, L, Q. cbn [vec pe pn].
      destruct (atan2_polar (t - 5) (-1/2)) as (PX & PY). set (phi := atan2 (t - 5) (-1/2)) in *.
      exists (sqrt (-1/2 * (-1/2) + (t - 5) * (t - 5))). split; [apply sqrt_lt_R0; nra|].
      assert (S3 : sin (3 * (PI / 2)) = -1) by (apply sin_3PI2). assert (C3 : cos (3 * (PI / 2)) = 0) by (apply cos_3PI2).
      rewrite sin_plus, cos_plus, S3, C3. lra.
    + cbn [full_cylinder cyl_opening]. apply Rabs_le. lra.
    + rewrite C0, Q. unfold full_cylinder; cbn [cyl_axis]; vunfold; ring.
  - intros width height m. destruct (cylinder_cases width height full_cylinder (vec (-1/2) (-5) 0) (vec 0 1 0) m full_proper) as [E|(t' & T' & (_ & AA) & _)]; auto.
    exfalso. rewrite T in T'. injection T' as <-. rewrite C0, L, Q in AA. cbn [vec pe pn full_cylinder cyl_normal cyl_opening] in AA.
    assert (A2 : atan2 1 0 = PI / 2).
    { unfold atan2. destruct (Rlt_dec 0 0); [lra|]. destruct (Rlt_dec 0 1); [auto|lra]. }
    rewrite A2 in AA. lra.
Qed.

Definition north_cylinder : cylinder :=
  {| cyl_center := vec 0 0 0; cyl_axis := vec 0 0 1; cyl_normal := vec 0 1 0; cyl_radius := 1; cyl_height := 2; cyl_opening := PI |}.
Lemma north_proper : proper_cylinder north_cylinder.
Proof. unfold proper_cylinder, unit, north_cylinder. cbn [cyl_axis cyl_normal cyl_radius cyl_height cyl_opening]. vunfold. pose proof PI_RGT_0. repeat split; lra. Qed.
Lemma north_case : exists t, proper_cylinder north_cylinder /\ cyl_opening north_cylinder <= PI
  /\ cylinder_distance north_cylinder (vec 0 5 0) (vec 0 (-1) 0) = Some t /\ 3 < t < 5
  /\ at_angle north_cylinder (along (vec 0 5 0) (vec 0 (-1) 0) t) 0
  /\ i_e (line_cylinder 101 11 north_cylinder (vec 0 5 0) (vec 0 (-1) 0) 7) = 50
  /\ i_distance (line_cylinder 101 11 north_cylinder (vec 0 5 0) (vec 0 (-1) 0) 7) = t.
Proof.
  pose proof PI_RGT_0 as PI0.
  assert (L : forall v, local_frame north_cylinder v = v).
  { intros v. apply point_eq; unfold local_frame, north_cylinder; cbn [cyl_axis cyl_normal]; vunfold; ring. }
  assert (C0 : forall v, vsub v (cyl_center north_cylinder) = v) by (intros v; unfold north_cylinder; cbn [cyl_center]; vring).
  assert (T : exists t, cylinder_distance north_cylinder (vec 0 5 0) (vec 0 (-1) 0) = Some t /\ 3 < t < 5).
  { unfold cylinder_distance. rewrite C0, !L. cbn [vec pe pn pu]. cbn [north_cylinder cyl_radius].
    replace ((2 * (0 * 0 + 5 * -1)) ^ 2 - 4 * (0 ^ 2 + (-1) ^ 2) * (0 ^ 2 + 5 ^ 2 - 1 ^ 2)) with 4 by ring.
    replace (0 ^ 2 + (-1) ^ 2) with 1 by ring. rewrite Rabs_R1.
    destruct (Rle_dec 0 4); [|lra]. destruct (Rlt_dec (/ 10 ^ 8) 1) as [_|X]; [|exfalso; lra].
    assert (S : 2 < sqrt (4 + / 10 ^ 12) < 3).
    { split; [apply (Rle_lt_trans _ (sqrt 4)); [right; symmetry; apply sqrt_polar; lra|apply sqrt_lt_1; lra]|].
      apply (Rlt_le_trans _ (sqrt 9)); [apply sqrt_lt_1; lra|right; apply sqrt_polar; lra]. }
    set (s := sqrt (4 + / 10 ^ 12)) in *.
    destruct (Rlt_dec 0 ((- (2 * (0 * 0 + 5 * -1)) - s) / (2 * 1))); [|exfalso; lra].
    destruct (Rlt_dec 0 ((- (2 * (0 * 0 + 5 * -1)) + s) / (2 * 1))); [|exfalso; lra].
    eexists; split; [reflexivity|]. rewrite Rmin_left by lra. lra. }
  destruct T as (t & T & TB). exists t. split; [apply north_proper|]. split; [cbn; lra|]. split; auto. split; auto.
  assert (Q : along (vec 0 5 0) (vec 0 (-1) 0) t = vec 0 (5 - t) 0) by (unfold along; vring).
  assert (A : at_angle north_cylinder (along (vec 0 5 0) (vec 0 (-1) 0) t) 0).
  { apply (angle_local _ _ _ north_proper). rewrite C0, L, Q. exists (5 - t). rewrite sin_0, cos_0. cbn [vec pe pn]. split; [lra|]. split; ring. }
  split; auto.
  destruct (cylinder_opening_north 101 11 north_cylinder (vec 0 5 0) (vec 0 (-1) 0) 7 t north_proper) as (I & _); auto; try (cbn; lra).
  destruct (I 0 A) as (D & E).
  - rewrite Rabs_R0. cbn [north_cylinder cyl_opening]. lra.
  - rewrite C0, Q. unfold north_cylinder. cbn [cyl_axis cyl_height]. vunfold. apply Rabs_le. lra.
  - split; auto. rewrite E. replace (INR 101) with 101 by (rewrite INR_IZR_INZ; reflexivity). cbn [north_cylinder cyl_opening]. field. lra.
Qed.
