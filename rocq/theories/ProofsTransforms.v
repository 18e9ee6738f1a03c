(** Proofs about the transformations (C30-C33). *)
From Coq Require Import List Arith Reals Bool Lra Lia Psatz Nsatz.
From Verif Require Import ModelField ModelVectors ProofsVectors ModelTransforms SpecIntersections SpecTransforms.
Import ListNotations.
Local Open Scope R_scope.

Lemma hvec_eq : forall a b, he a = he b -> hn a = hn b -> hu a = hu b -> hw a = hw b -> a = b.
Proof. intros [] []; simpl; intros -> -> -> ->; auto. Qed.
Lemma mat_eq : forall a b, row_e a = row_e b -> row_n a = row_n b -> row_u a = row_u b -> row_w a = row_w b -> a = b.
Proof. intros [] []; simpl; intros -> -> -> ->; auto. Qed.
Ltac hunfold := unfold mmul, vapply, mapply, mtr, mk, hdot, hv in *; cbn [row_e row_n row_u row_w he hn hu hw] in *.
Ltac hring := apply hvec_eq; hunfold; ring.
Ltac mring := apply mat_eq; apply hvec_eq; hunfold; ring.

Lemma mapply_mmul : forall a b x, mapply (mmul a b) x = mapply a (mapply b x).
Proof. intros; hring. Qed.
Lemma mtr_mmul : forall b c, mtr (mmul b c) = mmul (mtr c) (mtr b).
Proof. intros. mring. Qed.
Lemma vapply_mmul : forall r b c, vapply (vapply r b) c = vapply r (mmul b c).
Proof. intros r b c. unfold vapply. rewrite mtr_mmul, mapply_mmul. auto. Qed.
Lemma mmul_assoc : forall a b c, mmul (mmul a b) c = mmul a (mmul b c).
Proof. intros a b c. unfold mmul at 1 3. apply mat_eq; cbn [row_e row_n row_u row_w mk]; unfold mmul at 1; cbn [row_e row_n row_u row_w mk]; apply vapply_mmul. Qed.
Lemma mmul_eye_l : forall a, mmul eye a = a.
Proof. intros; unfold eye; mring. Qed.
Lemma mmul_eye_r : forall a, mmul a eye = a.
Proof. intros; unfold eye; mring. Qed.

Lemma as_point_enu : forall x, hw x = 1 -> as_point (enu x) = x.
Proof. intros [e n u w]; simpl; intros ->; reflexivity. Qed.
Lemma as_direction_enu : forall x, hw x = 0 -> as_direction (enu x) = x.
Proof. intros [e n u w]; simpl; intros ->; reflexivity. Qed.
Lemma enu_point : forall p, enu (as_point p) = p.
Proof. intros []; reflexivity. Qed.
Lemma enu_direction : forall p, enu (as_direction p) = p.
Proof. intros []; reflexivity. Qed.

Lemma rigid_compose : forall f g, rigid_action f -> rigid_action g -> rigid_action (fun x => f (g x)).
Proof.
  intros f g (P1 & D1 & S1 & L1 & A1 & C1) (P2 & D2 & S2 & L2 & A2 & C2).
  assert (GP : forall p, g (as_point p) = as_point (enu (g (as_point p)))) by (intros; rewrite as_point_enu; auto).
  assert (GD : forall p, g (as_direction p) = as_direction (enu (g (as_direction p)))) by (intros; rewrite as_direction_enu; auto).
  repeat split; intros.
  - rewrite GP. auto.
  - rewrite GD. auto.
  - rewrite (GP p), (GP q), S1. auto.
  - rewrite GD, L2, L1, <- !GP. auto.
  - rewrite (GD v), (GD w), A1. auto.
  - rewrite (GD (cross v w)), C2, C1, <- !GD. auto.
Qed.
Lemma rigid_ext : forall f g, (forall x, f x = g x) -> rigid_action g -> rigid_action f.
Proof.
  intros f g E (P & D & S & L & A & C). repeat split; intros; rewrite ?E; auto.
Qed.
Lemma rigid_mmul : forall a b, rigid a -> rigid b -> rigid (mmul a b).
Proof. intros a b A B. apply (rigid_ext _ (fun x => mapply a (mapply b x))); [intros; apply mapply_mmul|apply rigid_compose; auto]. Qed.

Ltac henu := unfold enu, as_point, as_direction in *; hunfold; vunfold.

(** Matrices [A t; 0 1] with orthonormal right-handed columns are rigid. *)
Lemma rigid_columns : forall (a b c t : point),
  unit a -> unit b -> dot a b = 0 -> c = cross a b ->
  rigid (mk (hv (pe a) (pe b) (pe c) (pe t)) (hv (pn a) (pn b) (pn c) (pn t)) (hv (pu a) (pu b) (pu c) (pu t)) (hv 0 0 0 1)).
Proof.
  intros a b c t UA UB AB ->.
  set (m := mk _ _ _ _).
  assert (DIR : forall v, enu (mapply m (as_direction v)) = vadd (smul (pe v) a) (vadd (smul (pn v) b) (smul (pu v) (cross a b)))).
  { intros v. apply point_eq; unfold m; henu; ring. }
  assert (PNT : forall p, enu (mapply m (as_point p)) = vadd (vadd (smul (pe p) a) (vadd (smul (pn p) b) (smul (pu p) (cross a b)))) t).
  { intros v. apply point_eq; unfold m; henu; ring. }
  assert (AC : dot a (cross a b) = 0) by apply cross_orth_l. assert (BC : dot b (cross a b) = 0) by apply cross_orth_r.
  assert (CC : dot (cross a b) (cross a b) = 1).
  { rewrite <- gram. unfold unit in *. rewrite UA, UB, AB. ring. }
  unfold unit in *.
  assert (DD : forall v w, dot (vadd (smul (pe v) a) (vadd (smul (pn v) b) (smul (pu v) (cross a b)))) (vadd (smul (pe w) a) (vadd (smul (pn w) b) (smul (pu w) (cross a b)))) = dot v w).
  { intros v w. rewrite !dot_vadd_l, !dot_vadd_r, !dot_smul_l, !dot_smul_r.
    rewrite (dot_comm b a), (dot_comm (cross a b) a), (dot_comm (cross a b) b), UA, UB, AB, AC, BC, CC. unfold dot. ring. }
  assert (LIN : forall p q, vsub (vadd (vadd (smul (pe p) a) (vadd (smul (pn p) b) (smul (pu p) (cross a b)))) t)
                                 (vadd (vadd (smul (pe q) a) (vadd (smul (pn q) b) (smul (pu q) (cross a b)))) t)
                = vadd (smul (pe (vsub p q)) a) (vadd (smul (pn (vsub p q)) b) (smul (pu (vsub p q)) (cross a b)))).
  { intros. vring. }
  repeat split; intros.
  - unfold m. henu. ring.
  - unfold m. henu. ring.
  - rewrite !PNT, LIN. unfold norm. f_equal. apply DD.
  - rewrite DIR, !PNT, LIN. auto.
  - rewrite !DIR. apply DD.
  - rewrite !DIR.
    assert (B1 : cross b (cross a b) = a).
    { transitivity (vsub (smul (dot b b) a) (smul (dot a b) b)); [vring|]. rewrite UB, AB. vring. }
    assert (B2 : cross (cross a b) a = b).
    { transitivity (vsub (smul (dot a a) b) (smul (dot a b) a)); [vring|]. rewrite UA, AB. vring. }
    transitivity (vadd (smul (pe (cross v w)) (cross b (cross a b))) (vadd (smul (pn (cross v w)) (cross (cross a b) a)) (smul (pu (cross v w)) (cross a b)))).
    { rewrite B1, B2. auto. }
    vring.
Qed.

Lemma sc : forall x, cos x * cos x + sin x * sin x = 1.
Proof. intros x. pose proof (sin2_cos2 x) as H. unfold Rsqr in H. lra. Qed.

Lemma rotate_e_rigid : forall a, rigid (rotate_e a).
Proof.
  intros x. pose proof (sc x). apply (rigid_columns (vec 1 0 0) (vec 0 (cos x) (sin x)) (vec 0 (- sin x) (cos x)) (vec 0 0 0));
  unfold unit; try apply point_eq; vunfold; lra.
Qed.
Lemma rotate_n_rigid : forall a, rigid (rotate_n a).
Proof.
  intros x. pose proof (sc x). apply (rigid_columns (vec (cos x) 0 (sin x)) (vec 0 1 0) (vec (- sin x) 0 (cos x)) (vec 0 0 0));
  unfold unit; try apply point_eq; vunfold; lra.
Qed.
Lemma rotate_u_rigid : forall a, rigid (rotate_u a).
Proof.
  intros x. pose proof (sc x). apply (rigid_columns (vec (cos x) (sin x) 0) (vec (- sin x) (cos x) 0) (vec 0 0 1) (vec 0 0 0));
  unfold unit; try apply point_eq; vunfold; lra.
Qed.
Lemma translate_rigid : forall e n u, rigid (translate e n u).
Proof.
  intros e n u. apply (rigid_columns (vec 1 0 0) (vec 0 1 0) (vec 0 0 1) (vec e n u)); unfold unit; try apply point_eq; vunfold; lra.
Qed.
Lemma distortion_product : forall e u, rotate_distortion e u = mmul (rotate_e e) (rotate_u u).
Proof. intros. unfold rotate_distortion, rotate_e, rotate_u. mring. Qed.
Lemma distortion_rigid : forall e u, rigid (rotate_distortion e u).
Proof. intros. rewrite distortion_product. apply rigid_mmul; [apply rotate_e_rigid|apply rotate_u_rigid]. Qed.

Lemma rotate_e_add : forall a b, mmul (rotate_e a) (rotate_e b) = rotate_e (a + b).
Proof. intros. unfold rotate_e. rewrite cos_plus, sin_plus. mring. Qed.
Lemma rotate_n_add : forall a b, mmul (rotate_n a) (rotate_n b) = rotate_n (a + b).
Proof. intros. unfold rotate_n. rewrite cos_plus, sin_plus. mring. Qed.
Lemma rotate_u_add : forall a b, mmul (rotate_u a) (rotate_u b) = rotate_u (a + b).
Proof. intros. unfold rotate_u. rewrite cos_plus, sin_plus. mring. Qed.
Lemma rotate_zero : rotate_e 0 = eye /\ rotate_n 0 = eye /\ rotate_u 0 = eye.
Proof. unfold rotate_e, rotate_n, rotate_u, eye. rewrite cos_0, sin_0, Ropp_0. auto. Qed.

Lemma translate_action : forall e n u p,
  mapply (translate e n u) (as_point p) = as_point (vadd p (vec e n u))
  /\ mapply (translate e n u) (as_direction p) = as_direction p.
Proof. intros. split; apply hvec_eq; unfold translate; henu; ring. Qed.

Lemma translate_batch : forall e n u,
  (List.length e = List.length n /\ List.length n = List.length u ->
   exists ms, translate_enu e n u = Ok ms /\ List.length ms = List.length e
     /\ forall i x y z, nth_error e i = Some x -> nth_error n i = Some y -> nth_error u i = Some z -> nth_error ms i = Some (translate x y z))
  /\ (~ (List.length e = List.length n /\ List.length n = List.length u) -> translate_enu e n u = Err ValueError).
Proof.
  intros e n u. unfold translate_enu. split.
  - intros (L1 & L2). assert (B : ((List.length e =? List.length u) && (List.length u =? List.length n))%nat = true).
    { apply andb_true_iff. rewrite !Nat.eqb_eq. lia. }
    rewrite B. eexists. split; [reflexivity|]. split; [rewrite map_length, !combine_length; lia|].
    clear B. revert n u L1 L2. induction e as [|a e IH]; intros [|b n] [|c u]; try discriminate; intros L1 L2 i x y z X Y Z.
    + destruct i; discriminate.
    + destruct i as [|i]; cbn in *.
      * injection X as <-. injection Y as <-. injection Z as <-. auto.
      * apply (IH n u); auto.
  - intros N. destruct ((List.length e =? List.length u) && (List.length u =? List.length n))%nat eqn:B; auto.
    exfalso. apply N. apply andb_true_iff in B. rewrite !Nat.eqb_eq in B. lia.
Qed.

(** ** Direction of rotation *)
Lemma rotate_e_direction : forall a v, enu (mapply (rotate_e a) (as_direction v)) = rotated east a v.
Proof. intros. apply point_eq; unfold rotate_e, rotated, east; henu; ring. Qed.
Lemma rotate_u_direction : forall a v, enu (mapply (rotate_u a) (as_direction v)) = rotated up a v.
Proof. intros. apply point_eq; unfold rotate_u, rotated, up; henu; ring. Qed.
Lemma rotate_n_direction : forall a v, enu (mapply (rotate_n a) (as_direction v)) = rotated north (- a) v.
Proof. intros. apply point_eq; unfold rotate_n, rotated, north; rewrite cos_neg, sin_neg; henu; ring. Qed.
Lemma rotate_n_wrong : forall a, sin a <> 0 -> exists v, enu (mapply (rotate_n a) (as_direction v)) <> rotated north a v.
Proof.
  intros a S. exists (vec 1 0 0). rewrite rotate_n_direction. unfold rotated, north. rewrite cos_neg, sin_neg.
  intros E. apply (f_equal pu) in E. vunfold. apply S. lra.
Qed.

(** ** Canting *)
Section Canting.
Variables c_e c_n : point.
Hypothesis E0 : / 10 ^ 12 <= norm c_e.
Hypothesis N0 : / 10 ^ 8 <= norm (cross (normalize c_e) c_n).
Let e := normalize c_e.
Let u := normalize_eps (/ 10 ^ 8) (cross e c_n).
Let n := cross u e.
Lemma canting_units : unit e /\ unit u /\ dot u e = 0 /\ unit n.
Proof.
  assert (UE : dot e e = 1). { apply norm_unit_dot. apply normalize_eps_unit; [lra|auto]. }
  assert (UU : dot u u = 1). { apply norm_unit_dot. apply normalize_eps_unit; [lra|auto]. }
  assert (OR : dot u e = 0).
  { unfold u. rewrite normalize_eps_long by auto. rewrite dot_smul_l, dot_comm, cross_orth_l. ring. }
  repeat split; auto. unfold unit, n. rewrite <- gram, UE, UU, OR. ring.
Qed.
Lemma canting_matrix_eq : canting_matrix c_e c_n
  = mk (hv (pe e) (pe n) (pe u) 0) (hv (pn e) (pn n) (pn u) 0) (hv (pu e) (pu n) (pu u) 0) (hv 0 0 0 1).
Proof.
  destruct canting_units as (_ & _ & _ & UN). unfold canting_matrix. fold e. fold u. fold n.
  rewrite (normalize_eps_id (/ 10 ^ 8) n); auto; [lra|apply norm_unit_dot; auto].
Qed.
Lemma cross_en : cross e n = u.
Proof.
  destruct canting_units as (UE & _ & OR & _). unfold n.
  transitivity (vsub (smul (dot e e) u) (smul (dot u e) e)); [vring|]. unfold unit in UE. rewrite UE, OR. vring.
Qed.
Lemma canting_rigid : rigid (canting_matrix c_e c_n).
Proof.
  destruct canting_units as (UE & UU & OR & UN). rewrite canting_matrix_eq.
  apply (rigid_columns e n u (vec 0 0 0)); auto.
  - unfold n. rewrite cross_orth_r. auto.
  - symmetry. apply cross_en.
Qed.
Lemma vapply_mtr : forall x m, vapply x (mtr m) = mapply m x.
Proof. intros. hring. Qed.

Theorem canting_spec :
  rigid_action (perform_canting false c_e c_n)
  /\ perform_canting false c_e c_n (as_direction east) = as_direction (smul (/ norm c_e) c_e)
  /\ (let up' := enu (perform_canting false c_e c_n (as_direction up)) in dot up' c_e = 0 /\ dot up' c_n = 0 /\ 0 < dot up' (cross c_e c_n))
  /\ (forall x, perform_canting true c_e c_n (perform_canting false c_e c_n x) = x)
  /\ (forall x, perform_canting false c_e c_n (perform_canting true c_e c_n x) = x).
Proof.
  destruct canting_units as (UE & UU & OR & UN).
  assert (EF : forall x, perform_canting false c_e c_n x = mapply (canting_matrix c_e c_n) x).
  { intros x. unfold perform_canting. apply vapply_mtr. }
  assert (NE : 0 < norm c_e) by lra.
  split; [|split; [|split]].
  - apply (rigid_ext _ (mapply (canting_matrix c_e c_n))); auto. apply canting_rigid.
  - rewrite EF, canting_matrix_eq. unfold east.
    rewrite <- (normalize_eps_long (/ 10 ^ 12) c_e) by auto. fold (normalize c_e). fold e.
    apply hvec_eq; henu; ring.
  - cbv zeta. rewrite EF, canting_matrix_eq.
    assert (UP : enu (mapply (mk (hv (pe e) (pe n) (pe u) 0) (hv (pn e) (pn n) (pn u) 0) (hv (pu e) (pu n) (pu u) 0) (hv 0 0 0 1)) (as_direction up)) = u).
    { unfold up. apply point_eq; henu; ring. }
    rewrite UP. unfold u. rewrite normalize_eps_long by auto. set (k := norm (cross e c_n)).
    assert (K : 0 < / k). { apply Rinv_0_lt_compat. unfold k, e. lra. }
    assert (EE : e = smul (/ norm c_e) c_e) by (apply normalize_eps_long; auto).
    assert (CE : c_e = smul (norm c_e) e). { rewrite EE. apply point_eq; vunfold; field; lra. }
    rewrite !dot_smul_l. repeat split.
    + rewrite CE, dot_smul_r, dot_comm, cross_orth_l. ring.
    + rewrite dot_comm, cross_orth_r. ring.
    + assert (CC : cross c_e c_n = smul (norm c_e) (cross e c_n)). { rewrite CE at 1. vring. }
      rewrite CC, dot_smul_r. apply Rmult_lt_0_compat; auto. apply Rmult_lt_0_compat; auto.
      rewrite <- norm_sq. fold k. assert (0 < k) by (unfold k, e; lra). nra.
  - assert (NU : dot n u = 0) by (unfold n; rewrite dot_comm; apply cross_orth_l).
    assert (NE' : dot n e = 0) by (unfold n; rewrite dot_comm; apply cross_orth_r).
    assert (EU : dot e u = 0) by (rewrite dot_comm; auto).
    pose proof cross_en as CR.
    unfold unit in *.
    assert (ORT : mmul (mtr (canting_matrix c_e c_n)) (canting_matrix c_e c_n) = eye).
    { rewrite canting_matrix_eq. clear CR. clearbody e n u. destruct e, n, u. unfold eye. vunfold.
      apply mat_eq; apply hvec_eq; hunfold; lra. }
    split; intros x.
    + rewrite EF. unfold perform_canting, vapply. rewrite <- mapply_mmul, ORT. unfold eye. hring.
    + rewrite EF. unfold perform_canting, vapply.
      rewrite canting_matrix_eq.
        (* resolution of the identity *)
        assert (RES : forall v, v = vadd (smul (dot v e) e) (vadd (smul (dot v n) n) (smul (dot v u) u))).
        { intros v. rewrite <- CR. 
          assert (Z : vsub v (vadd (smul (dot v e) e) (vadd (smul (dot v n) n) (smul (dot v (cross e n)) (cross e n)))) = vec 0 0 0).
          { apply dot_self_zero.
            assert (T : dot v (cross e n) * dot v (cross e n) = dot v v * (dot e e * dot n n - dot e n * dot e n) - dot v e * (dot v e * dot n n - dot e n * dot v n) + dot v n * (dot v e * dot e n - dot e e * dot v n)) by (vunfold; ring).
            rewrite (dot_comm e n), UE, UN, NE' in T.
            rewrite CR in *.
            rewrite !dot_vsub_l, !dot_vsub_r, !dot_vadd_l, !dot_vadd_r, !dot_smul_l, !dot_smul_r.
            rewrite (dot_comm u v), (dot_comm n v), (dot_comm e v), (dot_comm e n), (dot_comm u n), (dot_comm u e), UE, UU, UN, NU, NE', EU. lra. }
          assert (Q : forall x y, vsub x y = vec 0 0 0 -> x = y).
          { intros [x1 x2 x3] [y1 y2 y3] H. vunfold. apply point_inv in H. f_equal; lra. }
          apply Q. auto. }
        pose proof (RES (enu x)) as R1. clear - R1. clearbody e n u. destruct e as [e1 e2 e3], n as [n1 n2 n3], u as [u1 u2 u3], x as [x1 x2 x3 x4]. unfold enu in R1. hunfold. vunfold.
        apply point_inv in R1. destruct R1 as (R1 & R2 & R3).
        apply hvec_eq; cbn [he hn hu hw]; [clear R2 R3|clear R1 R3|clear R1 R2|clear]; lra.
Qed.
End Canting.

(** ** Rotation between orientations *)
Lemma clamp_id : forall a b x, a <= x <= b -> clamp a b x = x.
Proof. intros. unfold clamp. rewrite Rmax_left by lra. apply Rmin_left. lra. Qed.
Lemma rotated_to : forall f t, unit f -> unit t -> 0 < norm (cross f t) ->
  rotated (smul (/ norm (cross f t)) (cross f t)) (acos (dot f t)) f = t.
Proof.
  intros f t UF UT P. unfold unit in *. set (k := norm (cross f t)) in *. set (d := dot f t).
  assert (KK : k * k = 1 - d * d) by (unfold k; rewrite norm_sq, <- gram, UF, UT; unfold d; ring).
  assert (B : -1 <= d <= 1). { apply dot_unit_bound; apply norm_unit_dot; auto. }
  unfold rotated. rewrite cos_acos, sin_acos by auto.
  assert (SQ : sqrt (1 - d²) = k). { unfold Rsqr. rewrite <- KK. apply sqrt_square. lra. }
  rewrite SQ.
  assert (C1 : cross (cross f t) f = vsub (smul (dot f f) t) (smul (dot f t) f)) by vring.
  assert (C2 : dot (cross f t) f = 0) by (rewrite dot_comm; apply cross_orth_l).
  rewrite dot_smul_l, C2, Rmult_0_r, Rmult_0_r.
  assert (C3 : cross (smul (/ k) (cross f t)) f = smul (/ k) (vsub t (smul d f))).
  { transitivity (smul (/ k) (cross (cross f t) f)); [vring|]. rewrite C1, UF. unfold d. vring. }
  rewrite C3. apply point_eq; vunfold; field; lra.
Qed.

Lemma near_parallel : forall f t s, unit f -> unit t -> (s = 1 \/ s = -1) -> norm (cross f t) < / 10 ^ 6 -> 0 < s * dot f t ->
  norm (vsub (smul s f) t) <= 2 / 10 ^ 6.
Proof.
  intros f t s UF UT S C P. unfold unit in *. set (k := norm (cross f t)) in *. set (d := dot f t) in *.
  assert (KK : k * k = 1 - d * d) by (unfold k; rewrite norm_sq, <- gram, UF, UT; unfold d; ring).
  assert (K0 : 0 <= k) by apply norm_nonneg.
  assert (SS : s * s = 1) by (destruct S; subst; ring).
  assert (N2 : dot (vsub (smul s f) t) (vsub (smul s f) t) = 2 - 2 * (s * d)).
  { rewrite dot_vsub_l, !dot_vsub_r, !dot_smul_l, !dot_smul_r, (dot_comm t f), UF, UT. fold d.
    replace (s * (s * 1)) with (s * s) by ring. rewrite SS. ring. }
  set (x := s * d) in *. assert (XX : x * x = 1 - k * k). { unfold x. replace (s * d * (s * d)) with ((s * s) * (d * d)) by ring. rewrite SS, KK. ring. }
  assert (K2 : k * k <= / 10 ^ 6 * / 10 ^ 6) by nra.
  assert (X1 : 1 - x <= k * k). { assert ((1 - x) * (1 + x) = k * k) by lra. assert (x <= 1) by nra. nra. }
  unfold norm. rewrite N2.
  apply (Rle_trans _ (sqrt (2 / 10 ^ 6 * (2 / 10 ^ 6)))); [apply sqrt_le_1_alt; lra|]. rewrite sqrt_square by lra. lra.
Qed.

Lemma unit_smul : forall a, 0 < norm a -> unit (smul (/ norm a) a).
Proof.
  intros a P. apply norm_unit_dot. rewrite norm_smul, Rabs_right; [field; lra|]. left. apply Rinv_0_lt_compat. auto.
Qed.

Theorem rotation_between : forall f t, unit f -> unit t ->
  let '(axis, angle) := rotation_angle_and_axis f t in
  unit axis /\ 0 <= angle <= PI /\ norm (vsub (rotated axis angle f) t) <= 2 / 10 ^ 6
  /\ (/ 10 ^ 6 <= norm (cross f t) -> rotated axis angle f = t)
  /\ (t = f \/ t = smul (-1) f -> rotated axis angle f = t).
Proof.
  intros f t UF UT. unfold rotation_angle_and_axis.
  assert (NF : norm f = 1) by (apply norm_unit_dot; auto). assert (NT : norm t = 1) by (apply norm_unit_dot; auto).
  assert (IF' : smul (/ norm f) f = f) by (rewrite NF, Rinv_1; vring).
  assert (IT : smul (/ norm t) t = t) by (rewrite NT, Rinv_1; vring).
  rewrite IF', IT. assert (B : -1 <= dot f t <= 1) by (apply dot_unit_bound; auto).
  rewrite clamp_id by lra. set (k := norm (cross f t)).
  assert (KK : k * k = 1 - dot f t * dot f t). { unfold k. rewrite norm_sq, <- gram. unfold unit in *. rewrite UF, UT. ring. }
  pose proof (norm_nonneg (cross f t)) as K0. fold k in K0. pose proof PI_RGT_0 as PI0.
  assert (ZN : norm (vsub t t) = 0). { unfold norm. rewrite <- sqrt_0. f_equal. vunfold. ring. }
  destruct (Rlt_dec k (/ 10 ^ 6)) as [S|S].
  - destruct (Rlt_dec 0 (dot f t)) as [D|D]; cbn [andb].
    + assert (RI : rotated (vec 1 0 0) 0 f = f) by (unfold rotated; rewrite cos_0, sin_0; vring).
      rewrite RI. split; [unfold unit; vunfold; ring|]. split; [lra|]. split; [|split].
      * replace f with (smul 1 f) at 1 by vring. apply near_parallel; auto; lra.
      * intros X. fold k in X. lra.
      * intros [-> | ->]; auto. exfalso. rewrite dot_smul_r in D. unfold unit in UF. lra.
    + assert (DN : dot f t < 0). { destruct (Rlt_dec (dot f t) 0); auto. exfalso. assert (dot f t = 0) by lra. rewrite H in KK. nra. }
      destruct (Rlt_dec (dot f t) 0) as [_|X]; [|contradiction]. cbn [andb].
      set (o := if Rlt_dec (Rabs (pe f)) (Rabs (pn f)) then vec 1 0 0 else vec 0 1 0).
      assert (PA : 0 < norm (cross f o)).
      { unfold norm. apply sqrt_lt_R0. unfold o. unfold unit in UF.
        destruct (Rlt_dec (Rabs (pe f)) (Rabs (pn f))) as [A|A].
        - assert (pn f <> 0). { intros Z. rewrite Z, Rabs_R0 in A. pose proof (Rabs_pos (pe f)). lra. }
          vunfold. assert (0 < pn f * pn f) by nra. nra.
        - vunfold. destruct (Req_dec (pe f) 0) as [Z|Z].
          + rewrite Z, Rabs_R0 in A. assert (pn f = 0). { destruct (Req_dec (pn f) 0); auto. pose proof (Rabs_pos_lt _ H). lra. }
            rewrite Z, H in UF. nra.
          + assert (0 < pe f * pe f) by nra. nra. }
      assert (ORT : dot (cross f o) f = 0) by (rewrite dot_comm; apply cross_orth_l).
      assert (RI : rotated (smul (/ norm (cross f o)) (cross f o)) PI f = smul (-1) f).
      { unfold rotated. rewrite cos_PI, sin_PI, dot_smul_l, ORT. vring. }
      rewrite RI. split; [apply unit_smul; auto|]. split; [lra|]. split; [|split].
      * apply near_parallel; auto. lra.
      * intros X. fold k in X. lra.
      * intros [-> | ->]; auto. exfalso. unfold unit in UF. lra.
  - cbn [andb]. assert (KP : 0 < k) by lra.
    assert (RI : rotated (smul (/ k) (cross f t)) (acos (dot f t)) f = t) by (apply rotated_to; auto).
    rewrite RI. split; [apply unit_smul; auto|]. split; [apply acos_bound|]. split; [rewrite ZN; lra|]. auto.
Qed.

(** The rotation vector. *)
Theorem decompose_spec : forall f t, unit f -> unit t -> / 10 ^ 12 <= norm (cross f t) ->
  let r := decompose_rotations f t in
  0 < norm r <= PI /\ rotated (smul (/ norm r) r) (norm r) f = t.
Proof.
  intros f t UF UT K r. assert (NF : norm f = 1) by (apply norm_unit_dot; auto). assert (NT : norm t = 1) by (apply norm_unit_dot; auto).
  assert (B : -1 <= dot f t <= 1) by (apply dot_unit_bound; auto).
  assert (KK : norm (cross f t) * norm (cross f t) = 1 - dot f t * dot f t).
  { rewrite norm_sq, <- gram. unfold unit in *. rewrite UF, UT. ring. }
  assert (R0 : r = smul (acos (dot f t)) (smul (/ norm (cross f t)) (cross f t))).
  { unfold r, decompose_rotations, normalize. rewrite !(normalize_eps_id _ f), !(normalize_eps_id _ t) by (auto; lra).
    rewrite clamp_id by lra. rewrite normalize_eps_long by auto. auto. }
  assert (AB : 0 < acos (dot f t) <= PI).
  { split; [|apply acos_bound]. destruct (Req_dec (acos (dot f t)) 0) as [Z|Z]; [|pose proof (acos_bound (dot f t)); lra].
    exfalso. pose proof (cos_acos (dot f t) B) as C. rewrite Z, cos_0 in C. rewrite <- C in KK. nra. }
  assert (UK : unit (smul (/ norm (cross f t)) (cross f t))) by (apply unit_smul; lra).
  assert (NR : norm r = acos (dot f t)).
  { rewrite R0, norm_smul. apply norm_unit_dot in UK. rewrite UK, Rabs_right; lra. }
  rewrite NR. split; auto.
  replace (smul (/ acos (dot f t)) r) with (smul (/ norm (cross f t)) (cross f t)).
  - apply rotated_to; auto. lra.
  - rewrite R0. apply point_eq; vunfold; field; lra.
Qed.

(** Only the directions of the two orientations matter. *)
Lemma rotation_scale : forall f t a b, 0 < norm f -> 0 < norm t -> 0 < a -> 0 < b ->
  rotation_angle_and_axis (smul a f) (smul b t) = rotation_angle_and_axis f t.
Proof.
  assert (N : forall f a, 0 < norm f -> 0 < a -> smul (/ norm (smul a f)) (smul a f) = smul (/ norm f) f).
  { intros f a F A. rewrite norm_smul, Rabs_right by lra. apply point_eq; vunfold; field; lra. }
  intros f t a b F T A B. unfold rotation_angle_and_axis. rewrite !N by auto. auto.
Qed.

Lemma rotation_axes : forall a,
  mapply (rotate_e a) (as_direction east) = as_direction east
  /\ mapply (rotate_n a) (as_direction north) = as_direction north
  /\ mapply (rotate_u a) (as_direction up) = as_direction up.
Proof. intros. unfold rotate_e, rotate_n, rotate_u, east, north, up. repeat split; apply hvec_eq; henu; ring. Qed.
Lemma distortion_direction : forall e u v,
  enu (mapply (rotate_distortion e u) (as_direction v)) = rotated east e (rotated up u v).
Proof.
  intros. rewrite distortion_product, mapply_mmul.
  destruct (rotate_u_rigid u) as (_ & D & _). rewrite <- (as_direction_enu (mapply (rotate_u u) (as_direction v))) by apply D.
  rewrite rotate_e_direction, rotate_u_direction. auto.
Qed.
Lemma canting_all : forall c_e c_n, / 10 ^ 12 <= norm c_e -> / 10 ^ 8 * norm c_e <= norm (cross c_e c_n) ->
  rigid_action (perform_canting false c_e c_n)
  /\ perform_canting false c_e c_n (as_direction east) = as_direction (smul (/ norm c_e) c_e)
  /\ (let up' := enu (perform_canting false c_e c_n (as_direction up)) in dot up' c_e = 0 /\ dot up' c_n = 0 /\ 0 < dot up' (cross c_e c_n))
  /\ (forall x, perform_canting true c_e c_n (perform_canting false c_e c_n x) = x)
  /\ (forall x, perform_canting false c_e c_n (perform_canting true c_e c_n x) = x).
Proof.
  intros c_e c_n E N. apply canting_spec; auto.
  unfold normalize. rewrite normalize_eps_long by auto.
  assert (P : 0 < norm c_e) by lra.
  replace (cross (smul (/ norm c_e) c_e) c_n) with (smul (/ norm c_e) (cross c_e c_n)) by vring.
  rewrite norm_smul, Rabs_right by (left; apply Rinv_0_lt_compat; auto).
  apply (Rmult_le_reg_l (norm c_e)); auto. rewrite <- Rmult_assoc, Rinv_r by lra. lra.
Qed.
