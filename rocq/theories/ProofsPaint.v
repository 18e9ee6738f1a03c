(** Proofs about reading PAINT files (C83, C95-C98). *)
From Coq Require Import List Arith Bool String Reals Lra Lia Psatz Permutation.
From Verif Require Import ModelField ModelVectors ProofsVectors ModelIntersections SpecIntersections ModelCoordinates ModelLBVH ModelPaint SpecPaint.
Import ListNotations.
Local Open Scope R_scope.

(** ** Cylindrical areas *)

Lemma cross_cross : forall a b c, cross (cross a b) c = vsub (smul (dot a c) b) (smul (dot b c) a).
Proof. intros. vring. Qed.

Lemma orthonormal_expand : forall a n v, unit a -> unit n -> dot a n = 0 ->
  v = vadd (smul (dot v a) a) (vadd (smul (dot v n) n) (smul (dot v (cross a n)) (cross a n))).
Proof.
  intros a n v A N O. unfold unit in *. set (t := cross a n).
  assert (T : dot t t = 1) by (unfold t; rewrite <- gram, A, N, O; ring).
  assert (AT : dot a t = 0) by apply cross_orth_l. assert (NT : dot n t = 0) by apply cross_orth_r.
  set (w := vadd (smul (dot v a) a) (vadd (smul (dot v n) n) (smul (dot v t) t))). set (d := vsub v w).
  assert (DA : dot a d = 0). { unfold d, w. rewrite dot_vsub_r, !dot_vadd_r, !dot_smul_r, A, O, AT, (dot_comm a v). ring. }
  assert (DN : dot n d = 0). { unfold d, w. rewrite dot_vsub_r, !dot_vadd_r, !dot_smul_r, N, (dot_comm n a), O, NT, (dot_comm n v). ring. }
  assert (DT : dot t d = 0).
  { unfold d, w. rewrite dot_vsub_r, !dot_vadd_r, !dot_smul_r, T, (dot_comm t a), AT, (dot_comm t n), NT, (dot_comm t v). ring. }
  assert (Z : cross t d = vec 0 0 0).
  { unfold t. rewrite cross_cross, DA, DN. vring. }
  assert (D : dot d d = 0).
  { pose proof (gram t d) as G. rewrite T, DT, Z in G. replace (dot (vec 0 0 0) (vec 0 0 0)) with 0 in G by (vunfold; ring). lra. }
  apply dot_self_zero in D. unfold d in D. apply point_eq; [apply (f_equal pe) in D|apply (f_equal pn) in D|apply (f_equal pu) in D];
    fold t; fold w; cbn [pe pn pu vec vsub] in D; lra.
Qed.

Lemma distance_is : forall r x chord, 0 < r -> norm chord = 2 * r * Rabs (sin x) -> distance_to_center r chord = Some (r * Rabs (cos x)).
Proof.
  intros r x chord R0 N. unfold distance_to_center. rewrite N.
  assert (E : r ^ 2 - (2 * r * Rabs (sin x) / 2) ^ 2 = (r * Rabs (cos x)) * (r * Rabs (cos x))).
  { replace ((2 * r * Rabs (sin x) / 2) ^ 2) with (r * r * (Rabs (sin x) * Rabs (sin x))) by field.
    replace (r * Rabs (cos x) * (r * Rabs (cos x))) with (r * r * (Rabs (cos x) * Rabs (cos x))) by ring.
    rewrite <- !Rabs_mult. rewrite !Rabs_right by (apply Rle_ge, Rle_0_sqr || (apply Rle_ge; nra)).
    pose proof (sin2_cos2 x) as S. unfold Rsqr in S. nra. }
  rewrite E. destruct (Rlt_dec _ 0) as [L|L]; [exfalso; nra|].
  rewrite sqrt_square; [reflexivity|]. apply Rmult_le_pos; [lra|apply Rabs_pos].
Qed.

Lemma chord_norm : forall c side level, proper_cylinder c -> side = 1 \/ side = -1 ->
  norm (vsub (cylinder_corner c (- side) level) (cylinder_corner c side level)) = 2 * cyl_radius c * Rabs (sin (cyl_opening c / 2)).
Proof.
  intros c side level (A & N & O & R0 & _) S.
  assert (T : norm (cross (cyl_axis c) (cyl_normal c)) = 1).
  { apply norm_unit_dot. unfold unit in *. rewrite <- gram, A, N, O. ring. }
  replace (vsub (cylinder_corner c (- side) level) (cylinder_corner c side level))
    with (smul (- side * (2 * cyl_radius c * sin (cyl_opening c / 2))) (cross (cyl_axis c) (cyl_normal c))).
  - rewrite norm_smul, T, Rmult_1_r, Rabs_mult, !Rabs_mult, (Rabs_right 2), (Rabs_right (cyl_radius c)) by lra.
    assert (E : Rabs (- side) = 1) by (destruct S; subst side; rewrite Rabs_Ropp; [rewrite Rabs_right|rewrite Rabs_left]; lra).
    rewrite E. ring.
  - unfold cylinder_corner. generalize (cross (cyl_axis c) (cyl_normal c)). intros t. vring.
Qed.

Lemma half_height : forall h a, 0 < h -> unit a -> norm (smul (- h) a) = h.
Proof. intros h a H U. rewrite norm_smul. apply norm_unit_dot in U. rewrite U, Rabs_Ropp, Rabs_right by lra. ring. Qed.

Lemma cylinder_read : forall c side, proper_cylinder c -> side = 1 \/ side = -1 ->
  cylinder_of_corners (cyl_radius c) (cyl_opening c) (cyl_normal c) (cylinder_corner c side 1) (cylinder_corner c side (-1))
    (cylinder_corner c (- side) 1) (cylinder_corner c (- side) (-1))
  = Some {| cyl_center := vadd (cyl_center c) (smul (cyl_radius c * (cos (cyl_opening c / 2) - Rabs (cos (cyl_opening c / 2)))) (cyl_normal c));
            cyl_axis := normalize (cross (cross (cyl_normal c) (vec 0 0 1)) (cyl_normal c)); cyl_normal := cyl_normal c;
            cyl_radius := cyl_radius c; cyl_height := cyl_height c; cyl_opening := cyl_opening c |}.
Proof.
  intros c side P S. unfold cylinder_of_corners. pose proof P as (A & N & O & R0 & H0 & _).
  rewrite !(distance_is _ (cyl_opening c / 2)) by (auto; apply chord_norm; auto).
  f_equal. f_equal.
  - unfold cylinder_corner. generalize (cross (cyl_axis c) (cyl_normal c)). intros t. apply point_eq; vunfold; field.
  - transitivity (norm (smul (- cyl_height c) (cyl_axis c))); [f_equal|apply half_height; auto].
    unfold cylinder_corner. generalize (cross (cyl_axis c) (cyl_normal c)). intros t. apply point_eq; vunfold; field.
Qed.

Lemma axis_read : forall a n, unit a -> unit n -> dot a n = 0 -> pu (cross a n) = 0 -> / 10 ^ 12 <= pu a ->
  normalize (cross (cross n (vec 0 0 1)) n) = a.
Proof.
  intros a n A N O T U.
  assert (E : cross (cross n (vec 0 0 1)) n = smul (pu a) a).
  { rewrite cross_cross. unfold unit in N. rewrite N.
    rewrite (orthonormal_expand a n (vec 0 0 1) A N O) at 1.
    replace (dot (vec 0 0 1) (cross a n)) with 0 by (transitivity (pu (cross a n)); [auto|vunfold; ring]).
    replace (dot (vec 0 0 1) a) with (pu a) by (vunfold; ring). generalize (cross a n). intros t. vring. }
  rewrite E. assert (P : 0 < / 10 ^ 12) by (apply Rinv_0_lt_compat; apply pow_lt; lra).
  assert (NA : norm (smul (pu a) a) = pu a).
  { rewrite norm_smul. apply norm_unit_dot in A. rewrite A, Rabs_right by lra. ring. }
  unfold normalize. rewrite normalize_eps_long by (rewrite NA; exact U). rewrite NA.
  apply point_eq; cbn [pe pn pu smul vec]; field; lra.
Qed.

Theorem cylinder_areas : forall c side, proper_cylinder c -> cyl_opening c <= PI -> pu (cross (cyl_axis c) (cyl_normal c)) = 0 ->
  / 10 ^ 12 <= pu (cyl_axis c) -> side = 1 \/ side = -1 ->
  cylinder_of_corners (cyl_radius c) (cyl_opening c) (cyl_normal c) (cylinder_corner c side 1) (cylinder_corner c side (-1))
    (cylinder_corner c (- side) 1) (cylinder_corner c (- side) (-1)) = Some c.
Proof.
  intros c side P W T U S. rewrite cylinder_read by auto. pose proof P as (A & N & O & R0 & H0 & W0).
  rewrite (axis_read (cyl_axis c)) by auto.
  assert (C : 0 <= cos (cyl_opening c / 2)) by (apply cos_ge_0; lra). rewrite (Rabs_right (cos _)) by lra.
  destruct c as [ce ax no ra he op]. cbn [cyl_center cyl_axis cyl_normal cyl_radius cyl_height cyl_opening]. f_equal. f_equal. vring.
Qed.

Theorem wide_cylinders : forall c side, proper_cylinder c -> PI < cyl_opening c < 2 * PI -> side = 1 \/ side = -1 ->
  exists c', cylinder_of_corners (cyl_radius c) (cyl_opening c) (cyl_normal c) (cylinder_corner c side 1) (cylinder_corner c side (-1))
      (cylinder_corner c (- side) 1) (cylinder_corner c (- side) (-1)) = Some c'
    /\ norm (vsub (cyl_center c') (cyl_center c)) = 2 * cyl_radius c * - cos (cyl_opening c / 2) /\ cos (cyl_opening c / 2) < 0.
Proof.
  intros c side P W S. rewrite cylinder_read by auto. eexists. split; [reflexivity|]. cbn [cyl_center].
  pose proof P as (A & N & O & R0 & H0 & W0).
  assert (C : cos (cyl_opening c / 2) < 0) by (apply cos_lt_0; lra). split; [|exact C]. rewrite (Rabs_left (cos _)) by exact C.
  set (k := cyl_radius c * (cos (cyl_opening c / 2) - - cos (cyl_opening c / 2))).
  replace (vsub (vadd (cyl_center c) (smul k (cyl_normal c))) (cyl_center c)) with (smul k (cyl_normal c)) by vring.
  apply norm_unit_dot in N. rewrite norm_smul, N, Rabs_left by (unfold k; nra). unfold k. ring.
Qed.

Theorem leaning_cylinders : forall c side, proper_cylinder c -> pu (cross (cyl_axis c) (cyl_normal c)) <> 0 -> side = 1 \/ side = -1 ->
  exists c', cylinder_of_corners (cyl_radius c) (cyl_opening c) (cyl_normal c) (cylinder_corner c side 1) (cylinder_corner c side (-1))
      (cylinder_corner c (- side) 1) (cylinder_corner c (- side) (-1)) = Some c' /\ cyl_axis c' <> cyl_axis c.
Proof.
  intros c side P T S. rewrite cylinder_read by auto. eexists. split; [reflexivity|]. cbn [cyl_axis]. intros E. apply T. rewrite <- E.
  unfold normalize, normalize_eps. set (k := / Rmax _ _). rewrite cross_cross. vunfold. ring.
Qed.

(** ** Planar areas *)

Lemma plane_width_of : forall center normal a b, let r := rectangle center a b in
  plane_of_corners center normal (r (-1) 1) (r (-1) (-1)) (r 1 1) (r 1 (-1)) =
  {| plane_center := center; plane_normal := normal; plane_width := 2 * Rabs (pe a); plane_height := 2 * Rabs (pu b) |}.
Proof.
  intros center normal a b r. unfold plane_of_corners, corner_points_to_plane. f_equal.
  - replace (pe (r 1 1) - pe (r (-1) 1)) with (2 * pe a) by (unfold r, rectangle; vunfold; ring).
    replace (pe (r 1 (-1)) - pe (r (-1) (-1))) with (2 * pe a) by (unfold r, rectangle; vunfold; ring).
    rewrite Rabs_mult, (Rabs_right 2) by lra. field.
  - replace (pu (r (-1) 1) - pu (r (-1) (-1))) with (2 * pu b) by (unfold r, rectangle; vunfold; ring).
    replace (pu (r 1 1) - pu (r 1 (-1))) with (2 * pu b) by (unfold r, rectangle; vunfold; ring).
    rewrite Rabs_mult, (Rabs_right 2) by lra. field.
Qed.

Lemma Rabs_scale : forall s x, x <> 0 -> (Rabs (s * x) <= Rabs x <-> Rabs s <= 1).
Proof.
  intros s x X. rewrite Rabs_mult. pose proof (Rabs_pos_lt x X) as P. split; intros H.
  - apply (Rmult_le_reg_r (Rabs x)); lra.
  - apply (Rmult_le_compat_r (Rabs x)) in H; lra.
Qed.

Theorem planar_areas : forall center normal a b s t, pu a = 0 -> pe b = 0 -> pe a <> 0 -> pu b <> 0 -> let r := rectangle center a b in
  within_area (plane_of_corners center normal (r (-1) 1) (r (-1) (-1)) (r 1 1) (r 1 (-1))) (r s t) <-> Rabs s <= 1 /\ Rabs t <= 1.
Proof.
  intros center normal a b s t A B NA NB r. unfold r. rewrite plane_width_of. unfold within_area. cbn [plane_center plane_width plane_height].
  replace (2 * Rabs (pe a) / 2) with (Rabs (pe a)) by field. replace (2 * Rabs (pu b) / 2) with (Rabs (pu b)) by field.
  replace (pe (rectangle center a b s t) - pe center) with (s * pe a) by (unfold rectangle; cbn [pe pn pu vadd smul vec]; rewrite B; ring).
  replace (pu (rectangle center a b s t) - pu center) with (t * pu b) by (unfold rectangle; cbn [pe pn pu vadd smul vec]; rewrite A; ring).
  rewrite !Rabs_scale by assumption. reflexivity.
Qed.

Theorem turned_areas : forall center normal a b, pe b <> 0 -> let r := rectangle center a b in
  exists s t, (s = 1 \/ s = -1) /\ (t = 1 \/ t = -1)
  /\ ~ within_area (plane_of_corners center normal (r (-1) 1) (r (-1) (-1)) (r 1 1) (r 1 (-1))) (r s t).
Proof.
  intros center normal a b B r. unfold r. rewrite plane_width_of. unfold within_area. cbn [plane_center plane_width plane_height].
  destruct (Rle_lt_dec 0 (pe a * pe b)) as [L|L].
  - exists 1, 1. repeat split; auto. intros [H _].
    replace (pe (rectangle center a b 1 1) - pe center) with (pe a + pe b) in H by (unfold rectangle; vunfold; ring).
    unfold Rabs in H. destruct (Rcase_abs (pe a)), (Rcase_abs (pe a + pe b)); nra.
  - exists 1, (-1). repeat split; auto. intros [H _].
    replace (pe (rectangle center a b 1 (-1)) - pe center) with (pe a - pe b) in H by (unfold rectangle; vunfold; ring).
    unfold Rabs in H. destruct (Rcase_abs (pe a)), (Rcase_abs (pe a - pe b)); nra.
Qed.

(** ** The tower file *)

Lemma need_some : forall A (o : option A), o <> None -> exists a, o = Some a /\ need o = Ok a.
Proof. intros A [a|] H; [exists a; auto|congruence]. Qed.

Lemma corners_read : forall ref prefix e,
  (forall n, In n ["upper_left"; "lower_left"; "upper_right"; "lower_right"]%string -> te_points e (prefix ++ n) <> None) ->
  exists x, local_corners ref prefix e = Ok x.
Proof.
  intros ref prefix e H. unfold local_corners.
  destruct (need_some _ _ (H "upper_left"%string ltac:(cbn; auto))) as (a1 & _ & ->).
  destruct (need_some _ _ (H "lower_left"%string ltac:(cbn; auto))) as (a2 & _ & ->).
  destruct (need_some _ _ (H "upper_right"%string ltac:(cbn; auto))) as (a3 & _ & ->).
  destruct (need_some _ _ (H "lower_right"%string ltac:(cbn; auto))) as (a4 & _ & ->). cbn [bind]. eexists; reflexivity.
Qed.

Lemma areas_read : forall ref entries, Forall (fun x => complete (fst x) (snd x)) entries ->
  exists planars cylindricals, read_areas ref entries = Ok (planars, cylindricals)
  /\ Forall2 (reads_planar ref) (filter (of_type "planar") entries) planars
  /\ Forall2 (reads_cylindrical ref) (filter (of_type "convex_cylinder") entries) cylindricals.
Proof.
  intros ref entries. induction 1 as [|[key e] entries C _ (ps & cs & E & FP & FC)].
  - exists [], []. repeat split; constructor.
  - cbn [fst snd] in C. destruct C as (N & C). destruct (need_some _ _ N) as (normal & EN & NN).
    destruct C as [(T & PT) | (T & RA & OP & PT)].
    + destruct (corners_read ref "" e) as [[[[ul ll] ur] lr] EC].
      { intros n I. apply PT. cbn in *. intuition. }
      destruct (need_some _ _ (PT "center"%string ltac:(cbn; auto 10))) as (ce & _ & CE).
      assert (PA : exists p, planar_area ref e = Ok p).
      { unfold planar_area. rewrite EC, CE, NN. cbn [bind]. eexists; reflexivity. }
      destruct PA as [p PA]. exists ((key, p) :: ps), cs. cbn [read_areas]. rewrite T. cbn [need bind]. rewrite !String.eqb_refl.
      change (String.eqb "planar" "convex_cylinder") with false. cbn match. rewrite PA. cbn [bind]. rewrite E. cbn [bind app].
      assert (O1 : of_type "planar" (key, e) = true) by (unfold of_type; cbn [snd]; rewrite T; reflexivity).
      assert (O2 : of_type "convex_cylinder" (key, e) = false) by (unfold of_type; cbn [snd]; rewrite T; reflexivity).
      cbn [filter]. rewrite O1, O2.
      repeat split; auto. constructor; auto. split; auto.
    + destruct (corners_read ref (if String.eqb key "receiver" then "receiver_inner_" else "") e PT) as [[[[ul ll] ur] lr] EC].
      destruct (need_some _ _ RA) as (ra & _ & RR). destruct (need_some _ _ OP) as (op & _ & OO).
      assert (PA : exists p, cylindrical_area ref key e = Ok p).
      { unfold cylindrical_area. rewrite EC, RR, OO, NN. cbn [bind]. eexists; reflexivity. }
      destruct PA as [p PA]. exists ps, ((key, p) :: cs). cbn [read_areas]. rewrite T. cbn [need bind]. rewrite !String.eqb_refl.
      change (String.eqb "convex_cylinder" "planar") with false. cbn match. cbn [bind]. rewrite PA. cbn [bind]. rewrite E. cbn [bind app].
      assert (O1 : of_type "planar" (key, e) = false) by (unfold of_type; cbn [snd]; rewrite T; reflexivity).
      assert (O2 : of_type "convex_cylinder" (key, e) = true) by (unfold of_type; cbn [snd]; rewrite T; reflexivity).
      cbn [filter]. rewrite O1, O2.
      repeat split; auto. constructor; auto. split; auto.
Qed.

Theorem tower_files : forall plant position entries, te_position plant = Some position ->
  Forall (fun x => complete (fst x) (snd x)) entries ->
  exists planars cylindricals, read_tower ((power_plant_key, plant) :: entries) = Ok (position, planars, cylindricals)
  /\ Forall2 (reads_planar position) (filter (of_type "planar") entries) planars
  /\ Forall2 (reads_cylindrical position) (filter (of_type "convex_cylinder") entries) cylindricals.
Proof.
  intros plant position entries P C. destruct (areas_read position entries C) as (ps & cs & E & FP & FC). exists ps, cs.
  unfold read_tower. cbn [entry_of]. rewrite String.eqb_refl. cbn [need bind]. rewrite P. cbn [need bind tl]. rewrite E. auto.
Qed.

Lemma areas_typed : forall ref entries x, read_areas ref entries = Ok x -> Forall (fun y => te_type (snd y) <> None) entries.
Proof.
  intros ref entries. induction entries as [|[key e] entries IH]; intros x H; [constructor|]. cbn [read_areas] in H.
  destruct (te_type e) as [t|] eqn:T; [|discriminate]. cbn [need bind] in H.
  constructor; [cbn [snd]; congruence|].
  destruct (if String.eqb t "planar" then _ else _) as [p|?]; [|discriminate]. cbn [bind] in H.
  destruct (if String.eqb t "convex_cylinder" then _ else _) as [c|?]; [|discriminate]. cbn [bind] in H.
  destruct (read_areas ref entries) as [y|?] eqn:E; [|discriminate]. apply (IH _ eq_refl).
Qed.

Theorem plant_not_first : forall first entries plant x, In (power_plant_key, plant) entries -> te_type plant = None ->
  read_tower (first :: entries) <> Ok x.
Proof.
  intros first entries plant x IN T H. unfold read_tower in H.
  destruct (entry_of _ _) as [p|]; [|discriminate]. cbn [need bind] in H. destruct (te_position p) as [pos|]; [|discriminate]. cbn [need bind tl] in H.
  destruct (read_areas pos entries) as [y|?] eqn:E; [|discriminate]. apply areas_typed in E. rewrite Forall_forall in E.
  apply (E _ IN). exact T.
Qed.

Lemma unknown_areas : forall ref key e t before after, te_type e = Some t -> t <> "planar"%string -> t <> "convex_cylinder"%string ->
  read_areas ref (before ++ (key, e) :: after) = read_areas ref (before ++ after).
Proof.
  intros ref key e t before after T P C. induction before as [|[k b] before IH].
  - cbn [app read_areas]. rewrite T. cbn [need bind]. apply String.eqb_neq in P. apply String.eqb_neq in C. rewrite P, C. cbn [bind].
    destruct (read_areas ref after) as [[ps cs]|?]; reflexivity.
  - cbn [app read_areas]. rewrite IH. reflexivity.
Qed.
Theorem unknown_types : forall plant key e t before after, te_type e = Some t -> t <> "planar"%string -> t <> "convex_cylinder"%string ->
  read_tower ((power_plant_key, plant) :: before ++ (key, e) :: after) = read_tower ((power_plant_key, plant) :: before ++ after).
Proof.
  intros. unfold read_tower. cbn [entry_of]. rewrite String.eqb_refl. cbn [need bind tl].
  destruct (te_position plant); cbn [need bind]; [|reflexivity]. rewrite (unknown_areas _ _ _ t); auto.
Qed.

(** ** Heliostat files *)

Lemma read_listed_seq : forall A (facets : list A) n start, (start + n <= List.length facets)%nat ->
  read_listed facets (seq start n) = Ok (firstn n (skipn start facets)).
Proof.
  intros A facets n. induction n as [|n IH]; intros start H; [reflexivity|]. cbn [seq read_listed].
  destruct (nth_error facets start) as [f|] eqn:E; [|apply nth_error_None in E; lia].
  rewrite IH by lia. cbn [bind]. f_equal. destruct (nth_error_split _ _ E) as (l1 & l2 & EQ & L). rewrite EQ, <- L.
  rewrite !skipn_app, skipn_all, Nat.sub_diag. rewrite (skipn_all2 l1) by lia. replace (S (List.length l1) - List.length l1)%nat with 1%nat by lia. reflexivity.
Qed.
Lemma read_listed_short : forall A (facets : list A) n start, (start <= List.length facets)%nat -> (List.length facets < start + n)%nat ->
  read_listed facets (seq start n) = Err IndexError.
Proof.
  intros A facets n. induction n as [|n IH]; intros start S H; [lia|]. cbn [seq read_listed].
  destruct (nth_error facets start) as [f|] eqn:E; [|reflexivity].
  assert (start < List.length facets)%nat by (apply nth_error_Some; congruence). rewrite IH by lia. reflexivity.
Qed.
Theorem facets_read : forall A (facets : list A) number,
  read_heliostat_facets number facets = if (number <=? List.length facets)%nat then Ok (firstn number facets) else Err IndexError.
Proof.
  intros A facets number. unfold read_heliostat_facets. destruct (Nat.leb_spec number (List.length facets)).
  - rewrite read_listed_seq by lia. reflexivity.
  - rewrite read_listed_short by lia. reflexivity.
Qed.

Theorem deflectometry_complete : forall A (points normals : list A), List.length normals = List.length points ->
  deflectometry_facet points normals = Ok (map Some points, map Some normals).
Proof.
  intros A points normals E. unfold deflectometry_facet, assign_rows. rewrite E, Nat.leb_refl, Nat.sub_diag. cbn [bind repeat].
  rewrite !app_nil_r. reflexivity.
Qed.
Theorem deflectometry_unset : forall A (points normals : list A), (List.length normals < List.length points)%nat ->
  exists rows, deflectometry_facet points normals = Ok (map Some points, rows) /\ In None rows.
Proof.
  intros A points normals L. unfold deflectometry_facet, assign_rows. rewrite Nat.leb_refl, Nat.sub_diag. cbn [bind repeat].
  rewrite app_nil_r. apply Nat.lt_le_incl in L as L'. apply Nat.leb_le in L'. rewrite L'. cbn [bind]. eexists. split; [reflexivity|].
  apply in_or_app. right. destruct (List.length points - List.length normals)%nat as [|k] eqn:K; [lia|]. left. reflexivity.
Qed.
Theorem deflectometry_excess : forall A (points normals : list A), (List.length points < List.length normals)%nat ->
  deflectometry_facet points normals = Err IndexError.
Proof.
  intros A points normals L. unfold deflectometry_facet, assign_rows. rewrite Nat.leb_refl. cbn [bind].
  destruct (Nat.leb_spec (List.length normals) (List.length points)); [lia|reflexivity].
Qed.

(** ** Lists of heliostats *)

Lemma forall2_right : forall A B (Q : A -> B -> Prop) l l' y, Forall2 Q l l' -> In y l' -> exists x, In x l /\ Q x y.
Proof.
  intros A B Q l l' y. induction 1 as [|a b l l' H _ IH]; intros I; [destruct I|]. destruct I as [<-|I].
  - exists a. split; [left; reflexivity|exact H].
  - destruct (IH I) as (x & IX & QX). exists x. split; [right; exact IX|exact QX].
Qed.

Section Heliostats.
Context {F P S : Type} (properties : F -> res P) (ideal : P -> res S) (fitted : P -> F -> res S).

Lemma process_all_ids : forall (surface : heliostat_path F -> P -> res S) paths index hs, process_all properties surface index paths = Ok hs ->
  map he_id hs = seq index (List.length paths).
Proof.
  intros surface paths. induction paths as [|p paths IH]; intros index hs H; cbn [process_all] in H.
  - injection H as <-. reflexivity.
  - destruct (process_heliostat properties surface index p) as [h|?] eqn:E; [|discriminate]. cbn [bind] in H.
    destruct (process_all properties surface (Datatypes.S index) paths) as [hs'|?] eqn:E2; [|discriminate]. injection H as <-.
    cbn [map List.length seq]. rewrite (IH _ _ E2). f_equal. unfold process_heliostat in E.
    destruct (properties _) as [q|?]; [|discriminate]. cbn [bind] in E. destruct (surface p q); [|discriminate]. injection E as <-. reflexivity.
Qed.
Lemma process_all_built : forall surface paths index hs,
  (forall path p, In path paths -> surface path p = match snd path with Some d => fitted p d | None => ideal p end) ->
  process_all properties surface index paths = Ok hs -> Forall2 (built_from properties ideal fitted) paths hs.
Proof.
  intros surface paths. induction paths as [|p paths IH]; intros index hs SURF H; cbn [process_all] in H.
  - injection H as <-. constructor.
  - destruct (process_heliostat properties surface index p) as [h|?] eqn:E; [|discriminate]. cbn [bind] in H.
    destruct (process_all properties surface (Datatypes.S index) paths) as [hs'|?] eqn:E2; [|discriminate]. injection H as <-.
    constructor; [|apply (IH (Datatypes.S index)); auto; intros; apply SURF; right; auto].
    unfold process_heliostat in E. destruct p as [[name file] d]. cbn [fst snd] in E.
    destruct (properties file) as [p|?] eqn:EP; [|discriminate]. cbn [bind] in E. rewrite SURF in E by (left; reflexivity). cbn [snd] in E.
    destruct (match d with Some d0 => fitted p d0 | None => ideal p end) as [s|?] eqn:ES; [|discriminate]. injection E as <-.
    unfold built_from. cbn [he_name he_properties he_surface]. auto.
Qed.

Lemma filter_split : forall A (f : A -> bool) l, Permutation l (filter (fun x => negb (f x)) l ++ filter f l).
Proof.
  intros A f l. induction l as [|x l IH]; [constructor|]. cbn [filter]. destruct (f x); cbn [negb app].
  - apply Permutation_cons_app. exact IH.
  - constructor. exact IH.
Qed.

Lemma process_paths_inv : forall (surface : heliostat_path F -> P -> res S) paths hs proto, process_paths properties surface paths = Ok (hs, proto) ->
  process_all properties surface 0 paths = Ok hs /\ exists h, In h hs /\ proto = (he_properties h, he_surface h).
Proof.
  intros surface paths hs proto H. unfold process_paths in H.
  destruct (process_all properties surface 0 paths) as [l|?]; [|discriminate]. cbn [bind] in H.
  destruct (rev l) as [|h r] eqn:R; [discriminate|]. injection H as <- <-. split; auto. exists h. split; auto.
  apply in_rev. rewrite R. left. reflexivity.
Qed.

Theorem mixed_built : forall paths hs proto, mixed_heliostats properties ideal fitted paths = Ok (hs, proto) ->
  exists order, Permutation order paths /\ Forall2 (built_from properties ideal fitted) order hs
  /\ ideal (fst proto) = Ok (snd proto).
Proof.
  intros paths hs proto H. unfold mixed_heliostats in H.
  destruct (ideal_heliostats properties ideal _) as [[is pr]|?] eqn:EI; [|discriminate]. cbn [bind] in H.
  destruct (fitted_heliostats properties fitted _) as [[fs pr']|?] eqn:EF; [|discriminate]. injection H as <- <-.
  unfold ideal_heliostats, fitted_heliostats in EI, EF. apply process_paths_inv in EI. destruct EI as (EI & h & IN & PR).
  apply process_paths_inv in EF. destruct EF as (EF & _).
  apply process_all_built in EI.
  2:{ intros path p I. apply filter_In in I. destruct I as [_ I]. unfold ideal_generator, has_deflectometry in *. destruct (snd path); [discriminate|reflexivity]. }
  apply process_all_built in EF.
  2:{ intros path p I. apply filter_In in I. destruct I as [_ I]. unfold fitted_generator, has_deflectometry in *. destruct (snd path); [reflexivity|discriminate]. }
  exists (filter (fun x => negb (has_deflectometry x)) paths ++ filter has_deflectometry paths)%list.
  split; [apply Permutation_sym, filter_split|]. split; [apply Forall2_app; auto|].
  subst pr. cbn [fst snd]. destruct (forall2_right _ _ _ _ _ _ EI IN) as (path & IP & B).
  apply filter_In in IP. destruct IP as [_ IP]. destruct path as [[name file] [d|]]; [discriminate|]. apply B.
Qed.

Lemma process_all_ok : forall (surface : heliostat_path F -> P -> res S) paths index,
  (forall path, In path paths -> exists p s, properties (snd (fst path)) = Ok p /\ surface path p = Ok s) ->
  exists hs, process_all properties surface index paths = Ok hs.
Proof.
  intros surface paths. induction paths as [|p paths IH]; intros index H; [exists []; reflexivity|]. cbn [process_all].
  destruct (H p (or_introl eq_refl)) as (q & s & E1 & E2). unfold process_heliostat. rewrite E1. cbn [bind]. rewrite E2. cbn [bind].
  destruct (IH (Datatypes.S index)) as [hs E]; [intros; apply H; right; auto|]. rewrite E. cbn [bind]. eexists; reflexivity.
Qed.
Lemma process_paths_ok : forall (surface : heliostat_path F -> P -> res S) paths, paths <> [] ->
  (forall path, In path paths -> exists p s, properties (snd (fst path)) = Ok p /\ surface path p = Ok s) ->
  exists hs proto, process_paths properties surface paths = Ok (hs, proto).
Proof.
  intros surface paths NE H. destruct (process_all_ok surface paths 0 H) as [hs E]. unfold process_paths. rewrite E. cbn [bind].
  destruct (rev hs) as [|h r] eqn:R; [|eexists; eexists; reflexivity].
  exfalso. apply process_all_ids in E. assert (hs = []) by (rewrite <- (rev_involutive hs), R; reflexivity). subst hs.
  destruct paths; [congruence|discriminate].
Qed.
Lemma process_paths_empty : forall surface, process_paths properties surface [] = Err (A := list (heliostat_entry P S) * (P * S)) UnboundLocalError.
Proof. reflexivity. Qed.

Theorem mixed_succeeds : forall paths, (exists p, In p paths /\ snd p = None) -> (exists p d, In p paths /\ snd p = Some d) ->
  (forall name file d, In (name, file, d) paths -> exists p s, properties file = Ok p /\ match d with Some d' => fitted p d' | None => ideal p end = Ok s) ->
  exists hs proto, mixed_heliostats properties ideal fitted paths = Ok (hs, proto).
Proof.
  intros paths (pi & II & NI) (pf & df & IF & NF) H. unfold mixed_heliostats, ideal_heliostats, fitted_heliostats.
  destruct (process_paths_ok (ideal_generator ideal) (filter (fun p => negb (has_deflectometry p)) paths)) as (is & pr & E).
  { intros E. assert (I : In pi []) by (rewrite <- E; apply filter_In; split; [exact II|unfold has_deflectometry; rewrite NI; reflexivity]). destruct I. }
  { intros [[name file] d] I. apply filter_In in I. destruct I as [I D]. unfold has_deflectometry in D. cbn [snd] in D. destruct d; [discriminate|].
    destruct (H _ _ _ I) as (p & s & E1 & E2). exists p, s. auto. }
  destruct (process_paths_ok (fitted_generator fitted) (filter has_deflectometry paths)) as (fs & pr' & E').
  { intros E'. assert (I : In pf []) by (rewrite <- E'; apply filter_In; split; [exact IF|unfold has_deflectometry; rewrite NF; reflexivity]). destruct I. }
  { intros [[name file] d] I. apply filter_In in I. destruct I as [I D]. unfold has_deflectometry in D. cbn [snd] in D. destruct d; [|discriminate].
    destruct (H _ _ _ I) as (p & s & E1 & E2). exists p, s. unfold fitted_generator. cbn [fst snd]. auto. }
  rewrite E. cbn [bind]. rewrite E'. cbn [bind]. eexists; eexists; reflexivity.
Qed.

Lemma filter_none : forall A (f : A -> bool) l, (forall x, In x l -> f x = false) -> filter f l = [].
Proof.
  intros A f l. induction l as [|x l IH]; intros H; [reflexivity|]. cbn [filter]. rewrite H by (left; reflexivity). apply IH.
  intros y I. apply H. right. exact I.
Qed.
Theorem mixed_one_kind : forall paths x, (forall p, In p paths -> snd p = None) \/ (forall p, In p paths -> snd p <> None) ->
  mixed_heliostats properties ideal fitted paths <> Ok x.
Proof.
  intros paths x [H|H] E; unfold mixed_heliostats, ideal_heliostats, fitted_heliostats in E.
  - destruct (process_paths properties (ideal_generator ideal) _) as [[is pr]|?]; [|discriminate]. cbn [bind] in E.
    rewrite (filter_none _ has_deflectometry) in E; [discriminate|]. intros p I. unfold has_deflectometry. rewrite (H p I). reflexivity.
  - rewrite (filter_none _ (fun p => negb (has_deflectometry p))) in E; [discriminate|]. intros p I. unfold has_deflectometry.
    destruct (snd p) eqn:D; [reflexivity|]. exfalso. apply (H p I D).
Qed.
Theorem mixed_ids : forall paths hs proto, mixed_heliostats properties ideal fitted paths = Ok (hs, proto) -> ~ NoDup (map he_id hs).
Proof.
  intros paths hs proto H N. unfold mixed_heliostats, ideal_heliostats, fitted_heliostats in H.
  destruct (process_paths properties (ideal_generator ideal) _) as [[is pr]|?] eqn:EI; [|discriminate]. cbn [bind] in H.
  destruct (process_paths properties (fitted_generator fitted) _) as [[fs pr']|?] eqn:EF; [|discriminate]. injection H as <- <-.
  apply process_paths_inv in EI, EF. destruct EI as (EI & hi & II & _). destruct EF as (EF & hf & IF & _).
  apply process_all_ids in EI, EF. rewrite map_app, EI, EF in N.
  destruct (filter (fun p => negb (has_deflectometry p)) paths) as [|a l].
  { cbn in EI. destruct is; [destruct II|discriminate]. }
  destruct (filter has_deflectometry paths) as [|b k].
  { cbn in EF. destruct fs; [destruct IF|discriminate]. }
  cbn [List.length seq app] in N. inversion N as [|? ? NI _]. apply NI. apply in_or_app. right. left. reflexivity.
Qed.

(** Lists of one kind. *)
Theorem one_kind_built : forall paths hs proto,
  ((forall p, In p paths -> snd p = None) /\ ideal_heliostats properties ideal paths = Ok (hs, proto))
  \/ ((forall p, In p paths -> snd p <> None) /\ fitted_heliostats properties fitted paths = Ok (hs, proto)) ->
  Forall2 (built_from properties ideal fitted) paths hs /\ map he_id hs = seq 0 (List.length paths).
Proof.
  intros paths hs proto [[H E]|[H E]]; unfold ideal_heliostats, fitted_heliostats in E; apply process_paths_inv in E; destruct E as [E _];
    (split; [|eapply process_all_ids; exact E]); eapply process_all_built; try exact E; intros path p I; specialize (H path I).
  - rewrite H. reflexivity.
  - unfold fitted_generator. destruct (snd path); [reflexivity|congruence].
Qed.
End Heliostats.

Lemma map_res_seq : forall A (f : nat -> res A) n start, (forall i, (start <= i < start + n)%nat -> exists a, f i = Ok a) ->
  exists l, map_res f (seq start n) = Ok l /\ List.length l = n /\ forall i a, (i < n)%nat -> f (start + i)%nat = Ok a -> nth_error l i = Some a.
Proof.
  intros A f n. induction n as [|n IH]; intros start H.
  - exists []. repeat split. intros i a L. lia.
  - cbn [seq map_res]. destruct (H start ltac:(lia)) as [a E]. rewrite E. cbn [bind].
    destruct (IH (Datatypes.S start)) as (l & EL & LL & NL); [intros i I; apply H; lia|]. rewrite EL. cbn [bind]. exists (a :: l).
    split; [reflexivity|]. split; [cbn; lia|]. intros [|i] b L EB.
    + rewrite Nat.add_0_r in EB. rewrite E in EB. injection EB as <-. reflexivity.
    + cbn [nth_error]. apply NL; [lia|]. replace (Datatypes.S start + i)%nat with (start + Datatypes.S i)%nat by lia. exact EB.
Qed.
Theorem deflectometry_file : forall A n (file : nat -> option (list A * list A)),
  (forall f, (f < n)%nat -> exists points normals, file f = Some (points, normals) /\ List.length normals = List.length points) ->
  exists out, read_deflectometry n file = Ok out /\ List.length out = n
  /\ forall f points normals, (f < n)%nat -> file f = Some (points, normals) -> nth_error out f = Some (map Some points, map Some normals).
Proof.
  intros A n file H. unfold read_deflectometry.
  destruct (map_res_seq _ (fun f => bind (need (file f)) (fun '(points, normals) => deflectometry_facet points normals)) n 0) as (l & E & L & N).
  { intros i I. destruct (H i ltac:(lia)) as (ps & ns & -> & LE). cbn [need bind]. rewrite deflectometry_complete by exact LE. eexists; reflexivity. }
  exists l. split; [exact E|]. split; [exact L|]. intros f ps ns F EF. apply N; [exact F|]. cbn [Nat.add]. rewrite EF. cbn [need bind].
  apply deflectometry_complete. destruct (H f F) as (ps' & ns' & E' & L'). congruence.
Qed.
