(** Proofs about coordinate conversions (C54-C57, C78). *)
From Coq Require Import List Arith Reals Bool ZArith Lra Lia.
From Verif Require Import RealSums ModelField ModelVectors ProofsVectors ModelTransforms ModelLBVH ModelSplatting SpecSplatting ModelIntersections SpecIntersections
  ModelActuators ModelBitmap ModelCoordinates SpecLosses SpecCoordinates ProofsMorton ProofsIntersections ProofsCylinder ProofsBitmap.
Import ListNotations.
Local Open Scope R_scope.

(** ** Homogeneous coordinates *)
Theorem append_all : forall value size vectors,
  (size = 3%nat -> (forall v, In v vectors -> length v = 3%nat) ->
   exists out, append_component value size vectors = Ok out /\ length out = length vectors
   /\ forall i, (i < length vectors)%nat -> forall e n u, nth_error vectors i = Some [e; n; u] -> nth_error out i = Some [e; n; u; value])
  /\ (size <> 3%nat -> append_component value size vectors = Err ValueError).
Proof.
  intros value size vectors. unfold append_component. split.
  - intros -> _. cbn [Nat.eqb]. eexists. split; [reflexivity|]. rewrite map_length. split; auto. intros i _ e n u E. rewrite nth_error_map, E. reflexivity.
  - intros N. destruct (Nat.eqb_spec size 3); [contradiction|auto].
Qed.

(** ** Normalization *)

Theorem normalize_all : forall column, column <> [] ->
  exists out, normalize_column column = Ok out /\ length out = length column
  /\ (forall x, In x out -> 0 < x < 1)
  /\ forall i j, (i < length column)%nat -> (j < length column)%nat -> (nth i out 0 < nth j out 0 <-> nth i column 0 < nth j column 0).
Proof.
  intros column NE. unfold normalize_column. destruct column as [|x0 rest] eqn:EC; [contradiction|]. rewrite <- EC in *. clear x0 rest EC.
  eexists. split; [reflexivity|]. rewrite !map_length. split; auto.
  set (low := Rmin_list column). set (range := map (fun x => x - low) column). set (high := Rmax_list (map (fun x => x + 2 * / 10 ^ 5) range)).
  assert (LO : forall x, In x column -> low <= x) by (intros; apply Rmin_list_le; auto).
  assert (HI : forall x, In x column -> x - low + 2 * / 10 ^ 5 <= high).
  { intros x X. apply Rmax_list_ge. unfold range. rewrite map_map. apply in_map_iff. exists x. auto. }
  assert (HP : 0 < high).
  { destruct column as [|x rest]; [contradiction|]. pose proof (LO x ltac:(cbn; auto)). pose proof (HI x ltac:(cbn; auto)). lra. }
  pose proof (Rinv_0_lt_compat _ HP) as HV. split.
  - intros y Y. apply in_map_iff in Y. destruct Y as (r & <- & Y). apply in_map_iff in Y. destruct Y as (x & <- & X).
    specialize (LO x X). specialize (HI x X). split; [apply Rmult_lt_0_compat; lra|].
    apply (Rmult_lt_reg_r high); auto. unfold Rdiv. rewrite Rmult_assoc, Rinv_l by lra. lra.
  - intros i j I J.
    assert (V : forall k, (k < length column)%nat -> nth k (map (fun x => (x + / 10 ^ 5) / high) range) 0 = (nth k column 0 - low + / 10 ^ 5) / high).
    { intros k K. unfold range. rewrite map_map. rewrite (nth_indep _ 0 ((fun x => (x - low + / 10 ^ 5) / high) 0)) by (rewrite map_length; auto).
      rewrite (map_nth (fun x => (x - low + / 10 ^ 5) / high)). auto. }
    rewrite !V by auto. split.
    + intros L. unfold Rdiv in L. apply Rmult_lt_reg_r in L; auto. lra.
    + intros L. apply Rmult_lt_compat_r; auto. lra.
Qed.

(** ** Sun angles *)
Lemma remainder_trig : forall x, sin (remainder x (2 * PI)) = sin x /\ cos (remainder x (2 * PI)) = cos x.
Proof.
  intros x. unfold remainder. set (z := Int_part (x / (2 * PI))).
  assert (G : forall (n : Z) (x : R), sin (x + 2 * IZR n * PI) = sin x /\ cos (x + 2 * IZR n * PI) = cos x).
  { clear. assert (G0 : forall (k : nat) (x : R), sin (x + 2 * IZR (Z.of_nat k) * PI) = sin x /\ cos (x + 2 * IZR (Z.of_nat k) * PI) = cos x).
    { intros k x. rewrite <- INR_IZR_INZ. split; [apply sin_period|apply cos_period]. }
    intros n x. destruct (Z_le_gt_dec 0 n) as [P|P].
    - rewrite <- (Z2Nat.id n) by auto. apply G0.
    - assert (E : n = (- Z.of_nat (Z.to_nat (- n)))%Z) by lia. set (k := Z.to_nat (- n)) in *. rewrite E, opp_IZR.
      destruct (G0 k (x + 2 * - IZR (Z.of_nat k) * PI)) as (S1 & C1). rewrite <- S1, <- C1.
      replace (x + 2 * - IZR (Z.of_nat k) * PI + 2 * IZR (Z.of_nat k) * PI) with x by ring. auto. }
  destruct (G (- z)%Z x) as (S1 & C1). rewrite opp_IZR in S1, C1. replace (x - 2 * PI * IZR z) with (x + 2 * - IZR z * PI) by ring. auto.
Qed.
Theorem enu_value : forall r (degree : bool) a e,
  let angle (x : R) := if degree then x * PI / 180 else x in
  azimuth_elevation_to_enu r degree a e = vec (r * cos (angle e) * sin (angle a)) (- (r * cos (angle e) * cos (angle a))) (r * sin (angle e)).
Proof.
  intros r degree a e angle. unfold azimuth_elevation_to_enu, deg2rad. destruct (remainder_trig (angle a)) as (S1 & C1). unfold angle in *.
  destruct degree; rewrite S1, C1; apply point_eq; cbn [vec pe pn pu]; ring.
Qed.
Theorem enu_length : forall r degree a e, 0 <= r -> norm (azimuth_elevation_to_enu r degree a e) = r.
Proof.
  intros r degree a e P. rewrite enu_value. cbn zeta. set (x := if degree then a * PI / 180 else a). set (y := if degree then e * PI / 180 else e).
  unfold norm. transitivity (sqrt (r * r)); [|apply sqrt_square; auto]. f_equal. vunfold.
  pose proof (sin2_cos2 x) as P1. pose proof (sin2_cos2 y) as P2. unfold Rsqr in *.
  replace (r * cos y * sin x * (r * cos y * sin x) + - (r * cos y * cos x) * - (r * cos y * cos x) + r * sin y * (r * sin y))
    with (r * r * (cos y * cos y * (sin x * sin x + cos x * cos x) + sin y * sin y)) by ring.
  rewrite P1. replace (cos y * cos y * 1 + sin y * sin y) with (sin y * sin y + cos y * cos y) by ring. rewrite P2. ring.
Qed.
Theorem enu_period : forall r a e (n : Z), azimuth_elevation_to_enu r true (a + 360 * IZR n) e = azimuth_elevation_to_enu r true a e.
Proof.
  intros r a e n. rewrite !enu_value. cbn zeta.
  assert (G : remainder (a * PI / 180) (2 * PI) = remainder ((a + 360 * IZR n) * PI / 180) (2 * PI)).
  { unfold remainder. pose proof PI_RGT_0. set (q := a * PI / 180 / (2 * PI)). replace ((a + 360 * IZR n) * PI / 180 / (2 * PI)) with (q + IZR n) by (unfold q; field; lra).
    assert (F : Int_part (q + IZR n) = (Int_part q + n)%Z).
    { destruct (base_Int_part q) as (B1 & B2). destruct (base_Int_part (q + IZR n)) as (B3 & B4). set (z := Int_part (q + IZR n)) in *. set (z0 := Int_part q) in *.
      assert (IZR z < IZR (z0 + n + 1)) by (rewrite !plus_IZR; lra). assert (IZR (z0 + n) < IZR (z + 1)) by (rewrite !plus_IZR; lra).
      apply lt_IZR in H0. apply lt_IZR in H1. lia. }
    rewrite F, plus_IZR. field. }
  destruct (remainder_trig (a * PI / 180)) as (S1 & C1). destruct (remainder_trig ((a + 360 * IZR n) * PI / 180)) as (S2 & C2).
  rewrite <- S2, <- C2, <- G, S1, C1. auto.
Qed.
Theorem enu_lists : forall r degree azimuths elevations,
  (length azimuths = length elevations -> exists out, azimuths_elevations_to_enu r degree azimuths elevations = Ok out /\ length out = length azimuths
     /\ forall i a e, nth_error azimuths i = Some a -> nth_error elevations i = Some e -> nth_error out i = Some (azimuth_elevation_to_enu r degree a e))
  /\ (length azimuths <> length elevations -> azimuths_elevations_to_enu r degree azimuths elevations = Err ValueError).
Proof.
  intros r degree azimuths elevations. unfold azimuths_elevations_to_enu. split.
  - intros L. rewrite L, Nat.eqb_refl. eexists. split; [reflexivity|]. rewrite map_length, combine_length, <- L, Nat.min_id. split; auto.
    clear L. revert elevations. induction azimuths as [|x l IH]; intros [|y m] [|i] a e A E; try discriminate; cbn [nth_error combine map] in *.
    + injection A as <-. injection E as <-. auto.
    + apply IH; auto.
  - intros N. destruct (Nat.eqb_spec (length azimuths) (length elevations)); [contradiction|auto].
Qed.

(** ** Bitmap coordinates and target coordinates *)
Lemma INR_pos2 : forall n, (2 <= n)%nat -> 2 <= INR n. Proof. intros n N. apply (le_INR 2) in N. exact N. Qed.
Theorem planar_round_trip : forall width height p o d m t, (2 <= width)%nat -> (2 <= height)%nat -> sized p -> hits_area p o d t ->
  let r := line_plane width height p o d m in let q := along o d t in let c := plane_center p in
  position (planar_target_coordinates width height p (pixel_column r) (pixel_row height r))
  = vec (pe c + (1 - / INR width) * (pe q - pe c)) (pn c) (pu c + (1 - / INR height) * (pu q - pu c)).
Proof.
  intros width height p o d m t W H S0 HA r q c. unfold r. rewrite (plane_hit width height p W H S0 o d m t HA). fold q. fold c.
  apply INR_pos2 in W. apply INR_pos2 in H. destruct S0 as (S1 & S2).
  unfold position, planar_target_coordinates, pixel_column, pixel_row. fold c. cbn [i_e i_u]. apply point_eq; cbn [vadd smul vec pe pn pu hv he hn hu]; field; lra.
Qed.
Lemma shrink_error : forall n w x, 2 <= n -> 0 < w -> Rabs x <= w / 2 -> Rabs ((1 - / n) * x - x) <= w / (2 * n).
Proof.
  intros n w x N W X. replace ((1 - / n) * x - x) with (- (/ n * x)) by ring. rewrite Rabs_Ropp, Rabs_mult.
  assert (P : 0 < / n) by (apply Rinv_0_lt_compat; lra). rewrite (Rabs_right (/ n)) by lra.
  replace (w / (2 * n)) with (/ n * (w / 2)) by (field; lra). apply Rmult_le_compat_l; lra.
Qed.
Theorem planar_half_pixel : forall width height p o d m t, (2 <= width)%nat -> (2 <= height)%nat -> sized p -> faces_north_or_south p -> hits_area p o d t ->
  let r := line_plane width height p o d m in let q := along o d t in
  let x := position (planar_target_coordinates width height p (pixel_column r) (pixel_row height r)) in
  Rabs (pe x - pe q) <= plane_width p / (2 * INR width) /\ pn x = pn q /\ Rabs (pu x - pu q) <= plane_height p / (2 * INR height)
  /\ (x = q <-> pe q = pe (plane_center p) /\ pu q = pu (plane_center p)).
Proof.
  intros width height p o d m t W H S0 F HA r q x. unfold x, r. rewrite (planar_round_trip width height p o d m t W H S0 HA). fold q.
  destruct HA as (HD & ON & WI1 & WI2). fold q in ON, WI1, WI2. destruct S0 as (S1 & S2). destruct F as (F1 & F2 & F3).
  apply INR_pos2 in W. apply INR_pos2 in H.
  assert (NQ : pn q = pn (plane_center p)).
  { unfold on_plane in ON. vunfold. rewrite F1, F2 in ON. assert (Z : (pn q - pn (plane_center p)) * pn (plane_normal p) = 0) by lra.
    apply Rmult_integral in Z. destruct Z; [lra|contradiction]. }
  cbn [vec pe pn pu]. split; [|split; [auto|split]].
  - replace (pe (plane_center p) + (1 - / INR width) * (pe q - pe (plane_center p)) - pe q)
      with ((1 - / INR width) * (pe q - pe (plane_center p)) - (pe q - pe (plane_center p))) by ring. apply shrink_error; auto.
  - replace (pu (plane_center p) + (1 - / INR height) * (pu q - pu (plane_center p)) - pu q)
      with ((1 - / INR height) * (pu q - pu (plane_center p)) - (pu q - pu (plane_center p))) by ring. apply shrink_error; auto.
  - assert (P1 : 0 < / INR width) by (apply Rinv_0_lt_compat; lra). assert (P2 : 0 < / INR height) by (apply Rinv_0_lt_compat; lra). split.
    + intros E. apply (f_equal pe) in E as E1. apply (f_equal pu) in E as E2. cbn [vec pe pu] in E1, E2.
      assert (Z1 : / INR width * (pe q - pe (plane_center p)) = 0) by lra. assert (Z2 : / INR height * (pu q - pu (plane_center p)) = 0) by lra.
      apply Rmult_integral in Z1. apply Rmult_integral in Z2. split; [destruct Z1; lra|destruct Z2; lra].
    + intros (E1 & E2). apply point_eq; cbn [vec pe pn pu]; rewrite ?E1, ?E2; try (symmetry; auto); ring.
Qed.
(** On a slanted area the northward coordinate is lost as well. *)
Theorem planar_slanted : forall width height p o d m t, (2 <= width)%nat -> (2 <= height)%nat -> sized p -> hits_area p o d t ->
  let r := line_plane width height p o d m in let q := along o d t in
  let x := position (planar_target_coordinates width height p (pixel_column r) (pixel_row height r)) in
  (pn x - pn q) * pn (plane_normal p)
  = (pe q - pe (plane_center p)) * pe (plane_normal p) + (pu q - pu (plane_center p)) * pu (plane_normal p).
Proof.
  intros width height p o d m t W H SZ HA r q x. unfold x, r. rewrite (planar_round_trip _ _ _ _ _ _ t) by auto. destruct HA as (_ & O1 & _). revert O1. unfold on_plane.
  fold q. change (dot (vsub q (plane_center p)) (plane_normal p)) with
    ((pe q - pe (plane_center p)) * pe (plane_normal p) + (pn q - pn (plane_center p)) * pn (plane_normal p) + (pu q - pu (plane_center p)) * pu (plane_normal p)).
  cbn [vec pe pn pu]. intros O1. lra.
Qed.
Lemma slanted_case : let p := {| plane_center := vec 0 0 50; plane_normal := vec 0 (4/5) (-3/5); plane_width := 8; plane_height := 10 |} in
  sized p /\ unit (plane_normal p) /\ hits_area p (vec 0 13 54) (vec 0 (-1) 0) 10
  /\ forall width height m, (2 <= width)%nat -> (2 <= height)%nat ->
     let r := line_plane width height p (vec 0 13 54) (vec 0 (-1) 0) m in
     Rabs (pn (position (planar_target_coordinates width height p (pixel_column r) (pixel_row height r))) - pn (along (vec 0 13 54) (vec 0 (-1) 0) 10)) = 3.
Proof.
  intros p. assert (SZ : sized p) by (split; cbn; lra). split; auto. split; [unfold unit, p; cbn [plane_normal]; vunfold; lra|].
  assert (HA : hits_area p (vec 0 13 54) (vec 0 (-1) 0) 10).
  { unfold p, hits_area, on_plane, within_area, along. cbn [plane_center plane_normal plane_width plane_height]. vunfold.
    split; [lra|]. split; [lra|]. split; apply Rabs_le; lra. }
  split; auto. intros width height m W H r. assert (E := planar_slanted width height p _ _ m 10 W H SZ HA). cbv zeta in E. fold r in E.
  unfold along, p in E. cbn [plane_center plane_normal] in E. unfold along. set (x := pn (position _)) in *. clearbody x.
  cbn [vadd smul vec pe pn pu] in E |- *. rewrite Rabs_left; lra.
Qed.
Theorem cylindrical_round_trip : forall width height c delta z, (1 <= width)%nat -> (1 <= height)%nat -> proper_cylinder c ->
  let column := (1/2 + delta / cyl_opening c) * (INR width - 1) in
  let row := INR height - 1 - (1/2 + z / cyl_height c) * (INR height - 1) in
  let delta' := (1 - / INR width) * delta in
  position (cylindrical_target_coordinates width height c column row)
  = vadd (vadd (cyl_center c) (smul ((1 - / INR height) * z) (cyl_axis c)))
         (smul (cyl_radius c) (vadd (smul (cos delta') (cyl_normal c)) (smul (sin delta') (cross (cyl_axis c) (cyl_normal c))))).
Proof.
  intros width height c delta z W H (_ & _ & _ & _ & CH & CO) column row delta'. apply (le_INR 1) in W. apply (le_INR 1) in H. cbn [INR] in W, H.
  unfold position, cylindrical_target_coordinates.
  replace (((column + / 2) / INR width - / 2) * cyl_opening c) with delta' by (unfold column, delta'; field; lra).
  replace ((/ 2 - (row + / 2) / INR height) * cyl_height c) with ((1 - / INR height) * z) by (unfold row; field; lra).
  apply point_eq; cbn [vadd smul vec pe pn pu hv he hn hu]; ring.
Qed.
Theorem cylinder_pixels : forall width height c o d m t, proper_cylinder c -> cyl_opening c <= PI -> (1 <= width)%nat -> (1 <= height)%nat ->
  unit d -> 0 <= m -> pe (cyl_normal c) = 0 -> 0 < pn (cyl_normal c) -> cylinder_distance c o d = Some t ->
  let r := line_cylinder width height c o d m in let q := along o d t in let z := dot (vsub q (cyl_center c)) (cyl_axis c) in
  forall delta, at_angle c q delta -> Rabs delta <= cyl_opening c / 2 -> Rabs z <= cyl_height c / 2 ->
  let delta' := (1 - / INR width) * delta in
  position (cylindrical_target_coordinates width height c (pixel_column r) (pixel_row height r))
  = vadd (vadd (cyl_center c) (smul ((1 - / INR height) * z) (cyl_axis c)))
         (smul (cyl_radius c) (vadd (smul (cos delta') (cyl_normal c)) (smul (sin delta') (cross (cyl_axis c) (cyl_normal c))))).
Proof.
  intros width height c o d m t PC OP W H UD M N1 N2 CD r q z delta AT DE ZE delta'.
  destruct (cylinder_opening_north width height c o d m t PC OP N1 N2 CD) as (A & _). fold r q in A. destruct (A delta AT DE ZE) as (D & E).
  assert (T0 : 0 < t) by (apply (distance_spec c PC) in CD; destruct CD; auto).
  pose proof (cylinder_hit width height c o d m PC W H UD M) as CH. fold r in CH. cbn zeta in CH. rewrite D in CH. destruct CH as [NI|(_ & _ & _ & IU & _)].
  - rewrite NI in D. cbn [i_distance no_intersection] in D. lra.
  - fold q z in IU. unfold pixel_column, pixel_row. rewrite E, IU. apply cylindrical_round_trip; auto.
Qed.

(** ** Focal spots: splatting, centre of mass and conversion together *)
Definition planar_hits (width height : nat) (p : plane) (rays : list (point * point * R)) : list ray_hit :=
  map (fun '(o, d, m) => hit_of (line_plane width height p o d m)) rays.
Theorem focal_spot : forall width height p rays, (2 <= width)%nat -> (2 <= height)%nat -> sized p ->
  (forall o d m t, In (o, d, m, t) rays -> hits_area p o d t /\ within_half_open p (along o d t) /\ 0 <= m) ->
  let c := plane_center p in
  let power := Rsum (map (fun '(o, d, m, t) => m * - dot d (plane_normal p)) rays) in
  let mean f := Rsum (map (fun '(o, d, m, t) => m * - dot d (plane_normal p) * f (along o d t)) rays) / power in
  0 < power ->
  exists image e u, bilinear_splatting width height (planar_hits width height p (map (fun '(o, d, m, t) => (o, d, m)) rays)) = Ok image
    /\ center_of_mass height width (image_at image) = Some (e, u)
    /\ let share := power / (power + mass_eps) in
       position (planar_target_coordinates width height p e u)
       = vec (pe c + (1 - / INR width) * (share * (mean pe - pe c) + (1 - share) * (plane_width p / 2))) (pn c)
             (pu c + (1 - / INR height) * (share * (mean pu - pu c) + (1 - share) * (plane_height p / 2))).
Proof.
  intros width height p rays W H S0 HA c power mean PP.
  set (hits := planar_hits width height p (map (fun '(o, d, m, t) => (o, d, m)) rays)).
  assert (W2 := INR_pos2 _ W). assert (H2 := INR_pos2 _ H). assert (S1 := S0). destruct S1 as (SW & SH). pose proof mass_pos as MP.
  assert (EH : forall o d m t, In (o, d, m, t) rays -> line_plane width height p o d m
    = {| i_e := (INR width - 1) * (1/2 - (pe (along o d t) - pe c) / plane_width p);
         i_u := (INR height - 1) * (1/2 + (pu (along o d t) - pu c) / plane_height p);
         i_distance := t; i_intensity := m * - dot d (plane_normal p) |}).
  { intros o d m t I. destruct (HA o d m t I) as (HA0 & _). apply (plane_hit width height p W H S0 o d m t HA0). }
  assert (HI : forall r, In r hits -> inside_grid width height r).
  { intros r R0. unfold hits, planar_hits in R0. rewrite map_map in R0. apply in_map_iff in R0. destruct R0 as ((((o & d) & m) & t) & <- & I).
    destruct (HA o d m t I) as (HA0 & HO & M). apply (half_open_inside width height p o d m t); auto. }
  assert (PW : Rsum (map hit_intensity hits) = power).
  { unfold hits, planar_hits, power. rewrite !map_map. apply Rsum_map_ext. intros (((o & d) & m) & t) I. unfold hit_of. cbn [hit_intensity].
    rewrite (EH o d m t I). auto. }
  destruct (splat_center_of_mass width height hits) as (image & E & C); try lia; auto; [rewrite PW; lra|].
  exists image. do 2 eexists. split; [exact E|]. split; [exact C|]. rewrite PW.
  assert (ME : Rsum (map (fun r => hit_intensity r * hit_e r) hits) = power * (INR width - 1) * (1/2 - (mean pe - pe c) / plane_width p)).
  { transitivity ((INR width - 1) * (1/2 + pe c / plane_width p) * power - (INR width - 1) / plane_width p * (Rsum (map (fun '(o, d, m, t) => m * - dot d (plane_normal p) * pe (along o d t)) rays))).
    - unfold hits, planar_hits, power. rewrite !map_map, <- !Rsum_map_scal, <- Rsum_map_minus. apply Rsum_map_ext. intros (((o & d) & m) & t) I.
      unfold hit_of. cbn [hit_intensity hit_e]. rewrite (EH o d m t I). cbn [i_e i_intensity]. field. lra.
    - unfold mean. field. lra. }
  assert (MU : Rsum (map (fun r => hit_intensity r * (INR height - 1 - hit_u r)) hits) = power * (INR height - 1) * (1/2 - (mean pu - pu c) / plane_height p)).
  { transitivity ((INR height - 1) * (1/2 + pu c / plane_height p) * power - (INR height - 1) / plane_height p * (Rsum (map (fun '(o, d, m, t) => m * - dot d (plane_normal p) * pu (along o d t)) rays))).
    - unfold hits, planar_hits, power. rewrite !map_map, <- !Rsum_map_scal, <- Rsum_map_minus. apply Rsum_map_ext. intros (((o & d) & m) & t) I.
      unfold hit_of. cbn [hit_intensity hit_u]. rewrite (EH o d m t I). cbn [i_u i_intensity]. field. lra.
    - unfold mean. field. lra. }
  rewrite ME, MU. cbn zeta. unfold position, planar_target_coordinates. fold c. apply point_eq; cbn [vadd smul vec pe pn pu hv he hn hu]; field; lra.
Qed.

(** ** WGS84 *)
Lemma e2_bounds : 0 < wgs84_e2 < 1 /\ 1 - wgs84_e2 = (wgs84_b / wgs84_a) ^ 2 /\ 0 < wgs84_b < wgs84_a.
Proof.
  assert (A : 0 < wgs84_b < wgs84_a) by (unfold wgs84_a, wgs84_b; lra). split; [|split; auto].
  - unfold wgs84_e2, wgs84_a, wgs84_b. lra.
  - unfold wgs84_e2. field. lra.
Qed.
Lemma wgs84_radii : forall phi, let w := 1 - wgs84_e2 * sin phi ^ 2 in
  0 < w /\ wgs84_a <= wgs84_a / sqrt w <= wgs84_a ^ 2 / wgs84_b
  /\ wgs84_b ^ 2 / wgs84_a <= wgs84_a * (1 - wgs84_e2) / (w * sqrt w) <= wgs84_a ^ 2 / wgs84_b.
Proof.
  intros phi w. destruct e2_bounds as (E1 & E2 & E3). set (k := wgs84_b / wgs84_a) in *.
  assert (KP : 0 < k) by (apply Rdiv_lt_0_compat; lra).
  assert (K1 : k <= 1) by (unfold k; apply (Rmult_le_reg_r wgs84_a); [lra|]; unfold Rdiv; rewrite Rmult_assoc, Rinv_l by lra; lra).
  assert (S2 : 0 <= sin phi ^ 2 <= 1) by (pose proof (SIN_bound phi); split; [apply pow2_ge_0|simpl; nra]).
  assert (WB : k ^ 2 <= w <= 1).
  { unfold w. assert (0 <= wgs84_e2 * sin phi ^ 2 <= wgs84_e2 * 1) by (split; [apply Rmult_le_pos; lra|apply Rmult_le_compat_l; lra]). lra. }
  assert (WP : 0 < w) by (assert (0 < k ^ 2) by (apply pow_lt; auto); lra).
  assert (SB : k <= sqrt w <= 1).
  { split; [rewrite <- (sqrt_pow2 k) by lra; apply sqrt_le_1; try lra; apply pow2_ge_0|rewrite <- sqrt_1; apply sqrt_le_1; lra]. }
  set (s := sqrt w) in *. split; auto.
  assert (IS : 1 <= / s <= / k).
  { split; [rewrite <- Rinv_1; apply Rinv_le_contravar; lra|apply Rinv_le_contravar; lra]. }
  assert (AK : wgs84_a * / k = wgs84_a ^ 2 / wgs84_b) by (unfold k; field; lra).
  split.
  - rewrite <- AK. unfold Rdiv. split; [rewrite <- (Rmult_1_r wgs84_a) at 1|]; apply Rmult_le_compat_l; lra.
  - rewrite E2. assert (IW : 1 <= / w <= / k ^ 2).
    { split; [rewrite <- Rinv_1; apply Rinv_le_contravar; lra|apply Rinv_le_contravar; [apply pow_lt; auto|lra]]. }
    assert (KK : k ^ 2 * / k ^ 2 = 1) by (apply Rinv_r; assert (0 < k ^ 2) by (apply pow_lt; auto); lra).
    replace (wgs84_a * k ^ 2 / (w * s)) with (wgs84_a * (k ^ 2 * / w) * / s) by (field; lra).
    assert (Q : k ^ 2 <= k ^ 2 * / w <= 1).
    { assert (0 <= k ^ 2) by (apply pow2_ge_0). split; [rewrite <- (Rmult_1_r (k ^ 2)) at 1; apply Rmult_le_compat_l; lra|rewrite <- KK; apply Rmult_le_compat_l; lra]. }
    split.
    + replace (wgs84_b ^ 2 / wgs84_a) with (wgs84_a * k ^ 2 * 1) by (unfold k; field; lra).
      apply Rmult_le_compat; try lra; [apply Rmult_le_pos; [lra|apply pow2_ge_0]|apply Rmult_le_compat_l; lra].
    + rewrite <- AK. assert (0 <= k ^ 2) by (apply pow2_ge_0). apply Rmult_le_compat; try lra; [apply Rmult_le_pos; lra|].
      rewrite <- (Rmult_1_r wgs84_a) at 2. apply Rmult_le_compat_l; lra.
Qed.
Theorem wgs84_all : forall lat lon alt lat0 lon0 alt0, -90 < lat < 90 ->
  let x := wgs84_to_enu (lat, lon, alt) (lat0, lon0, alt0) in
  exists radius_n radius_e, wgs84_b ^ 2 / wgs84_a <= radius_n <= wgs84_a ^ 2 / wgs84_b /\ wgs84_a <= radius_e <= wgs84_a ^ 2 / wgs84_b
  /\ pn x = radius_n * ((lat - lat0) * PI / 180)
  /\ pe x = radius_e * cos (lat * PI / 180) * ((lon - lon0) * PI / 180)
  /\ pu x = alt - alt0
  /\ (0 < pn x <-> lat0 < lat) /\ (0 < pe x <-> lon0 < lon) /\ (0 < pu x <-> alt0 < alt).
Proof.
  intros lat lon alt lat0 lon0 alt0 LA x. set (phi := lat * PI / 180). destruct (wgs84_radii phi) as (WP & R1 & R2). cbn zeta in *.
  set (w := 1 - wgs84_e2 * sin phi ^ 2) in *. exists (wgs84_a * (1 - wgs84_e2) / (w * sqrt w)), (wgs84_a / sqrt w). split; auto. split; auto.
  destruct e2_bounds as (_ & _ & AB). pose proof PI_RGT_0 as PP.
  assert (CP : 0 < cos phi).
  { assert (lat * PI < 90 * PI) by (apply Rmult_lt_compat_r; lra). assert (-90 * PI < lat * PI) by (apply Rmult_lt_compat_r; lra). apply cos_gt_0; unfold phi; lra. }
  assert (RN : 0 < wgs84_a * (1 - wgs84_e2) / (w * sqrt w)).
  { assert (0 < wgs84_b ^ 2 / wgs84_a) by (apply Rdiv_lt_0_compat; [apply pow_lt|]; lra). lra. }
  set (rm := wgs84_a * (1 - wgs84_e2) / (w * sqrt w)) in *. set (rn := wgs84_a / sqrt w) in *.
  assert (EN : pn x = rm * ((lat - lat0) * PI / 180)).
  { unfold x, wgs84_to_enu, deg2rad. fold phi. fold w. fold rm. cbn [vec pn]. unfold phi. field. }
  assert (EE : pe x = rn * cos phi * ((lon - lon0) * PI / 180)).
  { unfold x, wgs84_to_enu, deg2rad. fold phi. fold w. fold rn. cbn [vec pe]. field. }
  assert (EU : pu x = alt - alt0) by reflexivity.
  rewrite EN, EE, EU. repeat split; try auto.
  - intros P. destruct (Rlt_dec lat0 lat); auto. exfalso. assert (rm * ((lat - lat0) * PI / 180) <= 0); [|lra].
    assert (0 <= rm * ((lat0 - lat) * PI / 180)) by (apply Rmult_le_pos; [lra|]; apply Rmult_le_pos; [apply Rmult_le_pos; lra|lra]). lra.
  - intros P. apply Rmult_lt_0_compat; [lra|]. apply Rmult_lt_0_compat; [apply Rmult_lt_0_compat; lra|lra].
  - intros P. destruct (Rlt_dec lon0 lon); auto. exfalso. assert (0 <= rn * cos phi * ((lon0 - lon) * PI / 180)).
    { apply Rmult_le_pos; [apply Rmult_le_pos; lra|]; apply Rmult_le_pos; [apply Rmult_le_pos; lra|lra]. } lra.
  - intros P. apply Rmult_lt_0_compat; [apply Rmult_lt_0_compat; lra|]. apply Rmult_lt_0_compat; [apply Rmult_lt_0_compat; lra|lra].
  - intros; lra.
  - intros; lra.
Qed.
(** Two positions a short way apart on both sides of the antimeridian are placed almost a full turn apart. *)
Theorem wgs84_antimeridian : forall x, 0 < x < 1 -> let p := wgs84_to_enu (0, 180 - x, 0) (0, -180 + x, 0) in wgs84_a * PI < pe p.
Proof.
  intros x X p. assert (E : pe p = wgs84_a * ((360 - 2 * x) * PI / 180)).
  { unfold p, wgs84_to_enu, deg2rad. replace (0 * PI / 180) with 0 by field. rewrite sin_0, cos_0. replace (1 - wgs84_e2 * 0 ^ 2) with 1 by ring. rewrite sqrt_1.
    cbn [vec pe]. field. }
  rewrite E. pose proof PI_RGT_0. assert (x * PI < 1 * PI) by (apply Rmult_lt_compat_r; lra). unfold wgs84_a. lra.
Qed.
