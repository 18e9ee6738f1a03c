(** Proofs about focal spots (C94, C99). *)
From Coq Require Import List Arith Reals Bool Lra Lia Psatz.
From Verif Require Import RealSums ModelField ModelVectors ProofsVectors ModelTransforms ModelLBVH ModelIntersections ModelActuators ModelNurbs ModelBitmap ModelCoordinates
  ModelFocalSpots SpecLosses SpecIntersections SpecField SpecTransforms SpecKinematics SpecFocalSpots ProofsField ProofsBitmap ProofsTransforms ProofsKinematics ProofsAlignment.
Import ListNotations.
Local Open Scope R_scope.

Lemma spot_value : forall b, flux_image b -> center_of_mass (rows b) (columns b) (value b) = Some (spot_column b, spot_row b)
  /\ 0 <= spot_column b <= INR (columns b) - 1 /\ 0 <= spot_row b <= INR (rows b) - 1.
Proof.
  intros b (H & W & N). destruct (center_all _ _ _ H W N) as (e & u & C & E & U & _).
  pose proof (total_nonneg _ _ _ N). pose proof mass_pos. pose proof C as C'. rewrite center_value in C' by lra.
  change mass_eps with (/ 10 ^ 8) in C'. fold (spot_column b) (spot_row b) in C'. injection C' as <- <-. auto.
Qed.
Lemma vsub_norm_sq : forall v, norm v = sqrt (dot v v).
Proof. reflexivity. Qed.
Lemma planar_spots : forall p w h e u e' u', (0 < w)%nat -> (0 < h)%nat ->
  norm (vsub (euclidean (planar_target_coordinates w h p e u)) (euclidean (planar_target_coordinates w h p e' u')))
  = sqrt ((plane_width p * ((e - e') / INR w)) ^ 2 + (plane_height p * ((u - u') / INR h)) ^ 2).
Proof.
  intros p w h e u e' u' W H. apply lt_INR in W. apply lt_INR in H. cbn [INR] in W, H. unfold norm. f_equal.
  unfold planar_target_coordinates, euclidean. cbn [he hn hu hv]. vunfold. cbn [pe pn pu]. field. lra.
Qed.
Lemma cylindrical_spots : forall c w h e u e' u', proper_cylinder c -> (0 < w)%nat -> (0 < h)%nat ->
  norm (vsub (euclidean (cylindrical_target_coordinates w h c e u)) (euclidean (cylindrical_target_coordinates w h c e' u')))
  = sqrt ((2 * cyl_radius c * sin (cyl_opening c * ((e - e') / INR w) / 2)) ^ 2 + (cyl_height c * ((u - u') / INR h)) ^ 2).
Proof.
  intros c w h e u e' u' (UA & UN & PAN & _) W H. apply lt_INR in W. apply lt_INR in H. cbn [INR] in W, H. unfold norm. f_equal.
  unfold cylindrical_target_coordinates, euclidean. cbn [he hn hu hv].
  set (t := ((e + / 2) / INR w - / 2) * cyl_opening c). set (t' := ((e' + / 2) / INR w - / 2) * cyl_opening c).
  set (z := (/ 2 - (u + / 2) / INR h) * cyl_height c). set (z' := (/ 2 - (u' + / 2) / INR h) * cyl_height c).
  replace (cyl_opening c * ((e - e') / INR w) / 2) with ((t - t') / 2) by (unfold t, t'; field; lra).
  replace ((cyl_height c * ((u - u') / INR h)) ^ 2) with ((z - z') ^ 2) by (unfold z, z'; field; lra).
  clearbody t t' z z'. clear W H. destruct c as [cc ax nn rad hh op]. cbn [cyl_center cyl_axis cyl_normal cyl_radius cyl_height cyl_opening] in *.
  destruct ax as [a1 a2 a3], nn as [n1 n2 n3], cc as [c1 c2 c3].
  assert (CH : (2 * rad * sin ((t - t') / 2)) ^ 2 = rad ^ 2 * ((cos t - cos t') ^ 2 + (sin t - sin t') ^ 2)).
  { replace t with (2 * (t / 2)) at 2 3 by field. replace t' with (2 * (t' / 2)) at 2 3 by field.
    replace ((t - t') / 2) with (t / 2 - t' / 2) by field. rewrite sin_minus, !cos_2a, !sin_2a.
    set (a := t / 2). set (b := t' / 2). pose proof (sin2_cos2 a) as A. pose proof (sin2_cos2 b) as B. unfold Rsqr in *.
    set (sa := sin a) in *. set (ca := cos a) in *. set (sb := sin b) in *. set (cb := cos b) in *. clearbody sa ca sb cb.
    assert (CA : ca * ca = 1 - sa * sa) by lra. assert (CB : cb * cb = 1 - sb * sb) by lra.
    rewrite CA, CB.
    transitivity (rad ^ 2 * (4 * (sa * sa * (cb * cb) - 2 * (sa * ca) * (sb * cb) + (ca * ca) * (sb * sb)))); [ring|].
    transitivity (rad ^ 2 * ((1 - sa * sa - sa * sa - (1 - sb * sb - sb * sb)) * (1 - sa * sa - sa * sa - (1 - sb * sb - sb * sb))
       + 4 * (sa * sa * (ca * ca) - 2 * (sa * ca) * (sb * cb) + sb * sb * (cb * cb)))); [rewrite CA, CB; ring|ring]. }
  rewrite CH. set (dc := cos t - cos t'). set (ds := sin t - sin t').
  unfold unit, dot in *. cbn [pe pn pu] in *.
  transitivity (rad ^ 2 * (dc ^ 2 * (n1 * n1 + n2 * n2 + n3 * n3)
    + ds ^ 2 * ((a1 * a1 + a2 * a2 + a3 * a3) * (n1 * n1 + n2 * n2 + n3 * n3) - (a1 * n1 + a2 * n2 + a3 * n3) ^ 2))
    + (z - z') ^ 2 * (a1 * a1 + a2 * a2 + a3 * a3) + 2 * rad * dc * (z - z') * (a1 * n1 + a2 * n2 + a3 * n3)).
  - unfold dc, ds. unfold cross, vadd, vsub, smul, vec. cbn [pe pn pu]. ring.
  - rewrite UA, UN, PAN. ring.
Qed.
Lemma distance_value : forall planar cylindrical index a b, proper_tower planar cylindrical -> (index < length planar + length cylindrical)%nat ->
  flux_image a -> flux_image b -> same_resolution a b ->
  exists d, focal_spot_distance planar cylindrical index a b = Ok (Some d) /\ spot_distance planar cylindrical index a b d.
Proof.
  intros planar cylindrical index a b (PP & PC) I FA FB (SR & SC). unfold focal_spot_distance.
  destruct (spot_value a FA) as (-> & _). destruct (spot_value b FB) as (-> & _). destruct FA as (RA & CA & _).
  unfold target_position. destruct (Nat.ltb_spec index (length planar)).
  - destruct (nth_error planar index) as [p|] eqn:E; [|apply nth_error_None in E; lia]. cbn [bind]. rewrite planar_spots by auto.
    eexists. split; [reflexivity|]. left. exists p. auto.
  - destruct (nth_error cylindrical (index - length planar)) as [c|] eqn:E; [|apply nth_error_None in E; lia]. cbn [bind].
    rewrite cylindrical_spots; auto; [|apply PC, (nth_error_In _ _ E)].
    eexists. split; [reflexivity|]. right. exists (index - length planar)%nat, c. repeat split; auto. lia.
Qed.
Theorem losses_value : forall planar cylindrical indices predictions truths, proper_tower planar cylindrical ->
  (forall i, In i indices -> i < length planar + length cylindrical)%nat ->
  length predictions = length indices -> length truths = length indices ->
  (forall a, In a predictions -> flux_image a) -> (forall b, In b truths -> flux_image b) ->
  (forall k a b, nth_error predictions k = Some a -> nth_error truths k = Some b -> same_resolution a b) ->
  exists losses, focal_spot_loss planar cylindrical true (Some indices) predictions truths = Ok losses /\ length losses = length indices
  /\ forall k i a b, nth_error indices k = Some i -> nth_error predictions k = Some a -> nth_error truths k = Some b ->
     exists d, nth_error losses k = Some (Some d) /\ spot_distance planar cylindrical i a b d.
Proof.
  intros planar cylindrical indices predictions truths T I L1 L2 F1 F2 SR. unfold focal_spot_loss.
  rewrite L1, L2, Nat.eqb_refl. cbn [andb].
  revert predictions truths L1 L2 F1 F2 SR I. induction indices as [|i indices IH]; intros [|a ps] [|b ts] L1 L2 F1 F2 SR I; try discriminate.
  - exists []. repeat split; auto. intros [|k]; discriminate.
  - cbn [combine map_res].
    assert (DV : exists d, focal_spot_distance planar cylindrical i a b = Ok (Some d) /\ spot_distance planar cylindrical i a b d).
    { apply distance_value; [exact T|apply I; left; auto|apply F1; left; auto|apply F2; left; auto|apply (SR 0%nat); auto]. }
    destruct DV as (d & E & D).
    assert (SR' : forall k a b, nth_error ps k = Some a -> nth_error ts k = Some b -> same_resolution a b) by (intros k a' b' A' B'; apply (SR (Datatypes.S k)); auto).
    cbn [length] in L1, L2. injection L1 as L1. injection L2 as L2.
    assert (F1' : forall a, In a ps -> flux_image a) by (intros; apply F1; right; auto).
    assert (F2' : forall a, In a ts -> flux_image a) by (intros; apply F2; right; auto).
    assert (I' : forall i, In i indices -> (i < length planar + length cylindrical)%nat) by (intros; apply I; right; auto).
    destruct (IH ps ts L1 L2 F1' F2' SR' I') as (losses & EL & LL & AT).
    rewrite E. cbn [bind]. rewrite EL. cbn [bind]. exists (Some d :: losses). split; [auto|]. split; [cbn; lia|].
    intros [|k] i' a' b' NI NA NB; cbn [nth_error] in *; [injection NI as <-; injection NA as <-; injection NB as <-; eauto|eauto].
Qed.
Theorem losses_keywords : forall planar cylindrical device indices predictions truths, device = false \/ indices = None ->
  focal_spot_loss planar cylindrical device indices predictions truths = Err ValueError.
Proof. intros planar cylindrical [] [indices|] predictions truths [E|E]; try discriminate; auto. Qed.

(** ** A metric *)
Lemma sqrt_sum_zero : forall x y, sqrt (x ^ 2 + y ^ 2) = 0 <-> x = 0 /\ y = 0.
Proof.
  intros x y. assert (P : 0 <= x ^ 2 + y ^ 2) by nra. split.
  - intros E. apply sqrt_eq_0 in E; auto. split; nra.
  - intros (-> & ->). replace (0 ^ 2 + 0 ^ 2) with 0 by ring. apply sqrt_0.
Qed.
Lemma small_sin : forall x, Rabs x < PI -> sin x = 0 -> x = 0.
Proof.
  intros x X E. pose proof PI_RGT_0. destruct (Rtotal_order x 0) as [L|[Z|G]]; auto.
  - rewrite Rabs_left in X by auto. assert (0 < sin (- x)) by (apply sin_gt_0; lra). rewrite sin_neg in *. lra.
  - rewrite Rabs_right in X by lra. assert (0 < sin x) by (apply sin_gt_0; lra). lra.
Qed.
Lemma column_step : forall a b, flux_image a -> flux_image b -> same_resolution a b ->
  Rabs ((spot_column a - spot_column b) / INR (columns a)) < 1 /\ Rabs ((spot_row a - spot_row b) / INR (rows a)) < 1
  /\ 0 < INR (columns a) /\ 0 < INR (rows a).
Proof.
  intros a b FA FB (SR & SC). destruct (spot_value a FA) as (_ & A1 & A2). destruct (spot_value b FB) as (_ & B1 & B2).
  rewrite <- SR, <- SC in *. destruct FA as (RA & CA & _). apply lt_INR in RA. apply lt_INR in CA. cbn [INR] in RA, CA.
  assert (ST : forall x n, 0 < n -> Rabs x <= n - 1 -> Rabs (x / n) < 1).
  { intros x n N X. unfold Rdiv. rewrite Rabs_mult, (Rabs_right (/ n)) by (left; apply Rinv_0_lt_compat; auto).
    apply (Rmult_lt_reg_r n); auto. rewrite Rmult_assoc, Rinv_l by lra. lra. }
  repeat split; auto; apply ST; auto; apply Rabs_le; lra.
Qed.
Lemma over_zero : forall x n, 0 < n -> x / n = 0 -> x = 0.
Proof. intros x n N E. apply (Rmult_eq_reg_r (/ n)); [|apply Rinv_neq_0_compat; lra]. rewrite Rmult_0_l. auto. Qed.
Theorem distance_zero : forall planar cylindrical index a b d, proper_tower planar cylindrical ->
  flux_image a -> flux_image b -> same_resolution a b -> spot_distance planar cylindrical index a b d ->
  0 <= d /\ (d = 0 <-> spot_column a = spot_column b /\ spot_row a = spot_row b).
Proof.
  intros planar cylindrical index a b d (PP & PC) FA FB SR D. destruct (column_step a b FA FB SR) as (C1 & R1 & C0 & R0).
  set (x := (spot_column a - spot_column b) / INR (columns a)) in *. set (y := (spot_row a - spot_row b) / INR (rows a)) in *.
  assert (XY : x = 0 /\ y = 0 <-> spot_column a = spot_column b /\ spot_row a = spot_row b).
  { split; [intros (X & Y); apply over_zero in X; auto; apply over_zero in Y; auto; lra|].
    intros (X & Y). unfold x, y. rewrite X, Y. unfold Rdiv. split; ring. }
  rewrite <- XY. destruct D as [(p & NP & ->)|(j & c & _ & NC & ->)].
  - unfold planar_distance. fold x y. split; [apply sqrt_pos|]. rewrite sqrt_sum_zero. destruct (PP p (nth_error_In _ _ NP)) as (W & H).
    split; [intros (X & Y)|intros (-> & ->); lra]. apply Rmult_integral in X. apply Rmult_integral in Y. split; [destruct X; lra|destruct Y; lra].
  - unfold cylindrical_distance. fold x y. split; [apply sqrt_pos|]. rewrite sqrt_sum_zero.
    destruct (PC c (nth_error_In _ _ NC)) as ((_ & _ & _ & R & H & O) & O2).
    split; [intros (X & Y)|intros (-> & ->); split; [replace (cyl_opening c * 0 / 2) with 0 by field; rewrite sin_0; ring|ring]].
    apply Rmult_integral in Y. apply Rmult_integral in X. split; [|destruct Y; lra].
    destruct X as [X|X]; [lra|]. apply small_sin in X.
    + assert (Z : cyl_opening c * x = 0) by lra. apply Rmult_integral in Z. destruct Z; lra.
    + unfold Rdiv. rewrite !Rabs_mult, (Rabs_right (/ 2)), (Rabs_right (cyl_opening c)) by lra. nra.
Qed.
Lemma distance_points : forall planar cylindrical index h w, proper_tower planar cylindrical -> (index < length planar + length cylindrical)%nat ->
  exists spot, forall a b, flux_image a -> flux_image b -> rows a = h -> columns a = w -> rows b = h -> columns b = w ->
    focal_spot_distance planar cylindrical index a b = Ok (Some (norm (vsub (spot a) (spot b)))).
Proof.
  intros planar cylindrical index h w (PP & PC) I.
  exists (fun a => match target_position planar cylindrical w h index (spot_column a) (spot_row a) with Ok x => x | Err _ => vec 0 0 0 end).
  intros a b FA FB RA CA RB CB. unfold focal_spot_distance.
  destruct (spot_value a FA) as (-> & _). destruct (spot_value b FB) as (-> & _). rewrite RA, CA. unfold target_position.
  destruct (Nat.ltb_spec index (length planar)).
  - destruct (nth_error planar index) as [p|] eqn:E; [|apply nth_error_None in E; lia]. reflexivity.
  - destruct (nth_error cylindrical (index - length planar)) as [c|] eqn:E; [|apply nth_error_None in E; lia]. reflexivity.
Qed.
Theorem distance_metric : forall planar cylindrical index a b c, proper_tower planar cylindrical -> (index < length planar + length cylindrical)%nat ->
  flux_image a -> flux_image b -> flux_image c -> same_resolution a b -> same_resolution b c ->
  exists ab ba bc ac, focal_spot_distance planar cylindrical index a b = Ok (Some ab) /\ focal_spot_distance planar cylindrical index b a = Ok (Some ba)
    /\ focal_spot_distance planar cylindrical index b c = Ok (Some bc) /\ focal_spot_distance planar cylindrical index a c = Ok (Some ac)
    /\ ab = ba /\ ac <= ab + bc.
Proof.
  intros planar cylindrical index a b c T I FA FB FC (R1 & C1) (R2 & C2).
  destruct (distance_points planar cylindrical index (rows b) (columns b) T I) as (spot & D).
  do 4 eexists. rewrite !D by auto. repeat split.
  - unfold norm. f_equal. vunfold. ring.
  - replace (vsub (spot a) (spot c)) with (vadd (vsub (spot a) (spot b)) (vsub (spot b) (spot c))) by vring. apply norm_triangle.
Qed.
Theorem distance_diagonal : forall p a b, sized p -> flux_image a -> flux_image b -> same_resolution a b ->
  planar_distance p a b < sqrt (plane_width p ^ 2 + plane_height p ^ 2).
Proof.
  intros p a b (W & H) FA FB SR. destruct (column_step a b FA FB SR) as (C1 & R1 & _). unfold planar_distance.
  set (x := (spot_column a - spot_column b) / INR (columns a)) in *. set (y := (spot_row a - spot_row b) / INR (rows a)) in *.
  apply Rabs_def2 in C1. apply Rabs_def2 in R1. apply sqrt_lt_1_alt. split; [nra|]. assert (x * x < 1) by nra. assert (y * y < 1) by nra. 
  assert (plane_width p * plane_width p * (x * x) < plane_width p * plane_width p * 1) by (apply Rmult_lt_compat_l; nra).
  assert (plane_height p * plane_height p * (y * y) < plane_height p * plane_height p * 1) by (apply Rmult_lt_compat_l; nra). nra.
Qed.

(** ** Different resolutions *)
Lemma total_const : forall h w, total h w (fun _ _ => 1) = INR h * INR w.
Proof. intros h w. unfold total. rewrite !Rsum_map_const, !seq_length. ring. Qed.
Lemma sum_indices : forall n, Rsum (map INR (seq 0 n)) = INR n * (INR n - 1) / 2.
Proof. induction n; [cbn; lra|]. rewrite seq_S, map_app, Rsum_app, IHn. cbn [map Nat.add]. rewrite Rsum_cons, Rsum_nil, S_INR. field. Qed.
Lemma uniform_spot : forall h w, (0 < h)%nat -> (0 < w)%nat ->
  flux_image (uniform h w) /\ spot_column (uniform h w) = (INR w - 1) / 2 * (INR h * INR w / (INR h * INR w + / 10 ^ 8)).
Proof.
  intros h w H W. split; [repeat split; auto; intros u e _ _; cbn; lra|].
  unfold spot_column, uniform. cbn [rows columns value]. rewrite total_const.
  replace (total h w (fun _ e => INR e * 1)) with (INR h * (INR w * (INR w - 1) / 2)).
  - field. apply lt_INR in H. apply lt_INR in W. cbn [INR] in H, W. nra.
  - unfold total. rewrite <- (seq_length h 0) at 1. rewrite <- Rsum_map_const. apply Rsum_map_ext. intros u _. rewrite <- sum_indices.
    apply Rsum_map_ext. intros e _. ring.
Qed.
(** The same uniform flux on finer bitmaps is reported as far away. *)
Theorem resolutions_differ : forall planar cylindrical index p h w h' w', nth_error planar index = Some p -> sized p ->
  (0 < h <= h')%nat -> (0 < w < w')%nat ->
  exists d, focal_spot_distance planar cylindrical index (uniform h w) (uniform h' w') = Ok (Some d)
    /\ plane_width p * (INR (w' - w) / (3 * INR w)) <= d.
Proof.
  intros planar cylindrical index p h w h' w' NP (PW & PH) (H & HH) (W & WW).
  destruct (uniform_spot h w) as (F1 & S1); auto. destruct (uniform_spot h' w') as (F2 & S2); try lia.
  assert (IX : (index < length planar)%nat) by (apply nth_error_Some; congruence).
  unfold focal_spot_distance. destruct (spot_value _ F1) as (-> & _). destruct (spot_value _ F2) as (-> & _).
  unfold target_position. rewrite (proj2 (Nat.ltb_lt _ _) IX), NP. cbn [bind]. eexists. split; [reflexivity|].
  rewrite planar_spots by auto. rewrite S1, S2. cbn [uniform rows columns].
  rewrite minus_INR by lia. apply (le_INR 1) in H. apply (le_INR 1) in W. apply le_INR in HH. apply (le_INR (S w)) in WW. rewrite S_INR in WW. cbn [INR] in H, W.
  set (a := INR h) in *. set (b := INR w) in *. set (a' := INR h') in *. set (b' := INR w') in *. clearbody a b a' b'.
  set (N := a * b). set (N' := a' * b'). assert (N1 : 1 <= N) by (unfold N; nra). assert (NN : N <= N') by (unfold N, N'; nra).
  set (s := N / (N + / 10 ^ 8)). set (s' := N' / (N' + / 10 ^ 8)).
  assert (SS : s <= s').
  { unfold s, s'. apply (Rmult_le_reg_r ((N + / 10 ^ 8) * (N' + / 10 ^ 8))); [apply Rmult_lt_0_compat; lra|].
    replace (N / (N + / 10 ^ 8) * ((N + / 10 ^ 8) * (N' + / 10 ^ 8))) with (N * (N' + / 10 ^ 8)) by (field; lra).
    replace (N' / (N' + / 10 ^ 8) * ((N + / 10 ^ 8) * (N' + / 10 ^ 8))) with (N' * (N + / 10 ^ 8)) by (field; lra). nra. }
  assert (SB : 2 / 3 <= s).
  { unfold s. apply (Rmult_le_reg_r (N + / 10 ^ 8)); [lra|]. unfold Rdiv at 2. rewrite Rmult_assoc, Rinv_l by lra. lra. }
  assert (D : (b' - b) / 3 <= (b' - 1) / 2 * s' - (b - 1) / 2 * s).
  { assert ((b' - 1) / 2 * s <= (b' - 1) / 2 * s') by (apply Rmult_le_compat_l; lra). nra. }
  set (x := plane_width p * (((b - 1) / 2 * s - (b' - 1) / 2 * s') / b)).
  apply Rle_trans with (sqrt (x ^ 2)).
  - replace (sqrt (x ^ 2)) with (Rabs x) by (rewrite <- sqrt_Rsqr_abs; f_equal; unfold Rsqr; ring).
    assert (IB : 0 < / b) by (apply Rinv_0_lt_compat; lra).
    replace x with (- (plane_width p * (((b' - 1) / 2 * s' - (b - 1) / 2 * s) * / b))) by (unfold x; field; lra). rewrite Rabs_Ropp.
    rewrite Rabs_right.
    + apply Rmult_le_compat_l; [lra|]. replace ((b' - b) / (3 * b)) with ((b' - b) / 3 * / b) by (field; lra). apply Rmult_le_compat_r; lra.
    + apply Rle_ge. apply Rmult_le_pos; [lra|]. apply Rmult_le_pos; lra.
  - apply sqrt_le_1_alt. match goal with |- _ <= _ + ?y ^ 2 => pose proof (pow2_ge_0 y) end. lra.
Qed.

(** ** Measured normals (C99) *)
Lemma nth_error_combine_pair : forall {A B} (xs : list A) (ys : list B) k x y, nth_error xs k = Some x -> nth_error ys k = Some y ->
  nth_error (combine xs ys) k = Some (x, y).
Proof. induction xs; intros [|y0 ys] [|k] x y X Y; try discriminate; cbn in *; [congruence|auto]. Qed.
Lemma broadcast_same : forall {A B C} (f : A -> B -> C) xs ys, length xs = length ys ->
  exists zs, broadcast f xs ys = Ok zs /\ length zs = length xs /\ forall k x y, nth_error xs k = Some x -> nth_error ys k = Some y -> nth_error zs k = Some (f x y).
Proof.
  intros A B C f xs ys L. unfold broadcast. rewrite L, Nat.eqb_refl. eexists. split; [reflexivity|]. split; [rewrite map_length, combine_length; lia|].
  intros k x y X Y. rewrite nth_error_map. rewrite (nth_error_combine_pair xs ys k x y); auto.
Qed.
Lemma measured_bisects : forall p f d, unit d -> / 10 ^ 12 <= norm (vsub f p) -> / 10 ^ 12 <= norm (vsub (direction_to p f) d) ->
  let n := normalize (vsub (normalize (vsub f p)) d) in
  unit n /\ reflect d n = direction_to p f /\ dot d n < 0.
Proof.
  intros p f d UI A B n. assert (E12 : 0 < / 10 ^ 12) by (apply Rinv_0_lt_compat; lra).
  assert (EN : n = smul (/ norm (vsub (direction_to p f) d)) (vsub (direction_to p f) d)).
  { unfold n, normalize. rewrite (normalize_eps_long _ (vsub f p)) by auto. fold (direction_to p f). rewrite normalize_eps_long by auto. auto. }
  rewrite EN. clear EN n.
  assert (UR : unit (direction_to p f)) by (apply unit_smul; lra).
  set (r := direction_to p f) in *. clearbody r.
  set (v := vsub r d) in *. set (l := norm v) in *.
  assert (L : 0 < l) by lra. assert (LL : l * l = dot v v) by apply norm_sq.
  unfold unit in *.
  assert (DD : dot v v = 2 - 2 * dot d r) by (unfold v; rewrite dot_vsub_l, !dot_vsub_r, (dot_comm r d), UR, UI; ring).
  assert (ID : dot d v = dot d r - 1) by (unfold v; rewrite dot_vsub_r, UI; ring).
  assert (IL : 0 < / l) by (apply Rinv_0_lt_compat; auto).
  split; [|split].
  - rewrite dot_smul_l, dot_smul_r, <- LL. field. lra.
  - unfold reflect. rewrite dot_smul_r.
    assert (K : 2 * (/ l * dot d v) * / l = -1).
    { apply (Rmult_eq_reg_l (l * l)); [|nra]. transitivity (2 * dot d v); [field; lra|]. rewrite LL, DD, ID. ring. }
    transitivity (vsub d (smul (2 * (/ l * dot d v) * / l) v)); [vring|]. rewrite K. unfold v. vring.
  - rewrite dot_smul_r, ID. assert (0 < l * l) by (apply Rmult_lt_0_compat; auto). nra.
Qed.
Lemma direction_sends : forall p f d n, 0 < norm (vsub f p) -> reflect d n = direction_to p f -> sends_to p d n f.
Proof.
  intros p f d n N E. exists (norm (vsub f p)). split; auto. rewrite E. unfold along, direction_to. set (l := norm (vsub f p)) in *.
  transitivity (vadd p (smul (l * / l) (vsub f p))); [vring|]. rewrite Rinv_r by lra. vring.
Qed.
Theorem measured_all : forall positions mask focal_spots incidents, length positions = length mask ->
  length focal_spots = list_sum mask -> length incidents = list_sum mask ->
  exists normals owners, measured_normals positions mask focal_spots incidents = Ok normals /\ owners_of_mask mask owners
  /\ length normals = list_sum mask /\ length owners = list_sum mask
  /\ forall k i p f d, nth_error owners k = Some i -> nth_error positions i = Some p ->
     nth_error focal_spots k = Some f -> nth_error incidents k = Some d ->
     unit d -> / 10 ^ 12 <= norm (vsub f p) -> / 10 ^ 12 <= norm (vsub (direction_to p f) d) ->
     exists n, nth_error normals k = Some (as_direction n) /\ unit n /\ reflect d n = direction_to p f /\ dot d n < 0 /\ sends_to p d n f.
Proof.
  intros positions mask spots incidents LP LF LI. unfold measured_normals.
  destruct (repeat_interleave_ok positions mask LP) as (rp & ER). rewrite ER. cbn [bind].
  pose proof (repeat_interleave_length _ _ _ ER) as LR. pose proof (repeat_interleave_rows _ _ _ ER) as (_ & RAT).
  destruct (broadcast_same (fun f p => normalize (vsub f p)) spots rp) as (rs & EB & LB & BAT); [congruence|]. rewrite EB. cbn [bind].
  destruct (broadcast_same (fun r i => normalize (vsub r i)) rs incidents) as (ns & EN & LN & NAT); [congruence|]. rewrite EN. cbn [bind].
  eexists. exists (owners_from 0 mask). split; [reflexivity|]. split; [apply owners_spec|]. split; [rewrite map_length; congruence|]. split; [apply owners_from_length|].
  intros k i p f d NO NP NF ND UD A B. destruct (RAT k i NO) as (p' & NR & NP'). assert (p' = p) by congruence. subst p'.
  exists (normalize (vsub (normalize (vsub f p)) d)). split.
  - rewrite nth_error_map, (NAT k (normalize (vsub f p)) d); auto.
  - destruct (measured_bisects p f d UD A B) as (U & R0 & D). repeat split; auto. apply direction_sends; auto.
    assert (0 < / 10 ^ 12) by (apply Rinv_0_lt_compat; lra). lra.
Qed.
(** With the mirror off the heliostat's position the ray is sent past the focal spot. *)
Theorem measured_off_position : forall p f d m n, unit d -> / 10 ^ 12 <= norm (vsub f p) -> / 10 ^ 12 <= norm (vsub (direction_to p f) d) ->
  cross (vsub f p) (vsub f m) <> vec 0 0 0 -> measured_normals [p] [1%nat] [f] [d] = Ok [as_direction n] -> ~ sends_to m d n f.
Proof.
  intros p f d m n UD A B C E (t & T & S0).
  destruct (measured_all [p] [1%nat] [f] [d] eq_refl eq_refl eq_refl) as (normals & owners & EN & OW & _ & _ & AT).
  rewrite E in EN. injection EN as <-.
  assert (owners = [0%nat]) by (apply (owners_unique [1%nat]); auto; apply (owners_spec [1%nat])). subst owners.
  destruct (AT 0%nat 0%nat p f d eq_refl eq_refl eq_refl eq_refl UD A B) as (n' & NN & _ & R0 & _). injection NN as N1 N2 N3.
  assert (n' = n) by (apply point_eq; auto). subst n'. rewrite R0 in S0.
  apply C. replace (vsub f m) with (smul t (direction_to p f)).
  - unfold direction_to. apply point_eq; vunfold; cbn [pe pn pu]; ring.
  - transitivity (vsub (along m (direction_to p f) t) m); [unfold along; generalize (direction_to p f); intros; vring|rewrite S0; auto].
Qed.
