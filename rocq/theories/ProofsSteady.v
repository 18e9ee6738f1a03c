(** Proofs that focal spots move no further than their rays (C156). *)
From Coq Require Import List Arith Reals Lra Lia.
From Verif Require Import RealSums ModelField ModelVectors ProofsVectors ModelTransforms SpecTransforms ProofsTransforms ModelKinematics SpecKinematics ProofsKinematics ModelSplatting SpecSplatting ModelIntersections SpecIntersections ProofsIntersections
  ModelBitmap SpecBitmap ProofsBitmap ModelCoordinates SpecCoordinates ProofsCoordinates ProofsMisaligned ProofsPointing.
Import ListNotations.
Local Open Scope R_scope.

Lemma sum_abs : forall {A} (f : A -> R) l, Rabs (Rsum (map f l)) <= Rsum (map (fun x => Rabs (f x)) l).
Proof.
  intros A f l. induction l as [|x l IH]; cbn [map]; rewrite ?Rsum_nil, ?Rsum_cons; [rewrite Rabs_R0; lra|].
  pose proof (Rabs_triang (f x) (Rsum (map f l))). lra.
Qed.

(** Two weighted means, relative to the weights of the first. *)
Lemma weighted_apart : forall {A} (a b x y : A -> R) l span de eps, 0 < eps -> 0 <= de -> 0 <= span ->
  (forall z, In z l -> 0 <= a z /\ 0 <= b z /\ 0 <= y z <= span /\ Rabs (x z - y z) <= de) ->
  Rabs (Rsum (map (fun z => a z * x z) l) / (Rsum (map a l) + eps) - Rsum (map (fun z => b z * y z) l) / (Rsum (map b l) + eps))
  <= de + span * (Rsum (map (fun z => Rabs (a z - b z)) l) / (Rsum (map a l) + eps)).
Proof.
  intros A a b x y l span de eps E DE SP H.
  assert (PA : 0 <= Rsum (map a l)) by (apply Rsum_map_nonneg; intros z Z; apply H; auto).
  assert (PB : 0 <= Rsum (map b l)) by (apply Rsum_map_nonneg; intros z Z; apply H; auto).
  set (P := Rsum (map a l) + eps). set (Q := Rsum (map b l) + eps).
  set (mean := Rsum (map (fun z => b z * y z) l) / Q).
  assert (M : 0 <= mean <= span).
  { assert (L0 : 0 <= Rsum (map (fun z => b z * y z) l)) by (apply Rsum_map_nonneg; intros z Z; destruct (H z Z) as (_ & B & Y & _); apply Rmult_le_pos; lra).
    assert (L1 : Rsum (map (fun z => b z * y z) l) <= span * Rsum (map b l)).
    { rewrite <- Rsum_map_scal. apply Rsum_map_le. intros z Z. destruct (H z Z) as (_ & B & Y & _). rewrite (Rmult_comm span). apply Rmult_le_compat_l; lra. }
    unfold mean. split; [apply Rmult_le_pos; [lra|left; apply Rinv_0_lt_compat; unfold Q; lra]|].
    apply Rmult_le_reg_r with Q; [unfold Q; lra|]. replace (Rsum (map (fun z => b z * y z) l) / Q * Q) with (Rsum (map (fun z => b z * y z) l)) by (field; unfold Q; lra).
    unfold Q. assert (0 <= span * eps) by (apply Rmult_le_pos; lra). lra. }
  assert (D : Rsum (map (fun z => a z * x z) l) / P - mean
              = (Rsum (map (fun z => a z * (x z - y z)) l) + Rsum (map (fun z => (a z - b z) * (y z - mean)) l)) / P).
  { assert (E1 : Rsum (map (fun z => a z * (x z - y z)) l) = Rsum (map (fun z => a z * x z) l) - Rsum (map (fun z => a z * y z) l)).
    { rewrite <- Rsum_map_minus. apply Rsum_map_ext. intros; ring. }
    assert (E2 : Rsum (map (fun z => (a z - b z) * (y z - mean)) l)
                 = Rsum (map (fun z => a z * y z) l) - Rsum (map (fun z => b z * y z) l) - mean * (Rsum (map a l) - Rsum (map b l))).
    { rewrite <- !Rsum_map_minus, <- Rsum_map_scal, <- Rsum_map_minus. apply Rsum_map_ext. intros; ring. }
    rewrite E1, E2. assert (E3 : Rsum (map (fun z => b z * y z) l) = mean * Q) by (unfold mean; field; unfold Q; lra). rewrite E3. unfold P, Q. field. lra. }
  rewrite D.
  assert (B1 : Rabs (Rsum (map (fun z => a z * (x z - y z)) l)) <= de * Rsum (map a l)).
  { eapply Rle_trans; [apply sum_abs|]. rewrite <- Rsum_map_scal. apply Rsum_map_le. intros z Z. destruct (H z Z) as (A0 & _ & _ & X).
    rewrite Rabs_mult, (Rabs_pos_eq (a z)), Rmult_comm by auto. apply Rmult_le_compat_r; auto. }
  assert (B2 : Rabs (Rsum (map (fun z => (a z - b z) * (y z - mean)) l)) <= span * Rsum (map (fun z => Rabs (a z - b z)) l)).
  { eapply Rle_trans; [apply sum_abs|]. rewrite <- Rsum_map_scal. apply Rsum_map_le. intros z Z. destruct (H z Z) as (_ & _ & Y & _).
    rewrite Rabs_mult, Rmult_comm. apply Rmult_le_compat_r; [apply Rabs_pos|]. apply Rabs_le. lra. }
  assert (P0 : 0 < P) by (unfold P; lra). unfold Rdiv. rewrite Rabs_mult, (Rabs_pos_eq (/ P)) by (left; apply Rinv_0_lt_compat; auto).
  apply Rmult_le_reg_r with P; auto. rewrite Rmult_assoc, Rinv_l, Rmult_1_r by lra.
  pose proof (Rabs_triang (Rsum (map (fun z => a z * (x z - y z)) l)) (Rsum (map (fun z => (a z - b z) * (y z - mean)) l))) as T.
  replace ((de + span * (Rsum (map (fun z => Rabs (a z - b z)) l) * / P)) * P) with (de * P + span * Rsum (map (fun z => Rabs (a z - b z)) l)) by (field; lra).
  assert (de * Rsum (map a l) <= de * P) by (apply Rmult_le_compat_l; unfold P; lra). lra.
Qed.

Lemma intensities_nonneg : forall (rays : list (ray_hit * ray_hit)), (forall r r', In (r, r') rays -> 0 <= hit_intensity r /\ 0 <= hit_intensity r') ->
  0 <= Rsum (map hit_intensity (map fst rays)) /\ 0 <= Rsum (map hit_intensity (map snd rays)).
Proof.
  intros rays H. split; rewrite map_map; apply Rsum_map_nonneg; intros (r & r') I; apply (H r r' I).
Qed.

(** Pairs of rays before and after a change. *)
Theorem spot_steady : forall width height (rays : list (ray_hit * ray_hit)) de du, (1 <= width)%nat -> (1 <= height)%nat -> 0 <= de -> 0 <= du ->
  (forall r r', In (r, r') rays -> inside_grid width height r /\ inside_grid width height r' /\ 0 <= hit_intensity r /\ 0 <= hit_intensity r'
     /\ Rabs (hit_e r - hit_e r') <= de /\ Rabs (hit_u r - hit_u r') <= du) ->
  let power := Rsum (map (fun '(r, _) => hit_intensity r) rays) in
  let change := Rsum (map (fun '(r, r') => Rabs (hit_intensity r - hit_intensity r')) rays) in
  exists image image' e u e' u', bilinear_splatting width height (map fst rays) = Ok image /\ bilinear_splatting width height (map snd rays) = Ok image'
    /\ center_of_mass height width (fun row column => nth column (nth row image []) 0) = Some (e, u)
    /\ center_of_mass height width (fun row column => nth column (nth row image' []) 0) = Some (e', u')
    /\ Rabs (e - e') <= de + (INR width - 1) * (change / (power + / 10 ^ 8))
    /\ Rabs (u - u') <= du + (INR height - 1) * (change / (power + / 10 ^ 8)).
Proof.
  intros width height rays de du W H DE DU HR power change.
  destruct (intensities_nonneg rays) as (P1 & P2); [intros r r' I; destruct (HR r r' I) as (_ & _ & A & B & _); auto|].
  assert (W1 := le_INR 1 width W). assert (H1 := le_INR 1 height H). cbn [INR] in W1, H1.
  destruct (splat_center_of_mass width height (map fst rays)) as (image & E & C); auto.
  { intros r I. apply in_map_iff in I. destruct I as ((s & s') & <- & I). apply (HR s s' I). }
  destruct (splat_center_of_mass width height (map snd rays)) as (image' & E' & C'); auto.
  { intros r I. apply in_map_iff in I. destruct I as ((s & s') & <- & I). apply (HR s s' I). }
  exists image, image'. do 4 eexists. split; [exact E|]. split; [exact E'|]. split; [exact C|]. split; [exact C'|].
  assert (MP : 0 < / 10 ^ 8) by (apply Rinv_0_lt_compat; lra).
  assert (EC : change = Rsum (map (fun z => Rabs (hit_intensity (fst z) - hit_intensity (snd z))) rays)) by (apply Rsum_map_ext; intros (r & r') _; auto).
  assert (EP : power = Rsum (map (fun z => hit_intensity (fst z)) rays)) by (apply Rsum_map_ext; intros (r & r') _; auto).
  rewrite EC, EP, !map_map. split.
  - apply (weighted_apart (fun z => hit_intensity (fst z)) (fun z => hit_intensity (snd z)) (fun z => hit_e (fst z)) (fun z => hit_e (snd z))); auto; [lra|].
    intros (r & r') I. destruct (HR r r' I) as (_ & (G & _) & A & B & X & _). cbn [fst snd]. repeat split; auto; lra.
  - apply (weighted_apart (fun z => hit_intensity (fst z)) (fun z => hit_intensity (snd z)) (fun z => INR height - 1 - hit_u (fst z)) (fun z => INR height - 1 - hit_u (snd z))); auto; [lra|].
    intros (r & r') I. destruct (HR r r' I) as (_ & (_ & G) & A & B & _ & X). cbn [fst snd]. repeat split; auto; try lra.
    replace (INR height - 1 - hit_u r - (INR height - 1 - hit_u r')) with (- (hit_u r - hit_u r')) by ring. rewrite Rabs_Ropp. auto.
Qed.

(** The same for rays hitting a planar area before and after their origins and directions have changed. *)
Lemma dot_bound : forall a b, unit b -> Rabs (dot a b) <= norm a.
Proof.
  intros a b U. pose proof (cauchy_schwarz a b) as C. unfold unit in U. rewrite U, Rmult_1_r in C. unfold norm. rewrite <- (sqrt_Rsqr_abs (dot a b)). apply sqrt_le_1_alt. exact C.
Qed.
(** From pixels to metres. *)
Lemma metres_apart : forall n size a b delta share, (1 <= n)%nat -> 0 < size -> 0 <= delta -> 0 <= share ->
  Rabs (a - b) <= (INR n - 1) * delta / size + (INR n - 1) * share ->
  Rabs ((/ 2 - (a + / 2) / INR n) * size - (/ 2 - (b + / 2) / INR n) * size) <= delta + size * share.
Proof.
  intros n size a b delta share N0 S0 D0 H0 H. pose proof (le_INR 1 n N0) as N. cbn [INR] in N.
  replace ((/ 2 - (a + / 2) / INR n) * size - (/ 2 - (b + / 2) / INR n) * size) with (- (size / INR n * (a - b))) by (field; lra).
  assert (F : 0 <= size / INR n) by (apply Rmult_le_pos; [lra|left; apply Rinv_0_lt_compat; lra]).
  rewrite Rabs_Ropp, Rabs_mult, (Rabs_pos_eq _ F). eapply Rle_trans; [apply Rmult_le_compat_l; [exact F|exact H]|].
  replace (size / INR n * ((INR n - 1) * delta / size + (INR n - 1) * share)) with ((1 - / INR n) * (delta + size * share)) by (field; lra).
  assert (0 <= delta + size * share) by (assert (0 <= size * share) by (apply Rmult_le_pos; lra); lra).
  assert (I : 0 < / INR n) by (apply Rinv_0_lt_compat; lra). assert (0 <= / INR n * (delta + size * share)) by (apply Rmult_le_pos; lra). lra.
Qed.
Theorem traced_steady : forall width height p (rays : list ((point * point * R) * (point * point * R) * R)) delta eta,
  (2 <= width)%nat -> (2 <= height)%nat -> sized p -> unit (plane_normal p) -> 0 <= delta -> 0 <= eta ->
  (forall o d t o' d' t' m, In ((o, d, t), (o', d', t'), m) rays ->
     hits_area p o d t /\ within_half_open p (along o d t) /\ hits_area p o' d' t' /\ within_half_open p (along o' d' t') /\ 0 <= m
     /\ norm (vsub (along o d t) (along o' d' t')) <= delta /\ norm (vsub d d') <= eta) ->
  let reflected := Rsum (map (fun '(_, _, m) => m) rays) in
  let received := Rsum (map (fun '((o, d, t), _, m) => m * - dot d (plane_normal p)) rays) in
  exists image image' e u e' u',
    bilinear_splatting width height (map (fun '((o, d, _), _, m) => hit_of (line_plane width height p o d m)) rays) = Ok image
    /\ bilinear_splatting width height (map (fun '(_, (o, d, _), m) => hit_of (line_plane width height p o d m)) rays) = Ok image'
    /\ center_of_mass height width (fun row column => nth column (nth row image []) 0) = Some (e, u)
    /\ center_of_mass height width (fun row column => nth column (nth row image' []) 0) = Some (e', u')
    /\ let spot := position (planar_target_coordinates width height p e u) in let spot' := position (planar_target_coordinates width height p e' u') in
       Rabs (pe spot - pe spot') <= delta + plane_width p * (eta * reflected / (received + / 10 ^ 8))
       /\ pn spot = pn spot'
       /\ Rabs (pu spot - pu spot') <= delta + plane_height p * (eta * reflected / (received + / 10 ^ 8)).
Proof.
  intros width height p rays delta eta W H SZ UN D0 E0 HR reflected received.
  set (pairs := map (fun '((o, d, _), (o', d', _), m) => (hit_of (line_plane width height p o d m), hit_of (line_plane width height p o' d' m))) rays : list (ray_hit * ray_hit)).
  assert (W1 := le_INR 2 width W). assert (H1 := le_INR 2 height H). cbn [INR] in W1, H1. assert (SZ' := SZ). destruct SZ' as (SW & SH).
  assert (DE : 0 <= (INR width - 1) * delta / plane_width p) by (apply Rmult_le_pos; [apply Rmult_le_pos; lra|left; apply Rinv_0_lt_compat; lra]).
  assert (DU : 0 <= (INR height - 1) * delta / plane_height p) by (apply Rmult_le_pos; [apply Rmult_le_pos; lra|left; apply Rinv_0_lt_compat; lra]).
  assert (IM : forall o d t o' d' t' m, In ((o, d, t), (o', d', t'), m) rays ->
     hit_intensity (hit_of (line_plane width height p o d m)) = m * - dot d (plane_normal p) /\ hit_intensity (hit_of (line_plane width height p o' d' m)) = m * - dot d' (plane_normal p)).
  { intros o d t o' d' t' m I. destruct (HR _ _ _ _ _ _ _ I) as (HA & _ & HA' & _). unfold hit_of. cbn [hit_intensity].
    rewrite (plane_hit width height p W H SZ o d m t HA), (plane_hit width height p W H SZ o' d' m t' HA'). auto. }
  destruct (spot_steady width height pairs ((INR width - 1) * delta / plane_width p) ((INR height - 1) * delta / plane_height p)) as (image & image' & e & u & e' & u' & E & E' & C & C' & BE & BU); auto; try lia.
  { intros r r' I. unfold pairs in I. apply in_map_iff in I. destruct I as (((((o, d), t), ((o', d'), t')), m) & Q & I).
    injection Q as <- <-. destruct (IM _ _ _ _ _ _ _ I) as (I1 & I2). destruct (HR _ _ _ _ _ _ _ I) as (HA & HO & HA' & HO' & M & DD & DN).
    split; [apply (half_open_inside width height p o d m t); auto|]. split; [apply (half_open_inside width height p o' d' m t'); auto|].
    rewrite I1, I2. pose proof (proj1 HA) as F. pose proof (proj1 HA') as F'.
    split; [apply Rmult_le_pos; lra|]. split; [apply Rmult_le_pos; lra|]. apply (pixels_apart width height p o o' d d' m m t t' delta); auto. }
  exists image, image', e, u, e', u'.
  split; [rewrite <- E; f_equal; unfold pairs; rewrite map_map; apply map_ext; intros ((((o, d), t), ((o', d'), t')), m); reflexivity|].
  split; [rewrite <- E'; f_equal; unfold pairs; rewrite map_map; apply map_ext; intros ((((o, d), t), ((o', d'), t')), m); reflexivity|].
  split; [exact C|]. split; [exact C'|].
  set (power := Rsum (map (fun '(r, _) => hit_intensity r) pairs)) in *. set (change := Rsum (map (fun '(r, r') => Rabs (hit_intensity r - hit_intensity r')) pairs)) in *.
  assert (EP : power = received).
  { unfold power, received, pairs. rewrite map_map. apply Rsum_map_ext. intros ((((o, d), t), ((o', d'), t')), m) I. apply (IM _ _ _ _ _ _ _ I). }
  assert (RP : 0 <= received).
  { apply Rsum_map_nonneg. intros ((((o, d), t), ((o', d'), t')), m) I. destruct (HR _ _ _ _ _ _ _ I) as ((F & _) & _ & _ & _ & M & _). apply Rmult_le_pos; lra. }
  assert (EC : 0 <= change <= eta * reflected).
  { split; [apply Rsum_map_nonneg; intros (r & r') _; apply Rabs_pos|].
    unfold change, reflected, pairs. rewrite map_map, <- Rsum_map_scal. apply Rsum_map_le. intros ((((o, d), t), ((o', d'), t')), m) I. destruct (IM _ _ _ _ _ _ _ I) as (I1 & I2).
    destruct (HR _ _ _ _ _ _ _ I) as (_ & _ & _ & _ & M & _ & DN). rewrite I1, I2.
    replace (m * - dot d (plane_normal p) - m * - dot d' (plane_normal p)) with (- (m * dot (vsub d d') (plane_normal p))) by (vunfold; ring).
    rewrite Rabs_Ropp, Rabs_mult, (Rabs_pos_eq m M), (Rmult_comm eta). apply Rmult_le_compat_l; auto. eapply Rle_trans; [apply dot_bound; auto|auto]. }
  assert (MP : 0 < / 10 ^ 8) by (apply Rinv_0_lt_compat; lra). rewrite EP in BE, BU.
  assert (PI : 0 < / (received + / 10 ^ 8)) by (apply Rinv_0_lt_compat; lra).
  assert (SC : 0 <= change / (received + / 10 ^ 8) <= eta * reflected / (received + / 10 ^ 8)).
  { split; [apply Rmult_le_pos; lra|apply Rmult_le_compat_r; lra]. }
  pose proof (metres_apart width (plane_width p) e e' delta (change / (received + / 10 ^ 8))) as ME. pose proof (metres_apart height (plane_height p) u u' delta (change / (received + / 10 ^ 8))) as MU.
  assert (LE : plane_width p * (change / (received + / 10 ^ 8)) <= plane_width p * (eta * reflected / (received + / 10 ^ 8))) by (apply Rmult_le_compat_l; lra).
  assert (LU : plane_height p * (change / (received + / 10 ^ 8)) <= plane_height p * (eta * reflected / (received + / 10 ^ 8))) by (apply Rmult_le_compat_l; lra).
  cbn [position planar_target_coordinates]. unfold position, planar_target_coordinates. cbn [vadd smul vec hv he hn hu pe pn pu].
  split; [|split; [ring|]].
  - eapply Rle_trans; [|eapply Rle_trans; [apply ME; auto; try lia; lra|lra]]. right. f_equal. ring.
  - eapply Rle_trans; [|eapply Rle_trans; [apply MU; auto; try lia; lra|lra]]. right. f_equal. ring.
Qed.

(** A mirror turned by its joints. *)
Theorem mirror_steady : forall width height p k m m' i (points : list (point * point * R * R * R)) d1 d2 slant far radius,
  (2 <= width)%nat -> (2 <= height)%nat -> sized p -> unit (plane_normal p) -> unit i -> 0 < slant ->
  Rabs (to_angle (k_drive_1 k) (fst m) - to_angle (k_drive_1 k) (fst m')) <= d1 ->
  Rabs (to_angle (k_drive_2 k) (snd m) - to_angle (k_drive_2 k) (snd m')) <= d2 -> 0 <= far -> 0 <= radius ->
  let origin m x := enu (mapply (motor_positions_to_orientation k m) (as_point x)) in
  let ray m v := reflect i (enu (mapply (motor_positions_to_orientation k m) (as_direction v))) in
  (forall x v t t' power, In (x, v, t, t', power) points -> unit v /\ norm x <= radius /\ 0 <= power
     /\ hits_area p (origin m x) (ray m v) t /\ within_half_open p (along (origin m x) (ray m v) t) /\ slant <= - dot (ray m v) (plane_normal p)
     /\ hits_area p (origin m' x) (ray m' v) t' /\ within_half_open p (along (origin m' x) (ray m' v) t') /\ Rabs t' <= far) ->
  let moved := (1 + / slant) * (d1 * (norm (k_translation_2 k) + norm (k_translation_c k) + radius) + d2 * (norm (k_translation_c k) + radius)) in
  let image_of m := bilinear_splatting width height (map (fun '(x, v, _, _, power) => hit_of (line_plane width height p (origin m x) (ray m v) power)) points) in
  exists image image' e u e' u', image_of m = Ok image /\ image_of m' = Ok image'
    /\ center_of_mass height width (fun row column => nth column (nth row image []) 0) = Some (e, u)
    /\ center_of_mass height width (fun row column => nth column (nth row image' []) 0) = Some (e', u')
    /\ let spot := position (planar_target_coordinates width height p e u) in let spot' := position (planar_target_coordinates width height p e' u') in
       Rabs (pe spot - pe spot') <= moved + (far + plane_width p) / slant * (2 * (d1 + d2))
       /\ pn spot = pn spot'
       /\ Rabs (pu spot - pu spot') <= moved + (far + plane_height p) / slant * (2 * (d1 + d2)).
Proof.
  intros width height p k m m' i points d1 d2 slant far radius W H SZ UN UI SL D1 D2 F0 R0 origin ray HP moved image_of.
  assert (P1 : 0 <= d1) by (eapply Rle_trans; [apply Rabs_pos|exact D1]). assert (P2 : 0 <= d2) by (eapply Rle_trans; [apply Rabs_pos|exact D2]).
  assert (LX : 0 <= norm (k_translation_2 k)) by apply norm_nonneg. assert (LC : 0 <= norm (k_translation_c k)) by apply norm_nonneg.
  assert (SI : 0 < / slant) by (apply Rinv_0_lt_compat; auto).
  assert (G0 : 0 <= d1 * (norm (k_translation_2 k) + norm (k_translation_c k) + radius) + d2 * (norm (k_translation_c k) + radius)) by (apply Rplus_le_le_0_compat; apply Rmult_le_pos; lra).
  assert (M0 : 0 <= moved) by (apply Rmult_le_pos; lra).
  assert (T0 : 0 <= far / slant * (2 * (d1 + d2))) by (apply Rmult_le_pos; [apply Rmult_le_pos; lra|lra]).
  set (rays := map (fun '(x, v, t, t', power) => ((origin m x, ray m v, t), (origin m' x, ray m' v, t'), power)) points : list ((point * point * R) * (point * point * R) * R)).
  assert (VN : forall v m, unit v -> unit (enu (mapply (motor_positions_to_orientation k m) (as_direction v)))).
  { intros v m0 V. assert (RI : rigid (motor_positions_to_orientation k m0)) by (unfold motor_positions_to_orientation, forward; apply rigid_mmul; [apply pose_rigid|apply offsets_rigid]).
    destruct RI as (_ & _ & _ & _ & D & _). unfold unit. rewrite D. auto. }
  destruct (traced_steady width height p rays (moved + far / slant * (2 * (d1 + d2))) (2 * (d1 + d2))) as (image & image' & e & u & e' & u' & E & E' & C & C' & B); auto; try lra.
  { intros o d t o' d' t' power I. unfold rays in I. apply in_map_iff in I. destruct I as (((((x, v), s), s'), q) & Q & I). injection Q as <- <- <- <- <- <- <-.
    destruct (HP _ _ _ _ _ I) as (UV & NX & PW & HA & HO & SD & HA' & HO' & FA). do 5 (split; [auto; fail|]). split.
    - eapply Rle_trans; [apply (spot_of_mirror k m m' x v i p s s' d1 d2); auto|]. cbv beta zeta. change (reflect i (enu (mapply (motor_positions_to_orientation k m) (as_direction v)))) with (ray m v).
      set (c := - dot (ray m v) (plane_normal p)) in *. assert (CI : 0 < / c <= / slant) by (split; [apply Rinv_0_lt_compat; lra|apply Rinv_le_contravar; lra]).
      apply Rplus_le_compat.
      + assert (NX0 : 0 <= norm x) by apply norm_nonneg. unfold moved. apply Rmult_le_compat; [lra| |lra|].
        * apply Rplus_le_le_0_compat; apply Rmult_le_pos; lra.
        * apply Rplus_le_compat; apply Rmult_le_compat_l; lra.
      + apply Rmult_le_compat_r; [lra|]. apply Rmult_le_compat; try lra. apply Rabs_pos.
    - eapply Rle_trans; [apply turned_chord; auto|]. apply Rmult_le_compat_l; [lra|]. eapply Rle_trans; [apply (normals_turned k k m m' v)|].
      rewrite !Rminus_diag_eq by auto. rewrite (proj2 (norm_unit_dot v) UV), !Rabs_R0. lra. }
  exists image, image', e, u, e', u'.
  split; [unfold image_of; rewrite <- E; f_equal; unfold rays; rewrite map_map; apply map_ext; intros ((((x, v), s), s'), q); reflexivity|].
  split; [unfold image_of; rewrite <- E'; f_equal; unfold rays; rewrite map_map; apply map_ext; intros ((((x, v), s), s'), q); reflexivity|].
  split; [exact C|]. split; [exact C'|]. cbn zeta in B |- *. destruct B as (BE & BN & BU).
  set (reflected := Rsum (map (fun '(_, _, q) => q) rays)) in *. set (received := Rsum (map (fun '((o, d, t), _, q) => q * - dot d (plane_normal p)) rays)) in *.
  assert (QR : 0 <= reflected /\ slant * reflected <= received).
  { split.
    - apply Rsum_map_nonneg. intros ((a, b), q) I. unfold rays in I. apply in_map_iff in I. destruct I as (((((x, v), s), s'), q') & Q & I). injection Q as <- <- <-.
      destruct (HP _ _ _ _ _ I) as (_ & _ & PW & _). auto.
    - unfold reflected, received. rewrite <- Rsum_map_scal. apply Rsum_map_le. intros ((((o, d), t), b), q) I. unfold rays in I. apply in_map_iff in I.
      destruct I as (((((x, v), s), s'), q') & Q & I). injection Q as <- <- <- <- <-. destruct (HP _ _ _ _ _ I) as (_ & _ & PW & _ & _ & SD & _).
      rewrite Rmult_comm. apply Rmult_le_compat_l; auto. }
  destruct QR as (Q0 & Q1). assert (MP : 0 < / 10 ^ 8) by (apply Rinv_0_lt_compat; lra). assert (Q2 : 0 <= slant * reflected) by (apply Rmult_le_pos; lra).
  assert (SH : 2 * (d1 + d2) * reflected / (received + / 10 ^ 8) <= / slant * (2 * (d1 + d2))).
  { apply Rmult_le_reg_r with (received + / 10 ^ 8); [lra|].
    replace (2 * (d1 + d2) * reflected / (received + / 10 ^ 8) * (received + / 10 ^ 8)) with (2 * (d1 + d2) * reflected) by (field; lra).
    replace (2 * (d1 + d2) * reflected) with (/ slant * (2 * (d1 + d2)) * (slant * reflected)) by (field; lra).
    apply Rmult_le_compat_l; [apply Rmult_le_pos; lra|lra]. }
  destruct SZ as (SW & SHT).
  assert (LE := Rmult_le_compat_l _ _ _ (Rlt_le _ _ SW) SH). assert (LU := Rmult_le_compat_l _ _ _ (Rlt_le _ _ SHT) SH).
  split; [|split; [exact BN|]].
  - eapply Rle_trans; [exact BE|]. replace ((far + plane_width p) / slant * (2 * (d1 + d2))) with (far / slant * (2 * (d1 + d2)) + plane_width p * (/ slant * (2 * (d1 + d2)))) by (unfold Rdiv; ring). lra.
  - eapply Rle_trans; [exact BU|]. replace ((far + plane_height p) / slant * (2 * (d1 + d2))) with (far / slant * (2 * (d1 + d2)) + plane_height p * (/ slant * (2 * (d1 + d2)))) by (unfold Rdiv; ring). lra.
Qed.
