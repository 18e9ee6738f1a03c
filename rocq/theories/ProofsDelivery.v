(** Proofs about heliostats that are activated, aligned and traced (C124). *)
From Coq Require Import List Arith ZArith Reals Bool Lra Lia Psatz.
From Verif Require Import RealSums ModelField ModelVectors ProofsVectors ModelTransforms ModelIntersections ModelSplatting ModelBitmap ModelCoordinates ModelKinematics ModelTrace SpecIntersections
  SpecTransforms SpecSplatting SpecCoordinates SpecKinematics SpecTrace ProofsTransforms ProofsIntersections ProofsCoordinates ProofsAlignment ProofsAlignHistory ProofsMounting ProofsTrace ProofsTraceBatch ProofsTracePower SpecDelivery.
Import ListNotations.
Local Open Scope R_scope.

(** ** Where a ray hits that is slightly off *)
Lemma off_ray : forall p o aim d d' v error far cosine, unit (plane_normal p) -> unit d -> unit d' -> on_plane p aim ->
  aim = along o d (norm (vsub aim o)) -> norm (vsub aim o) <= far -> cosine <= - dot d (plane_normal p) -> norm (vsub d' d) <= error -> error < cosine ->
  0 <= error -> cosine - error <= - dot d' (plane_normal p)
  /\ forall t, on_plane p (along (vadd o v) d' t) -> norm (vsub (along (vadd o v) d' t) aim) <= spot_radius error far cosine (norm v).
Proof.
  intros p o aim d d' v error far cosine UN UD UD' OA EA FAR CO ER EC E0.
  assert (ND : Rabs (dot (plane_normal p) (vsub d' d)) <= norm (vsub d' d)) by (apply abs_dot; auto).
  assert (DC : cosine - error <= - dot d' (plane_normal p)).
  { assert (EQ : dot d' (plane_normal p) = dot d (plane_normal p) + dot (plane_normal p) (vsub d' d)) by (vunfold; ring).
    rewrite EQ. pose proof (Rle_abs (dot (plane_normal p) (vsub d' d))). lra. }
  split; auto. intros t OT. set (N := plane_normal p) in *. set (far' := norm (vsub aim o)) in *.
  set (w := vadd v (smul far' (vsub d' d))).
  assert (HE : vsub (along (vadd o v) d' t) aim = vadd w (smul (t - far') d')).
  { rewrite EA. unfold w, along. fold far'. vring. }
  assert (HN : dot w N + (t - far') * dot d' N = 0).
  { transitivity (dot (vsub (along (vadd o v) d' t) aim) N); [rewrite HE; vunfold; ring|].
    transitivity (dot (vsub (along (vadd o v) d' t) (plane_center p)) N - dot (vsub aim (plane_center p)) N); [vunfold; ring|].
    unfold on_plane in OT, OA. fold N in OT, OA. lra. }
  assert (W : norm w <= error * far + norm v).
  { unfold w. eapply Rle_trans; [apply norm_triangle|]. rewrite norm_smul. assert (F0 : 0 <= far') by apply norm_nonneg.
    rewrite (Rabs_pos_eq far') by auto. pose proof (norm_nonneg (vsub d' d)). nra. }
  assert (T : Rabs (t - far') <= norm w * / (cosine - error)).
  { pose proof (abs_dot N w UN) as AW. assert (P : 0 < cosine - error) by lra.
    apply (Rmult_le_reg_r (cosine - error)); auto. rewrite Rmult_assoc, Rinv_l, Rmult_1_r by lra.
    apply Rle_trans with (Rabs (t - far') * - dot d' N); [apply Rmult_le_compat_l; [apply Rabs_pos|auto]|].
    rewrite <- (Rabs_pos_eq (- dot d' N)) by lra. rewrite <- Rabs_mult. replace ((t - far') * - dot d' N) with (dot N w); auto.
    replace (dot N w) with (dot w N) by (vunfold; ring). lra. }
  rewrite HE. eapply Rle_trans; [apply norm_triangle|]. rewrite norm_smul. replace (norm d') with 1 by (symmetry; apply norm_unit_dot; auto).
  unfold spot_radius. pose proof (norm_nonneg w). assert (0 < / (cosine - error)) by (apply Rinv_0_lt_compat; lra). nra.
Qed.

(** ** The surfaces after activation and alignment *)
Lemma mean_moved : forall o local, local <> [] ->
  mean_point (map (fun x => (enu (mapply o (as_point x)), enu (mapply o (as_direction up)))) local) = enu (mapply o (as_point (mean_of local))).
Proof.
  intros o local NE. assert (N : 0 < INR (List.length local)) by (apply lt_0_INR; destruct local; [congruence|cbn; lia]).
  assert (LIN : forall (f : hvec -> R) a b c d, (forall x, f (mapply o x) = a * he x + b * hn x + c * hu x + d * hw x) ->
     Rsum (map (fun x => f (mapply o (as_point x))) local) / INR (List.length local) = f (mapply o (as_point (mean_of local)))).
  { intros f a b c d F. rewrite F. unfold mean_of, mean_point. rewrite map_length, !map_map. cbn [fst pe pn pu vec as_point he hn hu hw hv].
    transitivity (Rsum (map (fun x => a * pe x + b * pn x + c * pu x + d) local) / INR (List.length local)).
    - f_equal. apply Rsum_map_ext. intros x _. rewrite F. cbn [as_point he hn hu hw hv]. ring.
    - rewrite !Rsum_map_plus, !Rsum_map_scal, Rsum_map_const. change (map (fun x : point => pe x) local) with (map pe local). change (map (fun x : point => pn x) local) with (map pn local). change (map (fun x : point => pu x) local) with (map pu local). field. lra. }
  unfold mean_point. rewrite map_length, !map_map. cbn [fst]. unfold enu. cbn [pe pn pu vec]. f_equal.
  - eapply (LIN he). intros x. unfold mapply, hdot. cbn [he hv]. reflexivity.
  - eapply (LIN hn). intros x. unfold mapply, hdot. cbn [hn hv]. reflexivity.
  - eapply (LIN hu). intros x. unfold mapply, hdot. cbn [hu hv]. reflexivity.
Qed.
Lemma aligned_rows : forall g mask rays g1 g2 active j h incident aim,
  perform g (Activate mask) = (g1, None) -> perform g1 (AlignIncident mask rays) = (g2, None) ->
  repeat_interleave (gr_heliostats g) mask = Ok active -> nth_error active j = Some h -> nth_error rays j = Some (incident, aim) ->
  exists batch os ms, incident_ray_directions_to_orientations 4 (/ 10 ^ 4) batch = Ok (os, ms)
    /\ nth_error batch j = Some {| rq_kinematics := h_kinematics h; rq_incident := incident; rq_aim := aim |}
    /\ forall o, nth_error os j = Some o ->
       nth_error (s_points (gr_surfaces g2)) j = Some (map (mapply o) (h_points h))
       /\ nth_error (s_normals (gr_surfaces g2)) j = Some (map (mapply o) (h_normals h)).
Proof.
  intros g mask rays g1 g2 active j h incident aim P1 P2 RI NA NR. cbn [perform] in P1. rewrite RI in P1. injection P1 as <-.
  cbn [perform gr_surfaces gr_active gr_heliostats] in P2. unfold align_with_incident in P2. cbn [s_mask] in P2.
  unfold list_nat_eqb in P2. destruct (list_eq_dec Nat.eq_dec mask mask) as [_|]; [|congruence].
  set (batch := map _ _) in P2. destruct (incident_ray_directions_to_orientations 4 (/ 10 ^ 4) batch) as [(os, ms)|] eqn:EI; [|discriminate].
  cbn [bind] in P2. injection P2 as <-. exists batch, os, ms. split; auto. split.
  - unfold batch. rewrite nth_error_map, (nth_combine _ _ j (h_kinematics h) (incident, aim)); auto. rewrite nth_error_map, NA. auto.
  - intros o NO. cbn [gr_surfaces apply_orientations s_points s_normals]. unfold transform_all.
    rewrite !nth_error_map, (nth_combine _ _ j o (h_points h)), (nth_combine _ _ j o (h_normals h)); auto; try (rewrite nth_error_map, NA; auto).
Qed.

Theorem group_delivers : forall g mask rays g1 g2 active j h local incident aim p near far cosine size,
  perform g (Activate mask) = (g1, None) -> perform g1 (AlignIncident mask rays) = (g2, None) ->
  repeat_interleave (gr_heliostats g) mask = Ok active -> nth_error active j = Some h -> nth_error rays j = Some (incident, aim) ->
  lying_flat h local -> local <> [] -> (forall x, In x local -> norm x <= size) ->
  let k := h_kinematics h in let error := aim_error k near in
  well_placed k incident aim p near far cosine -> error < cosine ->
  (forall x, on_plane p x -> norm (vsub x aim) <= spot_radius error far cosine size -> within_area p x /\ within_half_open p x) ->
  exists points normals, nth_error (s_points (gr_surfaces g2)) j = Some points /\ nth_error (s_normals (gr_surfaces g2)) j = Some normals
  /\ forall width height magnitude extinction reflectivity distortions,
     (2 <= width)%nat -> (2 <= height)%nat -> 0 < magnitude -> 0 <= extinction < 1 -> 0 < reflectivity ->
     let s := {| s_incident := incident; s_surface := combine (map enu points) (map enu normals); s_target := PlanarTarget p; s_distortions := distortions |} in
     distortions <> [] -> (forall row, In row distortions -> row = repeat (0, 0) (List.length local)) ->
     exists t e u spot steepness, trace_sample width height magnitude extinction reflectivity s (repeat 0 (List.length (sample_rays s))) = Ok t
     /\ center_of_mass height width (fun row column => nth column (nth row (t_bitmap t) []) 0) = Some (e, u)
     /\ on_plane p spot /\ norm (vsub spot aim) <= spot_radius error far cosine (norm (mean_of local))
     /\ cosine - error <= steepness <= 1
     /\ let power := reflectivity * (1 - extinction) * magnitude * INR (List.length distortions * List.length local) * steepness in
        let share := power / (power + / 10 ^ 8) in
        let c := plane_center p in
        image_total (t_bitmap t) = power
        /\ position (planar_target_coordinates width height p e u)
           = vec (pe c + (1 - / INR width) * (share * (pe spot - pe c) + (1 - share) * (plane_width p / 2))) (pn c)
                 (pu c + (1 - / INR height) * (share * (pu spot - pu c) + (1 - share) * (plane_height p / 2))).
Proof.
  intros g mask rays g1 g2 active j h local incident aim p near far cosine size P1 P2 RI NA NR (LP & LN) NE SZ k error WP EC AR.
  destruct WP as (UI & SP & UP & OA & NEAR & ALL).
  destruct (aligned_rows _ _ _ _ _ _ _ _ _ _ P1 P2 RI NA NR) as (batch & os & ms & EI & NB & ROWS).
  assert (P8 : 0 < / 10 ^ 8) by lra.
  pose proof (aligned_with_translations 4 (/ 10 ^ 4) batch os ms j _ near ltac:(lia) EI NB) as AT. cbn [rq_kinematics rq_incident rq_aim] in AT.
  destruct (AT UI ltac:(lra)) as (o & NO & CE & DE).
  { intros q Q. destruct (ALL q Q) as ((Q1 & Q2) & Q3 & Q4 & Q5 & Q6). split; [exact Q1|]. split; [lra|]. auto. }
  fold k in CE, DE. destruct (ROWS o NO) as (RP & RN).
  assert (RG : rigid o) by (apply nth_error_In in NO; eapply alignment_rigid; eauto).
  set (centre := enu (mapply o (as_point (vec 0 0 0)))) in *. set (n := enu (mapply o (as_direction up))) in *.
  destruct (ALL centre CE) as ((Q1 & Q2) & Q3 & Q4 & _). set (d := direction_to centre aim) in *. set (d' := reflect incident n) in *.
  assert (UN : unit n).
  { unfold unit, n. destruct RG as (_ & _ & _ & _ & RD & _). rewrite RD. unfold up. vunfold. ring. }
  assert (UD' : unit d') by (unfold unit, d'; destruct (reflect_law incident n UN) as (RL & _); rewrite RL; exact UI).
  assert (UD : unit d).
  { unfold unit, d, direction_to. apply norm_unit_dot. rewrite norm_smul, Rabs_pos_eq; [apply Rinv_l; lra|]. left. apply Rinv_0_lt_compat. lra. }
  assert (EA : aim = along centre d (norm (vsub aim centre))).
  { assert (NA' : norm (vsub aim centre) <> 0) by lra. unfold d, direction_to, along. apply point_eq; vunfold; cbn [pe pn pu]; field; auto. }
  assert (E0 : 0 <= error).
  { unfold error, aim_error. assert (0 <= 2 * arm_length k / near); [|lra]. apply Rmult_le_pos; [|left; apply Rinv_0_lt_compat; lra].
    unfold arm_length. pose proof (norm_nonneg (k_translation_2 k)). pose proof (norm_nonneg (k_translation_c k)). lra. }
  assert (OFF : forall x, cosine - error <= - dot d' (plane_normal p)
     /\ forall t, on_plane p (along (enu (mapply o (as_point x))) d' t) -> norm (vsub (along (enu (mapply o (as_point x))) d' t) aim) <= spot_radius error far cosine (norm x)).
  { intros x. set (v := vsub (enu (mapply o (as_point x))) centre).
    assert (NV : norm v = norm x).
    { unfold v, centre. destruct RG as (_ & _ & RD & _). rewrite RD. f_equal. vring. }
    assert (EV : vadd centre v = enu (mapply o (as_point x))) by (unfold v; vring).
    pose proof (off_ray p centre aim d d' v error far cosine UP UD UD' OA EA Q2 Q3 DE EC E0) as OR. rewrite EV, NV in OR. exact OR. }
  destruct (OFF (vec 0 0 0)) as (CO & _).
  assert (ST : - dot d' (plane_normal p) <= 1).
  { pose proof (abs_dot d' (plane_normal p) UD') as A. replace (norm (plane_normal p)) with 1 in A by (symmetry; apply norm_unit_dot; auto).
    pose proof (Rle_abs (- dot d' (plane_normal p))) as B. rewrite Rabs_Ropp in B. lra. }
  exists (map (mapply o) (h_points h)), (map (mapply o) (h_normals h)). split; auto. split; auto.
  intros width height magnitude extinction reflectivity distortions W H M X F s ND ZR.
  assert (SU : s_surface s = map (fun x => (enu (mapply o (as_point x)), n)) local).
  { unfold s. cbn [s_surface]. rewrite LP, LN, !map_map. clear. induction local as [|x l IH]; auto. cbn [map combine]. f_equal. apply IH. }
  assert (SL : List.length (s_surface s) = List.length local) by (rewrite SU; apply map_length).
  set (par := fun x => dot (vsub (plane_center p) (enu (mapply o (as_point x)))) (plane_normal p) / dot d' (plane_normal p)).
  assert (PAR : forall x, on_plane p (along (enu (mapply o (as_point x))) d' (par x))).
  { intros x. unfold on_plane, along, par. set (q := enu (mapply o (as_point x))). clearbody q. clear - CO EC.
    transitivity (dot (vsub q (plane_center p)) (plane_normal p) + dot (vsub (plane_center p) q) (plane_normal p) / dot d' (plane_normal p) * dot d' (plane_normal p)).
    - vunfold. ring.
    - unfold Rdiv. rewrite Rmult_assoc, Rinv_l by lra. vunfold. ring. }
  set (spot := along (enu (mapply o (as_point (mean_of local)))) d' (par (mean_of local))).
  assert (MP : mean_point (s_surface s) = enu (mapply o (as_point (mean_of local)))) by (rewrite SU; apply mean_moved; auto).
  destruct (flat_mirror_spot width height magnitude extinction reflectivity s p n spot (par (mean_of local)) W H M X F) as (t & e & u & TR & CM & PW & TO & PO).
  - split; [exact UI|]. split; [intros q m I; rewrite SU in I; apply in_map_iff in I; destruct I as (x & E & _); injection E as <- <-; exact UN|].
    split; [split; auto|]. intros row I. cbn [s_distortions s] in I. rewrite (ZR row I), repeat_length. auto.
  - auto.
  - rewrite SU. destruct local; [congruence|discriminate].
  - auto.
  - intros row a I A. cbn [s_distortions s] in I. rewrite (ZR row I) in A. apply repeat_spec in A. auto.
  - intros q m I. rewrite SU in I. apply in_map_iff in I. destruct I as (x & E & _). injection E as <- <-. auto.
  - rewrite MP. reflexivity.
  - apply PAR.
  - intros q m I. rewrite SU in I. apply in_map_iff in I. destruct I as (x & E & I). injection E as <- <-. exists (par x).
    destruct (AR (along (enu (mapply o (as_point x))) d' (par x)) (PAR x)) as (A1 & A2).
    { eapply Rle_trans; [apply OFF; apply PAR|]. unfold spot_radius. pose proof (SZ x I). apply Rmult_le_compat_r; [|lra].
      assert (0 < / (cosine - error)) by (apply Rinv_0_lt_compat; lra). lra. }
    split; auto. split; [cbn [s_incident s]; fold d'; lra|]. split; [apply PAR|auto].
  - cbn [s_incident s] in PW, TO, PO. fold d' in PW, TO, PO.
    assert (RC : ray_count s = (List.length distortions * List.length local)%nat) by (unfold ray_count; rewrite SL; reflexivity).
    rewrite RC in *. exists t, e, u, spot, (- dot d' (plane_normal p)). split; [exact TR|]. split; [exact CM|].
    split; [apply PAR|]. split; [apply OFF; apply PAR|]. split; [split; auto|]. split; [exact TO|exact PO].
Qed.

(** ** Rays spread by the sun *)
(** All rays of a sample hit: the power and the focal spot. *)
Theorem bundle : forall width height magnitude extinction reflectivity s p (par : point * point -> R),
  (2 <= width)%nat -> (2 <= height)%nat -> 0 < magnitude -> 0 <= extinction < 1 -> 0 < reflectivity ->
  s_target s = PlanarTarget p -> sized p -> sample_rays s <> [] ->
  (forall ray, In ray (sample_rays s) -> hits_area p (fst ray) (snd ray) (par ray) /\ within_half_open p (along (fst ray) (snd ray) (par ray))) ->
  let full := reflectivity * (1 - extinction) * magnitude in
  let steep ray := - dot (snd ray) (plane_normal p) in
  let total := Rsum (map steep (sample_rays s)) in
  let mean f := Rsum (map (fun ray => steep ray * f (along (fst ray) (snd ray) (par ray))) (sample_rays s)) / total in
  exists t e u, trace_sample width height magnitude extinction reflectivity s (repeat 0 (List.length (sample_rays s))) = Ok t
    /\ center_of_mass height width (fun row column => nth column (nth row (t_bitmap t) []) 0) = Some (e, u)
    /\ 0 < total /\ image_total (t_bitmap t) = full * total
    /\ let share := full * total / (full * total + / 10 ^ 8) in
       let c := plane_center p in
       position (planar_target_coordinates width height p e u)
       = vec (pe c + (1 - / INR width) * (share * (mean pe - pe c) + (1 - share) * (plane_width p / 2))) (pn c)
             (pu c + (1 - / INR height) * (share * (mean pu - pu c) + (1 - share) * (plane_height p / 2))).
Proof.
  intros width height magnitude extinction reflectivity s p par W H M X F TP S NE HA full steep total mean.
  assert (M0 : 0 < full) by (unfold full; apply Rmult_lt_0_compat; [apply Rmult_lt_0_compat; lra|auto]).
  set (rays := map (fun ray : point * point => (fst ray, snd ray, full, par ray)) (sample_rays s)).
  assert (EM : map (fun '(q, d, m, t) => (q, d, m)) rays = map (fun '(q, d) => (q, d, full)) (sample_rays s)).
  { unfold rays. rewrite !map_map. apply map_ext. intros (a & b). auto. }
  assert (HR : forall q d m t, In (q, d, m, t) rays -> hits_area p q d t /\ within_half_open p (along q d t) /\ 0 <= m).
  { intros q d m t I. unfold rays in I. apply in_map_iff in I. destruct I as (ray & E & I). injection E as <- <- <- <-.
    destruct (HA ray I). repeat split; try apply H0; try apply H1. lra. }
  assert (T0 : 0 < total).
  { unfold total, steep. destruct (sample_rays s) as [|ray l] eqn:ES; [congruence|]. cbn [map Rsum fold_right].
    destruct (HA ray (or_introl eq_refl)) as ((A & _) & _). assert (B : 0 <= Rsum (map steep l)); [|unfold steep, Rsum in B; lra].
    apply Rsum_nonneg. intros x I. apply in_map_iff in I. destruct I as (r & <- & I). destruct (HA r (or_intror I)) as ((C & _) & _). unfold steep. lra. }
  assert (PW : Rsum (map (fun '(q, d, m, t) => m * - dot d (plane_normal p)) rays) = full * total).
  { unfold rays, total. rewrite map_map, <- Rsum_map_scal. apply Rsum_map_ext. auto. }
  assert (SUM : forall f : point -> R, Rsum (map (fun '(q, d, m, t) => m * - dot d (plane_normal p) * f (along q d t)) rays)
     = full * Rsum (map (fun ray => steep ray * f (along (fst ray) (snd ray) (par ray))) (sample_rays s))).
  { intros f. unfold rays. rewrite map_map, <- Rsum_map_scal. apply Rsum_map_ext. intros ray _. unfold steep. ring. }
  destruct (focal_spot width height p rays W H S HR) as (image & e & u & EI & EC & EP).
  { rewrite PW. apply Rmult_lt_0_compat; auto. }
  assert (HITS : planar_hits width height p (map (fun '(q, d, m, t) => (q, d, m)) rays)
    = map (fun '(i, b) => {| hit_e := i_e i; hit_u := i_u i; hit_intensity := ray_intensity extinction reflectivity (i_intensity i) b |})
          (combine (sample_intersections width height magnitude s) (repeat 0 (List.length (sample_rays s))))).
  { rewrite EM. unfold planar_hits.
    replace (List.length (sample_rays s)) with (List.length (sample_intersections width height magnitude s)) by (unfold sample_intersections; apply map_length).
    rewrite combine_repeat. unfold sample_intersections. rewrite !map_map. apply map_ext. intros (q & d').
    rewrite TP. cbn [intersect]. unfold hit_of, line_plane, ray_intensity, full. cbn [i_e i_u i_intensity]. f_equal. ring. }
  assert (TOT : image_total image = full * total).
  { destruct (area_power width height p (map (fun '(q, d, m, t) => (q, d, m)) rays) W H S) as (image' & EI' & T).
    - intros q d' m' I. apply in_map_iff in I. destruct I as ((((q1 & d1) & m1) & t1) & E & I). injection E as -> -> ->.
      destruct (HR q d' m' t1 I) as (B1 & B2 & _). eauto.
    - unfold planar_hits in EI. rewrite EI' in EI. injection EI as <-. rewrite T, map_map. rewrite <- PW. apply Rsum_map_ext.
      intros (((q1 & d1) & m1) & t1) _. auto. }
  unfold trace_sample. rewrite <- HITS, EI. cbn [bind]. eexists. exists e, u. split; [reflexivity|]. cbn [t_bitmap].
  split; [exact EC|]. split; auto. split; [exact TOT|]. cbv zeta in EP |- *. rewrite EP, PW, (SUM pe), (SUM pu). unfold mass_eps.
  assert (Q : forall x, full * x / (full * total) = x / total) by (intros x; field; lra).
  rewrite !Q. reflexivity.
Qed.

(** Weighted means stay in balls and planes. *)
Definition weighted (f : point -> R) (l : list (R * point)) : R := Rsum (map (fun x => fst x * f (snd x)) l).
Lemma weighted_ball : forall l a r, 0 <= r -> (forall w x, In (w, x) l -> 0 <= w /\ norm (vsub x a) <= r) ->
  norm (vec (weighted (fun x => pe x - pe a) l) (weighted (fun x => pn x - pn a) l) (weighted (fun x => pu x - pu a) l)) <= Rsum (map fst l) * r.
Proof.
  intros l a r R0 H. induction l as [|(w, x) l IH].
  - unfold weighted. cbn [map Rsum fold_right]. replace (vec 0 0 0) with (smul 0 a) by vring. rewrite norm_smul, Rabs_R0. lra.
  - unfold weighted in *. cbn [map Rsum fold_right fst snd]. fold (Rsum (map fst l)).
    fold (Rsum (map (fun y : R * point => fst y * (pe (snd y) - pe a)) l)). fold (Rsum (map (fun y : R * point => fst y * (pn (snd y) - pn a)) l)).
    fold (Rsum (map (fun y : R * point => fst y * (pu (snd y) - pu a)) l)).
    set (A := Rsum (map (fun y : R * point => fst y * (pe (snd y) - pe a)) l)) in *. set (B := Rsum (map (fun y : R * point => fst y * (pn (snd y) - pn a)) l)) in *.
    set (C := Rsum (map (fun y : R * point => fst y * (pu (snd y) - pu a)) l)) in *.
    replace (vec (w * (pe x - pe a) + A) (w * (pn x - pn a) + B) (w * (pu x - pu a) + C)) with (vadd (smul w (vsub x a)) (vec A B C)) by vring.
    eapply Rle_trans; [apply norm_triangle|]. rewrite norm_smul. destruct (H w x (or_introl eq_refl)) as (W0 & WX). rewrite Rabs_pos_eq by auto.
    specialize (IH (fun w x I => H w x (or_intror I))). nra.
Qed.
Lemma weighted_mean : forall l a r, 0 <= r -> 0 < Rsum (map fst l) -> (forall w x, In (w, x) l -> 0 <= w /\ norm (vsub x a) <= r) ->
  let mean := vec (weighted pe l / Rsum (map fst l)) (weighted pn l / Rsum (map fst l)) (weighted pu l / Rsum (map fst l)) in
  norm (vsub mean a) <= r /\ forall p, (forall w x, In (w, x) l -> on_plane p x) -> on_plane p mean.
Proof.
  intros l a r R0 T0 H mean. set (T := Rsum (map fst l)) in *.
  assert (C : forall (f : point -> R) k, weighted (fun x => f x - k) l = weighted f l - T * k).
  { intros f k. unfold weighted, T. rewrite <- Rsum_map_scal_r, <- Rsum_map_minus. apply Rsum_map_ext. intros x _. ring. }
  split.
  - pose proof (weighted_ball l a r R0 H) as B. fold T in B.
    replace (vsub mean a) with (smul (/ T) (vec (weighted (fun x => pe x - pe a) l) (weighted (fun x => pn x - pn a) l) (weighted (fun x => pu x - pu a) l))).
    + rewrite norm_smul, Rabs_pos_eq by (left; apply Rinv_0_lt_compat; auto). apply (Rmult_le_reg_l T); auto.
      rewrite <- Rmult_assoc, Rinv_r, Rmult_1_l by lra. exact B.
    + rewrite !C. unfold mean. apply point_eq; cbn [pe pn pu vec vsub smul]; field; lra.
  - intros p OP. unfold on_plane, mean. apply (Rmult_eq_reg_l T); [|lra]. rewrite Rmult_0_r.
    transitivity (weighted (fun x => dot (vsub x (plane_center p)) (plane_normal p)) l).
    + unfold dot. cbn [pe pn pu vec vsub].
      transitivity (weighted (fun x => pe x - pe (plane_center p)) l * pe (plane_normal p) + weighted (fun x => pn x - pn (plane_center p)) l * pn (plane_normal p)
                    + weighted (fun x => pu x - pu (plane_center p)) l * pu (plane_normal p)).
      * rewrite !C. field. lra.
      * unfold weighted. rewrite <- !Rsum_map_scal_r, <- !Rsum_map_plus. apply Rsum_map_ext. intros x _. ring.
    + unfold weighted. transitivity (Rsum (map (fun _ : R * point => 0) l)); [|rewrite Rsum_map_const; ring].
      apply Rsum_map_ext. intros (w, x) I. cbn [fst snd]. rewrite (OP w x I). ring.
Qed.

(** ** A group whose heliostats lie flat, with the sun's shape *)
Theorem group_delivers_spread : forall g mask rays g1 g2 active j h local incident aim p near far cosine size spread,
  perform g (Activate mask) = (g1, None) -> perform g1 (AlignIncident mask rays) = (g2, None) ->
  repeat_interleave (gr_heliostats g) mask = Ok active -> nth_error active j = Some h -> nth_error rays j = Some (incident, aim) ->
  lying_flat h local -> local <> [] -> (forall x, In x local -> norm x <= size) ->
  let k := h_kinematics h in let error := aim_error k near + spread in
  well_placed k incident aim p near far cosine -> 0 <= spread -> error < cosine ->
  (forall x, on_plane p x -> norm (vsub x aim) <= spot_radius error far cosine size -> within_area p x /\ within_half_open p x) ->
  exists points normals, nth_error (s_points (gr_surfaces g2)) j = Some points /\ nth_error (s_normals (gr_surfaces g2)) j = Some normals
  /\ forall width height magnitude extinction reflectivity distortions,
     (2 <= width)%nat -> (2 <= height)%nat -> 0 < magnitude -> 0 <= extinction < 1 -> 0 < reflectivity ->
     let s := {| s_incident := incident; s_surface := combine (map enu points) (map enu normals); s_target := PlanarTarget p; s_distortions := distortions |} in
     distortions <> [] -> (forall row, In row distortions -> List.length row = List.length local) ->
     (forall row u e, In row distortions -> In (u, e) row -> Rabs u + Rabs e <= spread) ->
     exists t e u spot steepness, trace_sample width height magnitude extinction reflectivity s (repeat 0 (List.length (sample_rays s))) = Ok t
     /\ center_of_mass height width (fun row column => nth column (nth row (t_bitmap t) []) 0) = Some (e, u)
     /\ on_plane p spot /\ norm (vsub spot aim) <= spot_radius error far cosine size
     /\ cosine - error <= steepness <= 1
     /\ let power := reflectivity * (1 - extinction) * magnitude * INR (List.length distortions * List.length local) * steepness in
        let share := power / (power + / 10 ^ 8) in
        let c := plane_center p in
        image_total (t_bitmap t) = power
        /\ position (planar_target_coordinates width height p e u)
           = vec (pe c + (1 - / INR width) * (share * (pe spot - pe c) + (1 - share) * (plane_width p / 2))) (pn c)
                 (pu c + (1 - / INR height) * (share * (pu spot - pu c) + (1 - share) * (plane_height p / 2))).
Proof.
  intros g mask rays g1 g2 active j h local incident aim p near far cosine size spread P1 P2 RI NA NR (LP & LN) NE SZ k error WP SP0 EC AR.
  destruct WP as (UI & SP & UP & OA & NEAR & ALL).
  destruct (aligned_rows _ _ _ _ _ _ _ _ _ _ P1 P2 RI NA NR) as (batch & os & ms & EI & NB & ROWS).
  assert (P8 : 0 < / 10 ^ 8) by lra.
  pose proof (aligned_with_translations 4 (/ 10 ^ 4) batch os ms j _ near ltac:(lia) EI NB) as AT. cbn [rq_kinematics rq_incident rq_aim] in AT.
  destruct (AT UI ltac:(lra)) as (o & NO & CE & DE).
  { intros q Q. destruct (ALL q Q) as ((Q1 & Q2) & Q3 & Q4 & Q5 & Q6). split; [exact Q1|]. split; [lra|]. auto. }
  fold k in CE, DE. destruct (ROWS o NO) as (RP & RN).
  assert (RG : rigid o) by (apply nth_error_In in NO; eapply alignment_rigid; eauto).
  set (centre := enu (mapply o (as_point (vec 0 0 0)))) in *. set (n := enu (mapply o (as_direction up))) in *.
  destruct (ALL centre CE) as ((Q1 & Q2) & Q3 & Q4 & _). set (d := direction_to centre aim) in *. set (d' := reflect incident n) in *.
  assert (UN : unit n).
  { unfold unit, n. destruct RG as (_ & _ & _ & _ & RD & _). rewrite RD. unfold up. vunfold. ring. }
  assert (UD : unit d).
  { unfold unit, d, direction_to. apply norm_unit_dot. rewrite norm_smul, Rabs_pos_eq; [apply Rinv_l; lra|]. left. apply Rinv_0_lt_compat. lra. }
  assert (EA : aim = along centre d (norm (vsub aim centre))).
  { assert (NA' : norm (vsub aim centre) <> 0) by lra. unfold d, direction_to, along. apply point_eq; vunfold; cbn [pe pn pu]; field; auto. }
  assert (AE : 0 <= aim_error k near).
  { unfold aim_error. assert (0 <= 2 * arm_length k / near); [|lra]. apply Rmult_le_pos; [|left; apply Rinv_0_lt_compat; lra].
    unfold arm_length. pose proof (norm_nonneg (k_translation_2 k)). pose proof (norm_nonneg (k_translation_c k)). lra. }
  assert (E0 : 0 <= error) by (unfold error; lra).
  exists (map (mapply o) (h_points h)), (map (mapply o) (h_normals h)). split; auto. split; auto.
  intros width height magnitude extinction reflectivity distortions W H M X F s ND LR ZR.
  assert (SU : s_surface s = map (fun x => (enu (mapply o (as_point x)), n)) local).
  { unfold s. cbn [s_surface]. rewrite LP, LN, !map_map. clear. induction local as [|x l IH]; auto. cbn [map combine]. f_equal. apply IH. }
  assert (SL : List.length (s_surface s) = List.length local) by (rewrite SU; apply map_length).
  assert (PS : proper_sample s).
  { split; [exact UI|]. split; [intros q m I; rewrite SU in I; apply in_map_iff in I; destruct I as (x & E & _); injection E as <- <-; exact UN|].
    split; [split; auto|]. intros row I. cbn [s_distortions s] in I. rewrite (LR row I). auto. }
  assert (OFF : forall q v, In (q, v) (sample_rays s) -> unit v /\ cosine - error <= - dot v (plane_normal p)
     /\ forall t, on_plane p (along q v t) -> norm (vsub (along q v t) aim) <= spot_radius error far cosine size).
  { intros q v I. destruct (sample_rays_scatter s q v PS I) as (UV & m & row & u & e & IS & IR & IA & DV). split; auto.
    rewrite SU in IS. apply in_map_iff in IS. destruct IS as (x & E & IX). injection E as <- <-. cbn [s_incident s] in DV. fold d' in DV.
    set (y := vsub (enu (mapply o (as_point x))) centre).
    assert (NV : norm y = norm x).
    { unfold y, centre. destruct RG as (_ & _ & RD & _). rewrite RD. f_equal. vring. }
    assert (EV : vadd centre y = enu (mapply o (as_point x))) by (unfold y; vring).
    assert (DD : norm (vsub v d) <= error).
    { replace (vsub v d) with (vadd (vsub v d') (vsub d' d)) by vring. eapply Rle_trans; [apply norm_triangle|].
      cbn [s_distortions s] in IR. pose proof (ZR row u e IR IA). unfold error, aim_error. lra. }
    pose proof (off_ray p centre aim d v y error far cosine UP UD UV OA EA Q2 Q3 DD EC E0) as OR. rewrite EV, NV in OR.
    destruct OR as (O1 & O2). split; auto. intros t OT. eapply Rle_trans; [apply O2; auto|]. unfold spot_radius. pose proof (SZ x IX).
    apply Rmult_le_compat_r; [|lra]. assert (0 < / (cosine - error)) by (apply Rinv_0_lt_compat; lra). lra. }
  set (par := fun ray : point * point => dot (vsub (plane_center p) (fst ray)) (plane_normal p) / dot (snd ray) (plane_normal p)).
  assert (PAR : forall ray, In ray (sample_rays s) -> on_plane p (along (fst ray) (snd ray) (par ray))).
  { intros (q, v) I. destruct (OFF q v I) as (_ & CO & _). unfold on_plane, along, par. cbn [fst snd]. clear - CO EC.
    transitivity (dot (vsub q (plane_center p)) (plane_normal p) + dot (vsub (plane_center p) q) (plane_normal p) / dot v (plane_normal p) * dot v (plane_normal p)).
    - vunfold. ring.
    - unfold Rdiv. rewrite Rmult_assoc, Rinv_l by lra. vunfold. ring. }
  assert (NR' : List.length (sample_rays s) = (List.length distortions * List.length local)%nat) by (rewrite sample_rays_length by auto; unfold ray_count; rewrite SL; reflexivity).
  assert (N0 : (0 < List.length distortions * List.length local)%nat) by (destruct distortions; [congruence|]; destruct local; [congruence|]; cbn [List.length]; lia).
  destruct (bundle width height magnitude extinction reflectivity s p par W H M X F) as (t & e & u & TR & CM & T0 & TO & PO); auto.
  { intros E. rewrite E in NR'. cbn in NR'. lia. }
  { intros (q, v) I. destruct (OFF q v I) as (_ & CO & NO'). pose proof (PAR _ I) as OP. destruct (AR _ OP (NO' _ OP)) as (A1 & A2).
    split; auto. split; [cbn [snd]; lra|]. split; auto. }
  set (steep := fun ray : point * point => - dot (snd ray) (plane_normal p)) in *. set (total := Rsum (map steep (sample_rays s))) in *.
  set (l := map (fun ray => (steep ray, along (fst ray) (snd ray) (par ray))) (sample_rays s)).
  assert (TL : Rsum (map fst l) = total) by (unfold l, total; rewrite map_map; auto).
  assert (WL : forall f, weighted f l = Rsum (map (fun ray => steep ray * f (along (fst ray) (snd ray) (par ray))) (sample_rays s))) by (intros; unfold weighted, l; rewrite map_map; auto).
  assert (RS : 0 <= spot_radius error far cosine size).
  { unfold spot_radius. assert (0 < / (cosine - error)) by (apply Rinv_0_lt_compat; lra). apply Rmult_le_pos; [|lra].
    assert (0 <= size). { destruct local as [|x ?]; [congruence|]. pose proof (SZ x (or_introl eq_refl)). pose proof (norm_nonneg x). lra. }
    pose proof (norm_nonneg (vsub aim centre)). assert (0 <= error * far) by (apply Rmult_le_pos; lra). lra. }
  destruct (weighted_mean l aim (spot_radius error far cosine size) RS) as (SB & SPL).
  { rewrite TL. auto. }
  { intros w x I. unfold l in I. apply in_map_iff in I. destruct I as ((q, v) & E & I). injection E as <- <-. destruct (OFF q v I) as (_ & CO & NO').
    unfold steep. cbn [snd]. split; [lra|]. apply (NO' (par (q, v))). exact (PAR (q, v) I). }
  set (spot := vec (weighted pe l / Rsum (map fst l)) (weighted pn l / Rsum (map fst l)) (weighted pu l / Rsum (map fst l))) in *.
  assert (ND0 : 0 < INR (List.length distortions * List.length local)) by (apply lt_0_INR; auto).
  set (steepness := total / INR (List.length distortions * List.length local)).
  assert (ET : total = INR (List.length distortions * List.length local) * steepness) by (unfold steepness; field; lra).
  assert (BND : (cosine - error) * INR (List.length distortions * List.length local) <= total <= 1 * INR (List.length distortions * List.length local)).
  { rewrite <- NR'. unfold total. assert (BS : forall ray, In ray (sample_rays s) -> cosine - error <= steep ray <= 1).
    { intros (q, v) I. destruct (OFF q v I) as (UV & CO & _). split; auto. unfold steep. cbn [snd].
      pose proof (abs_dot v (plane_normal p) UV) as A. replace (norm (plane_normal p)) with 1 in A by (symmetry; apply norm_unit_dot; auto).
      pose proof (Rle_abs (- dot v (plane_normal p))) as B. rewrite Rabs_Ropp in B. lra. }
    clear - BS. induction (sample_rays s) as [|ray l IH]; [cbn; lra|]. cbn [map List.length]. rewrite S_INR. cbn [Rsum fold_right]. fold (Rsum (map steep l)).
    pose proof (BS ray (or_introl eq_refl)). specialize (IH (fun r I => BS r (or_intror I))). nra. }
  exists t, e, u, spot, steepness. split; [exact TR|]. split; [exact CM|].
  split; [apply SPL; intros w x I; unfold l in I; apply in_map_iff in I; destruct I as (ray & E & I); injection E as <- <-; apply PAR; auto|].
  split; [exact SB|]. split.
  { rewrite ET in BND. clear - BND ND0. split; apply (Rmult_le_reg_l (INR (List.length distortions * List.length local))); auto; lra. }
  cbv zeta. rewrite ET in TO, PO. rewrite <- Rmult_assoc in TO. split; [exact TO|]. cbv zeta in PO. rewrite <- !Rmult_assoc in PO.
  unfold spot. cbn [pe pn pu vec]. rewrite !WL, TL, ET. exact PO.
Qed.

(** The same for one sample of a batch. *)
Theorem delivered_power : forall g mask rays g1 g2 active j h local incident aim p near far cosine size spread,
  perform g (Activate mask) = (g1, None) -> perform g1 (AlignIncident mask rays) = (g2, None) ->
  repeat_interleave (gr_heliostats g) mask = Ok active -> nth_error active j = Some h -> nth_error rays j = Some (incident, aim) ->
  lying_flat h local -> local <> [] -> (forall x, In x local -> norm x <= size) ->
  let k := h_kinematics h in let error := aim_error k near + spread in
  well_placed k incident aim p near far cosine -> 0 <= spread -> error < cosine ->
  (forall x, on_plane p x -> norm (vsub x aim) <= spot_radius error far cosine size -> within_area p x /\ within_half_open p x) ->
  exists points normals, nth_error (s_points (gr_surfaces g2)) j = Some points /\ nth_error (s_normals (gr_surfaces g2)) j = Some normals
  /\ forall sort fuel width height magnitude extinction reflectivity samples rows i owner distortions,
     (2 <= width)%nat -> (2 <= height)%nat -> 0 < magnitude -> 0 <= extinction < 1 -> 0 < reflectivity ->
     trace_samples sort fuel width height magnitude extinction reflectivity None samples = Traced rows ->
     nth_error samples i = Some ({| s_incident := incident; s_surface := combine (map enu points) (map enu normals);
                                    s_target := PlanarTarget p; s_distortions := distortions |}, owner) ->
     distortions <> [] -> (forall row, In row distortions -> List.length row = List.length local) ->
     (forall row u e, In row distortions -> In (u, e) row -> Rabs u + Rabs e <= spread) ->
     exists t e u spot steepness, nth_error rows i = Some (Some t)
     /\ center_of_mass height width (fun row column => nth column (nth row (t_bitmap t) []) 0) = Some (e, u)
     /\ on_plane p spot /\ norm (vsub spot aim) <= spot_radius error far cosine size
     /\ cosine - error <= steepness <= 1
     /\ let power := reflectivity * (1 - extinction) * magnitude * INR (List.length distortions * List.length local) * steepness in
        let share := power / (power + / 10 ^ 8) in
        let c := plane_center p in
        image_total (t_bitmap t) = power
        /\ position (planar_target_coordinates width height p e u)
           = vec (pe c + (1 - / INR width) * (share * (pe spot - pe c) + (1 - share) * (plane_width p / 2))) (pn c)
                 (pu c + (1 - / INR height) * (share * (pu spot - pu c) + (1 - share) * (plane_height p / 2))).
Proof.
  intros g mask rays g1 g2 active j h local incident aim p near far cosine size spread P1 P2 RI NA NR LF NE SZ k error WP SP EC AR.
  destruct (group_delivers_spread g mask rays g1 g2 active j h local incident aim p near far cosine size spread P1 P2 RI NA NR LF NE SZ WP SP EC AR)
    as (points & normals & NP & NN & D).
  exists points, normals. split; auto. split; auto. intros sort fuel width height magnitude extinction reflectivity samples rows i owner distortions W H M X F TR NS ND LR ZR.
  destruct (D width height magnitude extinction reflectivity distortions W H M X F ND LR ZR) as (t & e & u & spot & steepness & TS & REST).
  destruct (unblocked_rows _ _ _ _ _ _ _ _ _ TR) as (_ & U). destruct (U i _ _ NS) as (t' & NT & TS').
  rewrite TS' in TS. injection TS as ->. exists t, e, u, spot, steepness. split; [exact NT|exact REST].
Qed.

(** ** An example: a flat mirror of 2 m by 2 m, 30 cm before its axes, 100 m north of a target area of 12 m by 12 m with the sun at the zenith *)
Definition corners := [vec 1 1 0; vec (-1) 1 0; vec (-1) (-1) 0; vec 1 (-1) 0].
Definition mirror : heliostat := {| h_kinematics := kc; h_points := map as_point corners; h_normals := map (fun _ => as_direction up) corners |}.
Definition facing_north : plane := {| plane_center := vec 0 (-100) 0; plane_normal := vec 0 1 0; plane_width := 12; plane_height := 12 |}.
Definition sun_shape := [[(2/1000, -3/1000); (0, 0); (-1/1000, 0); (4/1000, 1/1000)]; repeat (0, 0) 4].
Lemma mirror_aligned : forall surfaces motors, exists g1 g2 points normals,
  let g := {| gr_heliostats := [mirror; mirror]; gr_active := []; gr_surfaces := surfaces; gr_motors := motors |} in
  perform g (Activate [0; 1]%nat) = (g1, None) /\ perform g1 (AlignIncident [0; 1]%nat [(vec 0 0 (-1), vec 0 (-100) 0)]) = (g2, None)
  /\ s_points (gr_surfaces g2) = [points] /\ s_normals (gr_surfaces g2) = [normals]
  /\ proper_sample {| s_incident := vec 0 0 (-1); s_surface := combine (map enu points) (map enu normals); s_target := PlanarTarget facing_north; s_distortions := sun_shape |}.
Proof.
  intros surfaces motors. set (g := {| gr_heliostats := _ |}). destruct (single 4 (/ 10 ^ 4) rc) as (o & m & EO); [lia|].
  set (points := map (mapply o) (h_points mirror)). set (normals := map (mapply o) (h_normals mirror)).
  assert (PP : exists g1 g2, perform g (Activate [0; 1]%nat) = (g1, None) /\ perform g1 (AlignIncident [0; 1]%nat [(vec 0 0 (-1), vec 0 (-100) 0)]) = (g2, None)
    /\ s_points (gr_surfaces g2) = [points] /\ s_normals (gr_surfaces g2) = [normals]).
  { eexists. eexists. split; [reflexivity|]. split.
    unfold perform at 1. unfold align_with_incident. cbv beta iota. match goal with |- context [list_nat_eqb ?a ?b] => change (list_nat_eqb a b) with true end.
    cbv iota. match goal with |- context [incident_ray_directions_to_orientations _ _ ?b] => change b with [rc] end. rewrite EO. cbn [bind]. reflexivity.
    split; reflexivity. }
  destruct PP as (g1 & g2 & P1 & P2 & SPo & SNo). exists g1, g2, points, normals. cbv zeta. split; auto. split; auto. split; auto. split; auto.
  assert (RG : rigid o) by (eapply alignment_rigid; [exact EO|left; auto]).
  split; [unfold unit; vunfold; cbn [s_incident pe pn pu]; ring|]. split.
  - intros q v I. cbn [s_surface] in I. unfold points, normals, mirror in I. cbn [h_points h_normals map combine corners] in I.
    assert (UN : unit (enu (mapply o (as_direction up)))) by (unfold unit; destruct RG as (_ & _ & _ & _ & RD & _); rewrite RD; unfold up; vunfold; ring).
    repeat (destruct I as [I|I]; [injection I as _ <-; exact UN|]). destruct I.
  - split; [split; [unfold sized, facing_north; cbn; lra|unfold unit, facing_north; vunfold; cbn [plane_normal pe pn pu]; ring]|].
    intros row [<-|[<-|[]]]; cbn; auto.
Qed.
Lemma mirror_size : forall x, In x corners -> norm x <= 3/2.
Proof.
  intros x I. assert (N : dot x x = 2) by (unfold corners in I; repeat (destruct I as [<-|I]; [vunfold; ring|]); destruct I).
  apply Rsqr_incr_0; [|apply norm_nonneg|lra]. unfold Rsqr. rewrite norm_sq, N. lra.
Qed.
Lemma mirror_error : 0 < aim_error kc 99 + 5/1000 <= 12/1000.
Proof. destruct kc_joint as (_ & A). unfold aim_error. rewrite A. lra. Qed.
Lemma mirror_placed : well_placed kc (vec 0 0 (-1)) (vec 0 (-100) 0) facing_north 99 101 (99/100).
Proof.
  destruct kc_joint as (J & A). assert (UI : unit (vec 0 0 (-1))) by (unfold unit; vunfold; ring).
  split; auto. split; [unfold sized, facing_north; cbn; lra|]. split; [unfold unit, facing_north; vunfold; cbn [plane_normal pe pn pu]; ring|].
  split; [unfold on_plane, facing_north; vunfold; cbn [plane_normal plane_center pe pn pu]; ring|]. split; [lra|]. intros q Q. destruct (rc_far q Q) as (F1 & _ & F2 & F3). cbn [rq_aim rq_incident rc] in *.
  rewrite J, A in Q. apply component_bound in Q. destruct Q as (HE & HN & HU).
  apply Rabs_le_inv in HE. apply Rabs_le_inv in HN. apply Rabs_le_inv in HU. cbn [vsub vec pe pn pu] in HE, HN, HU.
  assert (F : norm (vsub (vec 0 (-100) 0) q) <= 1004/10).
  { apply Rsqr_incr_0; [|apply norm_nonneg|lra]. unfold Rsqr. rewrite norm_sq. vunfold. nra. }
  split; [lra|]. split; [|split; auto].
  unfold direction_to. set (l := norm _) in *. replace (- dot (smul (/ l) (vsub (vec 0 (-100) 0) q)) (plane_normal facing_north)) with (/ l * (100 + pn q)) by (unfold facing_north; vunfold; cbn [plane_normal pe pn pu]; ring).
  apply (Rmult_le_reg_l l); [lra|]. rewrite <- Rmult_assoc, Rinv_r by lra. lra.
Qed.
Lemma mirror_spot : forall x, on_plane facing_north x -> norm (vsub x (vec 0 (-100) 0)) <= spot_radius (aim_error kc 99 + 5/1000) 101 (99/100) (3/2) ->
  within_area facing_north x /\ within_half_open facing_north x.
Proof.
  pose proof mirror_error as ERR. assert (RAD : spot_radius (aim_error kc 99 + 5/1000) 101 (99/100) (3/2) < 6).
  { unfold spot_radius. set (x := aim_error kc 99 + 5/1000) in *. assert (/ (99/100 - x) <= 103/100).
    { apply (Rmult_le_reg_l (99/100 - x)); [lra|]. rewrite Rinv_r by lra. lra. }
    assert (0 < / (99/100 - x)) by (apply Rinv_0_lt_compat; lra). nra. }
  intros x _ B. apply component_bound in B. destruct B as (BE & _ & BU).
  apply Rabs_le_inv in BE. apply Rabs_le_inv in BU. unfold within_area, within_half_open, facing_north. vunfold.
  split; split; try apply Rabs_le; cbn [plane_center plane_width plane_height vsub vec pe pn pu] in *; lra.
Qed.
Lemma sun_spread : forall row u e, In row sun_shape -> In (u, e) row -> Rabs u + Rabs e <= 5/1000.
Proof.
  intros row a b [<-|[<-|[]]] I; cbn [repeat] in I; repeat (destruct I as [I|I]; [injection I as <- <-|]); try destruct I;
    unfold Rabs; repeat destruct Rcase_abs; lra.
Qed.
