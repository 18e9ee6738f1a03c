(** Power, independence and focal spots of traced samples. *)
From Coq Require Import List Arith ZArith Reals Bool Lra Lia Permutation.
From Verif Require Import RealSums ModelField ModelVectors ProofsVectors ModelTransforms SpecTransforms ProofsTransforms ModelLBVH SpecLBVH ModelBlocking
  SpecBlocking ProofsBlocking ModelSplatting SpecSplatting ProofsSplatting ProofsTracing ModelAngles ModelIntersections SpecIntersections
  ProofsIntersections ModelBitmap ModelCoordinates SpecCoordinates ProofsBitmap ProofsCoordinates ProofsMorton ModelTrace SpecTrace ProofsTrace
  ModelKinematics SpecKinematics ProofsAlignment.
Import ListNotations.
Local Open Scope R_scope.

Lemma found_in_range : forall sort fuel corners rays found, sorts sort ->
  filter_primitives sort fuel corners rays = Filtered found -> forall p, In p found -> (p < List.length corners)%nat.
Proof.
  intros sort fuel corners rays found HS E p I. unfold filter_primitives in E.
  destruct (morton_codes _ _) as [codes|] eqn:EM; [|discriminate].
  assert (LC : List.length codes = List.length corners).
  { unfold morton_codes in EM. apply map_res_nth in EM. destruct EM as (L & _). rewrite L, map_length. auto. }
  specialize (HS codes). destruct (sort codes) as (sorted & order). destruct HS as (P & ES & _).
  assert (LS : List.length sorted = List.length corners).
  { rewrite ES, map_length, (Permutation_length P), seq_length. auto. }
  unfold lbvh_filter in E. destruct (List.length sorted =? 0)%nat; [discriminate|].
  destruct (build_hierarchy _ _ _); [|discriminate]. destruct (max_depth _ _); [|discriminate].
  destruct (traverse_all _ _ _ _ _); try discriminate. injection E as <-. apply filter_In in I. destruct I as (I & _).
  apply in_seq in I. lia.
Qed.

Lemma flat_map_length : forall {A B} (f : A -> list B) l, List.length (flat_map f l) = list_sum (map (fun x => List.length (f x)) l).
Proof. intros A B f l. induction l as [|x l IH]; auto. cbn [flat_map map list_sum fold_right]. rewrite app_length, IH. auto. Qed.

Theorem batch_power : forall sort fuel width height magnitude extinction reflectivity blocking samples rows,
  sorts sort -> (2 <= width)%nat -> (2 <= height)%nat -> 0 <= magnitude -> 0 <= extinction <= 1 -> 0 <= reflectivity ->
  (forall corners c, blocking = Some corners -> In c corners ->
     independent (span_u (primitive_of_corners c)) (span_v (primitive_of_corners c))) ->
  trace_samples sort fuel width height magnitude extinction reflectivity blocking samples = Traced rows ->
  List.length rows = List.length samples
  /\ forall k s owner, nth_error samples k = Some (s, owner) -> proper_sample s ->
     exists t, nth_error rows k = Some (Some t) /\ is_image width height (t_bitmap t) /\ non_negative_image (t_bitmap t)
       /\ 0 <= image_total (t_bitmap t) <= reflectivity * (1 - extinction) * magnitude * INR (ray_count s).
Proof.
  intros sort fuel width height magnitude extinction reflectivity blocking samples rows HS W H M X F IC E.
  assert (G : exists blocked, fractions (list_sum (map (fun s => List.length (sample_rays s)) (map fst samples))) blocked
    /\ trace_rows width height magnitude extinction reflectivity (map fst samples) blocked = Traced rows).
  { unfold trace_samples in E. destruct blocking as [corners|].
    - destruct (batch_blocked _ _ _ _) as [values| |] eqn:EB; try discriminate. exists values. split; auto.
      assert (Q := batch_fractions sort fuel corners _ values (fun c => IC corners c eq_refl)
                     (fun found EF => found_in_range sort fuel corners _ found HS EF) EB).
      destruct Q as (L & Q). split; auto. rewrite L, flat_map_length. f_equal. rewrite map_map. apply map_ext.
      intros (s & owner). apply blocking_rays_length.
    - eexists. split; [|exact E]. split.
      + rewrite map_length, flat_map_length. auto.
      + intros o I. apply in_map_iff in I. destruct I as (r & <- & _). exists 0. split; auto. lra. }
  destruct G as (blocked & FR & ER).
  destruct (rows_power width height magnitude extinction reflectivity _ blocked rows W H M X F FR ER) as (L & P).
  rewrite map_length in L. split; auto. intros k s owner ES PS. apply (P k s); auto.
  rewrite nth_error_map, ES. reflexivity.
Qed.

(** Without blocking proper samples never fail. *)
Lemma map_res_all : forall {A B} (f : A -> res B) l, (forall x, In x l -> exists y, f x = Ok y) -> exists ys, map_res f l = Ok ys.
Proof.
  intros A B f l. induction l as [|x l IH]; intros H; [exists []; auto|].
  destruct (H x (or_introl eq_refl)) as (y & E). destruct IH as (ys & EY); [intros; apply H; right; auto|].
  exists (y :: ys). cbn [map_res]. rewrite E. cbn [bind]. rewrite EY. auto.
Qed.

Lemma split_at_app : forall {A} sizes n (a b : list A), List.length a = n -> split_at (n :: sizes) (a ++ b) = a :: split_at sizes b.
Proof.
  intros A sizes n a b <-. cbn [split_at]. rewrite firstn_app, firstn_all, Nat.sub_diag, firstn_O, app_nil_r.
  rewrite skipn_app, skipn_all, Nat.sub_diag, skipn_O. auto.
Qed.
Lemma split_zeros : forall samples, split_at (map (fun s => List.length (sample_rays s)) samples)
    (map (fun _ => Some 0) (flat_map sample_rays samples)) = map (fun s => map (fun _ => Some 0) (sample_rays s)) samples.
Proof.
  intros samples. induction samples as [|s samples IH]; auto. cbn [map flat_map]. rewrite map_app, split_at_app by apply map_length.
  rewrite IH. auto.
Qed.
Lemma all_some_zeros : forall {A} (l : list A), all_some (map (fun _ => Some 0) l) = Some (repeat 0 (List.length l)).
Proof. intros A l. induction l as [|x l IH]; auto. cbn [map all_some List.length repeat]. rewrite IH. auto. Qed.

(** Without blocking every row is what the sample gives on its own. *)
Theorem unblocked_rows : forall sort fuel width height magnitude extinction reflectivity samples rows,
  trace_samples sort fuel width height magnitude extinction reflectivity None samples = Traced rows ->
  List.length rows = List.length samples
  /\ forall k s owner, nth_error samples k = Some (s, owner) ->
     exists t, nth_error rows k = Some (Some t)
       /\ trace_sample width height magnitude extinction reflectivity s (repeat 0 (List.length (sample_rays s))) = Ok t.
Proof.
  intros sort fuel width height magnitude extinction reflectivity samples rows E. unfold trace_samples, trace_rows in E.
  rewrite split_zeros in E. destruct (map_res _ _) as [rows'|] eqn:ER in E; [|discriminate]. injection E as ->.
  destruct (map_res_nth _ _ _ ER) as (L & N). rewrite combine_length, !map_length in L. split; [lia|].
  intros k s owner ES.
  destruct (N k (s, map (fun _ => Some 0) (sample_rays s))) as (row & NR & RE).
  { apply nth_combine; [rewrite nth_error_map, ES; auto|]. rewrite nth_error_map, nth_error_map, ES. auto. }
  rewrite all_some_zeros in RE. destruct (trace_sample _ _ _ _ _ _ _) as [t|]; [|discriminate]. cbn [bind] in RE.
  injection RE as <-. exists t. auto.
Qed.
Theorem unblocked_succeeds : forall sort fuel width height magnitude extinction reflectivity samples,
  (2 <= width)%nat -> (2 <= height)%nat -> 0 <= magnitude -> 0 <= extinction <= 1 -> 0 <= reflectivity ->
  (forall s owner, In (s, owner) samples -> proper_sample s) ->
  exists rows, trace_samples sort fuel width height magnitude extinction reflectivity None samples = Traced rows.
Proof.
  intros sort fuel width height magnitude extinction reflectivity samples W H M X F PS. unfold trace_samples, trace_rows.
  rewrite split_zeros.
  match goal with |- context [map_res ?f ?l] => destruct (map_res_all f l) as (ys & E) end.
  - intros (s & b) I. apply in_combine_l in I as I1.
    assert (EB : b = map (fun _ => Some 0) (sample_rays s)).
    { clear -I. induction (map fst samples) as [|x l IH]; [destruct I|]. cbn [map combine] in I. destruct I as [I|I]; [congruence|auto]. }
    subst b. rewrite all_some_zeros. apply in_map_iff in I1. destruct I1 as ((s' & owner) & E1 & I1). cbn in E1. subst s'.
    destruct (trace_sample_power width height magnitude extinction reflectivity s (repeat 0 (List.length (sample_rays s)))) as (t & ET & _); auto.
    + eapply PS; eauto.
    + rewrite repeat_length. apply sample_rays_length. eapply PS; eauto.
    + intros b IB. apply repeat_spec in IB. lra.
    + exists (Some t). rewrite ET. auto.
  - rewrite E. eauto.
Qed.

(** ** Irradiance and area *)
Theorem collected_power : forall dni cantings points rays magnitude area, tracer_magnitude (Some dni) cantings points rays = Ok magnitude ->
  heliostat_area cantings = Ok area -> (1 <= points)%nat -> (1 <= rays)%nat ->
  Rsum (repeat magnitude (points * rays)) = dni * area.
Proof.
  intros dni cantings points rays magnitude area E EA P Q. unfold tracer_magnitude in E. rewrite EA in E. cbn [bind] in E. injection E as <-.
  apply ray_power; auto.
Qed.
Lemma sqrt_abs1 : forall x, 0 <= x -> sqrt (x ^ 2 + 0 ^ 2) = x.
Proof. intros. replace (x ^ 2 + 0 ^ 2) with (x * x) by ring. apply sqrt_square. auto. Qed.
Lemma sqrt_abs2 : forall x, 0 <= x -> sqrt (0 ^ 2 + x ^ 2) = x.
Proof. intros. replace (0 ^ 2 + x ^ 2) with (x * x) by ring. apply sqrt_square. auto. Qed.
Theorem area_of_four : forall a b facets others, 0 <= a -> 0 <= b ->
  heliostat_area ((flat_facet a b :: facets) :: others) = Ok (outer_area 2 2 a b (2 / 100)).
Proof.
  intros. unfold heliostat_area, flat_facet. cbn [vec pe pn]. rewrite sqrt_abs1, sqrt_abs2 by auto. unfold outer_area. cbn [INR]. f_equal. ring.
Qed.

(** ** Deviation by the sun shape *)
Lemma abs_sin_le : forall x, Rabs (sin x) <= Rabs x.
Proof.
  assert (P : forall x, 0 <= x -> Rabs (sin x) <= x).
  { intros x X. destruct (Req_dec x 0) as [->|N]; [rewrite sin_0, Rabs_R0; lra|].
    pose proof (sin_lt_x x ltac:(lra)). pose proof (SIN_bound x).
    destruct (Rle_lt_dec x 1) as [L|L].
    - assert (0 <= sin x) by (apply sin_ge_0; [lra|]; pose proof PI2_3_2; unfold PI2 in *; lra). rewrite Rabs_pos_eq by auto. lra.
    - apply Rabs_le. lra. }
  intros x. destruct (Rle_lt_dec 0 x) as [X|X]; [rewrite (Rabs_pos_eq x) by auto; auto|].
  rewrite (Rabs_left x) by auto. rewrite <- Rabs_Ropp, <- sin_neg. apply P. lra.
Qed.
Lemma one_minus_cos : forall a, 0 <= 2 * (1 - cos a) <= a ^ 2.
Proof.
  intros a. assert (E : 2 * (1 - cos a) = (2 * sin (a / 2)) ^ 2).
  { replace a with (2 * (a / 2)) at 1 by field. rewrite cos_2a. pose proof (sin2_cos2 (a / 2)) as T. unfold Rsqr in T. nra. }
  rewrite E. split; [apply pow2_ge_0|]. rewrite <- (pow2_abs (2 * sin (a / 2))), <- (pow2_abs a).
  apply pow_incr. split; [apply Rabs_pos|]. rewrite Rabs_mult, (Rabs_pos_eq 2) by lra. pose proof (abs_sin_le (a / 2)) as Q.
  unfold Rdiv in Q. rewrite Rabs_mult, (Rabs_pos_eq (/ 2)) in Q by lra. lra.
Qed.
Lemma rotated_deviation : forall k a v, unit k -> norm (vsub (rotated k a v) v) <= Rabs a * norm v.
Proof.
  intros k a v U.
  set (p := vsub v (smul (dot k v) k)).
  assert (E1 : vsub (rotated k a v) v = vadd (smul (cos a - 1) p) (smul (sin a) (cross k v))) by (unfold rotated, p; vring).
  assert (PP : dot p p = dot v v - dot k v ^ 2).
  { unfold p. rewrite dot_vsub_l, !dot_vsub_r, !dot_smul_l, !dot_smul_r, (dot_comm v k). unfold unit in U. rewrite U. ring. }
  assert (CC : dot (cross k v) (cross k v) = dot v v - dot k v ^ 2).
  { rewrite <- gram. unfold unit in U. rewrite U. ring. }
  assert (PC : dot p (cross k v) = 0).
  { unfold p. rewrite dot_vsub_l, dot_smul_l, cross_orth_l, cross_orth_r. ring. }
  assert (E : dot (vsub (rotated k a v) v) (vsub (rotated k a v) v) = 2 * (1 - cos a) * (dot v v - dot k v ^ 2)).
  { rewrite E1, dot_vadd_l, !dot_vadd_r, !dot_smul_l, !dot_smul_r, (dot_comm (cross k v) p), PP, CC, PC.
    pose proof (sin2_cos2 a) as T. unfold Rsqr in T. replace (sin a * (sin a * (dot v v - dot k v ^ 2))) with (sin a * sin a * (dot v v - dot k v ^ 2)) by ring.
    replace (sin a * sin a) with (1 - cos a * cos a) by lra. ring. }
  assert (N0 := norm_nonneg v). assert (A0 := Rabs_pos a).
  apply Rsqr_incr_0; [|apply norm_nonneg|apply Rmult_le_pos; auto]. unfold Rsqr. rewrite norm_sq, E.
  replace (Rabs a * norm v * (Rabs a * norm v)) with (Rabs a ^ 2 * (norm v * norm v)) by ring. rewrite norm_sq, pow2_abs.
  pose proof (one_minus_cos a) as O. pose proof (dot_self_nonneg p) as Q. rewrite PP in Q. pose proof (pow2_ge_0 (dot k v)).
  apply Rmult_le_compat; lra.
Qed.
Theorem scatter_deviation : forall d u e, norm d = 1 -> norm (vsub (scatter_ray d u e) d) <= Rabs u + Rabs e.
Proof.
  intros d u e N. rewrite scatter_rotated.
  assert (U1 : unit up) by (unfold unit, up; vunfold; ring). assert (U2 : unit east) by (unfold unit, east; vunfold; ring).
  pose proof (rotated_deviation up u d U1) as A. pose proof (rotated_deviation east e (rotated up u d) U2) as B.
  assert (NR : norm (rotated up u d) = 1).
  { replace (rotated up u d) with (scatter_ray d u 0).
    - apply norm_unit_dot. rewrite scatter_unit. apply norm_unit_dot. exact N.
    - rewrite scatter_rotated. unfold rotated at 1. rewrite cos_0, sin_0. vring. }
  rewrite N in A. rewrite NR in B. rewrite Rmult_1_r in A, B.
  replace (vsub (rotated east e (rotated up u d)) d) with (vadd (vsub (rotated east e (rotated up u d)) (rotated up u d)) (vsub (rotated up u d) d)) by vring.
  eapply Rle_trans; [apply norm_triangle|]. lra.
Qed.
Theorem sample_rays_scatter : forall s o d, proper_sample s -> In (o, d) (sample_rays s) ->
  unit d /\ exists n row u e, In (o, n) (s_surface s) /\ In row (s_distortions s) /\ In (u, e) row
    /\ norm (vsub d (reflect (s_incident s) n)) <= Rabs u + Rabs e.
Proof.
  intros s o d PS I. split; [eapply sample_ray_unit; eauto|].
  destruct (in_sample_rays s o d I) as (n & row & u & e & IS & IR & IA & ->). exists n, row, u, e. repeat split; auto.
  apply scatter_deviation. destruct PS as (UI & UN & _). destruct (reflect_law (s_incident s) n (UN o n IS)) as (E & _).
  apply norm_unit_dot. rewrite E. exact UI.
Qed.

(** ** The focal spot of a flat mirror *)
Lemma flat_rays : forall s n, proper_sample s -> flat n s -> undistorted s ->
  sample_rays s = flat_map (fun _ => map (fun p => (fst p, reflect (s_incident s) n)) (s_surface s)) (s_distortions s).
Proof.
  intros s n (_ & _ & _ & L) F U. unfold sample_rays. unfold undistorted in U. induction (s_distortions s) as [|row rows IH]; auto.
  cbn [flat_map]. f_equal; [|apply IH; intros; [apply L; right; auto|apply (U row0 a); auto; right; auto]].
  assert (LR := L row (or_introl eq_refl)). assert (UR := fun a => U row a (or_introl eq_refl)). unfold flat in F. clear - LR UR F.
  revert row LR UR. induction (s_surface s) as [|(p & m) l IH]; intros row LR UR; [reflexivity|].
  destruct row as [|a row]; [discriminate|]. cbn [combine map fst].
  rewrite (UR a (or_introl eq_refl)), scatter_zero, (F p m (or_introl eq_refl)). f_equal.
  apply IH; [intros; apply (F p0 m0); right; auto|cbn in LR; lia|intros; apply UR; right; auto].
Qed.

Lemma Rsum_const_flat_map : forall {A B} (f : B -> R) (l : list B) (rows : list A),
  Rsum (map f (flat_map (fun _ => l) rows)) = INR (List.length rows) * Rsum (map f l).
Proof.
  intros A B f l rows. induction rows as [|r rows IH]; [cbn; lra|]. cbn [flat_map List.length]. rewrite map_app, Rsum_app, IH, S_INR. lra.
Qed.

Lemma combine_repeat : forall {A B} (l : list A) (x : B), combine l (repeat x (List.length l)) = map (fun a => (a, x)) l.
Proof. intros A B l x. induction l as [|a l IH]; auto. cbn [List.length repeat combine map]. rewrite IH. auto. Qed.

Theorem flat_mirror_spot : forall width height magnitude extinction reflectivity s p n aim t0,
  (2 <= width)%nat -> (2 <= height)%nat -> 0 < magnitude -> 0 <= extinction < 1 -> 0 < reflectivity ->
  proper_sample s -> s_target s = PlanarTarget p -> s_surface s <> [] -> s_distortions s <> [] -> undistorted s ->
  let o := mean_point (s_surface s) in
  let d := reflect (s_incident s) n in
  flat n s -> aim = along o d t0 -> on_plane p aim ->
  (forall q n, In (q, n) (s_surface s) -> exists t, hits_area p q d t /\ within_half_open p (along q d t)) ->
  exists t e u, trace_sample width height magnitude extinction reflectivity s (repeat 0 (List.length (sample_rays s))) = Ok t
    /\ center_of_mass height width (fun row column => nth column (nth row (t_bitmap t) []) 0) = Some (e, u)
    /\ let power := reflectivity * (1 - extinction) * magnitude * INR (ray_count s) * - dot d (plane_normal p) in
       let share := power / (power + / 10 ^ 8) in
       let c := plane_center p in
       0 < power /\ image_total (t_bitmap t) = power
       /\ position (planar_target_coordinates width height p e u)
          = vec (pe c + (1 - / INR width) * (share * (pe aim - pe c) + (1 - share) * (plane_width p / 2))) (pn c)
                (pu c + (1 - / INR height) * (share * (pu aim - pu c) + (1 - share) * (plane_height p / 2))).
Proof.
  intros width height magnitude extinction reflectivity s p n aim t0 W H M X F PS TP NS ND UD o d FL EA0 OA HA.
  assert (SP : sized p /\ unit (plane_normal p)) by (destruct PS as (_ & _ & T & _); rewrite TP in T; exact T). destruct SP as (S & UP).
  pose proof (flat_rays s n PS FL UD) as ER. fold d in ER.
  set (m := reflectivity * (1 - extinction) * magnitude) in *.
  assert (M0 : 0 < m) by (unfold m; apply Rmult_lt_0_compat; [apply Rmult_lt_0_compat; lra|auto]).
  set (N := plane_normal p) in *. set (c := plane_center p) in *.
  (* direction faces the plane *)
  assert (DN : dot d N < 0).
  { destruct (s_surface s) as [|(q & n0) l] eqn:ES; [congruence|]. destruct (HA q n0 (or_introl eq_refl)) as (t & (T & _) & _). exact T. }
  set (par := fun q : point => dot (vsub c q) N / dot d N).
  assert (PAR : forall q t, on_plane p (along q d t) -> t = par q).
  { intros q t T. unfold on_plane, along in T. fold c N in T. unfold par. rewrite dot_vsub_l, dot_vadd_l, dot_smul_l in T. rewrite dot_vsub_l.
    apply (Rmult_eq_reg_r (dot d N)); [|lra]. replace ((dot c N - dot q N) / dot d N * dot d N) with (dot c N - dot q N) by (field; lra). lra. }
  set (rays := map (fun q => (fst q, d, m, par (fst q))) (flat_map (fun _ : list (R * R) => s_surface s) (s_distortions s))).
  assert (EM : map (fun '(q, d, m, t) => (q, d, m)) rays = map (fun '(q, d) => (q, d, m)) (sample_rays s)).
  { unfold rays. rewrite ER, !map_map. clear. induction (s_distortions s) as [|r l IH]; auto. cbn [flat_map]. rewrite !map_app, IH. f_equal.
    rewrite map_map. apply map_ext. intros (a & b). auto. }
  assert (HR : forall q d' m' t, In (q, d', m', t) rays -> hits_area p q d' t /\ within_half_open p (along q d' t) /\ 0 <= m').
  { intros q d' m' t I. unfold rays in I. apply in_map_iff in I. destruct I as ((q0 & n0) & E & I). cbn [fst] in E. injection E as <- <- <- <-.
    apply in_flat_map in I. destruct I as (_ & _ & I). destruct (HA q0 n0 I) as (t & T1 & T2).
    assert (ET : t = par q0) by (apply PAR; apply T1). rewrite <- ET. split; auto. split; auto. lra. }
  assert (L0 : 0 < INR (ray_count s)).
  { apply lt_0_INR. unfold ray_count. destruct (s_surface s); [congruence|]. destruct (s_distortions s); [congruence|]. cbn [List.length]. nia. }
  assert (NSUR : 0 < INR (List.length (s_surface s))).
  { apply lt_0_INR. destruct (s_surface s); [congruence|]. cbn [List.length]. lia. }
  assert (NDIS : 0 < INR (List.length (s_distortions s))).
  { apply lt_0_INR. destruct (s_distortions s); [congruence|]. cbn [List.length]. lia. }
  assert (RC : INR (ray_count s) = INR (List.length (s_distortions s)) * INR (List.length (s_surface s))) by (unfold ray_count; apply mult_INR).
  assert (SUM : forall f : point -> R, Rsum (map (fun '(q, d, m, t) => m * - dot d N * f (along q d t)) rays)
                = m * - dot d N * (INR (List.length (s_distortions s)) * Rsum (map (fun q => f (along (fst q) d (par (fst q)))) (s_surface s)))).
  { intros f. unfold rays. rewrite map_map, <- Rsum_const_flat_map, <- Rsum_map_scal. apply Rsum_map_ext. auto. }
  assert (PW : Rsum (map (fun '(q, d, m, t) => m * - dot d N) rays) = m * INR (ray_count s) * - dot d N).
  { transitivity (Rsum (map (fun '(q, d, m, t) => m * - dot d N * (fun _ : point => 1) (along q d t)) rays)).
    - apply Rsum_map_ext. intros (((q & d') & m') & t) _. ring.
    - rewrite (SUM (fun _ => 1)). rewrite Rsum_map_const, RC. ring. }
  assert (PP : 0 < m * INR (ray_count s) * - dot d N) by (apply Rmult_lt_0_compat; [apply Rmult_lt_0_compat; auto|lra]).
  (* mean of hits *)
  assert (LIN : forall f : point -> R, (forall a b, f (vadd a b) = f a + f b) -> (forall k a, f (smul k a) = k * f a) ->
            Rsum (map (fun q => f (fst q)) (s_surface s)) / INR (List.length (s_surface s)) = f o ->
            Rsum (map (fun q => f (along (fst q) d (par (fst q)))) (s_surface s)) = INR (List.length (s_surface s)) * f aim).
  { intros f FA FS FO.
    assert (EA : aim = along o d (par o)).
    { rewrite EA0 at 1. f_equal. apply PAR. rewrite <- EA0. exact OA. }
    assert (DOT : forall x, Rsum (map (fun q => dot (fst q) x) (s_surface s)) = INR (List.length (s_surface s)) * dot o x).
    { intros x. unfold dot, o, mean_point. cbn [vec pe pn pu].
      rewrite !Rsum_map_plus, !Rsum_map_scal_r. field. lra. }
    rewrite EA. unfold along. rewrite FA, FS.
    transitivity (Rsum (map (fun q => f (fst q)) (s_surface s)) + Rsum (map (fun q => par (fst q)) (s_surface s)) * f d).
    - rewrite <- Rsum_map_scal_r, <- Rsum_map_plus. apply Rsum_map_ext. intros q _. rewrite FA, FS. auto.
    - replace (Rsum (map (fun q => f (fst q)) (s_surface s))) with (INR (List.length (s_surface s)) * f o) by (rewrite <- FO; field; lra).
      replace (Rsum (map (fun q => par (fst q)) (s_surface s))) with (INR (List.length (s_surface s)) * par o); [ring|].
      unfold par. rewrite Rsum_map_div. unfold Rdiv. rewrite <- Rmult_assoc. f_equal.
      transitivity (Rsum (map (fun q : point * point => dot c N - dot (fst q) N) (s_surface s))).
      + rewrite Rsum_map_minus, Rsum_map_const, DOT, dot_vsub_l. ring.
      + apply Rsum_map_ext. intros q _. rewrite dot_vsub_l. auto. }
  assert (LE := LIN pe ltac:(reflexivity) ltac:(reflexivity) ltac:(reflexivity)).
  assert (LU := LIN pu ltac:(reflexivity) ltac:(reflexivity) ltac:(reflexivity)).
  destruct (focal_spot width height p rays W H S HR) as (image & e & u & EI & EC & EP).
  { fold N. rewrite PW. exact PP. }
  assert (HITS : planar_hits width height p (map (fun '(q, d, m, t) => (q, d, m)) rays)
    = map (fun '(i, b) => {| hit_e := i_e i; hit_u := i_u i; hit_intensity := ray_intensity extinction reflectivity (i_intensity i) b |})
          (combine (sample_intersections width height magnitude s) (repeat 0 (List.length (sample_rays s))))).
  { rewrite EM. unfold planar_hits.
    replace (List.length (sample_rays s)) with (List.length (sample_intersections width height magnitude s)) by (unfold sample_intersections; apply map_length).
    rewrite combine_repeat. unfold sample_intersections. rewrite !map_map. apply map_ext. intros (q & d').
    rewrite TP. cbn [intersect]. unfold hit_of, line_plane, ray_intensity, m. cbn [i_e i_u i_intensity]. f_equal. ring. }
  assert (TOT : image_total image = m * INR (ray_count s) * - dot d N).
  { destruct (area_power width height p (map (fun '(q, d, m, t) => (q, d, m)) rays) W H S) as (image' & EI' & T).
    - intros q d' m' I. apply in_map_iff in I. destruct I as ((((q1 & d1) & m1) & t1) & E & I). injection E as -> -> ->.
      destruct (HR q d' m' t1 I) as (B1 & B2 & _). eauto.
    - unfold planar_hits in EI. rewrite EI' in EI. injection EI as <-. rewrite T, map_map. rewrite <- PW. apply Rsum_map_ext.
      intros (((q1 & d1) & m1) & t1) _. auto. }
  unfold trace_sample. rewrite <- HITS, EI. cbn [bind]. eexists. exists e, u. split; [reflexivity|]. cbn [t_bitmap].
  split; [exact EC|]. cbv zeta. split; [exact PP|]. split; [exact TOT|].
  cbv zeta in EP. rewrite EP. fold N c. rewrite PW, (SUM pe), (SUM pu), LE, LU. rewrite RC in *.
  unfold mass_eps. assert (E8 : 0 < / 10 ^ 8) by lra.
  assert (D1 : m * (INR (List.length (s_distortions s)) * INR (List.length (s_surface s))) * - dot d N <> 0) by lra.
  assert (Q : forall x, m * - dot d N * (INR (List.length (s_distortions s)) * (INR (List.length (s_surface s)) * x))
                / (m * (INR (List.length (s_distortions s)) * INR (List.length (s_surface s))) * - dot d N) = x).
  { intros x. field. repeat split; lra. }
  rewrite !Q. reflexivity.
Qed.

Theorem flat_mirror : forall width height magnitude extinction reflectivity s p aim,
  (2 <= width)%nat -> (2 <= height)%nat -> 0 < magnitude -> 0 <= extinction < 1 -> 0 < reflectivity ->
  proper_sample s -> s_target s = PlanarTarget p -> s_surface s <> [] -> s_distortions s <> [] -> undistorted s ->
  let o := mean_point (s_surface s) in
  let d := direction_to o aim in
  / 10 ^ 8 <= norm (vsub aim o) -> / 10 ^ 8 <= norm (vsub d (s_incident s)) ->
  flat (desired_normal (s_incident s) aim o) s -> on_plane p aim ->
  (forall q n, In (q, n) (s_surface s) -> exists t, hits_area p q d t /\ within_half_open p (along q d t)) ->
  exists t e u, trace_sample width height magnitude extinction reflectivity s (repeat 0 (List.length (sample_rays s))) = Ok t
    /\ center_of_mass height width (fun row column => nth column (nth row (t_bitmap t) []) 0) = Some (e, u)
    /\ let power := reflectivity * (1 - extinction) * magnitude * INR (ray_count s) * - dot d (plane_normal p) in
       let share := power / (power + / 10 ^ 8) in
       let c := plane_center p in
       0 < power /\ image_total (t_bitmap t) = power
       /\ position (planar_target_coordinates width height p e u)
          = vec (pe c + (1 - / INR width) * (share * (pe aim - pe c) + (1 - share) * (plane_width p / 2))) (pn c)
                (pu c + (1 - / INR height) * (share * (pu aim - pu c) + (1 - share) * (plane_height p / 2))).
Proof.
  intros width height magnitude extinction reflectivity s p aim W H M X F PS TP NS ND UD o d A1 A2 FL OA HA.
  assert (UI : unit (s_incident s)) by apply PS.
  destruct (bisector (s_incident s) aim o UI A1 A2) as (UN & RE). set (n := desired_normal (s_incident s) aim o) in *.
  fold d in RE.
  assert (EA : aim = along o d (norm (vsub aim o))).
  { assert (NA : norm (vsub aim o) <> 0) by lra. unfold d, direction_to, along. apply point_eq; vunfold; cbn [pe pn pu]; field; auto. }
  pose proof (flat_mirror_spot width height magnitude extinction reflectivity s p n aim (norm (vsub aim o)) W H M X F PS TP NS ND UD) as Z.
  cbv zeta in Z. fold o in Z. rewrite RE in Z. exact (Z FL EA OA HA).
Qed.

Lemma area_of_one : forall half_width half_height, 0 < half_width -> 0 < half_height ->
  exists area, heliostat_area [[flat_facet half_width half_height]] = Ok area
    /\ 4 * outer_area 1 1 half_width half_height (2 / 100) < area.
Proof.
  intros a b A B. eexists. split; [apply area_of_four; lra|]. unfold outer_area. cbn [INR]. nra.
Qed.

Lemma area_of_first : forall facet facets facets' others others',
  heliostat_area ((facet :: facets) :: others) = heliostat_area ((facet :: facets') :: others')
  /\ forall a b a', 0 < a < a' -> 0 < b ->
     heliostat_area [repeat (flat_facet a b) 4; repeat (flat_facet a' b) 4] <> heliostat_area [repeat (flat_facet a' b) 4].
Proof.
  intros. split; [reflexivity|]. intros a b a' A B. cbn [repeat]. rewrite !area_of_four by lra.
  unfold outer_area. cbn [INR]. intros E. injection E as E. nra.
Qed.
