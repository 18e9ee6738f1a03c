(** Proofs about moved scenes: blocking, tracing and alignment. *)
From Coq Require Import List Arith ZArith Reals Bool Lia Lra Permutation.
From Verif Require Import RealSums ModelField ModelVectors ModelTransforms SpecTransforms ModelLBVH SpecLBVH ModelBlocking
  ModelSplatting ModelIntersections ModelTrace ModelAngles ModelActuators ModelKinematics SpecKinematics SpecTranslation ProofsTransforms ProofsTranslation.
Import ListNotations.
Local Open Scope R_scope.

(** ** Blocking *)
Definition moved_primitive (v : point) (p : primitive) : primitive :=
  {| corner0 := moved v (corner0 p); span_u := span_u p; span_v := span_v p; prim_normal := prim_normal p |}.
Lemma primitive_moved : forall v c, (4 <= List.length c)%nat -> primitive_of_corners (map (moved v) c) = moved_primitive v (primitive_of_corners c).
Proof.
  intros v c L. destruct c as [|c0 [|c1 [|c2 [|c3 c]]]]; cbn in L; try lia. unfold primitive_of_corners, primitive_of, moved_primitive.
  cbn [nth map corner0 span_u span_v prim_normal]. rewrite !vsub_moved. auto.
Qed.
Lemma distance_moved : forall eps v o d p, plane_distance eps (moved v o) d (moved_primitive v p) = plane_distance eps o d p.
Proof. intros. unfold plane_distance. cbn [moved_primitive corner0 prim_normal]. rewrite vsub_moved. auto. Qed.
Lemma density_moved : forall eps soft off v o d p, density eps soft off (moved v o) d (moved_primitive v p) = density eps soft off o d p.
Proof.
  intros. unfold density, plane_coordinates. rewrite distance_moved. cbn [moved_primitive corner0 span_u span_v prim_normal].
  set (t := plane_distance eps o d p). replace (vsub (vadd (moved v o) (smul t d)) (moved v (corner0 p))) with (vsub (vadd o (smul t d)) (corner0 p)); auto.
  apply point_eq; cbn; ring.
Qed.
Lemma mask_moved : forall v r ps, traced_mask (moved_ray v r) (map (moved_primitive v) ps) = traced_mask r ps.
Proof.
  intros v r ps. unfold traced_mask, soft_mask. f_equal. cbn [moved_ray r_origin r_direction].
  induction ps as [|p ps IH]; auto. cbn [map densities]. rewrite density_moved, IH. auto.
Qed.
Theorem blocked_moved : forall sort fuel corners rays v, sorts sort -> (forall c, In c corners -> (4 <= List.length c)%nat) ->
  batch_blocked sort fuel (map (map (moved v)) corners) (map (moved_ray v) rays) = batch_blocked sort fuel corners rays.
Proof.
  intros sort fuel corners rays v ST L4. unfold batch_blocked. rewrite filter_moved; auto.
  2: { intros c C ->. apply L4 in C. cbn in C. lia. }
  destruct (filter_primitives sort fuel corners rays) as [found|e|] eqn:F; auto.
  assert (FB : forall p, In p found -> (p < List.length corners)%nat).
  { clear - F ST. unfold filter_primitives in F. destruct (morton_codes _ _) as [codes|] eqn:MC; [|discriminate].
    destruct (ProofsMorton.morton_codes_spec (/ 10 ^ 6) (map centroid corners) ltac:(lra)) as (codes' & MC' & LC & _). rewrite MC in MC'. injection MC' as <-. rewrite map_length in LC.
    pose proof (ST codes) as SC. destruct (sort codes) as [sorted order]. destruct SC as (PO & ES & _).
    assert (LS : List.length sorted = List.length codes) by (rewrite ES, map_length, (Permutation_length PO), seq_length; auto).
    unfold lbvh_filter in F. destruct (_ =? 0)%nat; [discriminate|]. destruct (build_hierarchy _ _ _); [|discriminate]. destruct (max_depth _ _); [|discriminate].
    destruct (traverse_all _ _ _ _ _) as [m| |]; try discriminate. injection F as <-. intros p P. apply filter_In in P as (P & _). apply in_seq in P. lia. }
  assert (PS : map (fun p => primitive_of_corners (nth p (map (map (moved v)) corners) [])) found
             = map (moved_primitive v) (map (fun p => primitive_of_corners (nth p corners [])) found)).
  { rewrite map_map. apply map_ext_in. intros p P. change (@nil point) with (map (moved v) (@nil point)) at 1. rewrite map_nth. apply primitive_moved. apply L4. apply nth_In. auto. }
  destruct found as [|f found]; [rewrite map_map; auto|]. rewrite PS. f_equal. rewrite map_map. apply map_ext. intros r. apply mask_moved.
Qed.

(** ** Tracing *)
Lemma intersect_moved : forall w h v t o d m, intersect w h (moved_target v t) (moved v o) d m = intersect w h t o d m.
Proof.
  intros w h v [p|c] o d m; cbn [moved_target intersect].
  - unfold line_plane. cbn [plane_center plane_normal plane_width plane_height]. rewrite vsub_moved.
    assert (HE : forall t x, pe (vadd (moved v o) (smul t d)) + x - pe (moved v (plane_center p)) = pe (vadd o (smul t d)) + x - pe (plane_center p)) by (intros; cbn; ring).
    assert (HU : forall t x, pu (vadd (moved v o) (smul t d)) + x - pu (moved v (plane_center p)) = pu (vadd o (smul t d)) + x - pu (plane_center p)) by (intros; cbn; ring).
    rewrite !HE, !HU. reflexivity.
  - unfold line_cylinder, cylinder_distance, local_frame. cbn [cyl_center cyl_axis cyl_normal cyl_radius cyl_height cyl_opening]. rewrite vsub_moved. reflexivity.
Qed.
Definition moved_line (v : point) (x : point * point) : point * point := (moved v (fst x), snd x).
Lemma rays_moved : forall v s, sample_rays (moved_sample v s) = map (moved_line v) (sample_rays s).
Proof.
  intros v s. unfold sample_rays. cbn [moved_sample s_incident s_surface s_distortions]. induction (s_distortions s) as [|row rows IH]; auto.
  cbn [flat_map]. rewrite map_app, IH. f_equal. clear. revert row. induction (s_surface s) as [|[p n] l IH]; intros [|[u e] row]; auto. cbn [map combine]. rewrite IH. auto.
Qed.
Lemma intersections_moved : forall w h m v s, sample_intersections w h m (moved_sample v s) = sample_intersections w h m s.
Proof.
  intros. unfold sample_intersections. rewrite rays_moved, map_map. apply map_ext. intros [o d]. apply intersect_moved.
Qed.
Lemma blocking_rays_moved : forall w h m v s k, blocking_rays w h m (moved_sample v s) k = map (moved_ray v) (blocking_rays w h m s k).
Proof.
  intros. unfold blocking_rays. rewrite intersections_moved, rays_moved. generalize (sample_intersections w h m s) as l. induction (sample_rays s) as [|[o d] rs IH]; intros [|i l]; auto.
  cbn [map combine]. rewrite IH. auto.
Qed.
Lemma sample_moved : forall w h m ext refl v s b, trace_sample w h m ext refl (moved_sample v s) b = trace_sample w h m ext refl s b.
Proof. intros. unfold trace_sample. rewrite intersections_moved. auto. Qed.
Lemma rows_moved : forall w h m ext refl v samples b, trace_rows w h m ext refl (map (moved_sample v) samples) b = trace_rows w h m ext refl samples b.
Proof.
  intros. unfold trace_rows. rewrite map_map. rewrite (map_ext (fun x => List.length (sample_rays (moved_sample v x))) (fun s => List.length (sample_rays s)))
    by (intros; rewrite rays_moved, map_length; auto).
  set (l := ModelTrace.split_at _ _). clearbody l.
  match goal with |- context [map_res ?f (combine (map _ samples) l)] => assert (E : forall l, map_res f (combine (map (moved_sample v) samples) l) = map_res f (combine samples l)) end.
  { clear. induction samples as [|s samples IH]; intros [|b l]; auto. cbn [map combine map_res]. rewrite IH. destruct (all_some b); [rewrite sample_moved|]; auto. }
  rewrite E. auto.
Qed.
Theorem trace_moved : forall sort fuel w h m ext refl blocking samples v,
  (forall corners, blocking = Some corners -> sorts sort /\ forall c, In c corners -> (4 <= List.length c)%nat) ->
  trace_samples sort fuel w h m ext refl (option_map (map (map (moved v))) blocking) (map (fun '(s, k) => (moved_sample v s, k)) samples)
  = trace_samples sort fuel w h m ext refl blocking samples.
Proof.
  intros sort fuel w h m ext refl blocking samples v HB. unfold trace_samples.
  assert (F : map fst (map (fun '(s, k) => (moved_sample v s, k)) samples) = map (moved_sample v) (map fst samples)) by (rewrite !map_map; apply map_ext; intros [s k]; auto).
  destruct blocking as [corners|]; cbn [option_map].
  - destruct (HB corners eq_refl) as (ST & L4).
    assert (R : flat_map (fun '(s, owner) => blocking_rays w h m s owner) (map (fun '(s, k) => (moved_sample v s, k)) samples)
              = map (moved_ray v) (flat_map (fun '(s, owner) => blocking_rays w h m s owner) samples)).
    { clear. induction samples as [|[s k] samples IH]; auto. cbn [map flat_map]. rewrite map_app, IH, blocking_rays_moved. auto. }
    rewrite R, blocked_moved by auto. destruct (batch_blocked _ _ _ _); auto. rewrite F. apply rows_moved.
  - rewrite F, rows_moved. f_equal.
    assert (R : flat_map sample_rays (map (moved_sample v) (map fst samples)) = map (moved_line v) (flat_map sample_rays (map fst samples))).
    { clear. induction (map fst samples) as [|s l IH]; auto. cbn [map flat_map]. rewrite map_app, IH, rays_moved. auto. }
    rewrite R, map_map. auto.
Qed.

(** ** Alignment *)
Definition affine (o : mat) : Prop := row_w o = hv 0 0 0 1.
Lemma affine_mmul : forall a b, affine a -> affine b -> affine (mmul a b).
Proof.
  intros a b A B. unfold affine in *. unfold mmul. cbn [row_w mk]. rewrite A. unfold vapply, mapply, mtr, hdot. cbn [row_e row_n row_u row_w mk he hn hu hw hv].
  rewrite B. cbn [he hn hu hw hv]. f_equal; ring.
Qed.
Lemma forward_affine : forall k m, affine (forward k m).
Proof.
  intros. unfold forward, pose, first_deviations, second_deviations, translate_by. repeat apply affine_mmul; reflexivity.
Qed.
Lemma forward_moved : forall v k m, forward (moved_heliostat v k) m = mmul (translate_by v) (forward k m).
Proof.
  intros v k m. unfold forward, pose. cbn [moved_heliostat k_position k_translation_1 k_translation_2 k_translation_c k_drive_1 k_drive_2].
  change (first_deviations (moved_heliostat v k)) with (first_deviations k). change (second_deviations (moved_heliostat v k)) with (second_deviations k).
  rewrite !mmul_eye_l, !mmul_assoc. rewrite <- (mmul_assoc (translate_by v)). f_equal.
  unfold translate_by, translate, mmul, vapply, mapply, mtr, hdot, moved, vadd. cbn [row_e row_n row_u row_w mk he hn hu hw hv pe pn pu vec].
  f_equal; f_equal; ring.
Qed.
Lemma moved_apply : forall v o x, affine o -> mapply (mmul (translate_by v) o) x = hv (he (mapply o x) + hw x * pe v) (hn (mapply o x) + hw x * pn v) (hu (mapply o x) + hw x * pu v) (hw x).
Proof.
  intros v o x A. rewrite mapply_mmul. assert (W : hw (mapply o x) = hw x).
  { unfold mapply. cbn [hw hv]. rewrite A. unfold hdot. cbn [he hn hu hw hv]. ring. }
  unfold mapply at 1. unfold translate_by, translate. cbn [row_e row_n row_u row_w mk]. unfold hdot at 1 2 3 4. rewrite W. cbn [he hn hu hw hv]. unfold hv. f_equal; ring.
Qed.
Lemma desired_moved : forall v r o, affine o -> desired (moved_request v r) (mmul (translate_by v) o) = desired r o.
Proof.
  intros v r o A. unfold desired. rewrite moved_apply by auto. cbn [moved_request rq_incident rq_aim homogeneous_origin hw hv he hn hu].
  set (y := mapply o homogeneous_origin).
  replace (vec (he y + 1 * pe v) (hn y + 1 * pn v) (hu y + 1 * pu v)) with (moved v (vec (he y) (hn y) (hu y))) by (apply point_eq; cbn; ring).
  unfold desired_normal. rewrite vsub_moved. auto.
Qed.
Lemma loss_moved : forall v r o, affine o -> request_loss (moved_request v r) (mmul (translate_by v) o) = request_loss r o.
Proof.
  intros v r o A. unfold request_loss. rewrite desired_moved by auto. rewrite moved_apply by auto. f_equal.
  assert (W : hw (mapply o standard_orientation) = 0). { unfold mapply. cbn [hw hv]. rewrite A. unfold hdot, standard_orientation. cbn [he hn hu hw hv]. ring. }
  destruct (mapply o standard_orientation) as [a b c d]. cbn in *. subst. unfold hv. f_equal; ring.
Qed.
Lemma inverse_moved : forall v k n, inverse (moved_heliostat v k) n = inverse k n.
Proof. reflexivity. Qed.
Lemma loop_moved : forall v eps batch n motors last before,
  align_loop eps n (map (moved_request v) batch) motors last (option_map (map (mmul (translate_by v))) before)
  = let '(os, ms) := align_loop eps n batch motors last before in (option_map (map (mmul (translate_by v))) os, ms).
Proof.
  intros v eps batch. induction n as [|n IH]; intros motors last before; auto. cbn [align_loop].
  set (os := map (fun '(r, m) => forward (rq_kinematics r) m) (combine batch motors)).
  set (os' := map (fun '(r, m) => forward (rq_kinematics r) m) (combine (map (moved_request v) batch) motors)).
  assert (O : os' = map (mmul (translate_by v)) os).
  { unfold os, os'. clear. revert motors. induction batch as [|r batch IH]; intros [|m motors]; auto. cbn [map combine]. rewrite <- IH. f_equal. apply forward_moved. }
  assert (AF : forall o, In o os -> affine o). { intros o I. apply in_map_iff in I as ((r & m) & <- & _). apply forward_affine. }
  clearbody os os'. subst os'.
  assert (L : map (fun '(r, o) => request_loss r o) (combine (map (moved_request v) batch) (map (mmul (translate_by v)) os)) = map (fun '(r, o) => request_loss r o) (combine batch os)).
  { clear IH. revert os AF. induction batch as [|r batch IH]; intros [|o os] AF; auto. cbn [map combine]. rewrite IH by (intros; apply AF; right; auto). f_equal. apply loss_moved. apply AF. left. auto. }
  assert (I : map (fun '(r, o) => inverse (rq_kinematics r) (desired r o)) (combine (map (moved_request v) batch) (map (mmul (translate_by v)) os))
            = map (fun '(r, o) => inverse (rq_kinematics r) (desired r o)) (combine batch os)).
  { clear IH L. revert os AF. induction batch as [|r batch IH]; intros [|o os] AF; auto. cbn [map combine]. rewrite IH by (intros; apply AF; right; auto). f_equal.
    rewrite desired_moved by (apply AF; left; auto). reflexivity. }
  rewrite L, I. destruct (match last with None => false | Some l => all_close _ _ _ end); auto. apply (IH _ _ (Some os)).
Qed.
Theorem alignment_moved : forall n eps batch v,
  incident_ray_directions_to_orientations n eps (map (moved_request v) batch)
  = match incident_ray_directions_to_orientations n eps batch with
    | Ok (os, ms) => Ok (map (mmul (translate_by v)) os, ms)
    | Err e => Err e
    end.
Proof.
  intros n eps batch v. unfold incident_ray_directions_to_orientations. rewrite map_map.
  pose proof (loop_moved v eps batch n (map (fun _ => (0, 0)) batch) None None) as L. cbn [option_map] in L. rewrite L.
  clear L. destruct (align_loop eps n batch _ None None) as [[os|] ms]; cbn [option_map]; auto. rewrite !map_map. do 2 f_equal. apply map_ext. intros o. apply mmul_assoc.
Qed.
Lemma result_affine : forall n eps batch os ms, incident_ray_directions_to_orientations n eps batch = Ok (os, ms) -> forall o, In o os -> affine o.
Proof.
  intros n eps batch os ms. unfold incident_ray_directions_to_orientations.
  assert (G : forall n motors last before os ms, align_loop eps n batch motors last before = (Some os, ms) ->
    (forall l, before = Some l -> forall o, In o l -> affine o) -> forall o, In o os -> affine o).
  { clear. induction n as [|n IH]; intros motors last before os ms H B o O; cbn [align_loop] in H; [injection H as -> <-; eauto|].
    assert (A : forall o, In o (map (fun '(r, m) => forward (rq_kinematics r) m) (combine batch motors)) -> affine o).
    { intros x I. apply in_map_iff in I as ((r & m) & <- & _). apply forward_affine. }
    destruct (match last with None => false | Some l => all_close _ _ _ end); [injection H as <- <-; auto|].
    apply (IH _ _ _ _ _ H); auto. intros l E. injection E as <-. auto. }
  destruct (align_loop _ _ _ _ _ _) as [[os'|] ms'] eqn:E; [|discriminate]. intros H. injection H as <- <-. intros o O. apply in_map_iff in O as (o' & <- & O').
  apply affine_mmul; [apply (G _ _ _ _ _ _ E); auto; discriminate|]. unfold initial_orientation_offsets. repeat apply affine_mmul; reflexivity.
Qed.
Theorem aligned_moved : forall n eps batch v,
  match incident_ray_directions_to_orientations n eps batch with
  | Err e => incident_ray_directions_to_orientations n eps (map (moved_request v) batch) = Err e
  | Ok (os, ms) => exists os', incident_ray_directions_to_orientations n eps (map (moved_request v) batch) = Ok (os', ms) /\ length os' = length os
      /\ forall i o o', nth_error os i = Some o -> nth_error os' i = Some o' -> forall p,
           enu (mapply o' (as_point p)) = moved v (enu (mapply o (as_point p))) /\ enu (mapply o' (as_direction p)) = enu (mapply o (as_direction p))
  end.
Proof.
  intros n eps batch v. rewrite alignment_moved. pose proof (result_affine n eps batch) as A.
  destruct (incident_ray_directions_to_orientations n eps batch) as [[os ms]|e]; auto. specialize (A os ms eq_refl).
  eexists. split; [reflexivity|]. split; [apply map_length|]. intros i o o' I I'. rewrite nth_error_map, I in I'. injection I' as <-. apply nth_error_In in I. intros p.
  rewrite !moved_apply by auto. unfold enu, as_point, as_direction. cbn [he hn hu hw hv]. split; apply point_eq; cbn [pe pn pu vec moved vadd]; ring.
Qed.
