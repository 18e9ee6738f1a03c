(** Proofs about reachability and alignment (C37, C39-C41, C74, C75). *)
From Coq Require Import List Arith Reals Bool Lra Lia Psatz.
From Verif Require Import ModelField ModelVectors ProofsVectors ModelAngles ProofsAngles ModelTransforms ModelActuators ModelKinematics ModelIntersections
  SpecIntersections SpecTransforms SpecKinematics ProofsTransforms ProofsKinematics.
Import ListNotations.
Local Open Scope R_scope.

Lemma Rabs_le_inv : forall x y, Rabs x <= y -> - y <= x <= y.
Proof. intros x y H. unfold Rabs in H. destruct (Rcase_abs x); lra. Qed.

(** ** Reachable normals *)
Theorem reachable_iff : forall k n,
  reachable_normal k n <-> unit n /\ Rabs (dot n (first_axis k)) <= Rabs (cos (k_tilt_2n k)).
Proof.
  intros k n. set (p := dir (mtr (first_deviations k)) n).
  assert (FP : dir (first_deviations k) p = n) by apply first_inv.
  assert (PE : dot n (first_axis k) = pe p).
  { unfold first_axis. fold (dir (first_deviations k) east). rewrite <- FP. unfold dir.
    destruct (first_rigid k) as (_ & _ & _ & _ & D & _). rewrite D. unfold east. vunfold. ring. }
  rewrite PE. split.
  - intros R. destruct (reach_p k n R) as (UP & CP & _). fold p in UP, CP. split; auto.
    rewrite <- FP. apply dir_unit; auto. apply first_rigid.
  - intros (UN & C). set (c := cos (k_tilt_2n k)) in *.
    assert (UP : unit p) by (apply dir_unit; auto; apply mtr_first_rigid).
    assert (B : exists b, pe (arm k b) = pe p).
    { destruct (Req_dec c 0) as [Z|Z].
      - exists 0. rewrite arm_e. fold c. rewrite Z. rewrite Z, Rabs_R0 in C. assert (pe p = 0); [|lra].
        destruct (Req_dec (pe p) 0); auto. pose proof (Rabs_pos_lt _ H). lra.
      - exists (asin (pe p / c)). rewrite arm_e. fold c. rewrite sin_asin; [field; auto|].
        assert (A : Rabs (pe p / c) <= 1).
        { unfold Rdiv. rewrite Rabs_mult, Rabs_inv. pose proof (Rabs_pos_lt c Z).
          apply (Rmult_le_reg_r (Rabs c)); auto. rewrite Rmult_assoc, Rinv_l by lra. lra. }
        apply Rabs_le_inv in A. lra. }
    destruct B as (b & BE).
    exists (atan2 (pn (arm k b) * pu p - pu (arm k b) * pn p) (pn (arm k b) * pn p + pu (arm k b) * pu p)), b.
    rewrite pose_facing. fold (arm k b). rewrite <- FP. f_equal.
    destruct (swing_error p (arm k b) 0 UP (arm_unit k b)) as (SW & _); [lra|rewrite BE, Rminus_diag_eq, Rabs_R0; lra|].
    clearbody p. match type of SW with dot (vsub ?x _) _ <= _ => set (w := x) in * end. clearbody w. pose proof (dot_self_nonneg (vsub w p)).
    assert (Z : vsub w p = vec 0 0 0) by (apply dot_self_zero; lra).
    destruct w as [w1 w2 w3], p as [p1 p2 p3]. vunfold. apply point_inv in Z. f_equal; lra.
Qed.

(** ** The requested normal bisects *)
Theorem bisector : forall i aim o, unit i -> / 10 ^ 8 <= norm (vsub aim o) -> / 10 ^ 8 <= norm (vsub (direction_to o aim) i) ->
  unit (desired_normal i aim o) /\ reflect i (desired_normal i aim o) = direction_to o aim.
Proof.
  intros i aim o UI A B. unfold desired_normal. rewrite (normalize_eps_long _ (vsub aim o)) by auto.
  fold (direction_to o aim). set (r := direction_to o aim) in *.
  assert (UR : unit r) by (apply unit_smul; lra).
  replace (vadd (smul (-1) i) r) with (vsub r i) by vring.
  split; [apply norm_unit_dot, normalize_eps_unit; auto; lra|].
  rewrite normalize_eps_long by auto. set (d := vsub r i) in *. set (l := norm d) in *.
  assert (L : 0 < l) by lra. assert (LL : l * l = dot d d) by apply norm_sq.
  unfold unit in *.
  assert (DD : dot d d = 2 - 2 * dot i r) by (unfold d; rewrite dot_vsub_l, !dot_vsub_r, (dot_comm r i), UR, UI; ring).
  assert (ID : dot i d = dot i r - 1) by (unfold d; rewrite dot_vsub_r, UI; ring).
  unfold reflect. rewrite dot_smul_r.
  assert (K : 2 * (/ l * dot i d) * / l = -1).
  { apply (Rmult_eq_reg_l (l * l)); [|nra]. transitivity (2 * dot i d); [field; lra|]. rewrite LL, DD, ID. ring. }
  transitivity (vsub i (smul (2 * (/ l * dot i d) * / l) d)); [vring|]. rewrite K. unfold d. vring.
Qed.

Lemma abs_dot : forall a b, unit a -> Rabs (dot a b) <= norm b.
Proof. intros a b U. pose proof (dot_le_norm a b) as D. apply norm_unit_dot in U. rewrite U in D. lra. Qed.
Lemma norm_triangle : forall a b, norm (vadd a b) <= norm a + norm b.
Proof.
  intros a b. pose proof (norm_nonneg a). pose proof (norm_nonneg b). apply Rsqr_incr_0_var; [|lra]. unfold Rsqr.
  rewrite norm_sq, dot_vadd_l, !dot_vadd_r, (dot_comm b a), <- !norm_sq.
  pose proof (dot_le_norm a b) as D. apply Rabs_le_inv in D. lra.
Qed.
(** A mirror normal that is slightly off turns the reflected ray by at most four times as much. *)
Lemma reflect_error : forall i n d e, unit i -> unit n -> unit d -> norm (vsub n d) <= e ->
  norm (vsub (reflect i n) (reflect i d)) <= 4 * e.
Proof.
  intros i n d e UI UN UD E.
  replace (vsub (reflect i n) (reflect i d)) with (vadd (smul (- 2 * dot i n) (vsub n d)) (smul (-2 * dot i (vsub n d)) d)) by (unfold reflect; vring).
  eapply Rle_trans; [apply norm_triangle|]. rewrite !norm_smul, !Rabs_mult.
  replace (Rabs (-2)) with 2 by (rewrite Rabs_left; lra).
  pose proof (abs_dot i n UI) as A. pose proof (abs_dot i (vsub n d) UI) as B.
  apply norm_unit_dot in UN. apply norm_unit_dot in UD. rewrite UN in A. rewrite UD.
  pose proof (norm_nonneg (vsub n d)). pose proof (Rabs_pos (dot i n)).
  assert (Rabs (dot i n) * norm (vsub n d) <= norm (vsub n d)) by nra. lra.
Qed.

Lemma south_unit : unit south.
Proof. unfold unit, south. vunfold. ring. Qed.
Lemma facing_unit : forall k m, unit (facing (forward k m)).
Proof. intros. unfold forward. exact (dir_unit _ _ (pose_rigid k _ _) south_unit). Qed.

(** ** The loop *)
Definition step (r : request) (m : R * R) : R * R := inverse (rq_kinematics r) (desired r (forward (rq_kinematics r) m)).
Definition advance (batch : list request) (ms : list (R * R)) : list (R * R) := map (fun '(r, m) => step r m) (combine batch ms).
Definition poses (batch : list request) (ms : list (R * R)) : list mat := map (fun '(r, m) => forward (rq_kinematics r) m) (combine batch ms).
Lemma advance_poses : forall batch ms, map (fun '(r, o) => inverse (rq_kinematics r) (desired r o)) (combine batch (poses batch ms)) = advance batch ms.
Proof.
  induction batch as [|r b IH]; intros [|m ms]; auto. unfold poses, advance in *. cbn. f_equal. apply IH.
Qed.
Fixpoint repeat_advance (j : nat) (batch : list request) (ms : list (R * R)) : list (R * R) :=
  match j with O => ms | S j' => repeat_advance j' batch (advance batch ms) end.
Fixpoint repeat_step (j : nat) (r : request) (m : R * R) : R * R :=
  match j with O => m | S j' => repeat_step j' r (step r m) end.

Lemma loop_cases : forall eps n batch ms last before o ms',
  align_loop eps n batch ms last before = (o, ms') ->
  (n = O /\ o = before /\ ms' = ms)
  \/ exists j, (j < n)%nat /\ o = Some (poses batch (repeat_advance j batch ms))
      /\ ((ms' = repeat_advance j batch ms /\ (last <> None \/ (1 <= j)%nat))
          \/ (S j = n /\ ms' = repeat_advance (S j) batch ms)).
Proof.
  intros eps n. induction n as [|n IH]; intros batch ms last before o ms' H.
  - cbn in H. injection H as <- <-. auto.
  - right. cbn [align_loop] in H. fold (poses batch ms) in H. rewrite advance_poses in H.
    set (loss := map _ _) in H. destruct (match last with None => false | Some l => all_close eps l loss end) eqn:C.
    + injection H as <- <-. exists O. split; [lia|]. split; auto. left. split; auto. left. destruct last; [discriminate|discriminate].
    + apply IH in H. destruct H as [(-> & -> & ->)|(j & J & -> & D)].
      * exists O. split; [lia|]. split; auto.
      * exists (S j). split; [lia|]. split; auto.
        destruct D as [(-> & _)|(<- & ->)]; [left|right]; split; auto. right. lia.
Qed.

Lemma advance_nth : forall batch ms i r m, nth_error batch i = Some r -> nth_error ms i = Some m ->
  nth_error (advance batch ms) i = Some (step r m).
Proof.
  induction batch as [|r b IH]; intros [|m ms] [|i] r' m' R M; cbn in *; try discriminate.
  - injection R as ->. injection M as ->. auto.
  - apply (IH ms); auto.
Qed.
Lemma poses_nth : forall batch ms i r m, nth_error batch i = Some r -> nth_error ms i = Some m ->
  nth_error (poses batch ms) i = Some (forward (rq_kinematics r) m).
Proof.
  induction batch as [|r b IH]; intros [|m ms] [|i] r' m' R M; cbn in *; try discriminate.
  - injection R as ->. injection M as ->. auto.
  - apply (IH ms); auto.
Qed.
Lemma repeat_nth : forall j batch ms i r m, nth_error batch i = Some r -> nth_error ms i = Some m ->
  nth_error (repeat_advance j batch ms) i = Some (repeat_step j r m).
Proof.
  induction j as [|j IH]; intros batch ms i r m R M; cbn; auto. apply IH; auto. apply advance_nth; auto.
Qed.
Lemma zero_nth : forall (batch : list request) i r, nth_error batch i = Some r ->
  nth_error (map (fun _ => (0, 0)) batch) i = Some (0, 0).
Proof. intros. rewrite nth_error_map, H. auto. Qed.
Lemma advance_length : forall batch ms, length ms = length batch -> length (advance batch ms) = length batch.
Proof. intros. unfold advance. rewrite map_length, combine_length. lia. Qed.
Lemma repeat_length' : forall j batch ms, length ms = length batch -> length (repeat_advance j batch ms) = length batch.
Proof. induction j; intros; cbn; auto. apply IHj, advance_length. auto. Qed.

Definition zeros (batch : list request) : list (R * R) := map (fun _ => (0, 0)) batch.
Lemma zeros_length : forall batch, length (zeros batch) = length batch.
Proof. intros. apply map_length. Qed.

(** What a call returns: after [j] updates of the motor positions. *)
Lemma call_cases : forall n eps batch os ms, incident_ray_directions_to_orientations n eps batch = Ok (os, ms) ->
  exists j, (j < n)%nat /\ os = map (fun o => mmul o initial_orientation_offsets) (poses batch (repeat_advance j batch (zeros batch)))
    /\ ((ms = repeat_advance j batch (zeros batch) /\ (1 <= j)%nat) \/ (S j = n /\ ms = repeat_advance (S j) batch (zeros batch))).
Proof.
  intros n eps batch os ms H. unfold incident_ray_directions_to_orientations in H. fold (zeros batch) in H.
  destruct (align_loop eps n batch (zeros batch) None None) as [o ms'] eqn:L.
  apply loop_cases in L. destruct o as [os'|]; [|discriminate]. injection H as <- <-.
  destruct L as [(_ & D & _)|(j & J & E & D)]; [discriminate|]. injection E as ->.
  exists j. split; auto. split; auto. destruct D as [(-> & [N|N])|D]; auto. contradiction.
Qed.
Theorem call_defined : forall n eps batch, (1 <= n)%nat <-> exists os ms,
  incident_ray_directions_to_orientations n eps batch = Ok (os, ms).
Proof.
  intros n eps batch. split.
  - intros N. unfold incident_ray_directions_to_orientations. fold (zeros batch).
    destruct (align_loop eps n batch (zeros batch) None None) as [o ms'] eqn:L. apply loop_cases in L.
    destruct L as [(-> & _)|(j & J & -> & D)]; [lia|]. eauto.
  - intros (os & ms & H). destruct (call_cases _ _ _ _ _ H) as (j & J & _). lia.
Qed.
Theorem call_none : forall eps batch, incident_ray_directions_to_orientations 0 eps batch = Err UnboundLocalError.
Proof. reflexivity. Qed.

(** ** Consistency of orientation and stored motor positions (C40) *)
Definition of_motors (batch : list request) (ms : list (R * R)) : list mat :=
  map (fun '(r, m) => motor_positions_to_orientation (rq_kinematics r) m) (combine batch ms).
Lemma poses_of_motors : forall batch ms, map (fun o => mmul o initial_orientation_offsets) (poses batch ms) = of_motors batch ms.
Proof.
  intros. unfold poses, of_motors. rewrite map_map. apply map_ext. intros [r m]. reflexivity.
Qed.

Theorem consistent_or_exhausted : forall n eps batch os ms, incident_ray_directions_to_orientations n eps batch = Ok (os, ms) ->
  os = of_motors batch ms
  \/ exists previous, length previous = length batch /\ os = of_motors batch previous
     /\ ms = map (fun '(r, m) => inverse (rq_kinematics r) (desired r (forward (rq_kinematics r) m))) (combine batch previous).
Proof.
  intros n eps batch os ms H. destruct (call_cases _ _ _ _ _ H) as (j & J & -> & [(-> & _)|(_ & ->)]); rewrite poses_of_motors; auto.
  right. exists (repeat_advance j batch (zeros batch)). split; [apply repeat_length', zeros_length|]. split; auto.
  assert (C : forall i b l, repeat_advance (S i) b l = advance b (repeat_advance i b l)).
  { induction i as [|i IH]; intros; auto. cbn [repeat_advance] in *. rewrite <- IH. auto. }
  rewrite C. reflexivity.
Qed.

(** One iteration only: the orientation is that of motor position zero, while the stored motor positions are for
    the requested normal. *)
Lemma one_iteration : forall eps r, incident_ray_directions_to_orientations 1 eps [r]
  = Ok ([mmul (forward (rq_kinematics r) (0, 0)) initial_orientation_offsets], [step r (0, 0)]).
Proof. reflexivity. Qed.

Lemma dir_of_orientation : forall o, dir (mmul o initial_orientation_offsets) up = facing o.
Proof. intros. rewrite dir_mmul by apply offsets_rigid. rewrite offsets_up. auto. Qed.

Lemma desired_direction : forall r o, desired r o = as_direction (desired_normal (rq_incident r) (rq_aim r) (origin_of o)).
Proof.
  intros. unfold desired, origin_of.
  change homogeneous_origin with (as_point (vec 0 0 0)). reflexivity.
Qed.

Lemma delivered : forall k n, reachable_normal k n -> drives_deliver k n ->
  norm (vsub (facing (forward k (inverse k (as_direction n)))) n) <= 2 / 10 ^ 4.
Proof.
  intros k n R D. destruct (inverse_reaches k n R) as ([a b] & I & (A & B) & N & _ & F). cbn [fst snd] in *.
  rewrite F; auto.
Qed.

Theorem one_iteration_inconsistent : forall eps r,
  let k := rq_kinematics r in
  let n := desired_normal (rq_incident r) (rq_aim r) (origin_of (forward k (0, 0))) in
  reachable_normal k n -> drives_deliver k n -> 2 / 10 ^ 4 < norm (vsub (facing (forward k (0, 0))) n) ->
  exists o m, incident_ray_directions_to_orientations 1 eps [r] = Ok ([o], [m]) /\ o <> motor_positions_to_orientation k m.
Proof.
  intros eps r k n R D L. rewrite one_iteration. eexists. eexists. split; [reflexivity|]. intros E.
  unfold step in E. rewrite desired_direction in E. fold k n in E. unfold motor_positions_to_orientation in E.
  apply (f_equal (fun o => dir o up)) in E. rewrite !dir_of_orientation in E.
  pose proof (delivered k n R D) as X. rewrite <- E in X. lra.
Qed.

(** ** Heliostats without translation deviations *)
Lemma translate_zero : translate_by (vec 0 0 0) = eye.
Proof. reflexivity. Qed.
Definition linear_part (m : mat) : Prop := mapply m (as_point (vec 0 0 0)) = as_point (vec 0 0 0).
Lemma linear_mmul : forall a b, linear_part a -> linear_part b -> linear_part (mmul a b).
Proof. intros a b A B. unfold linear_part in *. rewrite mapply_mmul, B. auto. Qed.
Lemma linear_e : forall a, linear_part (rotate_e a).
Proof. intros. unfold linear_part, rotate_e. apply hvec_eq; henu; ring. Qed.
Lemma linear_n : forall a, linear_part (rotate_n a).
Proof. intros. unfold linear_part, rotate_n. apply hvec_eq; henu; ring. Qed.
Lemma linear_u : forall a, linear_part (rotate_u a).
Proof. intros. unfold linear_part, rotate_u. apply hvec_eq; henu; ring. Qed.
Lemma origin_fixed : forall k a b, no_translations k -> origin_of (pose k a b) = k_position k.
Proof.
  intros k a b (T1 & T2 & T3). unfold origin_of, pose. rewrite T1, T2, T3, !translate_zero, !mmul_eye_r, mmul_eye_l.
  assert (L : linear_part (mmul (mmul (first_deviations k) (rotate_e a)) (mmul (second_deviations k) (rotate_u b)))).
  { unfold first_deviations, second_deviations. repeat apply linear_mmul; auto using linear_e, linear_n, linear_u. }
  rewrite mmul_assoc, mapply_mmul, L. destruct (translate_action (pe (k_position k)) (pn (k_position k)) (pu (k_position k)) (vec 0 0 0)) as (E & _).
  unfold translate_by. rewrite E, enu_point. apply point_eq; vunfold; ring.
Qed.
Lemma step_constant : forall r m m', no_translations (rq_kinematics r) -> step r m = step r m'.
Proof. intros. unfold step. rewrite !desired_direction. unfold forward. rewrite !origin_fixed by auto. auto. Qed.
Lemma repeat_constant : forall r j, no_translations (rq_kinematics r) -> (1 <= j)%nat -> repeat_step j r (0, 0) = step r (0, 0).
Proof.
  intros r j T. assert (G : forall j m, (1 <= j)%nat -> repeat_step j r m = step r m).
  { induction j0 as [|j' IH]; intros m J; [lia|]. cbn. destruct j' as [|j'']; [reflexivity|].
    rewrite IH by lia. apply step_constant. auto. }
  intros. apply G. auto.
Qed.

(** The row of such a heliostat does not depend on the batch. *)
Lemma row_result : forall n eps batch os ms i r, (2 <= n)%nat ->
  incident_ray_directions_to_orientations n eps batch = Ok (os, ms) ->
  nth_error batch i = Some r -> no_translations (rq_kinematics r) ->
  nth_error os i = Some (motor_positions_to_orientation (rq_kinematics r) (step r (0, 0)))
  /\ nth_error ms i = Some (step r (0, 0)).
Proof.
  intros n eps batch os ms i r N H B T. destruct (call_cases _ _ _ _ _ H) as (j & J & -> & D).
  assert (Z : nth_error (zeros batch) i = Some (0, 0)) by (eapply zero_nth; eauto).
  assert (J1 : (1 <= j)%nat) by (destruct D as [(_ & D)|(D & _)]; lia).
  split.
  - rewrite nth_error_map, (poses_nth _ _ _ _ _ B (repeat_nth j _ _ _ _ _ B Z)), (repeat_constant r j T J1). reflexivity.
  - destruct D as [(-> & _)|(_ & ->)]; rewrite (repeat_nth _ _ _ _ _ _ B Z), repeat_constant; auto.
Qed.

Theorem consistent_without_translations : forall n eps batch os ms i r, (2 <= n)%nat ->
  incident_ray_directions_to_orientations n eps batch = Ok (os, ms) ->
  nth_error batch i = Some r -> no_translations (rq_kinematics r) ->
  exists m, nth_error ms i = Some m /\ nth_error os i = Some (motor_positions_to_orientation (rq_kinematics r) m).
Proof. intros. destruct (row_result n eps batch os ms i r) as (A & B); eauto. Qed.

Theorem batch_independent : forall n eps batch os ms i r o m, (2 <= n)%nat ->
  incident_ray_directions_to_orientations n eps batch = Ok (os, ms) ->
  nth_error batch i = Some r -> no_translations (rq_kinematics r) ->
  incident_ray_directions_to_orientations n eps [r] = Ok ([o], [m]) ->
  nth_error os i = Some o /\ nth_error ms i = Some m.
Proof.
  intros n eps batch os ms i r o m N H B T A.
  destruct (row_result n eps batch os ms i r N H B T) as (O & M).
  destruct (row_result n eps [r] [o] [m] 0 r N A eq_refl T) as (O' & M').
  cbn in O', M'. rewrite O, M. auto.
Qed.

(** The aligned mirror sends the sun to the aim point. *)
Theorem aligned_reflects : forall n eps batch os ms i r, (2 <= n)%nat ->
  incident_ray_directions_to_orientations n eps batch = Ok (os, ms) ->
  nth_error batch i = Some r ->
  let k := rq_kinematics r in
  let d := direction_to (k_position k) (rq_aim r) in
  let bisecting := smul (/ norm (vsub d (rq_incident r))) (vsub d (rq_incident r)) in
  no_translations k -> unit (rq_incident r) ->
  / 10 ^ 8 <= norm (vsub (rq_aim r) (k_position k)) -> / 10 ^ 8 <= norm (vsub d (rq_incident r)) ->
  reachable_normal k bisecting -> drives_deliver k bisecting ->
  exists o, nth_error os i = Some o
    /\ enu (mapply o (as_point (vec 0 0 0))) = k_position k
    /\ norm (vsub (reflect (rq_incident r) (enu (mapply o (as_direction up)))) d) <= 8 / 10 ^ 4.
Proof.
  intros n eps batch os ms i r N H B k d bisecting T UI A1 A2 RE DE.
  destruct (row_result n eps batch os ms i r N H B T) as (O & _). eexists. split; [exact O|].
  assert (DN : desired_normal (rq_incident r) (rq_aim r) (k_position k) = bisecting).
  { unfold desired_normal. rewrite (normalize_eps_long _ (vsub _ _)) by auto. fold (direction_to (k_position k) (rq_aim r)). fold d.
    replace (vadd (smul (-1) (rq_incident r)) d) with (vsub d (rq_incident r)) by vring.
    rewrite normalize_eps_long by auto. reflexivity. }
  assert (ST : step r (0, 0) = inverse k (as_direction bisecting)).
  { unfold step. rewrite desired_direction. unfold forward. rewrite origin_fixed by auto. fold k. rewrite DN. auto. }
  rewrite ST. fold k. unfold motor_positions_to_orientation. split.
  - rewrite mapply_mmul. rewrite offsets_value.
    assert (L : mapply (rotate_e (PI / 2)) (as_point (vec 0 0 0)) = as_point (vec 0 0 0)) by apply linear_e.
    rewrite L. unfold forward. exact (origin_fixed k _ _ T).
  - fold (dir (mmul (forward k (inverse k (as_direction bisecting))) initial_orientation_offsets) up). rewrite dir_of_orientation.
    pose proof (delivered k bisecting RE DE) as X.
    destruct (bisector (rq_incident r) (rq_aim r) (k_position k) UI A1 A2) as (UD & RD). rewrite DN in UD, RD.
    fold d in RD. rewrite <- RD.
    replace (8 / 10 ^ 4) with (4 * (2 / 10 ^ 4)) by field.
    apply reflect_error; auto.
    apply facing_unit.
Qed.

(** ** Ideal drives *)
Lemma ideal_deliver : forall k n l1 h1 l2 h2, k_drive_1 k = ideal_drive l1 h1 -> k_drive_2 k = ideal_drive l2 h2 -> drives_deliver k n.
Proof. intros k n l1 h1 l2 h2 D1 D2 a b _ _ _ _. unfold drives_follow. rewrite D1, D2. split; reflexivity. Qed.

(** ** The configured initial orientation *)
Definition with_initial_orientation (k : kinematics) (o : point) : kinematics :=
  {| k_position := k_position k; k_initial_orientation := o; k_translation_1 := k_translation_1 k; k_translation_2 := k_translation_2 k;
     k_translation_c := k_translation_c k; k_tilt_1n := k_tilt_1n k; k_tilt_1u := k_tilt_1u k; k_tilt_2e := k_tilt_2e k; k_tilt_2n := k_tilt_2n k;
     k_drive_1 := k_drive_1 k; k_drive_2 := k_drive_2 k |}.
Lemma initial_ignored : forall k o m, motor_positions_to_orientation (with_initial_orientation k o) m = motor_positions_to_orientation k m.
Proof. reflexivity. Qed.
Definition request_with (r : request) (o : point) : request :=
  {| rq_kinematics := with_initial_orientation (rq_kinematics r) o; rq_incident := rq_incident r; rq_aim := rq_aim r |}.
Lemma initial_ignored_alignment : forall n eps batch o,
  incident_ray_directions_to_orientations n eps (map (fun r => request_with r o) batch) = incident_ray_directions_to_orientations n eps batch.
Proof.
  intros n eps batch o. unfold incident_ray_directions_to_orientations. rewrite map_map.
  assert (G : forall n ms last before, align_loop eps n (map (fun r => request_with r o) batch) ms last before = align_loop eps n batch ms last before).
  { induction n0 as [|n' IH]; intros ms last before; cbn [align_loop]; auto.
    assert (CM : forall A B (f : request * A -> B) (l : list A), (forall r a, f (request_with r o, a) = f (r, a)) ->
      map f (combine (map (fun r => request_with r o) batch) l) = map f (combine batch l)).
    { intros A B f. clear - f. induction batch as [|r b IH]; intros [|a l] F; cbn; auto. rewrite F, IH; auto. }
    rewrite !CM by reflexivity. rewrite IH. auto. }
  rewrite G. auto.
Qed.
