(** C36-C41, C74, C75: kinematics and alignment. *)
From Coq Require Import List Reals Lra.
From Verif Require Import ModelField ModelVectors ProofsVectors ModelTransforms ModelIntersections ModelKinematics SpecIntersections SpecTransforms SpecKinematics
  ProofsTransforms ProofsKinematics ProofsAlignment ProofsAlignHistory ProofsMounting ProofsRounds.
Import ListNotations.
Local Open Scope R_scope.

(** C36: the orientation for any motor positions is a rigid motion, so are those of the alignment with rays, ... *)
Theorem C36_orientation_rigid : forall k m, rigid (motor_positions_to_orientation k m).
Proof. exact orientation_rigid. Qed.
Print Assumptions C36_orientation_rigid.
Theorem C36_alignment_rigid : forall n eps batch os ms o,
  incident_ray_directions_to_orientations n eps batch = Ok (os, ms) -> In o os -> rigid o.
Proof. exact alignment_rigid. Qed.
Print Assumptions C36_alignment_rigid.
(** ... and aligning moves exactly the surface points and normals of heliostat [i] with its own orientation. *)
Theorem C36_surfaces_moved : forall s ks ms s',
  length ks = length (s_points s) -> length ms = length ks -> length (s_normals s) = length ks ->
  align_with_motors s (s_mask s) ks ms = Ok s' ->
  length (s_points s') = length (s_points s) /\ s_mask s' = s_mask s
  /\ forall i k m points normals, nth_error ks i = Some k -> nth_error ms i = Some m ->
     nth_error (s_points s) i = Some points -> nth_error (s_normals s) i = Some normals ->
     nth_error (s_points s') i = Some (map (mapply (motor_positions_to_orientation k m)) points)
     /\ nth_error (s_normals s') i = Some (map (mapply (motor_positions_to_orientation k m)) normals).
Proof. exact motors_aligned. Qed.
Print Assumptions C36_surfaces_moved.
(** The surface, described lying flat, ends up facing where the kinematics points the mirror. *)
Theorem C36_mirror_normal : forall k m, enu (mapply (motor_positions_to_orientation k m) (as_direction up)) = facing (forward k m).
Proof. exact mirror_normal. Qed.
Print Assumptions C36_mirror_normal.
(** Where every point of the surface goes: through the chain of shifts and turns of the mount. *)
Theorem C36_chain : forall k m p, enu (mapply (motor_positions_to_orientation k m) (as_point p))
  = mounted k (to_angle (k_drive_1 k) (fst m)) (to_angle (k_drive_2 k) (snd m)) (rotated east (PI / 2) p).
Proof. exact chain. Qed.
Print Assumptions C36_chain.
Example C36_case : forall k, let o := motor_positions_to_orientation k (12345, 678) in
  norm (vsub (enu (mapply o (as_point (vec 3 4 0)))) (enu (mapply o (as_point (vec 0 0 0))))) = 5.
Proof.
  intros k o. destruct (C36_orientation_rigid k (12345, 678)) as (_ & _ & D & _). unfold o. rewrite D.
  apply norm_of_sq; [lra|]. cbv [dot vsub vec pe pn pu]. ring.
Qed.

(** C37: for a reachable normal the motor positions stand for joint angles that point the mirror at it, up to the
    epsilons of the code; the error is smaller by orders of magnitude away from the first axis. *)
Theorem C37_inverse_reaches : forall k n, reachable_normal k n ->
  exists angles, inverse k (as_direction n) = to_motors k angles
  /\ (- PI < fst angles <= PI /\ - PI < snd angles <= PI)
  /\ norm (vsub (facing (pose k (fst angles) (snd angles))) n) <= 2 / 10 ^ 4
  /\ norm (cross (first_axis k) n) * norm (vsub (facing (pose k (fst angles) (snd angles))) n) <= 3 / 10 ^ 8
  /\ (drives_follow k angles -> forward k (inverse k (as_direction n)) = pose k (fst angles) (snd angles)).
Proof. exact inverse_reaches. Qed.
Print Assumptions C37_inverse_reaches.
(** Which normals are reachable: those far enough from the first axis for the tilt between the axes. *)
Theorem C37_reachable : forall k n, reachable_normal k n <-> unit n /\ Rabs (dot n (first_axis k)) <= Rabs (cos (k_tilt_2n k)).
Proof. exact reachable_iff. Qed.
Print Assumptions C37_reachable.
Example C37_case : let k := plain (vec 1 2 3) (vec 0 (1 / 10) 0) in let n := vec 0 (3 / 5) (4 / 5) in
  norm (vsub (facing (forward k (inverse k (as_direction n)))) n) <= 3 / 10 ^ 8.
Proof.
  intros k n. assert (U : unit n) by (unfold unit, n; cbv [dot vec pe pn pu]; field).
  destruct (C37_inverse_reaches k n (plain_reachable _ _ _ U)) as (a & I & _ & _ & E & F).
  rewrite F by (split; reflexivity).
  assert (C : norm (cross (first_axis k) n) = 1).
  { unfold first_axis, first_deviations. cbn [k k_tilt_1n k_tilt_1u plain]. destruct rotate_zero as (_ & N & UU). rewrite N, UU, mmul_eye_l.
    apply norm_of_sq; [lra|]. fold (dir eye east). rewrite dir_eye. unfold n, east. cbv [dot cross vec pe pn pu]. field. }
  rewrite C, Rmult_1_l in E. exact E.
Qed.

(** C38: the first solution within the limits is taken; the rows outside the limits are those reported. *)
Theorem C38_selection : forall k n c1 c2, c1 = to_motors k (fst (joint_angles k n)) -> c2 = to_motors k (snd (joint_angles k n)) ->
  (in_limits k c1 \/ in_limits k c2 -> in_limits k (inverse k n))
  /\ (inverse k n = c1 \/ inverse k n = c2)
  /\ (in_limits k c1 -> inverse k n = c1).
Proof. exact selection. Qed.
Print Assumptions C38_selection.
(** The two solutions considered are all there are: any joint angles that point the mirror at the normal agree in the second
    angle (its side and, up to the epsilon, its sine) with one of them, which points there too. *)
Theorem C38_all_solutions : forall k n a b, facing (pose k a b) = n ->
  exists a' b', ((a', b') = fst (joint_angles k (as_direction n)) \/ (a', b') = snd (joint_angles k (as_direction n)))
  /\ 0 <= cos b' * cos b /\ Rabs (cos (k_tilt_2n k)) * Rabs (sin b' - sin b) <= / 10 ^ 8
  /\ norm (vsub (facing (pose k a' b')) n) <= 2 / 10 ^ 4.
Proof. exact all_solutions. Qed.
Print Assumptions C38_all_solutions.
Theorem C38_reported : forall batch row i, In i (invalid_rows row batch) <->
  exists j k n, i = (row + j)%nat /\ nth_error batch j = Some (k, n) /\ ~ in_limits k (inverse k n).
Proof. exact invalid_rows_spec. Qed.
Print Assumptions C38_reported.
Example C38_case : in_limits kb (inverse kb (as_direction db)).
Proof.
  pose proof PI_4. destruct (C37_inverse_reaches kb db (plain_reachable _ _ _ db_unit)) as (a & I & (B1 & B2) & _). rewrite I.
  unfold in_limits, to_motors. cbn [fst snd]. unfold kb, plain. cbn [k_drive_1 k_drive_2 motor_min motor_max ideal_drive].
  change (to_motor (ideal_drive (-4) 4)) with (fun x : R => x). cbv beta. lra.
Qed.

(** C39: the requested normal is the bisector, ... *)
Theorem C39_bisector : forall i aim o, unit i -> / 10 ^ 8 <= norm (vsub aim o) -> / 10 ^ 8 <= norm (vsub (direction_to o aim) i) ->
  unit (desired_normal i aim o) /\ reflect i (desired_normal i aim o) = direction_to o aim.
Proof. exact bisector. Qed.
Print Assumptions C39_bisector.
(** ... and without translation deviations the aligned mirror sends the incident ray to the aim point. *)
Theorem C39_aligned_reflects : forall n eps batch os ms i r, (2 <= n)%nat ->
  incident_ray_directions_to_orientations n eps batch = Ok (os, ms) ->
  nth_error batch i = Some r ->
  let k := rq_kinematics r in
  let d := direction_to (k_position k) (rq_aim r) in
  let bisecting := smul (/ norm (vsub d (rq_incident r))) (vsub d (rq_incident r)) in
  no_translations k -> unit (rq_incident r) ->
  / 10 ^ 8 <= norm (vsub (rq_aim r) (k_position k)) -> / 10 ^ 8 <= norm (vsub d (rq_incident r)) ->
  reachable_normal k bisecting -> drives_deliver k bisecting ->
  exists o, nth_error os i = Some o
    /\ enu (mapply o (as_point (vec 0 0 0))) = k_position k
    /\ norm (vsub (reflect (rq_incident r) (enu (mapply o (as_direction up)))) d) <= 8 / 10 ^ 4.
Proof. exact aligned_reflects. Qed.
Print Assumptions C39_aligned_reflects.
(** With translation deviations the concentrator moves on an arm about the first joint.  The mirror then sends the
    ray to the aim point up to the angle under which the aim point sees the arm. *)
Theorem C39_translations : forall n eps batch os ms i r distance, (2 <= n)%nat ->
  incident_ray_directions_to_orientations n eps batch = Ok (os, ms) ->
  nth_error batch i = Some r ->
  let k := rq_kinematics r in
  let bisecting q := let v := vsub (direction_to q (rq_aim r)) (rq_incident r) in smul (/ norm v) v in
  unit (rq_incident r) -> 0 < distance ->
  (forall q, norm (vsub q (first_joint k)) <= arm_length k ->
     distance <= norm (vsub (rq_aim r) q) /\ / 10 ^ 8 <= norm (vsub (rq_aim r) q) /\ / 10 ^ 8 <= norm (vsub (direction_to q (rq_aim r)) (rq_incident r))
     /\ reachable_normal k (bisecting q) /\ drives_deliver k (bisecting q)) ->
  exists o, nth_error os i = Some o
    /\ let centre := enu (mapply o (as_point (vec 0 0 0))) in
       norm (vsub centre (first_joint k)) <= arm_length k
       /\ norm (vsub (reflect (rq_incident r) (enu (mapply o (as_direction up)))) (direction_to centre (rq_aim r)))
          <= 8 / 10 ^ 4 + 2 * arm_length k / distance.
Proof. exact aligned_with_translations. Qed.
Print Assumptions C39_translations.
Example C39_translations_case : exists o m, incident_ray_directions_to_orientations 4 (/ 10 ^ 4) [rc] = Ok ([o], [m])
  /\ norm (vsub (reflect (vec 0 0 (-1)) (enu (mapply o (as_direction up)))) (direction_to (enu (mapply o (as_point (vec 0 0 0)))) (vec 0 (-100) 0))) <= 7 / 10 ^ 3.
Proof.
  destruct (single 4 (/ 10 ^ 4) rc) as (o & m & H); [auto with arith|]. exists o, m. split; auto.
  destruct (C39_translations 4 (/ 10 ^ 4) [rc] [o] [m] 0 rc 99) as (o' & O & _ & E); auto with arith.
  - unfold unit, rc. cbn [rq_incident]. cbv [dot vec pe pn pu]. ring.
  - lra.
  - intros q Q. destruct (rc_far q Q) as (A & B & C & D & F). auto.
  - injection O as <-. change (rq_kinematics rc) with kc in E. destruct kc_joint as (_ & A). rewrite A in E.
    eapply Rle_trans; [exact E|]. lra.
Qed.
Example C39_case : exists o m, incident_ray_directions_to_orientations 4 (/ 10 ^ 4) [rb] = Ok ([o], [m])
  /\ norm (vsub (reflect (rq_incident rb) (enu (mapply o (as_direction up)))) db) <= 8 / 10 ^ 4.
Proof.
  destruct (single 4 (/ 10 ^ 4) rb) as (o & m & H); [auto with arith|]. exists o, m. split; auto.
  pose proof db_unit as UD. apply norm_unit_dot in UD.
  assert (DT : direction_to (k_position kb) (rq_aim rb) = db).
  { unfold direction_to. assert (V : vsub (rq_aim rb) (k_position kb) = smul 100 db).
    { apply point_eq; unfold kb, plain, rb; cbn [k_position rq_aim vsub smul vec pe pn pu]; ring. }
    rewrite V, norm_smul, UD, Rabs_right by lra. apply point_eq; cbn [smul vec pe pn pu]; field. }
  assert (VI : vsub db (rq_incident rb) = smul 2 db).
  { apply point_eq; unfold rb; cbn [rq_incident vsub smul vec pe pn pu]; ring. }
  assert (N2 : norm (smul 2 db) = 2) by (rewrite norm_smul, UD, Rabs_right; lra).
  assert (BI : smul (/ 2) (smul 2 db) = db) by (apply point_eq; cbn [smul vec pe pn pu]; field).
  destruct (C39_aligned_reflects 4 (/ 10 ^ 4) [rb] [o] [m] 0 rb) as (o' & O & _ & E); auto with arith.
  - exact kb_still.
  - unfold rb. cbn [rq_incident]. apply norm_unit_dot. rewrite norm_smul, UD, Rabs_left; lra.
  - change (rq_kinematics rb) with kb.
    assert (V : vsub (rq_aim rb) (k_position kb) = smul 100 db).
    { apply point_eq; unfold kb, plain, rb; cbn [k_position rq_aim vsub smul vec pe pn pu]; ring. }
    rewrite V, norm_smul, UD, Rabs_right by lra. lra.
  - change (rq_kinematics rb) with kb. rewrite DT, VI, N2. lra.
  - change (rq_kinematics rb) with kb. rewrite DT, VI, N2, BI. apply plain_reachable, db_unit.
  - apply plain_deliver.
  - injection O as <-. change (rq_kinematics rb) with kb in E. rewrite DT in E. exact E.
Qed.

(** C40 fails: with one iteration the orientation belongs to the motor positions before the only step. *)
Theorem C40_stored_motors_refuted : exists r o m, incident_ray_directions_to_orientations 1 (/ 10 ^ 4) [r] = Ok ([o], [m])
  /\ in_limits (rq_kinematics r) m /\ o <> motor_positions_to_orientation (rq_kinematics r) m.
Proof. exact stored_motors_differ. Qed.
Print Assumptions C40_stored_motors_refuted.
(** In general: with one iteration the orientations are those of motor positions zero, whatever the incident rays and the aim points are. *)
Theorem C40_single_iteration_refuted : forall eps batch os ms, incident_ray_directions_to_orientations 1 eps batch = Ok (os, ms) ->
  os = map (fun r => motor_positions_to_orientation (rq_kinematics r) (0, 0)) batch.
Proof. intros eps batch os ms H. destruct (stops_when_settled 1 eps batch os ms H) as ([|j] & J & E & _); [exact E|exfalso; inversion J as [|? Q]; inversion Q]. Qed.
Print Assumptions C40_single_iteration_refuted.
(** In general: either the pairs agree, or the iterations ran out and the motor positions are one step ahead. *)
Theorem C40_stored_motors_partial : forall n eps batch os ms, incident_ray_directions_to_orientations n eps batch = Ok (os, ms) ->
  os = of_motors batch ms
  \/ exists previous, length previous = length batch /\ os = of_motors batch previous
     /\ ms = map (fun '(r, m) => inverse (rq_kinematics r) (desired r (forward (rq_kinematics r) m))) (combine batch previous).
Proof. exact consistent_or_exhausted. Qed.
Print Assumptions C40_stored_motors_partial.
(** The number of rounds: the first one after which the misalignment of no heliostat of the batch has changed by more
    than the tolerance, or all of them. *)
Theorem C40_rounds : forall n eps batch os ms, incident_ray_directions_to_orientations n eps batch = Ok (os, ms) ->
  exists j, (j < n)%nat /\ os = map (fun r => motor_positions_to_orientation (rq_kinematics r) (rounds j r)) batch
  /\ (forall j', (j' < j)%nat -> ~ settled eps batch j')
  /\ ((settled eps batch j /\ ms = map (rounds j) batch) \/ (~ settled eps batch j /\ S j = n /\ ms = map (rounds n) batch)).
Proof. exact stops_when_settled. Qed.
Print Assumptions C40_rounds.
(** They agree for every heliostat without translation deviations once there are two iterations. *)
Theorem C40_no_translations_partial : forall n eps batch os ms i r, (2 <= n)%nat ->
  incident_ray_directions_to_orientations n eps batch = Ok (os, ms) ->
  nth_error batch i = Some r -> no_translations (rq_kinematics r) ->
  exists m, nth_error ms i = Some m /\ nth_error os i = Some (motor_positions_to_orientation (rq_kinematics r) m).
Proof. exact consistent_without_translations. Qed.
Print Assumptions C40_no_translations_partial.
(** Without iterations the call fails; with some it does not. *)
Theorem C40_defined : forall n eps batch, (1 <= n)%nat <-> exists os ms, incident_ray_directions_to_orientations n eps batch = Ok (os, ms).
Proof. exact call_defined. Qed.
Print Assumptions C40_defined.
Example C40_case : exists os ms, incident_ray_directions_to_orientations 4 (/ 10 ^ 4) [ra; rb] = Ok (os, ms)
  /\ exists m, nth_error ms 1 = Some m /\ nth_error os 1 = Some (motor_positions_to_orientation kb m).
Proof.
  destruct (C40_defined 4 (/ 10 ^ 4) [ra; rb]) as (H & _). destruct H as (os & ms & H); [auto with arith|].
  exists os, ms. split; auto. apply (C40_no_translations_partial 4 (/ 10 ^ 4) [ra; rb] os ms 1 rb); auto with arith. exact kb_still.
Qed.

(** C41 fails: the second alignment moves the surfaces again. *)
Theorem C41_align_twice_refuted : exists g mask motors once, once = perform_all g [Activate mask; AlignMotors mask motors]
  /\ snd (perform once (AlignMotors mask motors)) = None
  /\ s_points (gr_surfaces once) = [[as_point (vec 5 0 0)]]
  /\ s_points (gr_surfaces (fst (perform once (AlignMotors mask motors)))) = [[as_point (vec 10 0 0)]].
Proof. exact not_idempotent. Qed.
Print Assumptions C41_align_twice_refuted.
Theorem C41_align_twice_compounds : forall s ks ms once twice,
  length ks = length (s_points s) -> length ms = length ks -> length (s_normals s) = length ks ->
  align_with_motors s (s_mask s) ks ms = Ok once -> align_with_motors once (s_mask s) ks ms = Ok twice ->
  forall i k m points, nth_error ks i = Some k -> nth_error ms i = Some m -> nth_error (s_points s) i = Some points ->
  nth_error (s_points twice) i
  = Some (map (fun x => mapply (motor_positions_to_orientation k m) (mapply (motor_positions_to_orientation k m) x)) points).
Proof. exact twice_compounds. Qed.
Print Assumptions C41_align_twice_compounds.
(** Activating in between restores the property: whatever happened before, activating and aligning gives the same
    group as on a fresh one. *)
Theorem C41_reactivated_partial : forall g history mask align, length mask = length (gr_heliostats g) ->
  perform_all g (history ++ [Activate mask; align]) = perform_all g [Activate mask; align].
Proof. exact realign. Qed.
Print Assumptions C41_reactivated_partial.
(** Aligning with another mask than the activated one is refused. *)
Theorem C41_other_mask : forall s mask ks ms batch, s_mask s <> mask ->
  align_with_motors s mask ks ms = Err AssertionError /\ align_with_incident s mask batch = Err AssertionError.
Proof. exact mask_checked. Qed.
Print Assumptions C41_other_mask.
Example C41_case : forall h1 h2, let g := {| gr_heliostats := [h1; h2]; gr_active := []; gr_surfaces := {| s_mask := []; s_points := []; s_normals := [] |}; gr_motors := [] |} in
  let align := AlignMotors [1; 2]%nat [(1, 2); (3, 4); (5, 6)] in
  perform_all g [Activate [2; 0]%nat; AlignMotors [2; 0]%nat [(0, 1); (2, 3)]; Activate [1; 2]%nat; align] = perform_all g [Activate [1; 2]%nat; align].
Proof. intros. apply (C41_reactivated_partial g [Activate [2; 0]%nat; AlignMotors [2; 0]%nat [(0, 1); (2, 3)]] [1; 2]%nat align). reflexivity. Qed.

(** C74 fails: the configured initial orientation is never used. *)
Theorem C74_initial_orientation_refuted : forall n eps batch o,
  incident_ray_directions_to_orientations n eps (map (fun r => request_with r o) batch) = incident_ray_directions_to_orientations n eps batch.
Proof. exact initial_ignored_alignment. Qed.
Print Assumptions C74_initial_orientation_refuted.
Theorem C74_motors_refuted : forall k o m, motor_positions_to_orientation (with_initial_orientation k o) m = motor_positions_to_orientation k m.
Proof. exact initial_ignored. Qed.
Print Assumptions C74_motors_refuted.
Example C74_case : k_initial_orientation kb = south /\ k_initial_orientation (with_initial_orientation kb up) = up /\ south <> up.
Proof. repeat split. intros E. apply (f_equal pu) in E. cbn in E. lra. Qed.

(** C75 fails: a heliostat aligned together with another one can get another orientation than alone. *)
Theorem C75_batch_refuted : exists r other o o2 m ms, incident_ray_directions_to_orientations 3 (13 / 20) [r] = Ok ([o], [m])
  /\ incident_ray_directions_to_orientations 3 (13 / 20) [r; other] = Ok (o2, ms)
  /\ nth_error o2 0 <> Some o.
Proof. exact batch_dependent. Qed.
Print Assumptions C75_batch_refuted.
(** A heliostat without translation deviations gets the same as alone. *)
Theorem C75_batch_partial : forall n eps batch os ms i r o m, (2 <= n)%nat ->
  incident_ray_directions_to_orientations n eps batch = Ok (os, ms) ->
  nth_error batch i = Some r -> no_translations (rq_kinematics r) ->
  incident_ray_directions_to_orientations n eps [r] = Ok ([o], [m]) ->
  nth_error os i = Some o /\ nth_error ms i = Some m.
Proof. exact batch_independent. Qed.
Print Assumptions C75_batch_partial.
(** Any heliostat takes at least as many rounds in a batch as alone.  It gets the same as alone if the whole batch has settled by then, and
    it goes on past the round at which it would have stopped alone only because another heliostat of the batch has not settled. *)
Theorem C75_rounds_partial : forall n eps batch os ms i r o m, incident_ray_directions_to_orientations n eps batch = Ok (os, ms) ->
  nth_error batch i = Some r -> incident_ray_directions_to_orientations n eps [r] = Ok ([o], [m]) ->
  exists alone shared, (alone <= shared < n)%nat /\ o = motor_positions_to_orientation (rq_kinematics r) (rounds alone r)
  /\ nth_error os i = Some (motor_positions_to_orientation (rq_kinematics r) (rounds shared r))
  /\ (settled eps batch alone -> shared = alone /\ nth_error os i = Some o /\ nth_error ms i = Some m)
  /\ ((alone < shared)%nat -> settled eps [r] alone /\ ~ settled eps batch alone).
Proof. exact batch_rounds. Qed.
Print Assumptions C75_rounds_partial.
Example C75_rounds_case : exists os ms o m, incident_ray_directions_to_orientations 4 (/ 10 ^ 4) [ra; rb] = Ok (os, ms)
  /\ nth_error [ra; rb] 0 = Some ra /\ incident_ray_directions_to_orientations 4 (/ 10 ^ 4) [ra] = Ok ([o], [m]).
Proof.
  destruct (C40_defined 4 (/ 10 ^ 4) [ra; rb]) as (H & _). destruct H as (os & ms & H); [auto with arith|].
  destruct (C40_defined 4 (/ 10 ^ 4) [ra]) as (A & _). destruct A as (os1 & ms1 & A); [auto with arith|].
  destruct (C40_rounds _ _ _ _ _ A) as (j & _ & O & _ & D). destruct D as [(_ & D)|(_ & _ & D)]; cbn [map] in O, D; subst os1 ms1;
    do 4 eexists; (split; [exact H|split; [reflexivity|exact A]]).
Qed.
Example C75_case : no_translations (rq_kinematics rb) /\ nth_error [ra; rb] 1 = Some rb.
Proof. split; [exact kb_still|reflexivity]. Qed.
