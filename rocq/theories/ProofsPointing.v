(** Proofs about the effect of joint angle errors on the spot of a mirror (C154). *)
From Coq Require Import List Arith Reals Bool Lra Lia Psatz.
From Verif Require Import ModelField ModelVectors ProofsVectors ModelAngles ModelTransforms ModelActuators ModelKinematics ModelSplatting ModelIntersections
  SpecIntersections SpecTransforms SpecKinematics ProofsTransforms ProofsKinematics ProofsAlignment ProofsMounting ProofsIntersections ProofsMisaligned.
Local Open Scope R_scope.

Lemma place_dir_e : forall a p, place (rotate_e a) p = dir (rotate_e a) p.
Proof. intros. unfold place, dir, rotate_e. apply point_eq; henu; ring. Qed.
Lemma place_dir_n : forall a p, place (rotate_n a) p = dir (rotate_n a) p.
Proof. intros. unfold place, dir, rotate_n. apply point_eq; henu; ring. Qed.
Lemma place_dir_u : forall a p, place (rotate_u a) p = dir (rotate_u a) p.
Proof. intros. unfold place, dir, rotate_u. apply point_eq; henu; ring. Qed.
Lemma same_turn : forall m v w, rigid m -> norm (vsub (dir m v) (dir m w)) = norm (vsub v w).
Proof. intros. rewrite <- dir_sub, dir_norm; auto. Qed.
Lemma same_shift : forall t v w, norm (vsub (vadd v t) (vadd w t)) = norm (vsub v w).
Proof. intros. f_equal. vring. Qed.

(** Where a surface point is, as a chain of turns and shifts. *)
Definition chained (k : kinematics) (a b : R) (x : point) : point :=
  vadd (dir (rotate_n (k_tilt_1n k)) (dir (rotate_u (k_tilt_1u k)) (vadd (dir (rotate_e a)
    (dir (rotate_e (k_tilt_2e k)) (dir (rotate_n (k_tilt_2n k)) (vadd (dir (rotate_u b) (vadd (dir (rotate_e (PI / 2)) x) (k_translation_c k))) (k_translation_2 k)))))
    (k_translation_1 k)))) (k_position k).
Lemma chained_place : forall k m x, enu (mapply (motor_positions_to_orientation k m) (as_point x))
  = chained k (to_angle (k_drive_1 k) (fst m)) (to_angle (k_drive_2 k) (snd m)) x.
Proof.
  intros. fold (place (motor_positions_to_orientation k m) x). unfold motor_positions_to_orientation, forward, pose, first_deviations, second_deviations.
  rewrite !place_mmul by (repeat (apply rigid_mmul || apply rotate_e_rigid || apply rotate_n_rigid || apply rotate_u_rigid || apply translate_by_rigid || apply eye_rigid || apply offsets_rigid)).
  rewrite offsets_value, !place_translate, !place_dir_e, !place_dir_n, !place_dir_u, place_eye. reflexivity.
Qed.
Theorem origins_apart : forall k m m' x,
  norm (vsub (enu (mapply (motor_positions_to_orientation k m) (as_point x))) (enu (mapply (motor_positions_to_orientation k m') (as_point x))))
  <= Rabs (to_angle (k_drive_1 k) (fst m) - to_angle (k_drive_1 k) (fst m')) * (norm (k_translation_2 k) + norm (k_translation_c k) + norm x)
     + Rabs (to_angle (k_drive_2 k) (snd m) - to_angle (k_drive_2 k) (snd m')) * (norm (k_translation_c k) + norm x).
Proof.
  intros k m m' x. rewrite !chained_place. generalize (to_angle (k_drive_1 k) (fst m)) (to_angle (k_drive_2 k) (snd m)) (to_angle (k_drive_1 k) (fst m')) (to_angle (k_drive_2 k) (snd m')).
  intros a b a' b'. unfold chained. rewrite same_shift, same_turn, same_turn, same_shift by (apply rotate_n_rigid || apply rotate_u_rigid).
  set (p1 := vadd (dir (rotate_e (PI / 2)) x) (k_translation_c k)).
  assert (P1 : norm p1 <= norm (k_translation_c k) + norm x).
  { unfold p1. eapply Rle_trans; [apply norm_triangle|]. rewrite dir_norm by apply rotate_e_rigid. lra. }
  pose proof (turn_u b b' p1) as T1.
  set (w := dir (rotate_e (k_tilt_2e k)) (dir (rotate_n (k_tilt_2n k)) (vadd (dir (rotate_u b) p1) (k_translation_2 k)))).
  set (w' := dir (rotate_e (k_tilt_2e k)) (dir (rotate_n (k_tilt_2n k)) (vadd (dir (rotate_u b') p1) (k_translation_2 k)))).
  assert (W : norm (vsub w w') <= Rabs (b - b') * norm p1).
  { unfold w, w'. rewrite same_turn, same_turn, same_shift by (apply rotate_e_rigid || apply rotate_n_rigid). auto. }
  assert (W' : norm w' <= norm (k_translation_2 k) + norm p1).
  { unfold w'. rewrite !dir_norm by (apply rotate_e_rigid || apply rotate_n_rigid). eapply Rle_trans; [apply norm_triangle|].
    rewrite dir_norm by apply rotate_u_rigid. lra. }
  pose proof (turn_after (rotate_e a) (rotate_e a') w w' _ _ (rotate_e_rigid _) (rotate_e_rigid _) (turn_e _ _) W) as T2.
  pose proof (Rabs_pos (a - a')). pose proof (Rabs_pos (b - b')).
  eapply Rle_trans; [exact T2|]. apply Rplus_le_compat; apply Rmult_le_compat_l; lra.
Qed.
Theorem spot_of_mirror : forall k m m' x v i p t t' d1 d2, unit i -> unit v -> unit (plane_normal p) ->
  Rabs (to_angle (k_drive_1 k) (fst m) - to_angle (k_drive_1 k) (fst m')) <= d1 ->
  Rabs (to_angle (k_drive_2 k) (snd m) - to_angle (k_drive_2 k) (snd m')) <= d2 ->
  let origin m := enu (mapply (motor_positions_to_orientation k m) (as_point x)) in
  let ray m := reflect i (enu (mapply (motor_positions_to_orientation k m) (as_direction v))) in
  hits_area p (origin m) (ray m) t -> hits_area p (origin m') (ray m') t' ->
  norm (vsub (along (origin m) (ray m) t) (along (origin m') (ray m') t'))
  <= (1 + / - dot (ray m) (plane_normal p)) * (d1 * (norm (k_translation_2 k) + norm (k_translation_c k) + norm x) + d2 * (norm (k_translation_c k) + norm x))
     + Rabs t' / - dot (ray m) (plane_normal p) * (2 * (d1 + d2)).
Proof.
  intros k m m' x v i p t t' d1 d2 I V N D1 D2 origin ray H H'.
  assert (RIGID : forall m, rigid (motor_positions_to_orientation k m)).
  { intros. unfold motor_positions_to_orientation, forward. apply rigid_mmul; [apply pose_rigid|apply offsets_rigid]. }
  assert (VN : forall m, unit (enu (mapply (motor_positions_to_orientation k m) (as_direction v)))).
  { intros m0. destruct (RIGID m0) as (_ & _ & _ & _ & D & _). unfold unit. rewrite D. auto. }
  assert (RU : forall m, unit (ray m)).
  { intros m0. unfold ray. specialize (VN m0). set (n := enu _) in *. clearbody n. unfold unit in *.
    replace (dot (reflect i n) (reflect i n)) with (dot i i - 4 * (dot i n * dot i n) + 4 * (dot i n * dot i n) * dot n n) by (unfold reflect; vunfold; ring).
    rewrite I, VN. ring. }
  assert (F : 0 < - dot (ray m) (plane_normal p)) by (destruct H as (F & _); lra).
  eapply Rle_trans; [apply (spots_apart p (origin m) (origin m') (ray m) (ray m') t t'); auto|].
  pose proof (Rinv_0_lt_compat _ F) as F'.
  assert (LX : 0 <= norm (k_translation_2 k)) by apply norm_nonneg. assert (LC : 0 <= norm (k_translation_c k)) by apply norm_nonneg. assert (LP : 0 <= norm x) by apply norm_nonneg.
  apply Rplus_le_compat.
  - apply Rmult_le_compat_l; [lra|]. eapply Rle_trans; [apply origins_apart|]. apply Rplus_le_compat; apply Rmult_le_compat_r; lra.
  - apply Rmult_le_compat_l; [apply Rmult_le_pos; [apply Rabs_pos|lra]|].
    eapply Rle_trans; [apply turned_chord; auto|]. apply Rmult_le_compat_l; [lra|]. eapply Rle_trans; [apply (normals_turned k k m m' v)|].
    rewrite !Rminus_diag_eq by auto. rewrite (proj2 (norm_unit_dot v) V), !Rabs_R0. lra.
Qed.
