(** C30-C33: rotations, translations, canting, and the rotation between two orientations. *)
From Coq Require Import List Arith Reals Lra Lia.
From Verif Require Import ModelField ModelVectors ProofsVectors ModelTransforms SpecIntersections SpecTransforms ProofsTransforms.
Import ListNotations.
Local Open Scope R_scope.

(** C30. *)
Theorem C30_rigid : forall a b,
  rigid (rotate_e a) /\ rigid (rotate_n a) /\ rigid (rotate_u a) /\ rigid (rotate_distortion a b).
Proof. exact (fun a b => conj (rotate_e_rigid a) (conj (rotate_n_rigid a) (conj (rotate_u_rigid a) (distortion_rigid a b)))). Qed.
Print Assumptions C30_rigid.

(** Each axis stays where it is. *)
Theorem C30_axes : forall a,
  mapply (rotate_e a) (as_direction east) = as_direction east
  /\ mapply (rotate_n a) (as_direction north) = as_direction north
  /\ mapply (rotate_u a) (as_direction up) = as_direction up.
Proof. exact rotation_axes. Qed.
Print Assumptions C30_axes.

Theorem C30_additive : forall a b,
  mmul (rotate_e a) (rotate_e b) = rotate_e (a + b)
  /\ mmul (rotate_n a) (rotate_n b) = rotate_n (a + b)
  /\ mmul (rotate_u a) (rotate_u b) = rotate_u (a + b)
  /\ rotate_e 0 = eye /\ rotate_n 0 = eye /\ rotate_u 0 = eye.
Proof. exact (fun a b => conj (rotate_e_add a b) (conj (rotate_n_add a b) (conj (rotate_u_add a b) rotate_zero))). Qed.
Print Assumptions C30_additive.

(** A distortion tilts a ray first about the up axis, then about the east axis. *)
Theorem C30_distortion : forall e u v,
  enu (mapply (rotate_distortion e u) (as_direction v)) = rotated east e (rotated up u v).
Proof. exact distortion_direction. Qed.
Print Assumptions C30_distortion.

Theorem C30_translation : forall e n u p,
  mapply (translate e n u) (as_point p) = as_point (vadd p (vec e n u))
  /\ mapply (translate e n u) (as_direction p) = as_direction p.
Proof. exact translate_action. Qed.
Print Assumptions C30_translation.

(** Batches of distortions and translations: one matrix per entry, and a rejection of differing lengths. *)
Theorem C30_translation_batch : forall e n u,
  (List.length e = List.length n /\ List.length n = List.length u ->
   exists ms, translate_enu e n u = Ok ms /\ List.length ms = List.length e
     /\ forall i x y z, nth_error e i = Some x -> nth_error n i = Some y -> nth_error u i = Some z -> nth_error ms i = Some (translate x y z))
  /\ (~ (List.length e = List.length n /\ List.length n = List.length u) -> translate_enu e n u = Err ValueError).
Proof. exact translate_batch. Qed.
Print Assumptions C30_translation_batch.

Example C30_case :
  enu (mapply (mmul (translate 1 2 3) (rotate_u (PI / 2))) (as_point (vec 1 0 0))) = vec 1 3 3
  /\ mmul (rotate_e (PI / 2)) (rotate_e (- (PI / 2))) = eye
  /\ translate_enu [1; 2] [3] [4; 5] = Err ValueError.
Proof.
  split; [|split].
  - rewrite mapply_mmul. unfold rotate_u. rewrite cos_PI2, sin_PI2. apply point_eq; unfold translate; henu; ring.
  - destruct (C30_additive (PI / 2) (- (PI / 2))) as (-> & _ & _ & Z & _). rewrite Rplus_opp_r. exact Z.
  - apply C30_translation_batch. cbn. lia.
Qed.

(** C31. The full claim is false: the rotation about the north axis turns clockwise. *)
Theorem C31_north_refuted : forall a, sin a <> 0 ->
  exists v, enu (mapply (rotate_n a) (as_direction v)) <> rotated north a v.
Proof. exact rotate_n_wrong. Qed.
Print Assumptions C31_north_refuted.

(** What holds: east and up turn counterclockwise, north turns by the opposite angle. *)
Theorem C31_directions_partial : forall a v,
  enu (mapply (rotate_e a) (as_direction v)) = rotated east a v
  /\ enu (mapply (rotate_u a) (as_direction v)) = rotated up a v
  /\ enu (mapply (rotate_n a) (as_direction v)) = rotated north (- a) v.
Proof. exact (fun a v => conj (rotate_e_direction a v) (conj (rotate_u_direction a v) (rotate_n_direction a v))). Qed.
Print Assumptions C31_directions_partial.

(** A quarter turn takes up to west for the code, and to east counterclockwise. *)
Example C31_case : sin (PI / 2) <> 0 /\ enu (mapply (rotate_n (PI / 2)) (as_direction up)) = vec (-1) 0 0 /\ rotated north (PI / 2) up = vec 1 0 0.
Proof.
  unfold rotate_n, rotated, up, north. rewrite cos_PI2, sin_PI2. split; [lra|].
  split; apply point_eq; henu; ring.
Qed.

(** C32. Canting vectors that are not (nearly) parallel. *)
Theorem C32_canting : forall c_e c_n, / 10 ^ 12 <= norm c_e -> / 10 ^ 8 * norm c_e <= norm (cross c_e c_n) ->
  rigid_action (perform_canting false c_e c_n)
  /\ perform_canting false c_e c_n (as_direction east) = as_direction (smul (/ norm c_e) c_e)
  /\ (let up' := enu (perform_canting false c_e c_n (as_direction up)) in dot up' c_e = 0 /\ dot up' c_n = 0 /\ 0 < dot up' (cross c_e c_n))
  /\ (forall x, perform_canting true c_e c_n (perform_canting false c_e c_n x) = x)
  /\ (forall x, perform_canting false c_e c_n (perform_canting true c_e c_n x) = x).
Proof. exact canting_all. Qed.
Print Assumptions C32_canting.

(** Canting vectors of a facet of half-size 2 by 1, tilted by a quarter turn. *)
Example C32_case : perform_canting false (vec 0 2 0) (vec (-1) 0 0) (as_point (vec 3 4 5)) = as_point (vec (-4) 3 5).
Proof.
  assert (N1 : norm (vec 0 2 0) = 2). { unfold norm. vunfold. replace (0 * 0 + 2 * 2 + 0 * 0) with (2 * 2) by ring. apply sqrt_square. lra. }
  assert (C1 : norm (cross (vec 0 2 0) (vec (-1) 0 0)) = 2).
  { unfold norm. vunfold. match goal with |- sqrt ?x = _ => replace x with (2 * 2) by ring end. apply sqrt_square. lra. }
  destruct (C32_canting (vec 0 2 0) (vec (-1) 0 0)) as ((P & D & _ & L & DOT & X) & E & U & _); [rewrite N1; lra|rewrite N1, C1; lra|].
  rewrite N1 in E. cbv zeta in U. destruct U as (U1 & U2 & U3).
  assert (UU : enu (perform_canting false (vec 0 2 0) (vec (-1) 0 0) (as_direction up)) = vec 0 0 1).
  { pose proof (DOT up up) as UN. revert U1 U2 U3 UN. generalize (enu (perform_canting false (vec 0 2 0) (vec (-1) 0 0) (as_direction up))).
    intros [a b c]. unfold up. vunfold. intros. apply point_eq; cbn [pe pn pu]; nra. }
  assert (EE : enu (perform_canting false (vec 0 2 0) (vec (-1) 0 0) (as_direction east)) = vec 0 1 0).
  { rewrite E. apply point_eq; henu; field. }
  unfold perform_canting in *. rewrite vapply_mtr in *.
  assert (NN : enu (mapply (canting_matrix (vec 0 2 0) (vec (-1) 0 0)) (as_direction north)) = vec (-1) 0 0).
  { pose proof (X up east) as Q. rewrite !vapply_mtr in Q. rewrite UU, EE in Q.
    replace (cross up east) with north in Q by (unfold up, east, north; vring). rewrite Q. vring. }
  pose proof (P (vec 3 4 5)) as W. pose proof (P (vec 0 0 0)) as W0. rewrite !vapply_mtr in *.
  assert (SUM : enu (mapply (canting_matrix (vec 0 2 0) (vec (-1) 0 0)) (as_point (vec 3 4 5)))
    = vadd (smul 3 (enu (mapply (canting_matrix (vec 0 2 0) (vec (-1) 0 0)) (as_direction east))))
      (vadd (smul 4 (enu (mapply (canting_matrix (vec 0 2 0) (vec (-1) 0 0)) (as_direction north))))
            (smul 5 (enu (mapply (canting_matrix (vec 0 2 0) (vec (-1) 0 0)) (as_direction up)))))).
  { unfold canting_matrix, east, north, up. apply point_eq; henu; ring. }
  rewrite EE, NN, UU in SUM. rewrite <- (as_point_enu _ W), SUM. f_equal. vring.
Qed.

(** C33. *)
Theorem C33_rotation_between : forall from to, unit from -> unit to ->
  let '(axis, angle) := rotation_angle_and_axis from to in
  unit axis /\ 0 <= angle <= PI
  /\ norm (vsub (rotated axis angle from) to) <= 2 / 10 ^ 6
  /\ (/ 10 ^ 6 <= norm (cross from to) -> rotated axis angle from = to)
  /\ (to = from \/ to = smul (-1) from -> rotated axis angle from = to).
Proof. exact rotation_between. Qed.
Print Assumptions C33_rotation_between.

(** Lengths do not matter. *)
Theorem C33_directions_only : forall from to a b, 0 < norm from -> 0 < norm to -> 0 < a -> 0 < b ->
  rotation_angle_and_axis (smul a from) (smul b to) = rotation_angle_and_axis from to.
Proof. exact rotation_scale. Qed.
Print Assumptions C33_directions_only.

(** The rotation vector: its length is the angle, its direction the axis. *)
Theorem C33_rotation_vector : forall from to, unit from -> unit to -> / 10 ^ 12 <= norm (cross from to) ->
  let r := decompose_rotations from to in
  0 < norm r <= PI /\ rotated (smul (/ norm r) r) (norm r) from = to.
Proof. exact decompose_spec. Qed.
Print Assumptions C33_rotation_vector.

Lemma norm_of_square : forall v x, 0 <= x -> dot v v = x * x -> norm v = x.
Proof. intros v x X E. unfold norm. rewrite E. apply sqrt_square. exact X. Qed.
(** Up to south, and up to down. *)
Example C33_case : (let '(axis, angle) := rotation_angle_and_axis up south in rotated axis angle up = south)
  /\ (let '(axis, angle) := rotation_angle_and_axis up (smul (-1) up) in rotated axis angle up = smul (-1) up)
  /\ (let r := decompose_rotations up south in rotated (smul (/ norm r) r) (norm r) up = south).
Proof.
  assert (UU : unit up) by (unfold unit, up; vunfold; ring). assert (US : unit south) by (unfold unit, south; vunfold; ring).
  assert (UD : unit (smul (-1) up)) by (unfold unit, up; vunfold; ring).
  assert (C : norm (cross up south) = 1). { apply norm_of_square; [lra|]. unfold up, south. vunfold. ring. }
  split; [|split].
  - pose proof (C33_rotation_between up south UU US) as H. destruct (rotation_angle_and_axis up south). destruct H as (_ & _ & _ & H & _). apply H. rewrite C. lra.
  - pose proof (C33_rotation_between up _ UU UD) as H. destruct (rotation_angle_and_axis up (smul (-1) up)). destruct H as (_ & _ & _ & _ & H). apply H. auto.
  - apply C33_rotation_vector; auto. rewrite C. lra.
Qed.
