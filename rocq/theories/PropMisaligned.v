(** Property C154: what pointing errors do to the rays and to the image. *)
From Coq Require Import List Arith Reals Lra Lia.
From Verif Require Import ModelField ModelVectors ModelTransforms ModelActuators ModelKinematics ModelSplatting ModelIntersections
  SpecIntersections SpecTransforms SpecKinematics ProofsMisaligned ProofsPointing.
Local Open Scope R_scope.

(** C154.  A mirror normal off by an angle turns the reflected ray by at most twice the angle, and by exactly twice the
    angle if the incident ray lies in the plane of the two normals. *)
Theorem C154_twice : forall i n n' theta, unit i -> unit n -> unit n' -> 0 <= theta <= PI / 2 -> dot n n' = cos theta ->
  exists phi, 0 <= phi <= 2 * theta /\ dot (reflect i n) (reflect i n') = cos phi /\ (phi = 2 * theta <-> dot i (cross n n') = 0).
Proof. exact turned_angle. Qed.
Print Assumptions C154_twice.
Theorem C154_rays : forall i n n', unit i -> unit n -> unit n' -> norm (vsub (reflect i n) (reflect i n')) <= 2 * norm (vsub n n').
Proof. exact turned_chord. Qed.
Print Assumptions C154_rays.

(** Errors of the joint angles and of the four tilt angles add up at worst; the translations do not matter for normals. *)
Theorem C154_normals : forall k k' m m' v,
  norm (vsub (enu (mapply (motor_positions_to_orientation k m) (as_direction v))) (enu (mapply (motor_positions_to_orientation k' m') (as_direction v))))
  <= (Rabs (k_tilt_1n k - k_tilt_1n k') + Rabs (k_tilt_1u k - k_tilt_1u k') + Rabs (k_tilt_2e k - k_tilt_2e k') + Rabs (k_tilt_2n k - k_tilt_2n k')
      + Rabs (to_angle (k_drive_1 k) (fst m) - to_angle (k_drive_1 k') (fst m')) + Rabs (to_angle (k_drive_2 k) (snd m) - to_angle (k_drive_2 k') (snd m'))) * norm v.
Proof. exact normals_turned. Qed.
Print Assumptions C154_normals.

(** On the target the hit moves by at most the distance [t'] times the change of the direction, plus the shift of the
    origin, both stretched by the slant of the ray. *)
Theorem C154_spot : forall p o o' d d' t t', unit (plane_normal p) -> unit d -> unit d' -> hits_area p o d t -> hits_area p o' d' t' ->
  norm (vsub (along o d t) (along o' d' t')) <= (1 + / - dot d (plane_normal p)) * norm (vsub o o') + Rabs t' / - dot d (plane_normal p) * norm (vsub d d').
Proof. exact spots_apart. Qed.
Print Assumptions C154_spot.
(** ... and in the bitmap by as much, measured in pixels. *)
Theorem C154_pixels : forall width height p o o' d d' m m' t t' delta, (2 <= width)%nat -> (2 <= height)%nat -> sized p ->
  hits_area p o d t -> hits_area p o' d' t' -> norm (vsub (along o d t) (along o' d' t')) <= delta ->
  Rabs (i_e (line_plane width height p o d m) - i_e (line_plane width height p o' d' m')) <= (INR width - 1) * delta / plane_width p
  /\ Rabs (i_u (line_plane width height p o d m) - i_u (line_plane width height p o' d' m')) <= (INR height - 1) * delta / plane_height p.
Proof. exact pixels_apart. Qed.
Print Assumptions C154_pixels.

(** All in one for a point [x] of the mirror with the normal [v]: joints off by [d1] and [d2] move the hit of its ray by
    at most the turn of the ray times its length plus the displacement of the mirror, which the lever arms limit. *)
Theorem C154_joints : forall k m m' x v i p t t' d1 d2, unit i -> unit v -> unit (plane_normal p) ->
  Rabs (to_angle (k_drive_1 k) (fst m) - to_angle (k_drive_1 k) (fst m')) <= d1 ->
  Rabs (to_angle (k_drive_2 k) (snd m) - to_angle (k_drive_2 k) (snd m')) <= d2 ->
  let origin m := enu (mapply (motor_positions_to_orientation k m) (as_point x)) in
  let ray m := reflect i (enu (mapply (motor_positions_to_orientation k m) (as_direction v))) in
  hits_area p (origin m) (ray m) t -> hits_area p (origin m') (ray m') t' ->
  norm (vsub (along (origin m) (ray m) t) (along (origin m') (ray m') t'))
  <= (1 + / - dot (ray m) (plane_normal p)) * (d1 * (norm (k_translation_2 k) + norm (k_translation_c k) + norm x) + d2 * (norm (k_translation_c k) + norm x))
     + Rabs t' / - dot (ray m) (plane_normal p) * (2 * (d1 + d2)).
Proof. exact spot_of_mirror. Qed.
Print Assumptions C154_joints.

(** A mirror ten metres before a target area, turned by about 11.5 degrees: the spot moves by 4.21 metres, while the
    theorems allow for 4.33. *)
Example C154_case : let i := vec 0 (-1) 0 in let n := vec 0 1 0 in let n' := vec (20 / 101) (99 / 101) 0 in let o := vec 0 (-10) 50 in
  unit i /\ unit n /\ unit n' /\ unit (plane_normal south_area) /\ dot i (cross n n') = 0
  /\ hits_area south_area o (reflect i n) 10 /\ hits_area south_area o (reflect i n') (10 * 10201 / 9401)
  /\ 42 / 10 < norm (vsub (along o (reflect i n) 10) (along o (reflect i n') (10 * 10201 / 9401)))
  /\ norm (vsub (along o (reflect i n) 10) (along o (reflect i n') (10 * 10201 / 9401))) <= 44 / 10.
Proof. exact misaligned_case. Qed.
