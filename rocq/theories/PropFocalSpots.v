(** C94, C99: focal spot losses and measured normals. *)
From Coq Require Import List Arith Reals Lra Lia.
From Verif Require Import RealSums ModelField ModelVectors ProofsVectors ModelTransforms ModelIntersections ModelFocalSpots SpecLosses SpecIntersections SpecField
  SpecTransforms SpecKinematics SpecFocalSpots ProofsBitmap ProofsFocalSpots.
Import ListNotations.
Local Open Scope R_scope.

(** C94. For bitmaps of equal resolution every sample's loss is the distance of its two focal spots on its own area ... *)
Theorem C94_losses_partial : forall planar cylindrical indices predictions truths, proper_tower planar cylindrical ->
  (forall i, In i indices -> i < length planar + length cylindrical)%nat ->
  length predictions = length indices -> length truths = length indices ->
  (forall a, In a predictions -> flux_image a) -> (forall b, In b truths -> flux_image b) ->
  (forall k a b, nth_error predictions k = Some a -> nth_error truths k = Some b -> same_resolution a b) ->
  exists losses, focal_spot_loss planar cylindrical true (Some indices) predictions truths = Ok losses /\ length losses = length indices
  /\ forall k i a b, nth_error indices k = Some i -> nth_error predictions k = Some a -> nth_error truths k = Some b ->
     exists d, nth_error losses k = Some (Some d) /\ spot_distance planar cylindrical i a b d.
Proof. exact losses_value. Qed.
Print Assumptions C94_losses_partial.

(** ... never negative, zero exactly for equal centres of mass, ... *)
Theorem C94_zero : forall planar cylindrical index a b d, proper_tower planar cylindrical ->
  flux_image a -> flux_image b -> same_resolution a b -> spot_distance planar cylindrical index a b d ->
  0 <= d /\ (d = 0 <-> spot_column a = spot_column b /\ spot_row a = spot_row b).
Proof. exact distance_zero. Qed.
Print Assumptions C94_zero.

(** ... symmetric and fulfilling the triangle inequality, ... *)
Theorem C94_metric : forall planar cylindrical index a b c, proper_tower planar cylindrical -> (index < length planar + length cylindrical)%nat ->
  flux_image a -> flux_image b -> flux_image c -> same_resolution a b -> same_resolution b c ->
  exists ab ba bc ac, focal_spot_distance planar cylindrical index a b = Ok (Some ab) /\ focal_spot_distance planar cylindrical index b a = Ok (Some ba)
    /\ focal_spot_distance planar cylindrical index b c = Ok (Some bc) /\ focal_spot_distance planar cylindrical index a c = Ok (Some ac)
    /\ ab = ba /\ ac <= ab + bc.
Proof. exact distance_metric. Qed.
Print Assumptions C94_metric.

(** ... and on a planar area less than its diagonal. *)
Theorem C94_diagonal : forall p a b, sized p -> flux_image a -> flux_image b -> same_resolution a b ->
  planar_distance p a b < sqrt (plane_width p ^ 2 + plane_height p ^ 2).
Proof. exact distance_diagonal. Qed.
Print Assumptions C94_diagonal.

Theorem C94_keywords : forall planar cylindrical device indices predictions truths, device = false \/ indices = None ->
  focal_spot_loss planar cylindrical device indices predictions truths = Err ValueError.
Proof. exact losses_keywords. Qed.
Print Assumptions C94_keywords.

(** A planar area 8 m wide; the flux is uniform, and in one of four columns only. *)
Definition last_column : image := {| rows := 2; columns := 4; value := fun _ e => if (e =? 3)%nat then 1 else 0 |}.
Example C94_case : let p := {| plane_center := vec 0 0 50; plane_normal := vec 0 (-1) 0; plane_width := 8; plane_height := 10 |} in
  proper_tower [p] [] /\ flux_image (uniform 2 4) /\ flux_image last_column /\ same_resolution (uniform 2 4) last_column
  /\ spot_column (uniform 2 4) = 12 / (8 + / 10 ^ 8) /\ spot_column last_column = 6 / (2 + / 10 ^ 8).
Proof.
  intros p. split; [split; [intros p' [<-|[]]; split; cbn; lra|intros c []]|].
  split; [repeat split; cbn; try lia; intros u e _ _; lra|]. split; [repeat split; cbn; try lia; intros u e _ _; destruct (e =? 3)%nat; lra|].
  split; [split; reflexivity|]. unfold spot_column, total. cbn [uniform last_column rows columns value map seq Rsum fold_right Nat.eqb INR]. split; f_equal; try lra; f_equal; lra.
Qed.

(** The full claim fails if the ground truth has another resolution than the prediction, which is not checked: its centre of
    mass is converted with the resolution of the prediction.  The same uniform flux on a finer bitmap is reported as far away
    (with twice as many columns by at least a third of the width). *)
Theorem C94_resolution_refuted : forall planar cylindrical index p h w h' w', nth_error planar index = Some p -> sized p ->
  (0 < h <= h')%nat -> (0 < w < w')%nat ->
  exists d, focal_spot_distance planar cylindrical index (uniform h w) (uniform h' w') = Ok (Some d)
    /\ plane_width p * (INR (w' - w) / (3 * INR w)) <= d.
Proof. exact resolutions_differ. Qed.
Print Assumptions C94_resolution_refuted.

(** C99. Every sample gets the unit normal that, at the position of the heliostat it belongs to, reflects its rays to its
    measured focal spot, on the side of the sun. *)
Theorem C99_measured_partial : forall positions mask focal_spots incidents, length positions = length mask ->
  length focal_spots = list_sum mask -> length incidents = list_sum mask ->
  exists normals owners, measured_normals positions mask focal_spots incidents = Ok normals /\ owners_of_mask mask owners
  /\ length normals = list_sum mask /\ length owners = list_sum mask
  /\ forall k i p f d, nth_error owners k = Some i -> nth_error positions i = Some p ->
     nth_error focal_spots k = Some f -> nth_error incidents k = Some d ->
     unit d -> / 10 ^ 12 <= norm (vsub f p) -> / 10 ^ 12 <= norm (vsub (direction_to p f) d) ->
     exists n, nth_error normals k = Some (as_direction n) /\ unit n /\ reflect d n = direction_to p f /\ dot d n < 0 /\ sends_to p d n f.
Proof. exact measured_all. Qed.
Print Assumptions C99_measured_partial.

Example C99_case : let p := vec 0 3 0 in let f := vec 0 0 4 in let d := vec 0 0 (-1) in
  unit d /\ / 10 ^ 12 <= norm (vsub f p) /\ direction_to p f = vec 0 (-3/5) (4/5) /\ / 10 ^ 12 <= norm (vsub (direction_to p f) d).
Proof.
  intros p f d. assert (N : norm (vsub f p) = 5).
  { unfold norm. replace (dot (vsub f p) (vsub f p)) with (5 * 5) by (unfold f, p; vunfold; ring). apply sqrt_square. lra. }
  assert (D : direction_to p f = vec 0 (-3/5) (4/5)) by (unfold direction_to; rewrite N; apply point_eq; unfold f, p; vunfold; lra).
  split; [unfold unit, d; vunfold; ring|]. split; [rewrite N; lra|]. split; auto. rewrite D. unfold norm.
  assert (B : 1 <= dot (vsub (vec 0 (-3/5) (4/5)) d) (vsub (vec 0 (-3/5) (4/5)) d)) by (unfold d; vunfold; lra).
  apply sqrt_le_1_alt in B. rewrite sqrt_1 in B. lra.
Qed.

(** The full claim, for the mirror where it is, fails: a mirror whose centre is not at the heliostat's position (translation
    deviations, as in the default kinematics) and not on the line to the focal spot misses the focal spot with the normal
    computed for it. *)
Theorem C99_mirror_refuted : forall p f d m n, unit d -> / 10 ^ 12 <= norm (vsub f p) -> / 10 ^ 12 <= norm (vsub (direction_to p f) d) ->
  cross (vsub f p) (vsub f m) <> vec 0 0 0 -> measured_normals [p] [1%nat] [f] [d] = Ok [as_direction n] -> ~ sends_to m d n f.
Proof. exact measured_off_position. Qed.
Print Assumptions C99_mirror_refuted.
