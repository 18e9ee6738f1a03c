(** Proofs about mirrored and turned scenes. *)
From Coq Require Import List Arith ZArith Reals Bool Lia Lra.
From Verif Require Import RealSums ModelField ModelVectors ProofsVectors ModelTransforms ModelLBVH ModelBlocking ModelSplatting SpecSplatting ProofsSplatting ModelIntersections SpecIntersections
  ProofsIntersections ModelAngles ProofsAngles ProofsCylinder ModelTrace SpecTrace ProofsTrace SpecMirrored.
Import ListNotations.
Local Open Scope R_scope.

Lemma point_ext : forall p q, pe p = pe q -> pn p = pn q -> pu p = pu q -> p = q.
Proof. intros [? ? ?] [? ? ?]. cbn. intros -> -> ->. reflexivity. Qed.

(** ** Motions that keep the axes *)
Section Flip.
Variables a b : R.
Hypothesis A : a * a = 1.
Hypothesis B : b * b = 1.
Definition flip (p : point) : point := vec (a * pe p) (b * pn p) (pu p).
Definition flip_angles (x : R * R) : R * R := let '(u, e) := x in (a * b * u, b * e).

Lemma dot_flip : forall p q, dot (flip p) (flip q) = dot p q.
Proof.
  intros p q. unfold dot, flip. cbn [pe pn pu vec]. replace (a * pe p * (a * pe q)) with (a * a * (pe p * pe q)) by ring. replace (b * pn p * (b * pn q)) with (b * b * (pn p * pn q)) by ring.
  rewrite A, B. ring.
Qed.
Lemma flip_add : forall p q, flip (vadd p q) = vadd (flip p) (flip q).
Proof. intros. apply point_ext; cbn; ring. Qed.
Lemma flip_sub : forall p q, flip (vsub p q) = vsub (flip p) (flip q).
Proof. intros. apply point_ext; cbn; ring. Qed.
Lemma flip_smul : forall k p, flip (smul k p) = smul k (flip p).
Proof. intros. apply point_ext; cbn; ring. Qed.
Lemma reflect_flip : forall d n, reflect (flip d) (flip n) = flip (reflect d n).
Proof. intros. unfold reflect. rewrite dot_flip. apply point_ext; cbn; ring. Qed.
Lemma sign_cases : (a = 1 \/ a = -1) /\ (b = 1 \/ b = -1).
Proof. split; [destruct (Req_dec a 1)|destruct (Req_dec b 1)]; auto; right; nra. Qed.
Lemma scatter_flip : forall d u e, scatter_ray (flip d) (a * b * u) (b * e) = flip (scatter_ray d u e).
Proof.
  intros d u e.
  assert (T : forall k x, k = 1 \/ k = -1 -> cos (k * x) = cos x /\ sin (k * x) = k * sin x).
  { intros k x [-> | ->]; [rewrite !Rmult_1_l; auto|]. replace (-1 * x) with (- x) by ring. rewrite cos_neg, sin_neg. split; ring. }
  destruct sign_cases as (CA & CB). assert (CC : a * b = 1 \/ a * b = -1) by (destruct CA as [-> | ->], CB as [-> | ->]; lra).
  destruct (T (a * b) u CC) as (U1 & U2). destruct (T b e CB) as (E1 & E2).
  apply point_ext; unfold scatter_ray, flip, rotate_distortion; cbn; rewrite U1, U2, ?E1, ?E2; unfold hdot; cbn [he hn hu hw hv]; destruct CA as [-> | ->], CB as [-> | ->]; ring.
Qed.
Lemma combine_map : forall {X Y X' Y'} (f : X -> X') (g : Y -> Y') l m, combine (map f l) (map g m) = map (fun '(x, y) => (f x, g y)) (combine l m).
Proof. intros X Y X' Y' f g l. induction l as [|x l IH]; intros [|y m]; cbn; auto. rewrite IH. auto. Qed.
Lemma rays_flip : forall s, sample_rays (changed_sample flip flip_angles s) = map (fun '(o, d) => (flip o, flip d)) (sample_rays s).
Proof.
  intros s. unfold sample_rays. cbn [changed_sample s_incident s_surface s_distortions]. induction (s_distortions s) as [|row l IH]; [reflexivity|].
  cbn [map flat_map]. rewrite IH, map_app. f_equal. rewrite combine_map, !map_map. apply map_ext. intros ((o & n) & (u & e)). cbn [flip_angles]. rewrite reflect_flip, scatter_flip. reflexivity.
Qed.

Definition flip_plane (p : plane) : plane := {| plane_center := flip (plane_center p); plane_normal := flip (plane_normal p); plane_width := plane_width p; plane_height := plane_height p |}.
(** A motion that keeps east keeps the image coordinates, ... *)
Lemma plane_kept : forall width height p o d m, a = 1 -> line_plane width height (flip_plane p) (flip o) (flip d) m = line_plane width height p o d m.
Proof.
  intros width height p o d m A1. unfold line_plane, flip_plane. cbn [plane_center plane_normal plane_width plane_height]. rewrite <- flip_sub, !dot_flip.
  set (ff := Rltb (dot d (plane_normal p)) 0). set (t := _ / (if ff then _ else 1) * indicator ff). rewrite <- flip_smul, <- flip_add. cbn [flip pe pu vec]. rewrite A1, !Rmult_1_l. reflexivity.
Qed.
(** ... and one that exchanges east and west exchanges left and right. *)
Lemma plane_flipped : forall width height p o d m, a = -1 -> 0 < plane_width p ->
  let r := line_plane width height p o d m in let r' := line_plane width height (flip_plane p) (flip o) (flip d) m in
  i_u r' = i_u r /\ i_distance r' = i_distance r /\ i_intensity r' = i_intensity r /\ (i_intensity r <> 0 -> i_e r' = INR width - 1 - i_e r).
Proof.
  intros width height p o d m A1 W. cbv zeta. unfold line_plane, flip_plane. cbn [plane_center plane_normal plane_width plane_height]. rewrite <- flip_sub, !dot_flip.
  set (ff := Rltb (dot d (plane_normal p)) 0). set (t := _ / (if ff then _ else 1) * indicator ff). rewrite <- flip_smul, <- flip_add. cbn [flip pe pu vec]. rewrite A1. set (q := vadd o (smul t d)). cbn [i_e i_u i_distance i_intensity].
  set (x := (pe q + plane_width p / 2 - pe (plane_center p)) / plane_width p * (INR width - 1)).
  assert (X : (-1 * pe q + plane_width p / 2 - -1 * pe (plane_center p)) / plane_width p * (INR width - 1) = INR width - 1 - x) by (unfold x; field; lra). rewrite X.
  set (y := (pu q + plane_height p / 2 - pu (plane_center p)) / plane_height p * (INR height - 1)).
  assert (V : (Rleb 0 (INR width - 1 - x) && Rleb (INR width - 1 - x) (INR width - 1))%bool = (Rleb 0 x && Rleb x (INR width - 1))%bool).
  { unfold Rleb. destruct (Rle_dec 0 (INR width - 1 - x)), (Rle_dec (INR width - 1 - x) (INR width - 1)), (Rle_dec 0 x), (Rle_dec x (INR width - 1)); cbn; auto; exfalso; lra. }
  rewrite V. set (valid := (_ && ff)%bool). split; [reflexivity|]. split; [reflexivity|]. split; [reflexivity|]. destruct valid; cbn [indicator]; [intros _; ring|]. intros C. exfalso. apply C. ring.
Qed.

Definition flip_cylinder (c : cylinder) : cylinder :=
  {| cyl_center := flip (cyl_center c); cyl_axis := flip (cyl_axis c); cyl_normal := flip (cyl_normal c); cyl_radius := cyl_radius c; cyl_height := cyl_height c; cyl_opening := cyl_opening c |}.
Lemma frame_flip : forall c v, local_frame (flip_cylinder c) (flip v) = vec (a * b * pe (local_frame c v)) (pn (local_frame c v)) (pu (local_frame c v)).
Proof.
  intros c v. unfold local_frame. cbn [flip_cylinder cyl_normal cyl_axis]. rewrite !dot_flip. cbn [pe pn pu vec]. apply point_ext; cbn [pe pn pu vec]; auto.
  unfold dot, cross, flip. cbn [pe pn pu vec]. destruct sign_cases as ([-> | ->] & [-> | ->]); ring.
Qed.
Lemma distance_flip : forall c o d, cylinder_distance (flip_cylinder c) (flip o) (flip d) = cylinder_distance c o d.
Proof.
  intros c o d. unfold cylinder_distance. change (cyl_center (flip_cylinder c)) with (flip (cyl_center c)). rewrite <- flip_sub, !frame_flip. cbn [pe pn pu vec].
  change (cyl_radius (flip_cylinder c)) with (cyl_radius c).
  set (x := pe (local_frame c d)). set (y := pe (local_frame c (vsub o (cyl_center c)))).
  assert (S : a * b * (a * b) = 1) by (replace (a * b * (a * b)) with ((a * a) * (b * b)) by ring; rewrite A, B; ring).
  assert (E1 : (a * b * x) ^ 2 = x ^ 2) by (replace ((a * b * x) ^ 2) with (a * b * (a * b) * x ^ 2) by ring; rewrite S; ring).
  assert (E2 : (a * b * y) ^ 2 = y ^ 2) by (replace ((a * b * y) ^ 2) with (a * b * (a * b) * y ^ 2) by ring; rewrite S; ring).
  assert (E3 : a * b * y * (a * b * x) = y * x) by (replace (a * b * y * (a * b * x)) with (a * b * (a * b) * (y * x)) by ring; rewrite S; ring).
  rewrite E1, E2, E3. reflexivity.
Qed.
End Flip.

(** ** Cylinders *)
Lemma atan2_sign : forall y x, y < 0 -> atan2 y x < 0.
Proof.
  intros y x Y. destruct (Rlt_le_dec (atan2 y x) 0) as [|G]; auto. exfalso. destruct (atan2_polar y x) as (_ & E). pose proof (atan2_bound y x) as (_ & U). pose proof (sin_ge_0 _ G U). pose proof (sqrt_pos (x * x + y * y)). nra.
Qed.
Lemma atan2_mirrored : forall y x, (x <> 0 \/ y <> 0) -> 0 <= y -> atan2 y (- x) = PI - atan2 y x.
Proof.
  intros y x N Y. destruct (atan2_polar y x) as (C & S). set (r := sqrt (x * x + y * y)) in *. pose proof (atan2_bound y x) as (L & U).
  assert (P : 0 < r) by (apply sqrt_lt_R0; destruct N; nra).
  assert (G : 0 <= atan2 y x).
  { destruct (Rle_lt_dec 0 (atan2 y x)) as [|G]; auto. exfalso. assert (sin (atan2 y x) < 0) by (apply sin_lt_0_var; auto). nra. }
  assert (G2 : atan2 y x = PI \/ atan2 y x < PI) by lra. apply (atan2_unique y (- x) (PI - atan2 y x) r); auto; try lra.
  - rewrite cos_minus, cos_PI, sin_PI. lra.
  - rewrite sin_minus, cos_PI, sin_PI. lra.
Qed.

Lemma cylinder_mirrored : forall width height c o d m, proper_cylinder c -> northern (CylindricalTarget c) -> unit d ->
  let r := line_cylinder width height c o d m in let r' := line_cylinder width height (flip_cylinder (-1) 1 c) (flip (-1) 1 o) (flip (-1) 1 d) m in
  i_u r' = i_u r /\ i_distance r' = i_distance r /\ i_intensity r' = i_intensity r /\ (i_intensity r <> 0 -> i_e r' = INR width - 1 - i_e r).
Proof.
  intros width height c o d m PC (angle & N0 & N1 & rho & RP & NE & NN) UD. cbv zeta. unfold line_cylinder.
  rewrite (distance_flip (-1) 1) by ring. destruct (cylinder_distance c o d) as [t|] eqn:T; [|cbn; repeat split; auto; intros C; exfalso; apply C; auto].
  change (cyl_center (flip_cylinder (-1) 1 c)) with (flip (-1) 1 (cyl_center c)). rewrite <- flip_sub, !(frame_flip (-1) 1) by ring.
  set (l := local_frame c (vsub o (cyl_center c))). set (v := local_frame c d). cbn [vadd smul pe pn pu vec flip_cylinder cyl_height cyl_opening cyl_normal flip].
  set (x := pe l + t * pe v). set (y := pn l + t * pn v). set (z := pu l + t * pu v).
  replace (-1 * 1 * pe l + t * (-1 * 1 * pe v)) with (- x) by (unfold x; ring). rewrite Rmult_1_l.
  replace (-1 * pe (cyl_normal c)) with (- pe (cyl_normal c)) by ring.
  assert (POS : 0 < x * x + y * y).
  { destruct (distance_spec c PC o d t T) as (T0 & TA & TD). rewrite (off_axis_sq c PC) in TD. unfold along in TD.
    replace (vsub (vadd o (smul t d)) (cyl_center c)) with (vadd (vsub o (cyl_center c)) (smul t d)) in TD by (apply point_ext; cbn; ring).
    rewrite local_linear in TD. fold l v in TD. cbn [vadd smul pe pn pu vec] in TD. fold x y in TD. destruct PC as (_ & _ & _ & R0 & _).
    assert (0 <= / 10 ^ 12 / (4 * dot (off_axis (cyl_axis c) d) (off_axis (cyl_axis c) d))) by (left; apply Rdiv_lt_0_compat; lra). nra. }
  assert (XY : x <> 0 \/ y <> 0) by (destruct (Req_dec x 0) as [-> |]; [right; nra|auto]).
  assert (NX : norm (vec (- x) y 0) = norm (vec x y 0)) by (unfold norm, dot; cbn [pe pn pu vec]; f_equal; ring). rewrite NX.
  unfold dot. cbn [smul pe pn pu vec]. cbn [i_u i_distance i_intensity i_e].
  replace (-1 * (-1 * 1 * pe v) * (/ norm (vec x y 0) * - x)) with (-1 * pe v * (/ norm (vec x y 0) * x)) by ring.
  assert (SA : 0 <= sin angle) by (apply sin_ge_0; destruct PC as (_ & _ & _ & _ & _ & O0); lra).
  assert (TH : atan2 (pn (cyl_normal c)) (pe (cyl_normal c)) = angle) by (apply (atan2_unique _ _ angle rho); auto; destruct PC as (_ & _ & _ & _ & _ & O0); lra).
  assert (TH' : atan2 (pn (cyl_normal c)) (- pe (cyl_normal c)) = PI - angle).
  { rewrite atan2_mirrored, TH; auto; [|rewrite NN; nra]. rewrite NE, NN. pose proof (sin2_cos2 angle) as Q. unfold Rsqr in Q. destruct (Req_dec (sin angle) 0) as [Z|Z]; [left|right]; intros C; apply Rmult_integral in C; destruct C as [C|C]; try lra. rewrite Z, C in Q. lra. }
  rewrite TH, TH'. destruct (Rlt_le_dec y 0) as [Y|Y].
  - pose proof (atan2_sign y x Y) as S1. pose proof (atan2_sign y (- x) Y) as S2.
    assert (F1 : Rleb 0 (atan2 y x - (angle - cyl_opening c / 2)) = false) by (unfold Rleb; destruct (Rle_dec 0 _); auto; exfalso; lra).
    assert (F2 : Rleb 0 (atan2 y (- x) - (PI - angle - cyl_opening c / 2)) = false) by (unfold Rleb; destruct (Rle_dec 0 _); auto; exfalso; lra).
    rewrite F1, F2, !andb_false_r. cbn [andb indicator]. rewrite !Rmult_0_r. repeat split; auto. intros C. exfalso. apply C. reflexivity.
  - rewrite atan2_mirrored by auto. set (phi := atan2 y x). destruct PC as (_ & _ & _ & _ & _ & O0).
    set (o2 := cyl_opening c) in *.
    assert (V : (Rleb 0 (PI - phi - (PI - angle - o2 / 2)) && Rleb (PI - phi - (PI - angle - o2 / 2)) o2)%bool = (Rleb 0 (phi - (angle - o2 / 2)) && Rleb (phi - (angle - o2 / 2)) o2)%bool).
    { unfold Rleb. destruct (Rle_dec 0 (PI - phi - (PI - angle - o2 / 2))), (Rle_dec (PI - phi - (PI - angle - o2 / 2)) o2), (Rle_dec 0 (phi - (angle - o2 / 2))), (Rle_dec (phi - (angle - o2 / 2)) o2); cbn; auto; exfalso; lra. }
    rewrite <- !andb_assoc, V, !andb_assoc. set (valid := (_ && _ && _ && _)%bool). split; [reflexivity|]. split; [reflexivity|]. split; [reflexivity|].
    destruct valid; cbn [indicator]; [intros _; field; lra|]. intros C. exfalso. apply C. ring.
Qed.

(** Half a turn exchanges the part of a cylinder that is hit with the part behind. *)
Lemma cylinder_turned : forall width height c o d m, proper_cylinder c -> 0 < pn (cyl_normal c) -> cyl_opening c < PI -> unit d ->
  let r := line_cylinder width height c o d m in let r' := line_cylinder width height (flip_cylinder (-1) (-1) c) (flip (-1) (-1) o) (flip (-1) (-1) d) m in
  i_intensity r <> 0 -> i_intensity r' = 0.
Proof.
  intros width height c o d m PC NN OP UD. cbv zeta. unfold line_cylinder.
  rewrite (distance_flip (-1) (-1)) by ring. destruct (cylinder_distance c o d) as [t|] eqn:T; [|reflexivity].
  change (cyl_center (flip_cylinder (-1) (-1) c)) with (flip (-1) (-1) (cyl_center c)). rewrite <- flip_sub, !(frame_flip (-1) (-1)) by ring.
  set (l := local_frame c (vsub o (cyl_center c))). set (v := local_frame c d). cbn [vadd smul pe pn pu vec flip_cylinder cyl_height cyl_opening cyl_normal flip].
  replace (-1 * -1 * pe l + t * (-1 * -1 * pe v)) with (pe l + t * pe v) by ring.
  set (x := pe l + t * pe v). set (y := pn l + t * pn v). set (z := pu l + t * pu v). cbn [i_intensity].
  set (nn := pn (cyl_normal c)) in *. set (ne := pe (cyl_normal c)).
  assert (TH : atan2 (-1 * nn) (-1 * ne) = atan2 nn ne - PI).
  { destruct (atan2_polar nn ne) as (C & S). pose proof (atan2_bound nn ne) as (L & U). set (r := sqrt (ne * ne + nn * nn)) in *.
    assert (P : 0 < r) by (apply sqrt_lt_R0; nra).
    assert (G : 0 < atan2 nn ne).
    { destruct (Rlt_le_dec 0 (atan2 nn ne)) as [|G]; auto. exfalso. assert (sin (atan2 nn ne) <= 0); [|nra].
      destruct G as [G| ->]; [left; apply sin_lt_0_var; auto|rewrite sin_0; lra]. }
    apply (atan2_unique _ _ _ r); auto; try lra.
    - rewrite cos_minus, cos_PI, sin_PI. lra.
    - rewrite sin_minus, cos_PI, sin_PI. lra. }
  rewrite TH. set (theta := atan2 nn ne). set (phi := atan2 y x). set (o2 := cyl_opening c) in *. intros P.
  destruct (Rleb 0 (phi - (theta - o2 / 2))) eqn:E1; [|exfalso; apply P; rewrite andb_false_r; cbn; ring].
  assert (E2 : Rleb (phi - (theta - PI - o2 / 2)) o2 = false).
  { clear P. unfold Rleb in *. destruct (Rle_dec 0 (phi - (theta - o2 / 2))) as [Q|]; [|discriminate]. destruct (Rle_dec (phi - (theta - PI - o2 / 2)) o2) as [Q2|]; auto. exfalso. clearbody phi theta o2. lra. }
  rewrite E2, andb_false_r. cbn. ring.
Qed.

(** ** Images *)
Lemma hat_even : forall x, hat (- x) = hat x.
Proof. intros x. unfold hat. rewrite Rabs_Ropp. reflexivity. Qed.
Lemma image_reversed : forall w h im im', is_image w h im -> is_image w h im' ->
  (forall r c, (r < h)%nat -> (c < w)%nat -> pixel im' h r c = pixel im h r (w - 1 - c)) -> im' = map (@rev R) im.
Proof.
  intros w h im im' (L & W) (L' & W') P. apply (nth_ext _ _ [] (@rev R [])); [rewrite map_length; lia|]. intros k K. rewrite L' in K.
  rewrite (map_nth (@rev R)).
  assert (WK : length (nth k im []) = w) by (apply W, nth_In; lia). assert (WK' : length (nth k im' []) = w) by (apply W', nth_In; lia).
  apply (nth_ext _ _ 0 0); [rewrite rev_length; lia|]. intros c C. rewrite WK' in C. rewrite rev_nth by lia. rewrite WK.
  pose proof (P (h - 1 - k)%nat c ltac:(lia) C) as Q. unfold pixel in Q. replace (h - 1 - (h - 1 - k))%nat with k in Q by lia. rewrite Q. f_equal. lia.
Qed.
(** The intersection [i'] is [i] with left and right exchanged. *)
Definition swapped (width : nat) (i i' : intersection) : Prop :=
  i_u i' = i_u i /\ i_distance i' = i_distance i /\ i_intensity i' = i_intensity i /\ (i_intensity i <> 0 -> i_e i' = INR width - 1 - i_e i).
Definition in_range (i : intersection) : Prop := 0 <= i_e i /\ 0 <= i_u i.

Lemma Rsum_map_same : forall {A B} (f : A -> R) (g : B -> R) l m, Forall2 (fun x y => f x = g y) l m -> Rsum (map f l) = Rsum (map g m).
Proof. intros A B f g l m H. induction H; [reflexivity|]. cbn [map]. rewrite !Rsum_cons. congruence. Qed.

Lemma images_swapped : forall width height extinction reflectivity is is' (blocked : list R), (1 <= width)%nat -> (1 <= height)%nat -> Forall2 (swapped width) is is' -> Forall in_range is -> Forall in_range is' ->
  (forall i, In i is -> i_intensity i <> 0 -> 0 < i_e i < INR width - 1) ->
  let hits l := map (fun '(i, b) => {| hit_e := i_e i; hit_u := i_u i; hit_intensity := ray_intensity extinction reflectivity (i_intensity i) b |}) (combine l blocked) in
  exists image, is_image width height image /\ bilinear_splatting width height (hits is) = Ok image /\ bilinear_splatting width height (hits is') = Ok (map (@rev R) image).
Proof.
  intros width height extinction reflectivity is is' blocked W H F R1 R2 OE hits.
  assert (RH : forall l, Forall in_range l -> forall r, In r (hits l) -> 0 <= hit_e r /\ 0 <= hit_u r).
  { intros l RL r I. unfold hits in I. apply in_map_iff in I. destruct I as ((i & b) & <- & I). apply in_combine_l in I. rewrite Forall_forall in RL. apply (RL i I). }
  destruct (splatting_pixels width height (hits is) W H (RH is R1)) as (im & E & I & P). destruct (splatting_pixels width height (hits is') W H (RH is' R2)) as (im' & E' & I' & P').
  exists im. split; auto. split; auto. rewrite E'. f_equal. apply (image_reversed width height); auto. intros r c Hr Hc. rewrite P', P by lia. unfold sum_where. rewrite !Rsum_filter.
  symmetry. apply Rsum_map_same. unfold hits. clear hits RH E I P E' I' P' im im'. revert is' F R2 blocked. induction is as [|i is IH]; intros is' F R2 blocked; inversion F as [|? i' ? l' S F']; subst; [constructor|].
  destruct blocked as [|b blocked]; [constructor|]. cbn [combine map]. constructor; [|apply IH; auto; [apply (Forall_inv_tail R1)|intros j J; apply OE; right; auto|apply (Forall_inv_tail R2)]].
  cbn [hit_e hit_u hit_intensity]. destruct S as (SU & _ & SI & SE). rewrite SI, SU. destruct (Req_dec (i_intensity i) 0) as [Z|Z].
  - unfold ray_intensity. rewrite Z, !Rmult_0_l. destruct (on_bitmap _ _ _), (on_bitmap _ _ _); reflexivity.
  - pose proof (OE i (or_introl eq_refl) Z) as O1. rewrite (SE Z).
    assert (OB : forall x y, 0 < x < INR width - 1 -> 0 < y < INR width - 1 -> 0 <= i_u i -> forall k, on_bitmap width height {| hit_e := x; hit_u := i_u i; hit_intensity := k |} = on_bitmap width height {| hit_e := y; hit_u := i_u i; hit_intensity := k |}).
    { intros x y X Y U k. destruct (on_bitmap width height {| hit_e := x; hit_u := i_u i; hit_intensity := k |}) eqn:Q.
      - symmetry. apply on_bitmap_iff in Q; cbn in *; try lra. apply on_bitmap_iff; cbn; try lra. unfold inside_grid in *. cbn in *. lra.
      - destruct (on_bitmap width height {| hit_e := y; hit_u := i_u i; hit_intensity := k |}) eqn:Q'; auto. exfalso. apply on_bitmap_iff in Q'; cbn in *; try lra.
        assert (on_bitmap width height {| hit_e := x; hit_u := i_u i; hit_intensity := k |} = true) by (apply on_bitmap_iff; cbn; try lra; unfold inside_grid in *; cbn in *; lra). congruence. }
    destruct (Forall_inv R1) as (_ & U0). rewrite (OB (INR width - 1 - i_e i) (i_e i)) by (auto; lra).
    assert (HC : hat (INR width - 1 - i_e i - INR c) = hat (i_e i - INR (width - 1 - c))).
    { rewrite <- hat_even. f_equal. rewrite !minus_INR by lia. cbn [INR]. ring. }
    rewrite HC. reflexivity.
Qed.

Lemma sample_swapped : forall width height magnitude extinction reflectivity s s' blocked, (1 <= width)%nat -> (1 <= height)%nat ->
  Forall2 (swapped width) (sample_intersections width height magnitude s) (sample_intersections width height magnitude s') ->
  Forall in_range (sample_intersections width height magnitude s) -> Forall in_range (sample_intersections width height magnitude s') -> off_edges width height magnitude s ->
  exists t, trace_sample width height magnitude extinction reflectivity s blocked = Ok t
  /\ trace_sample width height magnitude extinction reflectivity s' blocked
     = Ok {| t_bitmap := map (@rev R) (t_bitmap t); t_intercept := t_intercept t; t_on_target := t_on_target t; t_blocking := t_blocking t |}.
Proof.
  intros width height magnitude extinction reflectivity s s' blocked W H F R1 R2 OE. unfold trace_sample.
  destruct (images_swapped width height extinction reflectivity _ _ blocked W H F R1 R2 OE) as (im & _ & E & E'). rewrite E, E'. cbn [bind].
  eexists. split; [reflexivity|]. cbn [t_bitmap t_intercept t_on_target t_blocking].
  assert (Q : map (fun '(i, b) => (i_intensity i, b)) (combine (sample_intersections width height magnitude s') blocked) = map (fun '(i, b) => (i_intensity i, b)) (combine (sample_intersections width height magnitude s) blocked)).
  { clear -F. revert blocked. induction F as [|i i' l l' S F IH]; intros [|b blocked]; cbn [combine map]; auto. destruct S as (_ & _ & -> & _). f_equal. apply IH. }
  rewrite Q. reflexivity.
Qed.

(** ** Samples *)
Lemma flip_mirrored : forall p, flip (-1) 1 p = mirrored p.
Proof. intros p. apply point_ext; cbn; ring. Qed.
Lemma flip_half : forall p, flip (-1) (-1) p = half_turned p.
Proof. intros p. apply point_ext; cbn; ring. Qed.
Lemma changed_ext : forall f g u v s, (forall p, f p = g p) -> (forall x, u x = v x) -> changed_sample f u s = changed_sample g v s.
Proof.
  intros f g u v s F U. unfold changed_sample. f_equal; auto.
  - apply map_ext. intros (p & n). rewrite !F. reflexivity.
  - destruct (s_target s); unfold changed_target; rewrite !F; reflexivity.
  - apply map_ext. intros row. apply map_ext. exact U.
Qed.
Lemma mirrored_flip : forall s, mirrored_sample s = changed_sample (flip (-1) 1) (flip_angles (-1) 1) s.
Proof. intros s. apply changed_ext; [intros; symmetry; apply flip_mirrored|]. intros (u & e). unfold flip_angles. f_equal; ring. Qed.
Lemma half_flip : forall s, half_turned_sample s = changed_sample (flip (-1) (-1)) (flip_angles (-1) (-1)) s.
Proof. intros s. apply changed_ext; [intros; symmetry; apply flip_half|]. intros (u & e). unfold flip_angles. f_equal; ring. Qed.

Lemma proper_flip : forall a b s, a * a = 1 -> b * b = 1 -> proper_sample s -> proper_sample (changed_sample (flip a b) (flip_angles a b) s).
Proof.
  intros a b s A B (UI & UN & T & D). unfold proper_sample. cbn [changed_sample s_incident s_surface s_target s_distortions]. unfold unit in *. rewrite (dot_flip a b A B).
  split; auto. split; [|split].
  - intros p n I. apply in_map_iff in I. destruct I as ((p0 & n0) & E & I). injection E as <- <-. rewrite (dot_flip a b A B). eauto.
  - destruct (s_target s); cbn [changed_target proper_target] in *.
    + unfold sized, unit in *. cbn [plane_width plane_height plane_normal]. rewrite (dot_flip a b A B). auto.
    + unfold proper_cylinder, unit in *. cbn [cyl_axis cyl_normal cyl_radius cyl_height cyl_opening]. rewrite !(dot_flip a b A B). auto.
  - intros row I. apply in_map_iff in I. destruct I as (row0 & <- & I). rewrite !map_length. auto.
Qed.
Lemma proper_in_range : forall width height magnitude s, (2 <= width)%nat -> (2 <= height)%nat -> 0 <= magnitude -> proper_sample s -> Forall in_range (sample_intersections width height magnitude s).
Proof.
  intros width height magnitude s W H M PS. apply Forall_forall. intros i I. unfold sample_intersections in I. apply in_map_iff in I. destruct I as ((o & d) & <- & I).
  pose proof (sample_ray_unit s o d PS I) as U. destruct PS as (_ & _ & T & _). pose proof (intersect_bounds width height (s_target s) o d magnitude W H T U M). cbv zeta in *. split; tauto.
Qed.
Lemma flipped_swapped : forall b width height magnitude s, b * b = 1 -> proper_sample s -> (b = 1 /\ northern (s_target s) \/ planar (s_target s)) ->
  Forall2 (swapped width) (sample_intersections width height magnitude s) (sample_intersections width height magnitude (changed_sample (flip (-1) b) (flip_angles (-1) b) s)).
Proof.
  intros b width height magnitude s B PS NP. unfold sample_intersections. rewrite (rays_flip (-1) b) by (auto; ring). rewrite map_map. cbn [changed_sample s_target].
  assert (UR : forall o d, In (o, d) (sample_rays s) -> unit d) by (intros o d; apply sample_ray_unit; auto).
  destruct PS as (_ & _ & T & _). induction (sample_rays s) as [|(o & d) l IH]; [constructor|]. cbn [map]. constructor; [|apply IH; intros; apply UR with o0; right; auto].
  specialize (UR o d (or_introl eq_refl)). destruct (s_target s) as [p|c]; cbn [changed_target intersect northern planar proper_target] in *.
  - apply (plane_flipped (-1) b ltac:(ring) B width height p o d magnitude eq_refl). apply T.
  - destruct NP as [(-> & N)|[]]. apply cylinder_mirrored; auto.
Qed.

Theorem mirrored_trace : forall width height magnitude extinction reflectivity s blocked, (2 <= width)%nat -> (2 <= height)%nat -> 0 <= magnitude ->
  proper_sample s -> northern (s_target s) -> off_edges width height magnitude s ->
  exists t, trace_sample width height magnitude extinction reflectivity s blocked = Ok t
  /\ trace_sample width height magnitude extinction reflectivity (mirrored_sample s) blocked
     = Ok {| t_bitmap := map (@rev R) (t_bitmap t); t_intercept := t_intercept t; t_on_target := t_on_target t; t_blocking := t_blocking t |}.
Proof.
  intros width height magnitude extinction reflectivity s blocked W H M PS N OE. rewrite mirrored_flip. apply sample_swapped; try lia; auto.
  - apply flipped_swapped; auto; ring.
  - apply proper_in_range; auto.
  - apply proper_in_range; auto. apply proper_flip; auto; ring.
Qed.
Theorem half_turned_trace : forall width height magnitude extinction reflectivity s blocked, (2 <= width)%nat -> (2 <= height)%nat -> 0 <= magnitude ->
  proper_sample s -> planar (s_target s) -> off_edges width height magnitude s ->
  exists t, trace_sample width height magnitude extinction reflectivity s blocked = Ok t
  /\ trace_sample width height magnitude extinction reflectivity (half_turned_sample s) blocked
     = Ok {| t_bitmap := map (@rev R) (t_bitmap t); t_intercept := t_intercept t; t_on_target := t_on_target t; t_blocking := t_blocking t |}.
Proof.
  intros width height magnitude extinction reflectivity s blocked W H M PS N OE. rewrite half_flip. apply sample_swapped; try lia; auto.
  - apply flipped_swapped; auto; ring.
  - apply proper_in_range; auto.
  - apply proper_in_range; auto. apply proper_flip; auto; ring.
Qed.
