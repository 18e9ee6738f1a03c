(** Proofs about intersections (C14, C26-C29). *)
From Coq Require Import List Arith Reals Bool Lra Lia Psatz.
From Verif Require Import RealSums ModelVectors ProofsVectors ModelAngles ProofsAngles ModelField ModelSplatting SpecSplatting ProofsSplatting ProofsTracing ModelIntersections SpecIntersections.
Import ListNotations.
Local Open Scope R_scope.

Lemma reflect_law : forall d n, unit n ->
  dot (reflect d n) (reflect d n) = dot d d
  /\ dot (reflect d n) n = - dot d n
  /\ (forall t, dot t n = 0 -> dot (reflect d n) t = dot d t)
  /\ reflect (reflect d n) n = d.
Proof.
  intros d n U. unfold unit in U. unfold reflect.
  assert (A : dot (vsub d (smul (2 * dot d n) n)) n = - dot d n).
  { rewrite dot_vsub_l, dot_smul_l, U. ring. }
  split; [|split; [auto|split]].
  - rewrite dot_vsub_l, !dot_vsub_r, !dot_smul_l, !dot_smul_r, (dot_comm n d), U. ring.
  - intros t T. rewrite dot_vsub_l, dot_smul_l, (dot_comm n t), T. ring.
  - rewrite A. vring.
Qed.

Lemma Rleb_iff : forall a b, Rleb a b = true <-> a <= b.
Proof. intros. unfold Rleb. destruct (Rle_dec a b); split; auto; discriminate. Qed.
Lemma Rltb_iff : forall a b, Rltb a b = true <-> a < b.
Proof. intros. unfold Rltb. destruct (Rlt_dec a b); split; auto; discriminate. Qed.

Lemma plane_parameter : forall p o d t, dot d (plane_normal p) < 0 ->
  (on_plane p (along o d t) <-> t = dot (vsub (plane_center p) o) (plane_normal p) / dot d (plane_normal p)).
Proof.
  intros p o d t F. unfold on_plane, along. rewrite dot_vsub_l, dot_vadd_l, dot_smul_l, dot_vsub_l. split.
  - intros H. apply (Rmult_eq_reg_r (dot d (plane_normal p))); [|lra]. unfold Rdiv. rewrite Rmult_assoc, Rinv_l by lra. lra.
  - intros ->. field. lra.
Qed.

Lemma scaled_bounds : forall w x n, 0 < w -> 0 < n ->
  ((0 <= (x + w / 2) / w * n) <-> - (w / 2) <= x) /\ (((x + w / 2) / w * n <= n) <-> x <= w / 2).
Proof.
  intros w x n W N.
  assert (E : (x + w / 2) / w * n = x * (n / w) + n / 2) by (field; lra).
  assert (Q : 0 < n / w) by (apply Rdiv_lt_0_compat; auto).
  assert (H : w * (n / w) = n) by (field; lra).
  rewrite E. split; split; intros; nra.
Qed.

Section Plane.
Variables (width height : nat) (p : plane).
Hypothesis W2 : (2 <= width)%nat.
Hypothesis H2 : (2 <= height)%nat.
Hypothesis SZ : sized p.

Lemma W2R : 1 <= INR width - 1. Proof. apply le_INR in W2. simpl in W2. lra. Qed.
Lemma H2R : 1 <= INR height - 1. Proof. apply le_INR in H2. simpl in H2. lra. Qed.

Lemma valid_iff : forall q, (Rleb 0 ((pe q + plane_width p / 2 - pe (plane_center p)) / plane_width p * (INR width - 1))
      && Rleb ((pe q + plane_width p / 2 - pe (plane_center p)) / plane_width p * (INR width - 1)) (INR width - 1)
      && Rleb 0 ((pu q + plane_height p / 2 - pu (plane_center p)) / plane_height p * (INR height - 1))
      && Rleb ((pu q + plane_height p / 2 - pu (plane_center p)) / plane_height p * (INR height - 1)) (INR height - 1))%bool = true
      <-> within_area p q.
Proof.
  intros q. pose proof W2R. pose proof H2R. destruct SZ as (SW & SH). rewrite !andb_true_iff, !Rleb_iff. unfold within_area.
  replace (pe q + plane_width p / 2 - pe (plane_center p)) with ((pe q - pe (plane_center p)) + plane_width p / 2) by ring.
  replace (pu q + plane_height p / 2 - pu (plane_center p)) with ((pu q - pu (plane_center p)) + plane_height p / 2) by ring.
  destruct (scaled_bounds (plane_width p) (pe q - pe (plane_center p)) (INR width - 1)) as (A & B); try lra.
  destruct (scaled_bounds (plane_height p) (pu q - pu (plane_center p)) (INR height - 1)) as (C & D); try lra.
  rewrite A, B, C, D. split.
  - intros (((? & ?) & ?) & ?). split; apply Rabs_le; lra.
  - intros (X & Y). unfold Rabs in X; destruct (Rcase_abs (pe q - pe (plane_center p))); unfold Rabs in Y; destruct (Rcase_abs (pu q - pu (plane_center p))); repeat split; lra.
Qed.

Theorem plane_hit : forall o d m t, hits_area p o d t ->
  let q := along o d t in
  line_plane width height p o d m
  = {| i_e := (INR width - 1) * (1/2 - (pe q - pe (plane_center p)) / plane_width p);
       i_u := (INR height - 1) * (1/2 + (pu q - pu (plane_center p)) / plane_height p);
       i_distance := t; i_intensity := m * - dot d (plane_normal p) |}.
Proof.
  intros o d m t (F & O & A) q. destruct SZ as (SW & SH). apply plane_parameter in O; auto. unfold line_plane.
  assert (FF : Rltb (dot d (plane_normal p)) 0 = true) by (apply Rltb_iff; auto). rewrite FF. cbn [indicator].
  rewrite Rmult_1_r, <- O. fold (along o d t). fold q. apply valid_iff in A. fold q in A. rewrite A. cbn [andb indicator].
  f_equal; field; lra.
Qed.

Theorem plane_miss : forall o d m, (forall t, ~ hits_area p o d t) ->
  line_plane width height p o d m = {| i_e := INR width - 1; i_u := 0; i_distance := 0; i_intensity := 0 |}.
Proof.
  intros o d m N. unfold line_plane. set (a := dot d (plane_normal p)).
  assert (V : forall b, (b && Rltb a 0)%bool = true -> b = true /\ a < 0).
  { intros b H. apply andb_true_iff in H. rewrite Rltb_iff in H. auto. }
  match goal with |- context [indicator ?v] => match v with (_ && Rltb a 0)%bool => destruct v eqn:E end end.
  - exfalso. apply V in E. destruct E as (E & F). apply valid_iff in E.
    assert (FF : Rltb a 0 = true) by (apply Rltb_iff; auto). rewrite FF in E. cbn [indicator] in E. rewrite Rmult_1_r in E.
    eapply N. split; [exact F|]. split; [|exact E]. apply plane_parameter; auto.
  - cbn [indicator]. rewrite !Rmult_0_r. f_equal; ring.
Qed.

Lemma plane_cases : forall o d, (exists t, hits_area p o d t) \/ (forall t, ~ hits_area p o d t).
Proof.
  intros o d. destruct (Rlt_dec (dot d (plane_normal p)) 0) as [F|F].
  - set (t := dot (vsub (plane_center p) o) (plane_normal p) / dot d (plane_normal p)).
    assert (O : on_plane p (along o d t)) by (apply plane_parameter; auto).
    destruct (Rle_dec (Rabs (pe (along o d t) - pe (plane_center p))) (plane_width p / 2)).
    + destruct (Rle_dec (Rabs (pu (along o d t) - pu (plane_center p))) (plane_height p / 2)).
      * left. exists t. split; auto. split; auto. split; auto.
      * right. intros t' (_ & O' & (_ & X)). apply plane_parameter in O'; auto. fold t in O'. subst t'. auto.
    + right. intros t' (_ & O' & (X & _)). apply plane_parameter in O'; auto. fold t in O'. subst t'. auto.
  - right. intros t (X & _). auto.
Qed.

Lemma ratio_bounds : forall x w, 0 < w -> Rabs x <= w / 2 -> - (1/2) <= x / w <= 1/2.
Proof.
  intros x w W X. assert (- (w / 2) <= x <= w / 2) by (unfold Rabs in X; destruct (Rcase_abs x); lra).
  assert (E : x = x / w * w) by (field; lra). assert (0 < / w) by (apply Rinv_0_lt_compat; auto).
  split; apply (Rmult_le_reg_r w); auto; rewrite <- E; lra.
Qed.

Theorem plane_bounds : forall o d m, unit d -> unit (plane_normal p) -> 0 <= m ->
  let r := line_plane width height p o d m in
  0 <= i_e r <= INR width - 1 /\ 0 <= i_u r <= INR height - 1 /\ 0 <= i_intensity r <= m.
Proof.
  intros o d m U N M r. pose proof W2R. pose proof H2R. destruct SZ as (SW & SH). destruct (plane_cases o d) as [(t & T)|T].
  - unfold r. rewrite (plane_hit o d m t T). cbn [i_e i_u i_intensity]. destruct T as (F & _ & (A & B)).
    apply ratio_bounds in A; auto. apply ratio_bounds in B; auto.
    apply norm_unit_dot in U. apply norm_unit_dot in N. pose proof (dot_unit_bound _ _ U N).
    repeat split; nra.
  - unfold r. rewrite (plane_miss o d m T). cbn [i_e i_u i_intensity]. lra.
Qed.
End Plane.

Lemma plane_positive : forall p o d t, hits_area p o d t -> 0 < dot (vsub o (plane_center p)) (plane_normal p) -> 0 < t.
Proof.
  intros p o d t (F & O & _) I. apply plane_parameter in O; auto. subst t.
  replace (dot (vsub (plane_center p) o) (plane_normal p)) with (- dot (vsub o (plane_center p)) (plane_normal p)) by (vunfold; ring).
  unfold Rdiv. assert (/ dot d (plane_normal p) < 0) by (apply Rinv_lt_0_compat; auto). nra.
Qed.

(** ** Power of the rays hitting an area *)
Lemma line_plane_nonneg : forall width height p o d m, (2 <= width)%nat -> (2 <= height)%nat -> sized p ->
  0 <= i_e (line_plane width height p o d m) /\ 0 <= i_u (line_plane width height p o d m).
Proof.
  intros width height p o d m W H S. pose proof (W2R width W). pose proof (H2R height H).
  destruct (plane_cases p o d) as [(t & T)|T].
  - rewrite (plane_hit width height p W H S o d m t T). cbn [i_e i_u]. destruct T as (_ & _ & (A & B)). destruct S as (SW & SH).
    apply ratio_bounds in A; auto. apply ratio_bounds in B; auto. split; nra.
  - rewrite (plane_miss width height p W H S o d m T). cbn [i_e i_u]. lra.
Qed.

Definition full_contribution (p : plane) (r : point * point * R) : Prop :=
  let '(o, d, m) := r in exists t, dot d (plane_normal p) < 0 /\ on_plane p (along o d t) /\ within_half_open p (along o d t).

Lemma half_open_inside : forall width height p o d m t, (2 <= width)%nat -> (2 <= height)%nat -> sized p ->
  hits_area p o d t ->
  (inside_grid width height (hit_of (line_plane width height p o d m)) <-> within_half_open p (along o d t)).
Proof.
  intros width height p o d m t W H S T. pose proof (W2R width W). pose proof (H2R height H).
  unfold inside_grid, hit_of. rewrite (plane_hit width height p W H S o d m t T). cbn [i_e i_u hit_e hit_u].
  destruct T as (_ & _ & (A & B)). destruct S as (SW & SH). unfold within_half_open.
  set (x := pe (along o d t) - pe (plane_center p)) in *. set (y := pu (along o d t) - pu (plane_center p)) in *.
  assert (EX : x = x / plane_width p * plane_width p) by (field; lra).
  assert (EY : y = y / plane_height p * plane_height p) by (field; lra).
  apply ratio_bounds in A; auto. apply ratio_bounds in B; auto.
  set (a := x / plane_width p) in *. set (b := y / plane_height p) in *. rewrite EX, EY. clearbody a b.
  split.
  - intros ((C1 & C2) & C3 & C4). repeat split; nra.
  - intros ((C1 & C2) & C3 & C4). 
    assert (- (1/2) < a) by nra. assert (b < 1/2) by nra. repeat split; nra.
Qed.

Lemma forallb_filter_id : forall {A} (f : A -> bool) l, forallb f l = true -> filter f l = l.
Proof.
  intros A f l. induction l as [|x l IH]; auto. cbn [forallb filter]. intros H. apply andb_true_iff in H. destruct H as (-> & H).
  rewrite IH; auto.
Qed.
Theorem area_power : forall width height p rays, (2 <= width)%nat -> (2 <= height)%nat -> sized p ->
  (forall o d m, In (o, d, m) rays -> exists t, hits_area p o d t /\ within_half_open p (along o d t)) ->
  exists image, bilinear_splatting width height (map (fun '(o, d, m) => hit_of (line_plane width height p o d m)) rays) = Ok image
    /\ image_total image = Rsum (map (fun '(o, d, m) => m * - dot d (plane_normal p)) rays).
Proof.
  intros width height p rays W H S A.
  destruct (power_conserved width height (map (fun '(o, d, m) => hit_of (line_plane width height p o d m)) rays)) as (image & E & _ & T & _); try lia.
  { intros r I. apply in_map_iff in I. destruct I as ([[o d] m] & <- & I). apply line_plane_nonneg; auto. }
  exists image. split; auto. rewrite T. unfold sum_where.
  rewrite (forallb_filter_id (inside_gridb width height)).
  - rewrite map_map. apply Rsum_map_ext. intros [[o d] m] I. destruct (A o d m I) as (t & HA & _).
    unfold hit_of. rewrite (plane_hit width height p W H S o d m t HA). reflexivity.
  - apply forallb_forall. intros r I. apply in_map_iff in I. destruct I as ([[o d] m] & <- & I).
    destruct (A o d m I) as (t & HA & HO). apply (half_open_inside width height p o d m t W H S HA) in HO.
    destruct HO as ((C1 & C2) & C3 & C4). unfold inside_gridb.
    destruct (Rle_dec 0 (hit_e (hit_of (line_plane width height p o d m)))); [|contradiction].
    destruct (Rlt_dec (hit_e (hit_of (line_plane width height p o d m))) (INR width - 1)); [|contradiction].
    destruct (Rle_dec 0 (hit_u (hit_of (line_plane width height p o d m)))); [|contradiction].
    destruct (Rlt_dec (hit_u (hit_of (line_plane width height p o d m))) (INR height - 1)); [|contradiction]. auto.
Qed.

(** Rays on the west or upper border are lost, for every area and resolution. *)
Theorem border_lost : forall width height p o d m t, (2 <= width)%nat -> (2 <= height)%nat -> sized p ->
  hits_area p o d t -> ~ within_half_open p (along o d t) ->
  exists image, bilinear_splatting width height [hit_of (line_plane width height p o d m)] = Ok image /\ image_total image = 0.
Proof.
  intros width height p o d m t W H S A N.
  destruct (power_conserved width height [hit_of (line_plane width height p o d m)]) as (image & E & _ & T & _); try lia.
  { intros r [<-|[]]. apply line_plane_nonneg; auto. }
  exists image. split; auto. rewrite T. unfold sum_where. cbn [filter].
  destruct (inside_gridb width height (hit_of (line_plane width height p o d m))) eqn:G; [|reflexivity].
  exfalso. apply N. apply (half_open_inside width height p o d m t W H S A). unfold inside_gridb in G.
  destruct (Rle_dec 0 (hit_e (hit_of (line_plane width height p o d m)))); [|discriminate].
  destruct (Rlt_dec (hit_e (hit_of (line_plane width height p o d m))) (INR width - 1)); [|discriminate].
  destruct (Rle_dec 0 (hit_u (hit_of (line_plane width height p o d m)))); [|discriminate].
  destruct (Rlt_dec (hit_u (hit_of (line_plane width height p o d m))) (INR height - 1)); [|discriminate].
  split; split; auto.
Qed.

(** ** Rays behind and in front of the plane *)
Lemma single_column : forall height p o d m t, (2 <= height)%nat -> sized p ->
  dot d (plane_normal p) < 0 -> on_plane p (along o d t) ->
  Rabs (pu (along o d t) - pu (plane_center p)) <= plane_height p / 2 ->
  i_intensity (line_plane 1 height p o d m) = m * - dot d (plane_normal p).
Proof.
  intros height p o d m t H (SW & SH) F O B. apply plane_parameter in O; auto. unfold line_plane. cbn [i_intensity].
  assert (FF : Rltb (dot d (plane_normal p)) 0 = true) by (apply Rltb_iff; auto). rewrite FF. cbn [indicator].
  rewrite Rmult_1_r, <- O. fold (along o d t). set (q := along o d t) in *.
  replace (INR 1 - 1) with 0 by (simpl; ring). rewrite Rmult_0_r.
  assert (Z : Rleb 0 0 = true) by (apply Rleb_iff; lra). rewrite Z.
  destruct (scaled_bounds (plane_height p) (pu q - pu (plane_center p)) (INR height - 1)) as (C & D); try lra.
  { pose proof (H2R height H). lra. }
  assert (BB : - (plane_height p / 2) <= pu q - pu (plane_center p) <= plane_height p / 2)
    by (unfold Rabs in B; destruct (Rcase_abs (pu q - pu (plane_center p))); lra).
  replace (pu q + plane_height p / 2 - pu (plane_center p)) with ((pu q - pu (plane_center p)) + plane_height p / 2) by ring.
  rewrite (proj2 (Rleb_iff _ _)) by (apply C; lra). rewrite (proj2 (Rleb_iff _ _)) by (apply D; lra). cbn [andb indicator]. ring.
Qed.

Theorem hit_behind : forall width height p, (2 <= width)%nat -> (2 <= height)%nat -> sized p ->
  forall o d m t, t < 0 -> hits_area p o d t ->
  (forall t', 0 <= t' -> ~ on_plane p (along o d t'))
  /\ i_intensity (line_plane width height p o d m) = m * - dot d (plane_normal p) /\ 0 < - dot d (plane_normal p).
Proof.
  intros width height p W H SZ o d m t T A. rewrite (plane_hit width height _ W H SZ) with (t := t) by auto. cbn [i_intensity].
  destruct A as (F & O1 & _). split; [|split; [auto|lra]]. intros t' T' O2. revert O1 O2 F. unfold on_plane, along. vunfold. intros O1 O2 F. nra.
Qed.

Theorem front_forward : forall width height p, (2 <= width)%nat -> (2 <= height)%nat -> sized p ->
  forall o d m, 0 < dot (vsub o (plane_center p)) (plane_normal p) ->
  let r := line_plane width height p o d m in
  (i_intensity r <> 0 -> 0 < i_distance r /\ hits_area p o d (i_distance r))
  /\ (0 <= dot d (plane_normal p) -> i_intensity r = 0).
Proof.
  intros width height p W H S o d m F r. unfold r. destruct (plane_cases p o d) as [(t & T)|T].
  - rewrite (plane_hit width height p W H S o d m t T). cbn [i_intensity i_distance]. split.
    + intros _. split; auto. eapply plane_positive; eauto.
    + intros X. destruct T as (Y & _). lra.
  - rewrite (plane_miss width height p W H S o d m T). cbn [i_intensity i_distance]. split; [intros X; exfalso; lra|auto].
Qed.
