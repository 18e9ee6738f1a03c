(** Proofs about the linear actuators (C34, C35). *)
From Coq Require Import Reals Lra Lia Psatz.
From Verif Require Import ModelTransforms ModelActuators SpecActuators.
Local Open Scope R_scope.

Lemma softplus_pos : forall x, 0 < softplus 100 x.
Proof.
  intros x. unfold softplus. destruct (Rlt_dec 20 (x * 100)); [lra|].
  apply Rdiv_lt_0_compat; [|lra]. rewrite <- ln_1. apply ln_increasing; [lra|]. pose proof (exp_pos (x * 100)). lra.
Qed.
Lemma positive_pos : forall x, epsilon < positive x.
Proof. intros. unfold positive. pose proof (softplus_pos x). lra. Qed.
Lemma epsilon_pos : 0 < epsilon.
Proof. unfold epsilon. lra. Qed.

(** Far from zero the physical value is the raw one (plus [epsilon]). *)
Lemma positive_above : forall x, positive x >= x + epsilon.
Proof.
  intros x. unfold positive, softplus. destruct (Rlt_dec 20 (x * 100)); [lra|].
  assert (x <= ln (1 + exp (x * 100)) / 100); [|lra].
  assert (x * 100 <= ln (1 + exp (x * 100))); [|lra].
  rewrite <- (ln_exp (x * 100)) at 1. left. apply ln_increasing; [apply exp_pos|]. lra.
Qed.
Lemma positive_large : forall x, 1 / 5 < x -> positive x = x + epsilon.
Proof. intros x H. unfold positive, softplus. destruct (Rlt_dec 20 (x * 100)); [auto|lra]. Qed.

Lemma clamp_bounds : forall a b x, a <= b -> a <= clamp a b x <= b.
Proof.
  intros. unfold clamp. pose proof (Rmax_r x a). pose proof (Rmin_r (Rmax x a) b). split; auto.
  apply Rmin_glb; auto.
Qed.
Lemma clamp_mono : forall a b x y, x <= y -> clamp a b x <= clamp a b y.
Proof.
  intros. unfold clamp. apply Rle_min_compat_r. apply Rle_max_compat_r. auto.
Qed.
Lemma clamp_same : forall a b x, a <= x <= b -> clamp a b x = x.
Proof. intros. unfold clamp. rewrite Rmax_left by lra. apply Rmin_left. lra. Qed.

Definition cosine_at (a : actuator) (s : R) : R :=
  clamp (-1 + / 10 ^ 6) (1 - / 10 ^ 6)
    ((a_offset (physics_informed a) ^ 2 + a_radius (physics_informed a) ^ 2 - clamp_stroke (a_offset (physics_informed a)) (a_radius (physics_informed a)) s ^ 2)
     / (2 * a_offset (physics_informed a) * a_radius (physics_informed a))).
Definition target_at (a : actuator) (g : R) : R := acos (cosine_at a (stroke_of a 0)) + turning a * (g - a_initial_angle a).
Definition stroke_at (a : actuator) (g : R) : R :=
  sqrt (a_offset (physics_informed a) ^ 2 + a_radius (physics_informed a) ^ 2
        - 2 * a_offset (physics_informed a) * a_radius (physics_informed a) * clamp (-1 + / 10 ^ 6) (1 - / 10 ^ 6) (cos (target_at a g))).
Lemma Some_inj : forall (x y : R), Some x = Some y -> x = y.
Proof. congruence. Qed.
Section Params.
Variable a : actuator.
Let o := a_offset (physics_informed a).
Let r := a_radius (physics_informed a).
Let inc := a_increment (physics_informed a).
Let ini := a_initial_stroke (physics_informed a).
Lemma params : epsilon < o /\ epsilon < r /\ epsilon < inc /\ epsilon < ini.
Proof. unfold o, r, inc, ini. cbn. repeat split; apply positive_pos. Qed.
Lemma stroke_limits : 0 < Rabs (o - r) + epsilon < o + r - epsilon.
Proof.
  destruct params as (A & B & _). pose proof epsilon_pos. pose proof (Rabs_pos (o - r)). split; [lra|].
  unfold Rabs. destruct (Rcase_abs (o - r)); lra.
Qed.

(** The cosine belonging to a stroke, and the absolute angle. *)
Local Notation cosine := (cosine_at a).
Lemma cosine_bounds : forall s, -1 + / 10 ^ 6 <= cosine s <= 1 - / 10 ^ 6.
Proof. intros. apply clamp_bounds. lra. Qed.
Lemma absolute_defined : forall m, absolute_angle a m = Some (acos (cosine (stroke_of a m))).
Proof.
  intros m. destruct params as (A & B & C & D). pose proof epsilon_pos.
  unfold absolute_angle. fold o r inc ini. unfold div_opt at 1.
  destruct (Req_EM_T inc 0); [lra|]. cbn [obind].
  unfold div_opt. destruct (Req_EM_T (2 * o * r) 0) as [Z|_]; [exfalso; nra|]. cbn [obind].
  unfold acos_opt. match goal with |- context [Rle_dec (-1) ?x] => set (c := x) end.
  assert (E : c = cosine (stroke_of a m)) by reflexivity. rewrite E. clear c E.
  pose proof (cosine_bounds (stroke_of a m)).
  destruct (Rle_dec (-1) (cosine (stroke_of a m))); [|exfalso; lra].
  destruct (Rle_dec (cosine (stroke_of a m)) 1); [|exfalso; lra]. auto.
Qed.
Lemma clamp_stroke_bounds : forall s, Rabs (o - r) + epsilon <= clamp_stroke o r s <= o + r - epsilon.
Proof. intros. apply clamp_bounds. pose proof stroke_limits. lra. Qed.
Lemma cosine_anti : forall s t, s <= t -> cosine t <= cosine s.
Proof.
  intros s t H. apply clamp_mono. destruct params as (A & B & _). pose proof epsilon_pos. pose proof stroke_limits.
  pose proof (clamp_stroke_bounds s). pose proof (clamp_stroke_bounds t).
  assert (M : clamp_stroke o r s <= clamp_stroke o r t) by (apply clamp_mono; auto).
  fold o r. apply Rmult_le_compat_r; [left; apply Rinv_0_lt_compat; apply Rmult_lt_0_compat; lra|].
  assert (P : clamp_stroke o r s ^ 2 <= clamp_stroke o r t ^ 2) by (apply pow_incr; lra). lra.
Qed.
Lemma cosine_reach : forall s g, reachable o r s g -> cosine s = cos g.
Proof.
  intros s g ((P & G & T) & L & C). unfold cosine_at, clamp_stroke. fold o r. rewrite (clamp_same _ _ s) by exact L.
  destruct params as (A & B & _). pose proof epsilon_pos.
  assert (E : (o ^ 2 + r ^ 2 - s ^ 2) / (2 * o * r) = cos g).
  { replace (s ^ 2) with (s * s) by ring. rewrite T. field. lra. }
  rewrite E. apply clamp_same. auto.
Qed.
Lemma stroke_mono : forall m n, m < n -> stroke_of a m < stroke_of a n.
Proof.
  intros m n H. unfold stroke_of. fold inc ini. destruct params as (_ & _ & C & _). pose proof epsilon_pos.
  assert (m / inc < n / inc); [|lra]. apply Rmult_lt_compat_r; auto. apply Rinv_0_lt_compat. lra.
Qed.
Lemma stroke_inv : forall m, (stroke_of a m - ini) * inc = m.
Proof. intros. unfold stroke_of. fold inc ini. destruct params as (_ & _ & C & _). pose proof epsilon_pos. field. lra. Qed.
Lemma stroke_onto : forall s, stroke_of a ((s - ini) * inc) = s.
Proof. intros. unfold stroke_of. fold inc ini. destruct params as (_ & _ & C & _). pose proof epsilon_pos. field. lra. Qed.

Lemma absolute_reach : forall m g, reachable o r (stroke_of a m) g -> absolute_angle a m = Some g.
Proof.
  intros m g R. rewrite absolute_defined, (cosine_reach _ g) by auto. f_equal. destruct R as ((_ & G & _) & _). apply acos_cos. auto.
Qed.

(** ** Both conversions are defined for all inputs *)
Lemma motor_defined : direction_known a -> forall m,
  motor_to_angle a m = Some (a_initial_angle a + turning a * (acos (cosine (stroke_of a m)) - acos (cosine (stroke_of a 0)))).
Proof.
  intros D m. unfold motor_to_angle. rewrite !absolute_defined. cbn [obind]. f_equal. cbn [a_initial_angle physics_informed].
  unfold turning, is. destruct D as [-> | ->]; repeat match goal with |- context [Req_EM_T ?x ?y] => destruct (Req_EM_T x y); try lra end.
Qed.
Lemma motor_total : forall m, exists g, motor_to_angle a m = Some g.
Proof. intros m. unfold motor_to_angle. rewrite !absolute_defined. cbn [obind]. eauto. Qed.
Local Notation target := (target_at a).
Local Notation stroke' := (stroke_at a).
Lemma angle_defined : forall g, 
  angle_to_motor a g = Some ((clamp_stroke o r (stroke' g) - ini) * inc).
Proof.
  intros g. unfold angle_to_motor. fold o r inc ini. rewrite absolute_defined. cbn [obind]. cbn [a_initial_angle physics_informed].
  set (x := acos _ - _). assert (X : x = target g).
  { unfold x, target_at, turning. destruct (Req_EM_T (a_clockwise a) 1); ring. }
  rewrite X. unfold sqrt_opt. fold (stroke' g). set (c := clamp _ _ (cos (target g))).
  assert (C : -1 + / 10 ^ 6 <= c <= 1 - / 10 ^ 6) by (apply clamp_bounds; lra).
  destruct params as (A & B & _). pose proof epsilon_pos.
  destruct (Rle_dec 0 (o ^ 2 + r ^ 2 - 2 * o * r * c)) as [_|N]; [auto|].
  exfalso. assert (SQ : 0 <= (o - r) ^ 2) by apply pow2_ge_0. assert (OR : 0 < o * r) by (apply Rmult_lt_0_compat; lra). apply N. assert (0 <= 2 * (o * r) * (1 - c)) by (apply Rmult_le_pos; lra). clearbody o r c. lra.
Qed.
Lemma angle_stroke : forall g s, reachable o r s (target g) -> stroke' g = s.
Proof.
  intros g s ((P & G & T) & L & C). unfold stroke_at; fold o r. rewrite clamp_same by auto.
  replace (o ^ 2 + r ^ 2 - 2 * o * r * cos (target g)) with (s * s) by (rewrite T; ring). apply sqrt_square. auto.
Qed.
End Params.

Lemma turning_square : forall a, turning a * turning a = 1.
Proof. intros. unfold turning. destruct (Req_EM_T (a_clockwise a) 1); ring. Qed.
Lemma turning_cases : forall a, turning a = 1 \/ turning a = -1.
Proof. intros. unfold turning. destruct (Req_EM_T (a_clockwise a) 1); auto. Qed.

(** ** C34 *)
Theorem motor_roundtrip : forall a m, direction_known a -> in_reach a m ->
  exists g, motor_to_angle a m = Some g /\ angle_to_motor a g = Some m.
Proof.
  intros a m D (f & R). eexists. split; [apply motor_defined; auto|]. rewrite angle_defined. f_equal.
  pose proof (cosine_reach a _ _ R) as CR. cbv zeta in CR.
  erewrite (angle_stroke a _ (stroke_of a m)).
  - unfold clamp_stroke. rewrite clamp_same; [apply stroke_inv|]. destruct R as (_ & L & _). exact L.
  - match goal with |- reachable _ _ _ ?x => replace x with f; [exact R|] end.
    assert (AF : acos (cos f) = f). { apply acos_cos. destruct R as ((_ & G & _) & _). auto. }
    unfold target_at. rewrite CR, AF. pose proof (turning_square a) as T. set (z := acos _).
    transitivity (z + turning a * turning a * (f - z)); [rewrite T|]; ring.
Qed.

(** The joint angle belonging to an interior angle [f] of the triangle. *)
Theorem angle_roundtrip : forall a f0 f s, direction_known a ->
  absolute_angle a 0 = Some f0 ->
  reachable (a_offset (physics_informed a)) (a_radius (physics_informed a)) s f ->
  exists m, angle_to_motor a (a_initial_angle a + turning a * (f - f0)) = Some m /\ stroke_of a m = s
    /\ motor_to_angle a m = Some (a_initial_angle a + turning a * (f - f0)).
Proof.
  intros a f0 f s D E R. rewrite absolute_defined in E. assert (E' : acos (cosine_at a (stroke_of a 0)) = f0) by congruence. clear E. rename E' into E.
  eexists. split; [apply angle_defined|].
  set (q := stroke_at a _).
  assert (Q : q = s).
  { unfold q. apply (angle_stroke a). match goal with |- reachable _ _ _ ?x => replace x with f; [exact R|] end.
    unfold target_at. rewrite E. pose proof (turning_square a) as T.
    transitivity (f0 + turning a * turning a * (f - f0)); [rewrite T|]; ring. }
  rewrite Q. unfold clamp_stroke. rewrite clamp_same by (destruct R as (_ & L & _); exact L).
  rewrite stroke_onto. split; auto.
  rewrite motor_defined by auto. rewrite stroke_onto, E. f_equal.
  pose proof (cosine_reach a _ _ R) as CR. rewrite CR. rewrite acos_cos; auto. destruct R as ((_ & G & _) & _). auto.
Qed.

(** ** C35 *)
Theorem physical_parameters : forall a, let p := physics_informed a in
  0 < a_increment p /\ 0 < a_offset p /\ 0 < a_radius p /\ 0 < a_initial_stroke p
  /\ 0 < Rabs (a_offset p - a_radius p) + / 10 ^ 6 < a_offset p + a_radius p - / 10 ^ 6.
Proof.
  intros a p. pose proof (params a) as (A & B & C & D). pose proof (stroke_limits a). pose proof epsilon_pos.
  fold p in A, B, C, D. unfold p in *. repeat split; try lra; apply H.
Qed.
Theorem physical_parameters_value : forall a, 1 / 5 < a_increment a -> a_increment (physics_informed a) = a_increment a + / 10 ^ 6.
Proof. intros. apply positive_large. auto. Qed.

Theorem angles_defined : forall a x, (exists g, motor_to_angle a x = Some g) /\ (exists m, angle_to_motor a x = Some m).
Proof. intros a x. split; [apply motor_total|]. eexists. apply angle_defined. Qed.

Lemma acos_anti : forall x y, -1 <= x -> x <= y -> y <= 1 -> acos y <= acos x.
Proof.
  intros x y A H B. destruct (Rle_dec (acos y) (acos x)); auto. exfalso.
  pose proof (acos_bound x). pose proof (acos_bound y).
  assert (C : cos (acos y) < cos (acos x)) by (apply cos_decreasing_1; lra).
  rewrite !cos_acos in C by lra. lra.
Qed.
Theorem angle_monotone : forall a m n g h, direction_known a -> m <= n ->
  motor_to_angle a m = Some g -> motor_to_angle a n = Some h ->
  0 <= turning a * (h - g) <= PI.
Proof.
  intros a m n g h D L G H. rewrite motor_defined in G, H by auto. apply Some_inj in G. apply Some_inj in H. subst g h.
  pose proof (turning_square a) as T. set (z := acos (cosine_at a (stroke_of a 0))). set (y := acos (cosine_at a (stroke_of a n))). set (x := acos (cosine_at a (stroke_of a m))).
  replace (turning a * (a_initial_angle a + turning a * (y - z) - (a_initial_angle a + turning a * (x - z)))) with (turning a * turning a * (y - x)) by ring.
  rewrite T, Rmult_1_l.
  assert (X : 0 <= x <= PI) by apply acos_bound. assert (Y : 0 <= y <= PI) by apply acos_bound.
  assert (x <= y); [|lra]. unfold x, y.
  destruct L as [L|<-]; [|lra].
  apply acos_anti.
  - pose proof (cosine_bounds a (stroke_of a n)). lra.
  - apply (cosine_anti a). left. apply stroke_mono. auto.
  - pose proof (cosine_bounds a (stroke_of a m)). lra.
Qed.
(** Within reach the angle is strictly monotone. *)
Theorem angle_strict : forall a m n g h, direction_known a -> in_reach a m -> in_reach a n -> m < n ->
  motor_to_angle a m = Some g -> motor_to_angle a n = Some h -> 0 < turning a * (h - g).
Proof.
  intros a m n g h D RM RN L G H. destruct (angle_monotone a m n g h D (Rlt_le _ _ L) G H) as ([P|Z] & _); auto.
  exfalso. assert (g = h). { destruct (turning_cases a) as [E|E]; rewrite E in Z; lra. } subst h.
  destruct (motor_roundtrip a m D RM) as (x & X1 & X2). destruct (motor_roundtrip a n D RN) as (y & Y1 & Y2).
  rewrite G in X1. rewrite H in Y1. injection X1 as <-. injection Y1 as <-. rewrite X2 in Y2. injection Y2 as ->. lra.
Qed.
(** The motor position found for an angle always keeps the stroke within its limits. *)
Theorem stroke_in_limits : forall a x m, angle_to_motor a x = Some m ->
  Rabs (a_offset (physics_informed a) - a_radius (physics_informed a)) + / 10 ^ 6 <= stroke_of a m
  <= a_offset (physics_informed a) + a_radius (physics_informed a) - / 10 ^ 6.
Proof.
  intros a x m H. rewrite angle_defined in H. injection H as <-. rewrite stroke_onto. apply clamp_stroke_bounds.
Qed.
(** The zero motor position is the initial angle. *)
Theorem zero_motor : forall a, motor_to_angle a 0 = Some (a_initial_angle a).
Proof.
  intros a. unfold motor_to_angle. rewrite absolute_defined. cbn [obind]. f_equal. cbn [a_initial_angle physics_informed]. ring.
Qed.

Lemma angle_roundtrip_reach : forall a f0 f s, direction_known a ->
  reachable (a_offset (physics_informed a)) (a_radius (physics_informed a)) (stroke_of a 0) f0 ->
  reachable (a_offset (physics_informed a)) (a_radius (physics_informed a)) s f ->
  exists m, angle_to_motor a (a_initial_angle a + turning a * (f - f0)) = Some m /\ stroke_of a m = s
    /\ motor_to_angle a m = Some (a_initial_angle a + turning a * (f - f0)).
Proof. intros. apply angle_roundtrip; auto. apply absolute_reach. auto. Qed.
Lemma ideal_roundtrip : forall x g m, ideal_motor_to_angle x = Some g -> ideal_angle_to_motor x = Some m ->
  ideal_angle_to_motor g = Some x /\ ideal_motor_to_angle m = Some x.
Proof. intros x g m [= <-] [= <-]. split; reflexivity. Qed.
Lemma values_kept : forall a, let p := physics_informed a in
  (forall field, field = a_increment \/ field = a_offset \/ field = a_radius \/ field = a_initial_stroke ->
     field a + / 10 ^ 6 <= field p /\ (1 / 5 < field a -> field p = field a + / 10 ^ 6))
  /\ a_clockwise p = a_clockwise a /\ a_min p = a_min a /\ a_max p = a_max a /\ a_initial_angle p = a_initial_angle a.
Proof.
  intros a p. split; [|repeat split].
  intros field H. assert (E : field p = positive (field a)) by (destruct H as [-> |[-> |[-> | ->]]]; reflexivity).
  rewrite E. split; [apply Rge_le, positive_above|apply positive_large].
Qed.
