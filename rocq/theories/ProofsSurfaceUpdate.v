(** Proofs about updating surfaces (C100). *)
From Coq Require Import List Arith ZArith Reals Bool Lra Lia Psatz.
From Verif Require Import RealSums ModelField ModelVectors ProofsVectors ModelTransforms ModelActuators ModelLBVH ModelNurbs ModelCoordinates ModelTraining SpecIntersections
  SpecTransforms SpecNurbs ProofsTransforms ProofsBasis ProofsKnots ProofsSurface ProofsSplineMonotone ProofsCoordinates ProofsMorton ModelSurfaceGenerator SpecSurfaceGenerator
  ProofsSurfaceGenerator ProofsSurfaceFit ModelSurfaceUpdate.
Import ListNotations.
Local Open Scope R_scope.

Lemma square_points : forall f n, (0 < f)%nat -> Nat.sqrt (f * (n * n) / f) = n.
Proof. intros f n F. rewrite Nat.mul_comm, Nat.div_mul by lia. apply Nat.sqrt_square. Qed.
Theorem update_flat : forall p q facets n, facets <> [] ->
  (forall c i j, In c (map fst facets) -> (i < n_u c)%nat -> (j < n_v c)%nat -> pu (control c i j) = 0) ->
  update_surface p q facets (length facets * (n * n)) = Ok (surface_points_and_normals p q facets n n).
Proof.
  intros p q facets n NE FL. unfold update_surface. destruct facets as [|f0 facets]; [contradiction|]. set (all := f0 :: facets) in *.
  replace (length all =? 0)%nat with false by reflexivity. rewrite square_points by (cbn; lia). f_equal.
  rewrite (proj1 (placed_when_flat p q all n n) FL). apply collect_ext. intros [c pl] _. apply collect_ext. intros [x y] _. reflexivity.
Qed.
Lemma collect_defined : forall {A B} (f : A -> option B) l, (forall x, In x l -> exists y, f x = Some y) -> exists ys, collect (map f l) = Some ys.
Proof.
  intros A B f. induction l as [|a l IH]; intros H; [exists []; auto|]. destruct (H a) as (y & E); [left; auto|].
  destruct IH as (ys & EY); [intros x X; apply H; right; auto|]. exists (y :: ys). cbn [map collect]. rewrite E. cbn [obind]. rewrite EY. auto.
Qed.
Theorem update_count : forall p q facets n_e n_n, facets <> [] -> Forall (fun f => fits (fst f) p q) facets ->
  exists updated, update_surface p q facets (length facets * (n_e * n_n)) = Ok (Some updated) /\ length updated = length facets
  /\ forall row, In row updated -> length row = (Nat.sqrt (n_e * n_n) * Nat.sqrt (n_e * n_n))%nat.
Proof.
  intros p q facets n_e n_n NE F. unfold update_surface. destruct (Nat.eqb_spec (length facets) 0) as [L|L]; [destruct facets; [contradiction|discriminate]|].
  rewrite Nat.mul_comm, Nat.div_mul by lia. set (n := Nat.sqrt (n_e * n_n)).
  assert (E7 : 0 < / 10 ^ 7 < / 2) by (split; [apply Rinv_0_lt_compat; lra|lra]).
  assert (DEF : forall c pl, In (c, pl) facets -> exists row, collect (map (fun '(x, y) => calculate c p q (Some pl) x y) (evaluation_grid (/ 10 ^ 7) n n)) = Some row).
  { intros c pl I. apply collect_defined. intros (x & y) G. pose proof (grid_in (/ 10 ^ 7) n n x y G E7) as (X & Y).
    rewrite Forall_forall in F. pose proof (F _ I) as FC. cbn [fst] in FC.
    destruct (moved_evaluate c (hv 0 0 0 0) p q x y FC) as (pt & nm & EV & _); [lra|lra|]. unfold calculate. rewrite EV. cbn [obind]. eauto. }
  destruct (collect_defined (fun '(c, pl) => collect (map (fun '(x, y) => calculate c p q (Some pl) x y) (evaluation_grid (/ 10 ^ 7) n n))) facets) as (updated & EU).
  { intros (c & pl) I. apply DEF; auto. }
  exists updated. rewrite EU. split; auto. destruct (collect_at _ _ _ EU) as (LU & AT). split; auto.
  intros row R0. apply In_nth_error in R0. destruct R0 as (i & NI).
  destruct (nth_error facets i) as [[c pl]|] eqn:NF; [|apply nth_error_None in NF; rewrite <- LU in NF; apply nth_error_None in NF; congruence].
  destruct (AT i _ NF) as (row' & NR & CR). assert (row' = row) by congruence. subst row'.
  destruct (collect_at _ _ _ CR) as (LR & _). rewrite LR. apply grid_length.
Qed.
(** A facet that is not canted, in a heliostat whose surface is not flat. *)
Theorem update_fitted : forall p q facets n i c a b t, Forall (fun f => fits (fst f) p q) facets ->
  (exists c i j, In c (map fst facets) /\ (i < n_u c)%nat /\ (j < n_v c)%nat /\ pu (control c i j) <> 0) ->
  nth_error facets i = Some (c, (vec a 0 0, vec 0 b 0, t)) -> / 10 ^ 8 <= a -> / 10 ^ 8 <= b -> hw t = 0 ->
  exists loaded updated before after, surface_points_and_normals p q facets n n = Some loaded
    /\ update_surface p q facets (length facets * (n * n)) = Ok (Some updated)
    /\ nth_error loaded i = Some before /\ nth_error updated i = Some after
    /\ length before = (n * n)%nat /\ length after = (n * n)%nat
    /\ forall k x m, nth_error before k = Some (x, m) -> nth_error after k = Some (as_point (vadd (enu x) (enu t)), m).
Proof.
  intros p q facets n i c a b t F NF NI A B T.
  assert (NE : facets <> []) by (intros ->; destruct i; discriminate).
  destruct (update_count p q facets n n NE F) as (updated & EU & LU & RU). rewrite Nat.sqrt_square in RU.
  destruct (surface_defined p q facets n n F) as (loaded & EL & LL & RL & _).
  exists loaded, updated.
  assert (I : (i < length facets)%nat) by (apply nth_error_Some; congruence).
  destruct (nth_error loaded i) as [before|] eqn:NB; [|apply nth_error_None in NB; lia].
  destruct (nth_error updated i) as [after|] eqn:NA; [|apply nth_error_None in NA; lia].
  exists before, after. split; auto. split; auto. split; auto. split; auto.
  assert (LB : length before = (n * n)%nat) by (rewrite Forall_forall in RL; apply RL, (nth_error_In _ _ NB)).
  assert (LA : length after = (n * n)%nat) by (apply RU, (nth_error_In _ _ NA)).
  split; auto. split; auto. intros k x m NK.
  rewrite (proj2 (placed_when_flat p q facets n n) NF) in EL. destruct (collect_at _ _ _ EL) as (_ & LAT).
  destruct (LAT i _ NI) as (r1 & NR1 & CR1). assert (r1 = before) by congruence. subst r1. cbn [fst] in CR1.
  unfold update_surface in EU. destruct (Nat.eqb_spec (length facets) 0); [lia|]. rewrite square_points in EU by lia. injection EU as EU.
  destruct (collect_at _ _ _ EU) as (_ & UAT). destruct (UAT i _ NI) as (r2 & NR2 & CR2). assert (r2 = after) by congruence. subst r2.
  destruct (collect_at _ _ _ CR1) as (_ & R1). destruct (collect_at _ _ _ CR2) as (_ & R2).
  assert (K : (k < n * n)%nat) by (rewrite <- LB; apply nth_error_Some; congruence).
  destruct (nth_error (evaluation_grid (/ 10 ^ 7) n n) k) as [[gx gy]|] eqn:G; [|apply nth_error_None in G; rewrite grid_length in G; lia].
  destruct (R1 k _ G) as (y1 & N1 & E1). destruct (R2 k _ G) as (y2 & N2 & E2). cbn [fst snd] in E1. assert (y1 = (x, m)) by congruence. subst y1.
  rewrite N2, <- E2. unfold calculate. rewrite E1. cbn [obind place fst snd].
  assert (E7 : 0 < / 10 ^ 7 < / 2) by (split; [apply Rinv_0_lt_compat; lra|lra]).
  pose proof (grid_in (/ 10 ^ 7) n n gx gy (nth_error_In _ _ G) E7) as (X & Y).
  rewrite Forall_forall in F. pose proof (F _ (nth_error_In _ _ NI)) as FC. cbn [fst] in FC.
  destruct (moved_evaluate c (hv 0 0 0 0) p q gx gy FC) as (pt & nm & EV & _); [lra|lra|]. rewrite E1 in EV. injection EV as -> ->.
  f_equal. unfold as_point at 1, as_direction at 1. rewrite !upright_canting by auto. apply (f_equal2 pair); auto.
  apply hvec_eq; unfold as_point, as_direction, hadd; cbn [he hn hu hw hv pe pn pu vadd vec enu]; try ring. rewrite T. ring.
Qed.
