(** Proofs about loading surfaces with another number of control points (C111). *)
From Coq Require Import List Arith ZArith Reals Bool Lra Lia Psatz.
From Verif Require Import RealSums ModelField ModelVectors ProofsVectors ModelTransforms ModelActuators ModelLBVH ModelNurbs ModelCoordinates ModelTraining SpecIntersections
  SpecTransforms SpecNurbs ProofsTransforms ProofsBasis ProofsKnots ProofsSurface ProofsSplineMonotone ProofsCoordinates ProofsMorton ModelSurfaceGenerator SpecSurfaceGenerator
  ProofsSurfaceGenerator ProofsSurfaceFit ModelSurfaceUpdate ProofsSurfaceUpdate.
Import ListNotations.
Local Open Scope R_scope.

Definition facet_cantings (facets : list stored_facet) := map (fun f : stored_facet => let '(_, (c_e, c_n, _)) := f in (c_e, c_n)) facets.
Definition facet_translations (facets : list stored_facet) := map (fun f : stored_facet => let '(_, (_, _, t)) := f in t) facets.
Lemma map_res_map : forall {A B} (f : nat -> res B) (g : A -> B) l s, (forall i x, nth_error l i = Some x -> f (s + i)%nat = Ok (g x)) -> map_res f (seq s (length l)) = Ok (map g l).
Proof.
  intros A B f g. induction l as [|x l IH]; intros s H; auto. cbn [length seq map_res map].
  pose proof (H 0%nat x eq_refl) as E. rewrite Nat.add_0_r in E. rewrite E. cbn [bind]. rewrite (IH (S s)); auto.
  intros i y Q. rewrite <- (H (S i) y Q). f_equal. lia.
Qed.
Lemma changed_ideal : forall a b (facets : list stored_facet), ideal_surface a b (facet_cantings facets) (facet_translations facets)
  = Ok (combine (planar_control_points a b (facet_cantings facets)) (map snd facets)).
Proof.
  intros a b facets. unfold ideal_surface. replace (length (facet_translations facets)) with (length facets) by (unfold facet_translations; rewrite map_length; auto).
  rewrite (map_res_map _ (fun f : stored_facet => let '(_, (c_e, c_n, t)) := f in (planar_net a b (norm c_e) (norm c_n), (c_e, c_n, t))) facets 0).
  - f_equal. unfold planar_control_points, facet_cantings. induction facets as [|[c [[c_e c_n] t]] facets IH]; auto. cbn. f_equal. exact IH.
  - intros i [c [[c_e c_n] t]] N. cbn [Nat.add]. unfold planar_control_points, facet_cantings, facet_translations. rewrite !nth_error_map, N. reflexivity.
Qed.
Lemma planar_flat : forall a b cantings pls c i j, In c (map fst (combine (planar_control_points a b cantings) (pls : list (point * point * hvec)))) ->
  (i < n_u c)%nat -> (j < n_v c)%nat -> pu (control c i j) = 0.
Proof.
  intros a b cantings pls c i j I _ _. apply in_map_iff in I. destruct I as ([c' pl] & E & I). cbn [fst] in E. subst c'. apply in_combine_l in I.
  unfold planar_control_points in I. apply in_map_iff in I. destruct I as ([c_e c_n] & <- & _). reflexivity.
Qed.
Lemma changed_rows : forall a b p q (facets : list stored_facet) n, facets <> [] -> (1 <= p < a)%nat -> (1 <= q < b)%nat ->
  (forall c c_e c_n t, In (c, (c_e, c_n, t)) facets -> proper_canting a b c_e c_n /\ hw t = 0) ->
  exists updated (s r : nat -> R),
    update_surface p q (combine (planar_control_points a b (facet_cantings facets)) (map snd facets)) (length facets * (n * n)) = Ok (Some updated)
    /\ length updated = length facets
    /\ (forall j, (j < n)%nat -> - 1 <= s j <= 1) /\ (forall k, (k < n)%nat -> - 1 <= r k <= 1)
    /\ forall i c c_e c_n t, nth_error facets i = Some (c, (c_e, c_n, t)) ->
       exists row, nth_error updated i = Some row /\ length row = (n * n)%nat
       /\ forall j k, (j < n)%nat -> (k < n)%nat ->
          nth_error row (j * n + k) = Some (as_point (rectangle_point t c_e c_n (s j) (r k)), as_direction (rectangle_normal c_e c_n)).
Proof.
  intros a b p q facets n NE P Q PC. set (fs := combine (planar_control_points a b (facet_cantings facets)) (map snd facets)).
  assert (LF : length fs = length facets). { unfold fs. rewrite combine_length. unfold planar_control_points, facet_cantings. rewrite ?map_length. apply Nat.min_id. }
  destruct (ideal_facets a b p q (facet_cantings facets) (facet_translations facets) fs n n P Q) as (rows & s & r & ER & LR & S1 & R1 & _ & _ & AT).
  - intros c_e c_n I. unfold facet_cantings in I. apply in_map_iff in I. destruct I as ([c [[e m] t]] & E & I). injection E as <- <-. apply (PC c e m t I).
  - intros t I. unfold facet_translations in I. apply in_map_iff in I. destruct I as ([c [[e m] t']] & E & I). subst t'. apply (PC c e m t I).
  - apply changed_ideal.
  - exists rows, s, r. split.
    + rewrite <- LF. rewrite update_flat; [rewrite ER; auto| |apply planar_flat]. intros Z. rewrite Z in LF. destruct facets; [contradiction|discriminate].
    + split; [rewrite LR; unfold facet_translations; apply map_length|]. split; [exact S1|]. split; [exact R1|].
      intros i c c_e c_n t N. apply AT; [unfold facet_cantings|unfold facet_translations]; rewrite nth_error_map, N; reflexivity.
Qed.
Lemma split_index : forall n k, (k < n * n)%nat -> exists i j, (i < n)%nat /\ (j < n)%nat /\ (k = i * n + j)%nat.
Proof.
  intros n k K. assert (n <> 0)%nat by nia. exists (k / n)%nat, (k mod n)%nat. split; [apply Nat.div_lt_upper_bound; lia|]. split; [apply Nat.mod_upper_bound; auto|].
  rewrite (Nat.div_mod k n) at 1 by auto. lia.
Qed.
Theorem changed_off : forall a b p q facets n i c c_e c_n t held row k x m, (1 <= p < a)%nat -> (1 <= q < b)%nat ->
  (forall c c_e c_n t, In (c, (c_e, c_n, t)) facets -> proper_canting a b c_e c_n /\ hw t = 0) ->
  surface_points_and_normals p q facets n n = Some held -> nth_error facets i = Some (c, (c_e, c_n, t)) ->
  nth_error held i = Some row -> nth_error row k = Some (x, m) -> (forall s r, - 1 <= s <= 1 -> - 1 <= r <= 1 -> enu x <> rectangle_point t c_e c_n s r) ->
  exists controls updated row' x' m', load_surface (Some (a, b)) p q facets n n = (controls, Some held)
    /\ update_surface p q (combine controls (map snd facets)) (length facets * (n * n)) = Ok (Some updated)
    /\ nth_error updated i = Some row' /\ nth_error row' k = Some (x', m') /\ enu x' <> enu x.
Proof.
  intros a b p q facets n i c c_e c_n t held row k x m P Q PC EH NF NH NR OFF.
  assert (NE : facets <> []) by (intros ->; destruct i; discriminate).
  destruct (changed_rows a b p q facets n NE P Q PC) as (updated & s & r & EU & LU & S1 & R1 & AT).
  destruct (AT i c c_e c_n t NF) as (row' & NU & LR' & PT).
  assert (K : (k < n * n)%nat).
  { unfold surface_points_and_normals in EH. destruct (collect_at _ _ _ EH) as (_ & A1). destruct (A1 i _ NF) as (row0 & N0 & C0). assert (row0 = row) by congruence. subst row0.
    destruct (collect_at _ _ _ C0) as (L0 & _). rewrite grid_length in L0. rewrite <- L0. apply nth_error_Some. congruence. }
  destruct (split_index n k K) as (j & l & J & L & ->).
  exists (planar_control_points a b (facet_cantings facets)), updated, row', (as_point (rectangle_point t c_e c_n (s j) (r l))), (as_direction (rectangle_normal c_e c_n)).
  split; [unfold load_surface; rewrite EH; reflexivity|]. split; auto. split; auto. split; [apply PT; auto|].
  intros E. apply (OFF (s j) (r l) (S1 j J) (R1 l L)). rewrite <- E. unfold as_point, enu. destruct (rectangle_point t c_e c_n (s j) (r l)). reflexivity.
Qed.
Theorem changed_ideal_surface : forall a0 b0 a b p q cantings translations facets n, (1 <= p < a0)%nat -> (1 <= q < b0)%nat -> (1 <= p < a)%nat -> (1 <= q < b)%nat ->
  (forall c_e c_n, In (c_e, c_n) cantings -> proper_canting a0 b0 c_e c_n /\ proper_canting a b c_e c_n) -> (forall t, In t translations -> hw t = 0) ->
  translations <> [] -> length translations = length cantings -> ideal_surface a0 b0 cantings translations = Ok facets ->
  exists controls held updated, load_surface (Some (a, b)) p q facets n n = (controls, Some held)
    /\ Forall (fun c => n_u c = a /\ n_v c = b) controls /\ length controls = length cantings
    /\ update_surface p q (combine controls (map snd facets)) (length facets * (n * n)) = Ok (Some updated)
    /\ forall i c_e c_n t, nth_error cantings i = Some (c_e, c_n) -> nth_error translations i = Some t ->
       exists before after, nth_error held i = Some before /\ nth_error updated i = Some after /\ length before = (n * n)%nat /\ length after = (n * n)%nat
       /\ forall x m, In (x, m) before \/ In (x, m) after ->
          m = as_direction (rectangle_normal c_e c_n) /\ exists s r, - 1 <= s <= 1 /\ - 1 <= r <= 1 /\ x = as_point (rectangle_point t c_e c_n s r).
Proof.
  intros a0 b0 a b p q cantings translations facets n P0 Q0 P Q PC HT NE LT EI.
  assert (FI : facets = map (fun '((c_e, c_n), t) => (planar_net a0 b0 (norm c_e) (norm c_n), (c_e, c_n, t))) (combine cantings translations)).
  { unfold ideal_surface in EI. replace (length translations) with (length (combine cantings translations)) in EI by (rewrite combine_length; lia).
    rewrite (map_res_map _ (fun '((c_e, c_n), t) => (planar_net a0 b0 (norm c_e) (norm c_n), (c_e, c_n, t))) (combine cantings translations) 0) in EI; [congruence|].
    intros i [[c_e c_n] t] N. cbn [Nat.add]. unfold planar_control_points. rewrite nth_error_map.
    assert (NB : nth_error cantings i = Some (c_e, c_n) /\ nth_error translations i = Some t).
    { clear - N. revert translations i N. induction cantings as [|c cs IH]; intros ts i N; [destruct i; discriminate|]. destruct ts as [|t0 ts]; [destruct i; discriminate|].
      destruct i; cbn in *; [injection N as <- <-; auto|]. apply IH; auto. }
    destruct NB as (-> & ->). reflexivity. }
  assert (FC : facet_cantings facets = cantings /\ facet_translations facets = translations /\ length facets = length cantings).
  { subst facets. unfold facet_cantings, facet_translations. rewrite !map_map, map_length, combine_length. clear - LT.
    revert translations LT. induction cantings as [|[e m] cs IH]; intros [|t ts] L; try discriminate; auto. cbn in L. destruct (IH ts ltac:(lia)) as (A & B & C). cbn. split; [f_equal; exact A|].
    split; [f_equal; exact B|lia]. }
  destruct FC as (FC & FT & FL).
  destruct (ideal_facets a0 b0 p q cantings translations facets n n P0 Q0) as (held & s0 & r0 & EH & LH & S0 & R0 & _ & _ & AT0); auto; [intros; apply PC; auto|].
  assert (NF : facets <> []). { intros Z. rewrite Z in FL. destruct translations; [contradiction|]. cbn in *. lia. }
  destruct (changed_rows a b p q facets n NF P Q) as (updated & s & r & EU & LU & S1 & R1 & AT).
  { intros c c_e c_n t I. split.
    - apply PC. rewrite <- FC. unfold facet_cantings. apply in_map_iff. exists (c, (c_e, c_n, t)). auto.
    - apply HT. rewrite <- FT. unfold facet_translations. apply in_map_iff. exists (c, (c_e, c_n, t)). auto. }
  exists (planar_control_points a b (facet_cantings facets)), held, updated. split; [unfold load_surface; rewrite EH; reflexivity|].
  split; [apply Forall_forall; intros c I; unfold planar_control_points in I; apply in_map_iff in I; destruct I as ([e m] & <- & _); split; reflexivity|].
  split; [unfold planar_control_points; rewrite map_length, FC; auto|]. split; auto.
  intros i c_e c_n t NC NT. destruct (AT0 i c_e c_n t NC NT) as (before & NB & LB & PB).
  assert (NFi : exists c, nth_error facets i = Some (c, (c_e, c_n, t))).
  { rewrite <- FC in NC. rewrite <- FT in NT. unfold facet_cantings in NC. unfold facet_translations in NT. rewrite nth_error_map in NC, NT.
    destruct (nth_error facets i) as [[c [[e m] t']]|]; [|discriminate]. cbn in NC, NT. injection NC as <- <-. injection NT as <-. eauto. }
  destruct NFi as (c & NFi). destruct (AT i c c_e c_n t NFi) as (after & NA & LA & PA).
  exists before, after. split; auto. split; auto. split; auto. split; auto.
  assert (G : forall row (s r : nat -> R), length row = (n * n)%nat -> (forall j, (j < n)%nat -> - 1 <= s j <= 1) -> (forall k, (k < n)%nat -> - 1 <= r k <= 1) ->
    (forall j k, (j < n)%nat -> (k < n)%nat -> nth_error row (j * n + k) = Some (as_point (rectangle_point t c_e c_n (s j) (r k)), as_direction (rectangle_normal c_e c_n))) ->
    forall x m, In (x, m) row -> m = as_direction (rectangle_normal c_e c_n) /\ exists s r, - 1 <= s <= 1 /\ - 1 <= r <= 1 /\ x = as_point (rectangle_point t c_e c_n s r)).
  { intros row s' r' L SS RR PP x m I. apply In_nth_error in I. destruct I as (k & NK). assert (K : (k < n * n)%nat) by (rewrite <- L; apply nth_error_Some; congruence).
    destruct (split_index n k K) as (j & l & J & L' & ->). rewrite PP in NK by auto. injection NK as <- <-. split; auto. exists (s' j), (r' l). auto. }
  intros x m [I|I]; [apply (G before s0 r0)|apply (G after s r)]; auto.
Qed.
(** A facet whose control points are one above the rectangle. *)
Definition raised : stored_facet := (moved (planar_net 4 4 1 1) (hv 0 0 1 0), (vec 1 0 0, vec 0 1 0, hv 0 0 0 0)).
Lemma raised_case : (forall c c_e c_n t, In (c, (c_e, c_n, t)) [raised] -> proper_canting 6 7 c_e c_n /\ hw t = 0)
  /\ exists row x m, surface_points_and_normals 2 2 [raised] 3 3 = Some [row] /\ nth_error row 4 = Some (x, m)
     /\ forall s r, - 1 <= s <= 1 -> - 1 <= r <= 1 -> enu x <> rectangle_point (hv 0 0 0 0) (vec 1 0 0) (vec 0 1 0) s r.
Proof.
  split.
  - intros c c_e c_n t [E|[]]. injection E as <- <- <- <-. split; [|reflexivity].
    assert (N1 : norm (vec 1 0 0) = 1) by (apply norm_is; [lra|vunfold; lra]). assert (N2 : norm (vec 0 1 0) = 1) by (apply norm_is; [lra|vunfold; lra]).
    unfold proper_canting. rewrite N1, N2. split; [vunfold; lra|]. split; [lra|]. split; [lra|]. cbn. lra.
  - assert (F : fits (planar_net 4 4 1 1) 2 2) by (split; cbn; lia).
    assert (FS : Forall (fun f : stored_facet => fits (fst f) 2 2) [raised]) by (repeat constructor; cbn; lia).
    destruct (surface_defined 2 2 [raised] 3 3 FS) as (rows & ER & LR & RL & _). destruct rows as [|row [|? ?]]; try discriminate LR. apply Forall_inv in RL.
    destruct (nth_error row 4) as [[x m]|] eqn:NR; [|apply nth_error_None in NR; lia]. exists row, x, m. split; auto. split; auto.
    rewrite (proj2 (placed_when_flat 2 2 [raised] 3 3)) in ER by (exists (fst raised), 0%nat, 0%nat; cbn; repeat split; auto; try lia; lra).
    destruct (collect_at _ _ _ ER) as (_ & A1). destruct (A1 0%nat raised eq_refl) as (row' & N0 & C0). injection N0 as <-. unfold raised in C0.
    destruct (collect_at _ _ _ C0) as (_ & A2). destruct (nth_error (evaluation_grid (/ 10 ^ 7) 3 3) 4) as [[u v]|] eqn:NG; [|apply nth_error_None in NG; rewrite grid_length in NG; lia].
    destruct (A2 4%nat _ NG) as (s & NS & CS). assert (s = (x, m)) by congruence. subst s.
    pose proof (grid_in _ _ _ _ _ (nth_error_In _ _ NG) ltac:(split; [apply Rinv_0_lt_compat; lra|lra])) as (U & V).
    assert (E7 : 0 < / 10 ^ 7) by (apply Rinv_0_lt_compat; lra).
    destruct (moved_evaluate (planar_net 4 4 1 1) (hv 0 0 1 0) 2 2 u v F ltac:(lra) ltac:(lra)) as (pt & nm & E1 & E2).
    cbn [fst snd] in CS. rewrite E2 in CS. injection CS as <- <-.
    rewrite (flat_net_evaluate (planar_net 4 4 1 1) 4 4 1 1 2 2) in E1 by (first [lia | reflexivity | lra | cbn; lra]).
    apply (f_equal (fun o => match o with Some (a, _) => hu a | None => 0 end)) in E1. cbn in E1.
    intros s r _ _ E. apply (f_equal pu) in E. cbn in E. lra.
Qed.
