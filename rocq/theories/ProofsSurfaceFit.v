(** Proofs about fitted surfaces (C91, C92). *)
From Coq Require Import List Arith ZArith Reals Bool Lra Lia Psatz.
From Coq Require Import Classical_Prop.
From Verif Require Import RealSums ModelField ModelVectors ProofsVectors ModelTransforms ModelActuators ModelLBVH ModelNurbs ModelCoordinates ModelTraining SpecIntersections
  SpecTransforms SpecNurbs ProofsTransforms ProofsBasis ProofsKnots ProofsSurface ProofsSplineMonotone ProofsCoordinates ProofsMorton ModelSurfaceGenerator SpecSurfaceGenerator
  ProofsSurfaceGenerator.
Import ListNotations.
Local Open Scope R_scope.

(** ** The number of steps *)
Lemma fit_loop_steps : forall T (loss : net -> option (res R)) (step : T -> net -> T * net) tolerance epochs state c k c' steps,
  fit_loop loss step tolerance epochs state c k = Some (Ok (c', steps)) ->
  (steps <= k + epochs)%nat /\ ((1 <= epochs)%nat -> (k < steps)%nat)
  /\ ((steps < k + epochs)%nat -> exists c0 l s, loss c0 = Some (Ok l) /\ l <= tolerance /\ c' = snd (step s c0)).
Proof.
  intros T loss step tolerance. induction epochs as [|n IH]; intros state c k c' steps E; cbn [fit_loop] in E.
  - injection E as <- <-. repeat split; lia.
  - destruct (loss c) as [[l|e]|] eqn:LC; try discriminate. destruct (step state c) as [s1 c1] eqn:SC. unfold Rgtb in E.
    destruct (Rlt_dec tolerance l).
    + destruct (IH _ _ _ _ _ E) as (A & B & C). split; [lia|]. split; [|intros; apply C; lia].
      intros _. destruct n as [|n]; [cbn in E; injection E as E1 E2; lia|specialize (B ltac:(lia)); lia].
    + injection E as E1 E2. subst c' steps. split; [lia|]. split; [lia|]. intros _. exists c, l, state. rewrite SC. split; auto. split; [lra|auto].
Qed.
Lemma fit_loop_above : forall T (loss : net -> option (res R)) (step : T -> net -> T * net) tolerance epochs state c k l,
  (forall s, snd (step s c) = c) -> loss c = Some (Ok l) -> tolerance < l ->
  fit_loop loss step tolerance epochs state c k = Some (Ok (c, (k + epochs)%nat)).
Proof.
  intros T loss step tolerance epochs state c k l ST LC TL. revert state k. induction epochs as [|n IH]; intros state k; cbn [fit_loop].
  - rewrite Nat.add_0_r. auto.
  - rewrite LC. pose proof (ST state) as SC. destruct (step state c) as [s1 c1]. cbn [snd] in SC. subst c1.
    unfold Rgtb. destruct (Rlt_dec tolerance l); [|lra]. rewrite IH. replace (S k + n)%nat with (k + S n)%nat by lia. auto.
Qed.

(** ** The initial control points *)
Definition width_of (points : list point) : R := Rmax_list (map pe points) - Rmin_list (map pe points).
Definition height_of (points : list point) : R := Rmax_list (map pn points) - Rmin_list (map pn points).
Lemma extent_nonneg : forall (f : point -> R) points, points <> [] -> 0 <= Rmax_list (map f points) - Rmin_list (map f points).
Proof.
  intros f [|x rest] N; [contradiction|]. pose proof (Rmin_list_le (map f (x :: rest)) (f x) (or_introl eq_refl)).
  pose proof (Rmax_list_ge (map f (x :: rest)) (f x) (or_introl eq_refl)). lra.
Qed.
Lemma initial_flat : forall n_u0 n_v0 points c p q x y, initial_net n_u0 n_v0 points = Ok c -> (1 <= p < n_u0)%nat -> (1 <= q < n_v0)%nat ->
  INR (n_u0 - 1) * INR (n_v0 - 1) <= 10 ^ 12 * (width_of points * height_of points) -> 0 <= x < 1 -> 0 <= y < 1 ->
  exists pt, evaluate c p q x y = Some (as_point pt, as_direction (vec 0 0 1)) /\ pu pt = 0.
Proof.
  intros a b points c p q x y E PA PB H X Y. destruct points as [|x0 rest] eqn:EP; [discriminate|]. rewrite <- EP in *.
  assert (NE : points <> []) by (rewrite EP; discriminate).
  assert (C : n_u c = a /\ n_v c = b /\ forall i j, control c i j = vec (linspace (- width_of points / 2) (width_of points / 2) a i) (linspace (- height_of points / 2) (height_of points / 2) b j) 0).
  { unfold initial_net in E. rewrite EP in E. rewrite <- EP in E. injection E as <-. auto. }
  destruct C as (CA & CB & CC). pose proof (extent_nonneg pe points NE) as W. pose proof (extent_nonneg pn points NE) as V. fold (width_of points) in W. fold (height_of points) in V.
  eexists. split; [apply (flat_net_evaluate c a b (width_of points / 2) (height_of points / 2)); auto; try lra|reflexivity].
  intros i j I J. rewrite CC. assert (0 < INR (a - 1)) by (apply lt_0_INR; lia). assert (0 < INR (b - 1)) by (apply lt_0_INR; lia).
  unfold linspace. destruct (Nat.leb_spec a 1); [lia|]. destruct (Nat.leb_spec b 1); [lia|]. apply point_eq; cbn [pe pn pu vec]; field; lra.
Qed.
Lemma parameters_ok : forall points, points <> [] -> exists parameters, fit_parameters points = Ok parameters /\ length parameters = length points
  /\ forall x y, In (x, y) parameters -> 0 <= x < 1 /\ 0 <= y < 1.
Proof.
  intros points NE. unfold fit_parameters.
  destruct (normalize_all (map pe points)) as (es & -> & LE & BE & _); [destruct points; [contradiction|discriminate]|].
  destruct (normalize_all (map pn points)) as (ns & -> & LN & BN & _); [destruct points; [contradiction|discriminate]|].
  cbn [bind]. eexists. split; [reflexivity|]. rewrite combine_length, LE, LN, !map_length, Nat.min_id. split; auto.
  intros x y I. specialize (BE x (in_combine_l _ _ _ _ I)). specialize (BN y (in_combine_r _ _ _ _ I)). lra.
Qed.
Lemma square_error_same : forall a, square_error a a = 0.
Proof. intros. unfold square_error. ring. Qed.
Lemma mse_const : forall a b n, (1 <= n)%nat -> mse (repeat a n) (repeat b n) = square_error a b / 4.
Proof.
  intros a b n N. unfold mse. rewrite repeat_length.
  assert (E : map (fun '(x, y) => square_error x y) (combine (repeat a n) (repeat b n)) = repeat (square_error a b) n).
  { clear N. induction n as [|n IH]; auto. cbn. f_equal. auto. }
  rewrite E, Rsum_repeat. assert (0 < INR n) by (apply lt_0_INR; lia). field. lra.
Qed.
(** The loss of the initial control points for constant measured normals. *)
Lemma initial_loss : forall n_u0 n_v0 points c p q parameters measured normal, points <> [] -> initial_net n_u0 n_v0 points = Ok c -> (1 <= p < n_u0)%nat -> (1 <= q < n_v0)%nat ->
  INR (n_u0 - 1) * INR (n_v0 - 1) <= 10 ^ 12 * (width_of points * height_of points) -> fit_parameters points = Ok parameters ->
  fit_loss p q FromNormals parameters measured (map (fun x => hv (pe x) (pn x) (pu x) 0) (map (fun _ => normal) points)) c
  = Some (Ok (square_error (as_direction (vec 0 0 1)) (as_direction normal) / 4)).
Proof.
  intros a b points c p q parameters measured normal NE E PA PB H FP.
  destruct (parameters_ok points NE) as (ps & FP' & LP & BP). assert (ps = parameters) by congruence. subst ps.
  unfold fit_loss.
  assert (EV : exists rows, collect (map (fun '(x, y) => evaluate c p q x y) parameters) = Some rows /\ map snd rows = repeat (as_direction (vec 0 0 1)) (length parameters)).
  { clear FP FP' LP. induction parameters as [|[x y] l IH]; [exists []; auto|].
    destruct IH as (rows & EL & ER); [intros; apply BP; right; auto|]. destruct (BP x y (or_introl eq_refl)) as (X & Y).
    destruct (initial_flat a b points c p q x y E PA PB H X Y) as (pt & EP & _). cbn [map collect]. rewrite EP, EL. cbn [obind].
    eexists. split; [reflexivity|]. cbn [map snd length repeat]. f_equal. auto. }
  destruct EV as (rows & -> & ER). cbn [option_map].
  assert (LR : length rows = length points) by (rewrite <- (map_length snd), ER, repeat_length; auto).
  rewrite !map_length, LR, Nat.eqb_refl, ER, LP. rewrite map_map.
  assert (M : map (fun _ : point => hv (pe normal) (pn normal) (pu normal) 0) points = repeat (as_direction normal) (length points)).
  { clear. induction points as [|x l IH]; auto. cbn [map length repeat]. f_equal; auto. }
  rewrite M, mse_const by (destruct points; [contradiction|cbn; lia]). auto.
Qed.
Lemma every_map : forall {A B} (f : A -> B) k l s, every_from k s (map f l) = map f (every_from k s l).
Proof. intros A B f k. induction l as [|x l IH]; intros s; auto. destruct s; cbn [map every_from]; rewrite ?IH; auto. Qed.

(** ** Moving control points moves the surface *)
Lemma grid_sum_plus : forall n m f g h k, grid_sum n m f g (fun a b => h a b + k) = grid_sum n m f g h + k * (Rsum (map f (seq 0 n)) * Rsum (map g (seq 0 m))).
Proof.
  intros n m f g h k. rewrite <- grid_sum_one. unfold grid_sum. rewrite <- Rsum_map_scal, <- Rsum_map_plus. apply Rsum_map_ext. intros a _.
  rewrite <- Rsum_map_scal, <- Rsum_map_plus. apply Rsum_map_ext. intros b _. ring.
Qed.
Lemma tensor_moved : forall n m f g c v, tensor n m f g (fun i j => vadd (c i j) v)
  = vadd (tensor n m f g c) (smul (Rsum (map f (seq 0 n)) * Rsum (map g (seq 0 m))) v).
Proof.
  intros n m f g c v. unfold tensor. apply point_eq; cbn [pe pn pu vec vadd smul].
  - transitivity (grid_sum n m f g (fun a b => pe (c a b) + pe v)); [reflexivity|]. rewrite grid_sum_plus. unfold grid_sum. ring.
  - transitivity (grid_sum n m f g (fun a b => pn (c a b) + pn v)); [reflexivity|]. rewrite grid_sum_plus. unfold grid_sum. ring.
  - transitivity (grid_sum n m f g (fun a b => pu (c a b) + pu v)); [reflexivity|]. rewrite grid_sum_plus. unfold grid_sum. ring.
Qed.
Lemma moved_evaluate : forall c t p q x y, fits c p q -> 0 <= x < 1 -> 0 <= y < 1 ->
  exists pt nm, evaluate c p q x y = Some (as_point pt, as_direction nm) /\ evaluate (moved c t) p q x y = Some (as_point (vadd pt (enu t)), as_direction nm).
Proof.
  intros c t p q x y F X Y. do 2 eexists. split; [apply evaluate_textbook; auto|].
  rewrite (evaluate_textbook (moved c t) p q x y F X Y). cbn [moved n_u n_v control]. rewrite !tensor_moved.
  destruct F as (FU & FV). destruct (weights _ _ _ FU X) as (_ & W1 & W1'). destruct (weights _ _ _ FV Y) as (_ & W2 & W2').
  rewrite W1, W1', W2, W2'. fold (enu t). f_equal. apply (f_equal2 pair).
  - f_equal. vring.
  - do 2 f_equal. f_equal; vring.
Qed.
Theorem fitted_placed : forall p q method (facets : list (net * (point * point) * hvec)) n_e n_n,
  Forall (fun f => fits (fst (fst f)) p q) facets ->
  (exists c canting t i j, In (c, canting, t) facets /\ (i < n_u c)%nat /\ (j < n_v c)%nat /\ pu (control c i j) + hu (fitted_translation method t) <> 0) ->
  exists rows, surface_points_and_normals p q (map (fun '(c, canting, t) => fitted_facet method c canting t) facets) n_e n_n = Some rows
  /\ length rows = length facets
  /\ forall i c canting t k x y, nth_error facets i = Some (c, canting, t) -> nth_error (evaluation_grid (/ 10 ^ 7) n_e n_n) k = Some (x, y) ->
     exists row pt nm, nth_error rows i = Some row /\ evaluate c p q x y = Some (as_point pt, as_direction nm)
       /\ nth_error row k = Some (as_point (vadd pt (enu (fitted_translation method t))), as_direction nm).
Proof.
  intros p q method facets n_e n_n F (c1 & can1 & t1 & i1 & j1 & I1 & A1 & B1 & H1).
  set (stored := map (fun '(c, canting, t) => fitted_facet method c canting t) facets).
  assert (FS : Forall (fun f => fits (fst f) p q) stored).
  { apply Forall_forall. intros f I. apply in_map_iff in I. destruct I as ([[c can] t] & <- & I). rewrite Forall_forall in F. apply (F _ I). }
  destruct (surface_defined p q stored n_e n_n FS) as (rows & ER & LR & _). exists rows. split; auto.
  unfold stored in LR. rewrite map_length in LR. split; auto.
  rewrite (proj2 (placed_when_flat p q stored n_e n_n)) in ER.
  2: { exists (moved c1 (fitted_translation method t1)), i1, j1. split; [|split; [|split]]; auto.
       apply in_map_iff. exists (fitted_facet method c1 can1 t1). split; auto. apply in_map_iff. exists (c1, can1, t1). auto. }
  destruct (collect_at _ _ _ ER) as (_ & RAT).
  intros i c can t k x y NF NG.
  destruct (RAT i (fitted_facet method c can t)) as (row & NR & CR).
  { unfold stored. rewrite nth_error_map, NF. auto. }
  assert (XY : 0 <= x < 1 /\ 0 <= y < 1).
  { pose proof (grid_in (/ 10 ^ 7) n_e n_n x y (nth_error_In _ _ NG)) as GI.
    assert (E7 : 0 < / 10 ^ 7 < / 2) by (split; [apply Rinv_0_lt_compat; lra|lra]). specialize (GI E7). lra. }
  rewrite Forall_forall in F. specialize (F _ (nth_error_In _ _ NF)). cbn [fst] in F.
  destruct (moved_evaluate c (fitted_translation method t) p q x y F (proj1 XY) (proj2 XY)) as (pt & nm & E1 & E2).
  exists row, pt, nm. split; auto. split; auto.
  destruct (collect_at _ _ _ CR) as (_ & ROW). destruct (ROW k (x, y) NG) as (z & NZ & EZ). cbn [fitted_facet fst snd] in EZ. congruence.
Qed.

(** ** Exactly flat measurements *)
Lemma upright_canting : forall a b h e n w, / 10 ^ 8 <= a -> / 10 ^ 8 <= b ->
  perform_canting false (vec a 0 0) (vec 0 b 0) (hv e n h w) = hv e n h w.
Proof.
  intros a b h e n w A B. assert (0 < / 10 ^ 8) by (apply Rinv_0_lt_compat; lra).
  assert (NA : norm (vec a 0 0) = a) by (apply norm_is; [lra|vunfold; ring]).
  assert (NB : norm (vec 0 b 0) = b) by (apply norm_is; [lra|vunfold; ring]).
  rewrite canting_axes; [|rewrite NA; lra|rewrite NB; auto|vunfold; ring].
  unfold rectangle_normal. replace (cross (vec a 0 0) (vec 0 b 0)) with (vec 0 0 (a * b)) by (apply point_eq; vunfold; ring).
  assert (NC : norm (vec 0 0 (a * b)) = a * b) by (apply norm_is; [nra|vunfold; ring]).
  rewrite NA, NB, NC. cbv zeta. apply hvec_eq; cbn [he hn hu hw hv pe pn pu vadd smul vec]; try ring; field; lra.
Qed.
Theorem flat_fit_doubled : forall T n_u0 n_v0 p q (step : T -> net -> T * net) states tolerance max_epoch stride a b t points reduced_points c0 n_e n_n,
  (1 <= p < n_u0)%nat -> (1 <= q < n_v0)%nat -> 0 <= tolerance -> / 10 ^ 8 <= a -> / 10 ^ 8 <= b -> hu t = 0 -> hw t = 0 ->
  strided stride points = Ok reduced_points -> initial_net n_u0 n_v0 reduced_points = Ok c0 ->
  INR (n_u0 - 1) * INR (n_v0 - 1) <= 10 ^ 12 * (width_of reduced_points * height_of reduced_points) ->
  (forall s, snd (step s c0) = c0) ->
  exists facet row,
    fitted_surface n_u0 n_v0 p q FromNormals step states tolerance max_epoch stride [(vec a 0 0, vec 0 b 0)] [t] [points] [map (fun _ => vec 0 0 1) points]
      = Some (Ok [facet])
    /\ surface_points_and_normals p q [facet] n_e n_n = Some [row]
    /\ forall k x y, nth_error (evaluation_grid (/ 10 ^ 7) n_e n_n) k = Some (x, y) ->
       exists pt, evaluate c0 p q x y = Some (as_point pt, as_direction (vec 0 0 1))
         /\ nth_error row k = Some (as_point (vadd pt (vadd (enu t) (enu t))), as_direction (vec 0 0 1)).
Proof.
  intros T a0 b0 p q step states tolerance max_epoch stride a b t points rp c0 n_e n_n PA PB TOL A B HU HW SR IN EXT ST.
  assert (NE : rp <> []) by (destruct rp; [discriminate|discriminate]).
  assert (SN : strided stride (map (fun _ : point => vec 0 0 1) points) = Ok (map (fun _ => vec 0 0 1) rp)).
  { unfold strided in *. destruct (Nat.eqb stride 0); [discriminate|]. injection SR as <-. rewrite every_map. auto. }
  destruct (parameters_ok rp NE) as (ps & FP & _ & _).
  assert (FN : fit_nurbs a0 b0 p q FromNormals step (states 0%nat) tolerance max_epoch rp (map (fun _ => vec 0 0 1) rp) = Some (Ok (c0, 1%nat))).
  { unfold fit_nurbs. rewrite IN, FP. cbn [fit_loop]. rewrite (initial_loss a0 b0 rp c0 p q ps _ (vec 0 0 1)); auto.
    rewrite square_error_same. pose proof (ST (states 0%nat)) as S0. destruct (step (states 0%nat) c0) as [s1 c1]. cbn [snd] in S0. subst c1.
    unfold Rgtb. destruct (Rlt_dec tolerance (0 / 4)); [lra|auto]. }
  exists (fitted_facet FromNormals c0 (vec a 0 0, vec 0 b 0) t).
  assert (FS : Forall (fun f : stored_facet => fits (fst f) p q) [fitted_facet FromNormals c0 (vec a 0 0, vec 0 b 0) t]).
  { constructor; [|constructor]. cbn [fitted_facet fst]. unfold fits. cbn [moved n_u n_v].
    destruct rp; [contradiction|]. injection IN as <-. auto. }
  destruct (surface_defined p q _ n_e n_n FS) as (rows & ER & LR & _). destruct rows as [|row [|? ?]]; try discriminate LR.
  exists row. split; [|split; auto].
  - unfold fitted_surface, reduced. cbn [shortest fold_left map map_res]. rewrite firstn_all. rewrite SR. cbn [bind].
    replace (firstn (length (map (fun _ : point => vec 0 0 1) points)) (map (fun _ : point => vec 0 0 1) points)) with (map (fun _ : point => vec 0 0 1) points) by (symmetry; apply firstn_all).
    rewrite SN. cbn [bind length seq map nth_error]. rewrite FN. reflexivity.
  - intros k x y NG.
    assert (XY : 0 <= x < 1 /\ 0 <= y < 1).
    { pose proof (grid_in (/ 10 ^ 7) n_e n_n x y (nth_error_In _ _ NG)) as GI.
      assert (E7 : 0 < / 10 ^ 7 < / 2) by (split; [apply Rinv_0_lt_compat; lra|lra]). specialize (GI E7). lra. }
    destruct (initial_flat a0 b0 rp c0 p q x y IN PA PB EXT (proj1 XY) (proj2 XY)) as (pt & EP & HP). exists pt. split; auto.
    assert (FC : fits c0 p q) by (rewrite Forall_forall in FS; apply (FS _ (or_introl eq_refl))).
    destruct (moved_evaluate c0 t p q x y FC (proj1 XY) (proj2 XY)) as (pt' & nm & E1 & E2).
    assert (PT : pt' = pt /\ nm = vec 0 0 1).
    { rewrite EP in E1. injection E1 as Q1 Q2 Q3 Q4 Q5 Q6. destruct pt, pt', nm; cbn in *; split; [f_equal|unfold vec; f_equal]; congruence. }
    destruct PT as (-> & ->).
    rewrite (proj1 (placed_when_flat p q _ n_e n_n)) in ER.
    2: { intros c i j [<-|[]] I J. cbn [fitted_facet fst moved control fitted_translation vadd pu vec]. rewrite HU.
         destruct rp; [contradiction|]. injection IN as <-. cbn [control pu vec]. ring. }
    destruct (collect_at _ _ _ ER) as (_ & RAT). destruct (RAT 0%nat _ eq_refl) as (row' & NR & CR). injection NR as <-.
    destruct (collect_at _ _ _ CR) as (_ & ROW). destruct (ROW k (x, y) NG) as (z & NZ & EZ). rewrite NZ. rewrite <- EZ.
    cbn [fitted_facet fst snd fitted_translation]. unfold calculate. rewrite E2. cbn [obind place fst snd].
    f_equal. apply (f_equal2 pair).
    + unfold as_point at 1. rewrite upright_canting by auto. apply hvec_eq; unfold as_point, hadd; cbn [he hn hu hw hv pe pn pu vadd vec enu]; try ring. rewrite HW. ring.
    + unfold as_direction at 1. rewrite upright_canting by auto. reflexivity.
Qed.
(** Fits of points stay where they were measured, flat or not. *)
Theorem points_stay : forall p q (facets : list (net * (point * point) * hvec)) n_e n_n,
  Forall (fun f => fits (fst (fst f)) p q) facets ->
  (forall c canting t, In (c, canting, t) facets -> exists a b, canting = (vec a 0 0, vec 0 b 0) /\ / 10 ^ 8 <= a /\ / 10 ^ 8 <= b) ->
  exists rows, surface_points_and_normals p q (map (fun '(c, canting, t) => fitted_facet FromPoints c canting t) facets) n_e n_n = Some rows
  /\ length rows = length facets
  /\ forall i c canting t k x y, nth_error facets i = Some (c, canting, t) -> nth_error (evaluation_grid (/ 10 ^ 7) n_e n_n) k = Some (x, y) ->
     exists row pt nm, nth_error rows i = Some row /\ evaluate c p q x y = Some (as_point pt, as_direction nm)
       /\ nth_error row k = Some (as_point pt, as_direction nm).
Proof.
  intros p q facets n_e n_n F UP.
  assert (Z : forall v, vadd v (enu (hv 0 0 0 0)) = v) by (intros v; apply point_eq; unfold enu; cbn [pe pn pu vec vadd he hn hu hv]; ring).
  destruct (classic (exists c canting t i j, In (c, canting, t) facets /\ (i < n_u c)%nat /\ (j < n_v c)%nat /\ pu (control c i j) + hu (fitted_translation FromPoints t) <> 0)) as [NZ|FL].
  { destruct (fitted_placed p q FromPoints facets n_e n_n F NZ) as (rows & E & L & H). exists rows. split; auto. split; auto. intros i c can t k x y NF NG.
    destruct (H i c can t k x y NF NG) as (row & pt & nm & A & B & C). cbn [fitted_translation] in C. rewrite Z in C. eauto 6. }
  set (stored := map (fun '(c, canting, t) => fitted_facet FromPoints c canting t) facets).
  assert (FS : Forall (fun f => fits (fst f) p q) stored).
  { apply Forall_forall. intros f I. apply in_map_iff in I. destruct I as ([[c can] t] & <- & I). rewrite Forall_forall in F. apply (F _ I). }
  destruct (surface_defined p q stored n_e n_n FS) as (rows & ER & LR & _). exists rows. split; auto.
  unfold stored in LR. rewrite map_length in LR. split; auto.
  rewrite (proj1 (placed_when_flat p q stored n_e n_n)) in ER.
  2: { intros c i j I A B. apply in_map_iff in I. destruct I as (f & <- & I). apply in_map_iff in I. destruct I as ([[c' can] t] & <- & I).
       destruct (Req_dec (pu (control (fst (fitted_facet FromPoints c' can t)) i j)) 0) as [|N]; auto. exfalso. apply FL.
       exists c', can, t, i, j. cbn [fitted_facet fst moved n_u n_v] in A, B. auto. }
  destruct (collect_at _ _ _ ER) as (_ & RAT).
  intros i c can t k x y NF NG.
  destruct (RAT i (fitted_facet FromPoints c can t)) as (row & NR & CR).
  { unfold stored. rewrite nth_error_map, NF. auto. }
  assert (XY : 0 <= x < 1 /\ 0 <= y < 1).
  { pose proof (grid_in (/ 10 ^ 7) n_e n_n x y (nth_error_In _ _ NG)) as GI.
    assert (E7 : 0 < / 10 ^ 7 < / 2) by (split; [apply Rinv_0_lt_compat; lra|lra]). specialize (GI E7). lra. }
  rewrite Forall_forall in F. specialize (F _ (nth_error_In _ _ NF)). cbn [fst] in F.
  destruct (moved_evaluate c (hv 0 0 0 0) p q x y F (proj1 XY) (proj2 XY)) as (pt & nm & E1 & E2). rewrite Z in E2.
  exists row, pt, nm. split; auto. split; auto.
  destruct (UP c can t (nth_error_In _ _ NF)) as (a & b & -> & A & B).
  destruct (collect_at _ _ _ CR) as (_ & ROW). destruct (ROW k (x, y) NG) as (z & NZ & EZ). rewrite NZ, <- EZ.
  cbn [fitted_facet fst snd fitted_translation]. unfold calculate. rewrite E2. cbn [obind place fst snd].
  f_equal. apply (f_equal2 pair).
  - unfold as_point at 1. rewrite upright_canting by auto. apply hvec_eq; unfold as_point, hadd; cbn [he hn hu hw hv pe pn pu]; ring.
  - unfold as_direction at 1. rewrite upright_canting by auto. reflexivity.
Qed.
(** A fit that never gets below the tolerance. *)
Lemma more_epochs : forall max_epoch, exists c,
  fit_nurbs 2 2 1 1 FromNormals (fun (s : Datatypes.unit) c => (s, c)) tt (/ 10) max_epoch [vec 0 0 0; vec 1 1 0] [vec 1 0 0; vec 1 0 0] = Some (Ok (c, S max_epoch)).
Proof.
  intros max_epoch. set (points := [vec 0 0 0; vec 1 1 0]).
  assert (NE : points <> []) by discriminate.
  destruct (parameters_ok points NE) as (ps & FP & _ & _). destruct (initial_net 2 2 points) as [c0|] eqn:IN; [|discriminate].
  exists c0. unfold fit_nurbs. rewrite IN, FP.
  change [vec 1 0 0; vec 1 0 0] with (map (fun _ : point => vec 1 0 0) points).
  rewrite (fit_loop_above _ _ _ _ (S max_epoch) tt c0 0 (square_error (as_direction (vec 0 0 1)) (as_direction (vec 1 0 0)) / 4)).
  - reflexivity.
  - auto.
  - apply (initial_loss 2 2); auto; try lia.
    unfold width_of, height_of, points. cbn [map Rmax_list Rmin_list fold_left pe pn vec INR Nat.sub].
    rewrite !(Rmax_right 0 1), !(Rmin_left 0 1) by lra. lra.
  - unfold square_error, as_direction. cbn [he hn hu hw hv pe pn pu vec]. lra.
Qed.
(** The steps of a fit. *)
Lemma fit_steps : forall T (step : T -> net -> T * net) n_u n_v p q method state tolerance max_epoch points normals c steps,
  fit_nurbs n_u n_v p q method step state tolerance max_epoch points normals = Some (Ok (c, steps)) ->
  (1 <= steps <= S max_epoch)%nat
  /\ ((steps <= max_epoch)%nat -> exists parameters before loss s, fit_parameters points = Ok parameters
       /\ fit_loss p q method parameters (map (fun x => hv (pe x) (pn x) (pu x) 1) points) (map (fun x => hv (pe x) (pn x) (pu x) 0) normals) before = Some (Ok loss)
       /\ loss <= tolerance /\ c = snd (step s before)).
Proof.
  intros T step a b p q method state tolerance max_epoch points normals c steps E. unfold fit_nurbs in E.
  destruct (initial_net a b points) as [c0|]; [|discriminate]. destruct (fit_parameters points) as [ps|]; [|discriminate].
  destruct (fit_loop_steps _ _ _ _ _ _ _ _ _ _ E) as (A & B & C). specialize (B ltac:(lia)). split; [lia|].
  intros L. destruct (C ltac:(lia)) as (before & loss & s & C1 & C2 & C3). exists ps, before, loss, s. auto.
Qed.
(** A fit whose first loss is within the tolerance. *)
Lemma one_epoch : forall max_epoch, exists c,
  fit_nurbs 2 2 1 1 FromNormals (fun (s : Datatypes.unit) c => (s, c)) tt 100 max_epoch [vec 0 0 0; vec 1 1 0] [vec 1 0 0; vec 1 0 0] = Some (Ok (c, 1%nat)).
Proof.
  intros max_epoch. set (points := [vec 0 0 0; vec 1 1 0]).
  assert (NE : points <> []) by discriminate.
  destruct (parameters_ok points NE) as (ps & FP & _ & _). destruct (initial_net 2 2 points) as [c0|] eqn:IN; [|discriminate].
  exists c0. unfold fit_nurbs. rewrite IN, FP.
  change [vec 1 0 0; vec 1 0 0] with (map (fun _ : point => vec 1 0 0) points). cbn [fit_loop].
  rewrite (initial_loss 2 2 points c0 1 1 ps _ (vec 1 0 0)); auto; try lia.
  - unfold Rgtb. destruct (Rlt_dec 100 _) as [L|]; auto. exfalso. revert L. unfold square_error, as_direction. cbn [he hn hu hw hv pe pn pu vec]. lra.
  - unfold width_of, height_of, points. cbn [map Rmax_list Rmin_list fold_left pe pn vec INR Nat.sub].
    rewrite !(Rmax_right 0 1), !(Rmin_left 0 1) by lra. lra.
Qed.
