(** C90-C92: generated surfaces. *)
From Coq Require Import List Arith ZArith Reals Lra Lia.
From Verif Require Import RealSums ModelField ModelVectors ProofsVectors ModelTransforms ModelLBVH ModelNurbs ModelSurfaceGenerator SpecTransforms SpecNurbs SpecSurfaceGenerator
  ProofsSurfaceGenerator ProofsSurfaceFit.
Import ListNotations.
Local Open Scope R_scope.

(** C90. The surface of an ideal heliostat: every facet is the flat rectangle around its translation whose half sides are its
    canting vectors; its points form a grid inside the rectangle, strictly increasing in both directions, and all its normals
    are the upper normal of the rectangle. *)
Theorem C90_ideal_facets : forall n_u n_v p q cantings translations facets n_e n_n, (1 <= p < n_u)%nat -> (1 <= q < n_v)%nat ->
  (forall c_e c_n, In (c_e, c_n) cantings -> proper_canting n_u n_v c_e c_n) -> (forall t, In t translations -> hw t = 0) ->
  ideal_surface n_u n_v cantings translations = Ok facets ->
  exists rows (a b : nat -> R), surface_points_and_normals p q facets n_e n_n = Some rows
    /\ length rows = length translations
    /\ (forall j, (j < n_e)%nat -> - 1 <= a j <= 1) /\ (forall k, (k < n_n)%nat -> - 1 <= b k <= 1)
    /\ (forall j j', (j < j' < n_e)%nat -> a j < a j') /\ (forall k k', (k < k' < n_n)%nat -> b k < b k')
    /\ forall i c_e c_n t, nth_error cantings i = Some (c_e, c_n) -> nth_error translations i = Some t ->
       exists row, nth_error rows i = Some row /\ length row = (n_e * n_n)%nat
       /\ forall j k, (j < n_e)%nat -> (k < n_n)%nat ->
          nth_error row (j * n_n + k) = Some (as_point (rectangle_point t c_e c_n (a j) (b k)), as_direction (rectangle_normal c_e c_n)).
Proof. exact ideal_facets. Qed.
Print Assumptions C90_ideal_facets.

(** One canting and one translation for each facet suffice. *)
Theorem C90_ideal_defined : forall n_u n_v cantings translations, length translations = length cantings ->
  exists facets, ideal_surface n_u n_v cantings translations = Ok facets.
Proof. exact ideal_surface_defined. Qed.
Print Assumptions C90_ideal_defined.

(** Two facets of 4 x 3 and 2 x 2, the second one canted by a 3-4-5 triangle. *)
Example C90_case : proper_canting 10 10 (vec 2 0 0) (vec 0 (3/2) 0) /\ proper_canting 10 10 (vec (4/5) 0 (3/5)) (vec 0 1 0)
  /\ rectangle_point (hv 5 0 1 0) (vec (4/5) 0 (3/5)) (vec 0 1 0) (/ 2) (- 1) = vec (27/5) (-1) (13/10).
Proof.
  assert (N1 : norm (vec 2 0 0) = 2) by (apply norm_is; [lra|vunfold; lra]).
  assert (N2 : norm (vec 0 (3/2) 0) = 3/2) by (apply norm_is; [lra|vunfold; lra]).
  assert (N3 : norm (vec (4/5) 0 (3/5)) = 1) by (apply norm_is; [lra|vunfold; lra]).
  assert (N4 : norm (vec 0 1 0) = 1) by (apply norm_is; [lra|vunfold; lra]).
  assert (I9 : INR (10 - 1) = 9) by (cbn; lra).
  unfold proper_canting. rewrite N1, N2, N3, N4, I9. repeat split; try (vunfold; lra); try lra.
  unfold rectangle_point. apply point_eq; unfold enu; cbn [pe pn pu vec vadd smul he hn hu hv]; lra.
Qed.

(** C91. A fitted facet is stored moved to its translation, and evaluates to the fit moved by it, if any height of any facet
    is not zero. *)
Theorem C91_fitted_placed_partial : forall p q method (facets : list (net * (point * point) * hvec)) n_e n_n,
  Forall (fun f => fits (fst (fst f)) p q) facets ->
  (exists c canting t i j, In (c, canting, t) facets /\ (i < n_u c)%nat /\ (j < n_v c)%nat /\ pu (control c i j) + hu (fitted_translation method t) <> 0) ->
  exists rows, surface_points_and_normals p q (map (fun '(c, canting, t) => fitted_facet method c canting t) facets) n_e n_n = Some rows
  /\ length rows = length facets
  /\ forall i c canting t k x y, nth_error facets i = Some (c, canting, t) -> nth_error (evaluation_grid (/ 10 ^ 7) n_e n_n) k = Some (x, y) ->
     exists row pt nm, nth_error rows i = Some row /\ evaluate c p q x y = Some (as_point pt, as_direction nm)
       /\ nth_error row k = Some (as_point (vadd pt (enu (fitted_translation method t))), as_direction nm).
Proof. exact fitted_placed. Qed.
Print Assumptions C91_fitted_placed_partial.

Example C91_placed_case : let c := {| n_u := 2; n_v := 2; control := fun i j => vec (INR i) (INR j) (INR i / 10) |} in
  fits c 1 1 /\ pu (control c 1 0) + hu (fitted_translation FromNormals (hv 3 0 0 0)) <> 0.
Proof. cbn. split; [unfold fits; cbn; lia|lra]. Qed.

(** A fit of points is stored as it was learned, without a translation: facets without canting evaluate to it even if they are flat. *)
Theorem C91_points_partial : forall p q (facets : list (net * (point * point) * hvec)) n_e n_n,
  Forall (fun f => fits (fst (fst f)) p q) facets ->
  (forall c canting t, In (c, canting, t) facets -> exists a b, canting = (vec a 0 0, vec 0 b 0) /\ / 10 ^ 8 <= a /\ / 10 ^ 8 <= b) ->
  exists rows, surface_points_and_normals p q (map (fun '(c, canting, t) => fitted_facet FromPoints c canting t) facets) n_e n_n = Some rows
  /\ length rows = length facets
  /\ forall i c canting t k x y, nth_error facets i = Some (c, canting, t) -> nth_error (evaluation_grid (/ 10 ^ 7) n_e n_n) k = Some (x, y) ->
     exists row pt nm, nth_error rows i = Some row /\ evaluate c p q x y = Some (as_point pt, as_direction nm)
       /\ nth_error row k = Some (as_point pt, as_direction nm).
Proof. exact points_stay. Qed.
Print Assumptions C91_points_partial.

(** A flat net of a facet with a translation. *)
Example C91_points_case : let c := {| n_u := 2; n_v := 2; control := fun i j => vec (INR i) (INR j) 0 |} in
  Forall (fun f : net * (point * point) * hvec => fits (fst (fst f)) 1 1) [(c, (vec 1 0 0, vec 0 2 0), hv 5 0 0 0)] /\ / 10 ^ 8 <= 1.
Proof. cbn. split; [constructor; [unfold fits; cbn; lia|constructor]|lra]. Qed.

(** For exactly flat measurements of a facet without canting the full claim fails: the initial control points already fit, so
    the optimizer keeps them (their loss, and with it the gradient, is zero); all stored heights are zero, and loading
    therefore translates the already translated facet a second time. *)
Theorem C91_flat_refuted : forall T n_u0 n_v0 p q (step : T -> net -> T * net) states tolerance max_epoch stride a b t points reduced_points c0 n_e n_n,
  (1 <= p < n_u0)%nat -> (1 <= q < n_v0)%nat -> 0 <= tolerance -> / 10 ^ 8 <= a -> / 10 ^ 8 <= b -> hu t = 0 -> hw t = 0 ->
  strided stride points = Ok reduced_points -> initial_net n_u0 n_v0 reduced_points = Ok c0 ->
  INR (n_u0 - 1) * INR (n_v0 - 1) <= 10 ^ 12 * (width_of reduced_points * height_of reduced_points) ->
  (forall s, snd (step s c0) = c0) ->
  exists facet row,
    fitted_surface n_u0 n_v0 p q FromNormals step states tolerance max_epoch stride [(vec a 0 0, vec 0 b 0)] [t] [points] [map (fun _ => vec 0 0 1) points]
      = Some (Ok [facet])
    /\ surface_points_and_normals p q [facet] n_e n_n = Some [row]
    /\ forall k x y, nth_error (evaluation_grid (/ 10 ^ 7) n_e n_n) k = Some (x, y) ->
       exists pt, evaluate c0 p q x y = Some (as_point pt, as_direction (vec 0 0 1))
         /\ nth_error row k = Some (as_point (vadd pt (vadd (enu t) (enu t))), as_direction (vec 0 0 1)).
Proof. exact flat_fit_doubled. Qed.
Print Assumptions C91_flat_refuted.

Example C91_flat_case : exists c0, strided 2 [vec 0 0 0; vec 7 7 7; vec 1 1 0] = Ok [vec 0 0 0; vec 1 1 0] /\ initial_net 4 4 [vec 0 0 0; vec 1 1 0] = Ok c0
  /\ INR (4 - 1) * INR (4 - 1) <= 10 ^ 12 * (width_of [vec 0 0 0; vec 1 1 0] * height_of [vec 0 0 0; vec 1 1 0]).
Proof.
  eexists. split; [reflexivity|]. split; [reflexivity|]. unfold width_of, height_of. cbn [map Rmax_list Rmin_list fold_left pe pn vec INR Nat.sub].
  rewrite !(Rmax_right 0 1), !(Rmin_left 0 1) by lra. lra.
Qed.

(** C92 (full statement: a fit takes at most the maximum number of epochs and stops earlier only if its loss is within the
    tolerance).  It takes at most one step more than the maximum, whatever the optimizer does, and if it takes fewer, the last loss
    it saw was within the tolerance. *)
Theorem C92_steps_partial : forall T (step : T -> net -> T * net) n_u n_v p q method state tolerance max_epoch points normals c steps,
  fit_nurbs n_u n_v p q method step state tolerance max_epoch points normals = Some (Ok (c, steps)) ->
  (1 <= steps <= S max_epoch)%nat
  /\ ((steps <= max_epoch)%nat -> exists parameters before loss s, fit_parameters points = Ok parameters
       /\ fit_loss p q method parameters (map (fun x => hv (pe x) (pn x) (pu x) 1) points) (map (fun x => hv (pe x) (pn x) (pu x) 0) normals) before = Some (Ok loss)
       /\ loss <= tolerance /\ c = snd (step s before)).
Proof. exact fit_steps. Qed.
Print Assumptions C92_steps_partial.

(** The maximum itself is exceeded, for every maximum. *)
Theorem C92_maximum_refuted : forall max_epoch, exists c,
  fit_nurbs 2 2 1 1 FromNormals (fun (s : Datatypes.unit) c => (s, c)) tt (/ 10) max_epoch [vec 0 0 0; vec 1 1 0] [vec 1 0 0; vec 1 0 0] = Some (Ok (c, S max_epoch)).
Proof. exact more_epochs. Qed.
Print Assumptions C92_maximum_refuted.

(** A fit with a maximum of 5 epochs takes 6 steps if it does not get better, and one step if the tolerance is large. *)
Example C92_case : (exists c, fit_nurbs 2 2 1 1 FromNormals (fun (s : Datatypes.unit) c => (s, c)) tt (/ 10) 5 [vec 0 0 0; vec 1 1 0] [vec 1 0 0; vec 1 0 0] = Some (Ok (c, 6%nat)))
  /\ exists c, fit_nurbs 2 2 1 1 FromNormals (fun (s : Datatypes.unit) c => (s, c)) tt 100 5 [vec 0 0 0; vec 1 1 0] [vec 1 0 0; vec 1 0 0] = Some (Ok (c, 1%nat)).
Proof. split; [exact (more_epochs 5)|exact (one_epoch 5)]. Qed.
