(** C100 and C111: updating surfaces from control points, and loading them with another number of control points. *)
From Coq Require Import List Arith Reals Lra Lia.
From Verif Require Import ModelField ModelVectors ProofsVectors ModelTransforms ModelNurbs ModelSurfaceGenerator ModelSurfaceUpdate SpecTransforms SpecNurbs SpecSurfaceGenerator ProofsSurfaceUpdate
  ProofsSurfaceChange.
Import ListNotations.
Local Open Scope R_scope.

(** C100. For flat control points and as many points in both directions, an update without a change of the control points
    keeps all surface points and normals. *)
Theorem C100_unchanged_partial : forall p q facets n, facets <> [] ->
  (forall c i j, In c (map fst facets) -> (i < n_u c)%nat -> (j < n_v c)%nat -> pu (control c i j) = 0) ->
  update_surface p q facets (length facets * (n * n)) = Ok (surface_points_and_normals p q facets n n).
Proof. exact update_flat. Qed.
Print Assumptions C100_unchanged_partial.

Example C100_case : let f := (planar_net 4 4 1 1, (vec 1 0 0, vec 0 1 0, hv 3 0 0 0)) in
  [f; f] <> [] /\ (forall c i j, In c (map fst [f; f]) -> (i < n_u c)%nat -> (j < n_v c)%nat -> pu (control c i j) = 0) /\ (length [f; f] * (5 * 5) = 50)%nat.
Proof. intros f. split; [discriminate|]. split; [|reflexivity]. intros c i j [<-|[<-|[]]] _ _; reflexivity. Qed.

(** The full claim fails for every heliostat with any non-zero height, as all fitted ones: loading such a surface takes its
    facets where the control points are, but the update cants and translates them (again).  A facet without canting is moved
    by its translation. *)
Theorem C100_fitted_refuted : forall p q facets n i c a b t, Forall (fun f => fits (fst f) p q) facets ->
  (exists c i j, In c (map fst facets) /\ (i < n_u c)%nat /\ (j < n_v c)%nat /\ pu (control c i j) <> 0) ->
  nth_error facets i = Some (c, (vec a 0 0, vec 0 b 0, t)) -> / 10 ^ 8 <= a -> / 10 ^ 8 <= b -> hw t = 0 ->
  exists loaded updated before after, surface_points_and_normals p q facets n n = Some loaded
    /\ update_surface p q facets (length facets * (n * n)) = Ok (Some updated)
    /\ nth_error loaded i = Some before /\ nth_error updated i = Some after
    /\ length before = (n * n)%nat /\ length after = (n * n)%nat
    /\ forall k x m, nth_error before k = Some (x, m) -> nth_error after k = Some (as_point (vadd (enu x) (enu t)), m).
Proof. exact update_fitted. Qed.
Print Assumptions C100_fitted_refuted.

Example C100_fitted_case : let c := {| n_u := 2; n_v := 2; control := fun i j => vec (INR i) (INR j) (INR i / 10) |} in
  let facets := [(c, (vec 1 0 0, vec 0 1 0, hv 3 0 0 0))] in
  Forall (fun f => fits (fst f) 1 1) facets /\ (exists c i j, In c (map fst facets) /\ (i < n_u c)%nat /\ (j < n_v c)%nat /\ pu (control c i j) <> 0).
Proof.
  intros c facets. split; [repeat constructor; cbn; lia|]. exists c, 1%nat, 0%nat. split; [left; reflexivity|]. cbn. repeat split; try lia. lra.
Qed.

(** It also fails for different numbers of points in the two directions: the number of points changes unless the product is a
    square. *)
Theorem C100_grid_refuted : forall p q facets n_e n_n, facets <> [] -> Forall (fun f => fits (fst f) p q) facets ->
  exists updated, update_surface p q facets (length facets * (n_e * n_n)) = Ok (Some updated) /\ length updated = length facets
  /\ forall row, In row updated -> length row = (Nat.sqrt (n_e * n_n) * Nat.sqrt (n_e * n_n))%nat.
Proof. exact update_count. Qed.
Print Assumptions C100_grid_refuted.

Example C100_grid_case : (Nat.sqrt (50 * 30) * Nat.sqrt (50 * 30) = 1444)%nat /\ (1444 <> 50 * 30)%nat.
Proof. split; reflexivity || lia. Qed.

(** C111. The stored surface is an ideal one: then the surface points after loading with another number of control points, and
    the points of the new control points, are points of the same rectangles with the same normals (not always the same
    points of them). *)
Theorem C111_ideal_partial : forall a0 b0 a b p q cantings translations facets n,
  (1 <= p < a0)%nat -> (1 <= q < b0)%nat -> (1 <= p < a)%nat -> (1 <= q < b)%nat ->
  (forall c_e c_n, In (c_e, c_n) cantings -> proper_canting a0 b0 c_e c_n /\ proper_canting a b c_e c_n) -> (forall t, In t translations -> hw t = 0) ->
  translations <> [] -> length translations = length cantings -> ideal_surface a0 b0 cantings translations = Ok facets ->
  exists controls held updated, load_surface (Some (a, b)) p q facets n n = (controls, Some held)
    /\ Forall (fun c => n_u c = a /\ n_v c = b) controls /\ length controls = length cantings
    /\ update_surface p q (combine controls (map snd facets)) (length facets * (n * n)) = Ok (Some updated)
    /\ forall i c_e c_n t, nth_error cantings i = Some (c_e, c_n) -> nth_error translations i = Some t ->
       exists before after, nth_error held i = Some before /\ nth_error updated i = Some after /\ length before = (n * n)%nat /\ length after = (n * n)%nat
       /\ forall x m, In (x, m) before \/ In (x, m) after ->
          m = as_direction (rectangle_normal c_e c_n) /\ exists s r, - 1 <= s <= 1 /\ - 1 <= r <= 1 /\ x = as_point (rectangle_point t c_e c_n s r).
Proof. exact changed_ideal_surface. Qed.
Print Assumptions C111_ideal_partial.

(** In general the surface points are still those of the stored control points, while the control points of the group are new
    and flat: wherever a stored facet leaves its rectangle, the surface point is not the one of the control points. *)
Theorem C111_stored_refuted : forall a b p q facets n i c c_e c_n t held row k x m, (1 <= p < a)%nat -> (1 <= q < b)%nat ->
  (forall c c_e c_n t, In (c, (c_e, c_n, t)) facets -> proper_canting a b c_e c_n /\ hw t = 0) ->
  surface_points_and_normals p q facets n n = Some held -> nth_error facets i = Some (c, (c_e, c_n, t)) ->
  nth_error held i = Some row -> nth_error row k = Some (x, m) ->
  (forall s r, - 1 <= s <= 1 -> - 1 <= r <= 1 -> enu x <> rectangle_point t c_e c_n s r) ->
  exists controls updated row' x' m', load_surface (Some (a, b)) p q facets n n = (controls, Some held)
    /\ update_surface p q (combine controls (map snd facets)) (length facets * (n * n)) = Ok (Some updated)
    /\ nth_error updated i = Some row' /\ nth_error row' k = Some (x', m') /\ enu x' <> enu x.
Proof. exact changed_off. Qed.
Print Assumptions C111_stored_refuted.

(** A facet that lies one above its rectangle (as all facets fitted to points do that are not at the origin). *)
Example C111_case : (forall c c_e c_n t, In (c, (c_e, c_n, t)) [raised] -> proper_canting 6 7 c_e c_n /\ hw t = 0)
  /\ exists row x m, surface_points_and_normals 2 2 [raised] 3 3 = Some [row] /\ nth_error row 4 = Some (x, m)
     /\ forall s r, - 1 <= s <= 1 -> - 1 <= r <= 1 -> enu x <> rectangle_point (hv 0 0 0 0) (vec 1 0 0) (vec 0 1 0) s r.
Proof. exact raised_case. Qed.
