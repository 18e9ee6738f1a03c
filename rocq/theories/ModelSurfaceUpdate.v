(** Model of [HeliostatField.update_surfaces] of [artist/field/heliostat_field.py]. *)
From Coq Require Import List Arith Reals.
From Verif Require Import ModelField ModelVectors ModelTransforms ModelNurbs ModelSurfaceGenerator.
Import ListNotations.
Local Open Scope R_scope.

(** [update_surfaces], heliostat_field.py:437-503, for one heliostat with [points] stored surface points.
    [int(math.sqrt(points / facets))] is the integer square root of the integer quotient; the grid has this number of
    points in both directions, and canting and translations are always applied. *)
Definition update_surface (p_u p_v : nat) (facets : list (net * (point * point * hvec))) (points : nat)
  : res (option (list (list (hvec * hvec)))) :=
  if (length facets =? 0)%nat then Err ZeroDivisionError else
  let n := Nat.sqrt (points / length facets) in
  Ok (collect (map (fun '(c, placement) =>
    collect (map (fun '(x, y) => calculate c p_u p_v (Some placement) x y) (evaluation_grid (/ 10 ^ 7) n n))) facets)).

(** The surface of one heliostat as loaded by [HeliostatField.from_hdf5], heliostat_field.py:258-343: the control points given to
    the group and the surface points and normals.  [change] is [change_number_of_control_points_per_facet]; the surface points
    are those of the stored facets in any case (the [Surface] was created from the stored configuration). *)
Definition load_surface (change : option (nat * nat)) (p_u p_v : nat) (facets : list stored_facet) (n_e n_n : nat)
  : list net * option (list (list (hvec * hvec))) :=
  (match change with
   | None => map fst facets
   | Some (n_u, n_v) => planar_control_points n_u n_v (map (fun '(_, (c_e, c_n, _)) => (c_e, c_n)) facets)
   end, surface_points_and_normals p_u p_v facets n_e n_n).
