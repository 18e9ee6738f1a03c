(** Vocabulary of the property about exported STRAL files (C145). *)
From Coq Require Import List Arith NArith Reals.
From Verif Require Import RealSums ModelField ModelVectors ModelStral ModelStralWriter.
Import ListNotations.
Local Open Scope R_scope.

(** What a reader should get for a facet. *)
Definition facet_read {F} (f : binp_facet F) : facet_data F :=
  {| fd_translation := b_translation f; fd_canting_e := b_canting_e f; fd_canting_n := b_canting_n f;
     fd_points := map Some (b_points f); fd_normals := map Some (b_normals f) |}.
(** Facets have as many normals as points, and numbers of facets and points fit into four bytes. *)
Definition exportable {F} (h : group_heliostat F) : Prop :=
  (N.of_nat (length (gh_facets h)) < 2 ^ 32)%N
  /\ forall f, In f (gh_facets h) -> length (b_normals f) = length (b_points f) /\ (N.of_nat (length (b_points f)) < 2 ^ 32)%N.
(** The sum of the power coefficients of all points of a heliostat. *)
Definition total_power {F} (x : exported F) : R :=
  Rsum (map (fun f => Rsum (map (fun _ => power_coefficient (x_width x) (x_height x) (length (b_points f)) (length (x_facets x))) (b_points f))) (x_facets x)).
(** The area of the mirrors: the canting vectors reach from the middle of a facet to the middles of its sides. *)
Definition mirror_area {F} (h : group_heliostat F) : R := Rsum (map (fun '(c_e, c_n) => 2 * norm c_e * (2 * norm c_n)) (gh_cantings h)).
