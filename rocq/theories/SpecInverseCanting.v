(** Vocabulary of the property about undoing the canting of a facet (C144). *)
From Coq Require Import Reals.
From Verif Require Import ModelField ModelVectors ModelTransforms SpecTransforms.
Local Open Scope R_scope.

(** Canting vectors that span a facet: not tiny and not parallel. *)
Definition spanning (c_e c_n : point) : Prop :=
  / 10 ^ 12 <= norm c_e /\ / 10 ^ 12 <= norm c_n /\ / 10 ^ 8 * norm c_e <= norm (cross c_e c_n)
  /\ / 10 ^ 12 * (norm c_e * norm c_n) <= norm (cross c_e c_n).
(** Where a point of a facet is on the heliostat: canted and moved by the translation of the facet. *)
Definition on_heliostat (c_e c_n translation p : point) : hvec :=
  let y := perform_canting false c_e c_n (as_point p) in hv (he y + pe translation) (hn y + pn translation) (hu y + pu translation) (hw y).
(** Cosine and sine of the angle between two vectors. *)
Definition cosine_of (a b : point) : R := dot a b / (norm a * norm b).
Definition sine_of (a b : point) : R := norm (cross a b) / (norm a * norm b).
