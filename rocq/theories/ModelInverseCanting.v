(** Model of [perform_inverse_canting_and_translation], examples/paint_plots/flux_prediction_raytracing.py:44-110, for one point of one facet,
    and of the angles that are stored with it, 455-470. *)
From Coq Require Import Reals.
From Verif Require Import ModelField ModelVectors ModelTransforms.
Local Open Scope R_scope.

(** Rows of the inverse transform, 79-106: the unit vectors as rows, and the negative products with the translation as the fourth column. *)
Definition inverse_canting (translation c_e c_n : point) (x : hvec) : point :=
  let e := normalize c_e in
  let n := normalize c_n in
  let u := normalize (cross e n) in
  let row axis := hv (pe axis) (pn axis) (pu axis) (- dot axis translation) in
  vec (hdot x (row e)) (hdot x (row n)) (hdot x (row u)).

(** [torch.arccos(torch.clip(cos_theta, -1.0, 1.0))] and the second [clip], 465-468. *)
Definition stored_angle (normal : point) : R := clamp (- (1 / 10)) (1 / 10) (acos (clamp (-1) 1 (dot normal (vec 0 0 1)))).
