(** The direction checks of [Scenario.index_mapping] over the reals. *)
From Coq Require Import List Reals Bool.
Import ListNotations.
Open Scope R_scope.

(** [torch.allclose] on scalars: |a - b| <= atol + rtol * |b|. *)
Definition allclose (a b rtol atol : R) : bool :=
  if Rle_dec (Rabs (a - b)) (atol + rtol * Rabs b) then true else false.

(** artist/scenario/scenario.py:355-369: shape [4], last component close to 0 (rtol 1e-2, atol 1e-2),
    norm of all four components close to 1 (rtol 1e-4, atol 1e-4).  A one-dimensional tensor is the
    list of its entries; float32 rounding is not modelled. *)
Definition mapping_direction_ok (d : list R) : bool :=
  match d with
  | [e; n; u; w] =>
    allclose w 0 (1/100) (1/100) &&
    allclose (sqrt (e*e + n*n + u*u + w*w)) 1 (1/10000) (1/10000)
  | _ => false
  end.

(** artist/scenario/scenario.py:315-328: default rtol is 1e-5; norm of the first three components. *)
Definition default_direction_ok (d : list R) : bool :=
  match d with
  | [e; n; u; w] =>
    allclose w 0 (1/100000) (1/100000000) &&
    allclose (sqrt (e*e + n*n + u*u)) 1 (1/100000) (1/100000000)
  | _ => false
  end.
