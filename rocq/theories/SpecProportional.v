(** Vocabulary of the property about proportional flux (C122). *)
From Coq Require Import List Reals.
From Verif Require Import ModelTrace.
Local Open Scope R_scope.

(** The same result with the flux in every pixel multiplied by [k] and the fractions unchanged. *)
Definition brighter (k : R) (t : traced) : traced :=
  {| t_bitmap := map (map (Rmult k)) (t_bitmap t); t_intercept := t_intercept t; t_on_target := t_on_target t; t_blocking := t_blocking t |}.
Definition brighter_batch (k : R) (r : batch_result) : batch_result :=
  match r with
  | Traced rows => Traced (map (option_map (brighter k)) rows)
  | other => other
  end.
