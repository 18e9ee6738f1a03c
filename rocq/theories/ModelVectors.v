(** Three-dimensional vectors (east, north, up components of the tensors) over the reals. *)
From Coq Require Import Reals.
Local Open Scope R_scope.

Record point := { pe : R; pn : R; pu : R }.
Definition vec (e n u : R) : point := {| pe := e; pn := n; pu := u |}.
Definition vadd (a b : point) : point := vec (pe a + pe b) (pn a + pn b) (pu a + pu b).
Definition vsub (a b : point) : point := vec (pe a - pe b) (pn a - pn b) (pu a - pu b).
Definition smul (k : R) (a : point) : point := vec (k * pe a) (k * pn a) (k * pu a).

(** [(a * b).sum(dim=-1)] on three components. *)
Definition dot (a b : point) : R := pe a * pe b + pn a * pn b + pu a * pu b.

(** [torch.cross(a, b, dim=-1)]. *)
Definition cross (a b : point) : point :=
  vec (pn a * pu b - pu a * pn b) (pu a * pe b - pe a * pu b) (pe a * pn b - pn a * pe b).

(** [torch.norm(a, dim=-1)]. *)
Definition norm (a : point) : R := sqrt (dot a a).

(** [torch.nn.functional.normalize(a, dim=-1, eps=eps)]: [a / max(norm a, eps)]; torch's default is 1e-12. *)
Definition normalize_eps (eps : R) (a : point) : point := smul (/ Rmax (norm a) eps) a.
Definition normalize (a : point) : point := normalize_eps (/ 10 ^ 12) a.
