(** Model of [artist/geometry/transforms.py] and [artist/geometry/rotations.py]. *)
From Coq Require Import List Arith Reals Bool.
From Verif Require Import ModelField ModelVectors.
Import ListNotations.
Local Open Scope R_scope.

(** Homogeneous vectors and 4x4 matrices (rows). *)
Record hvec := { he : R; hn : R; hu : R; hw : R }.
Definition hv (e n u w : R) : hvec := {| he := e; hn := n; hu := u; hw := w |}.
Definition hdot (a b : hvec) : R := he a * he b + hn a * hn b + hu a * hu b + hw a * hw b.
Record mat := { row_e : hvec; row_n : hvec; row_u : hvec; row_w : hvec }.
Definition mk (a b c d : hvec) : mat := {| row_e := a; row_n := b; row_u := c; row_w := d |}.
Definition mtr (m : mat) : mat :=
  mk (hv (he (row_e m)) (he (row_n m)) (he (row_u m)) (he (row_w m)))
     (hv (hn (row_e m)) (hn (row_n m)) (hn (row_u m)) (hn (row_w m)))
     (hv (hu (row_e m)) (hu (row_n m)) (hu (row_u m)) (hu (row_w m)))
     (hv (hw (row_e m)) (hw (row_n m)) (hw (row_u m)) (hw (row_w m))).
(** [matrix @ column] and [row @ matrix]. *)
Definition mapply (m : mat) (x : hvec) : hvec :=
  hv (hdot (row_e m) x) (hdot (row_n m) x) (hdot (row_u m) x) (hdot (row_w m) x).
Definition vapply (x : hvec) (m : mat) : hvec := mapply (mtr m) x.
(** [a @ b]. *)
Definition mmul (a b : mat) : mat :=
  let row r := vapply r b in mk (row (row_e a)) (row (row_n a)) (row (row_u a)) (row (row_w a)).
Definition eye : mat := mk (hv 1 0 0 0) (hv 0 1 0 0) (hv 0 0 1 0) (hv 0 0 0 1).

(** [rotate_distortions], transforms.py:7-83, for one pair of angles. *)
Definition rotate_distortion (e u : R) : mat :=
  mk (hv (cos u) (- sin u) 0 0)
     (hv (cos e * sin u) (cos e * cos u) (- sin e) 0)
     (hv (sin e * sin u) (sin e * cos u) (cos e) 0)
     (hv 0 0 0 1).
(** [rotate_e], [rotate_n], [rotate_u], transforms.py:86-212. *)
Definition rotate_e (e : R) : mat :=
  mk (hv 1 0 0 0) (hv 0 (cos e) (- sin e) 0) (hv 0 (sin e) (cos e) 0) (hv 0 0 0 1).
Definition rotate_n (n : R) : mat :=
  mk (hv (cos n) 0 (- sin n) 0) (hv 0 1 0 0) (hv (sin n) 0 (cos n) 0) (hv 0 0 0 1).
Definition rotate_u (u : R) : mat :=
  mk (hv (cos u) (- sin u) 0 0) (hv (sin u) (cos u) 0 0) (hv 0 0 1 0) (hv 0 0 0 1).
(** [translate_enu], transforms.py:215-273: one heliostat, and the batch with its shape check. *)
Definition translate (e n u : R) : mat :=
  mk (hv 1 0 0 e) (hv 0 1 0 n) (hv 0 0 1 u) (hv 0 0 0 1).
Definition translate_enu (e n u : list R) : res (list mat) :=
  if ((List.length e =? List.length u) && (List.length u =? List.length n))%nat
  then Ok (map (fun '(e, (n, u)) => translate e n u) (combine e (combine n u)))
  else Err ValueError.

(** [perform_canting], transforms.py:276-347, for one facet: its matrix and its application to one row. *)
Definition canting_matrix (c_e c_n : point) : mat :=
  let e := normalize c_e in
  let u := normalize_eps (/ 10 ^ 8) (cross e c_n) in
  let n := normalize_eps (/ 10 ^ 8) (cross u e) in
  mk (hv (pe e) (pe n) (pe u) 0) (hv (pn e) (pn n) (pn u) 0) (hv (pu e) (pu n) (pu u) 0) (hv 0 0 0 1).
Definition perform_canting (inverse : bool) (c_e c_n : point) (data : hvec) : hvec :=
  if inverse then vapply data (canting_matrix c_e c_n) else vapply data (mtr (canting_matrix c_e c_n)).

(** [torch.clamp]. *)
Definition clamp (low high x : R) : R := Rmin (Rmax x low) high.

(** [decompose_rotations], rotations.py:7-64. *)
Definition decompose_rotations (initial target : point) : point :=
  let i := normalize initial in
  let t := normalize target in
  smul (acos (clamp (-1) 1 (dot i t))) (normalize (cross i t)).

(** [rotation_angle_and_axis], rotations.py:67-119.  The quotients [v / norm v] of zero vectors (NaN in the
    code) do not arise for the non-zero orientations the theorems speak of.  The case of a small axis with
    [dot = 0] falls through as in the code. *)
Definition rotation_angle_and_axis (from to : point) : point * R :=
  let f := smul (/ norm from) from in
  let t := smul (/ norm to) to in
  let d := clamp (-1) 1 (dot f t) in
  let axis := cross f t in
  let axis_norm := norm axis in
  let epsilon := / 10 ^ 6 in
  let small := if Rlt_dec axis_norm epsilon then true else false in
  if small && (if Rlt_dec 0 d then true else false) then (vec 1 0 0, 0)
  else if small && (if Rlt_dec d 0 then true else false) then
    let orthogonal := if Rlt_dec (Rabs (pe f)) (Rabs (pn f)) then vec 1 0 0 else vec 0 1 0 in
    let a := cross f orthogonal in
    (smul (/ norm a) a, PI)
  else (smul (/ axis_norm) axis, acos d).
