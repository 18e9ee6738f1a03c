(** Property C153: which part of a surface a control point shapes. *)
From Coq Require Import List Arith Reals Lra Lia.
From Verif Require Import ModelField ModelVectors ModelTransforms ModelNurbs SpecTransforms SpecNurbs ProofsLocal.
Local Open Scope R_scope.

(** C153.  [n_u c - p] is the number of spans that the parameters between 0 and 1 are divided into. *)
Theorem C153_local : forall c c' p q x y i j, fits c p q -> n_u c' = n_u c -> n_v c' = n_v c -> (i < n_u c)%nat -> (j < n_v c)%nat ->
  (forall a b, (a < n_u c)%nat -> (b < n_v c)%nat -> (a <> i \/ b <> j)%nat -> control c' a b = control c a b) ->
  0 <= x < 1 -> 0 <= y < 1 ->
  (x * INR (n_u c - p) < INR i - INR p \/ INR i + 1 <= x * INR (n_u c - p)
   \/ y * INR (n_v c - q) < INR j - INR q \/ INR j + 1 <= y * INR (n_v c - q)) ->
  evaluate c' p q x y = evaluate c p q x y.
Proof. exact shaped_locally. Qed.
Print Assumptions C153_local.

(** The points move along with the control point, by the same share whatever the surface is; strictly inside the
    neighbourhood the share is positive. *)
Theorem C153_share : forall n m p q x y i j, (1 <= p < n)%nat -> (1 <= q < m)%nat -> (i < n)%nat -> (j < m)%nat -> 0 <= x < 1 -> 0 <= y < 1 ->
  exists w, 0 <= w <= 1
  /\ (0 < x -> 0 < y -> INR i - INR p < x * INR (n - p) < INR i + 1 -> INR j - INR q < y * INR (m - q) < INR j + 1 -> 0 < w)
  /\ forall c c' v, n_u c = n -> n_v c = m -> n_u c' = n -> n_v c' = m ->
     (forall a b, (a < n)%nat -> (b < m)%nat -> (a <> i \/ b <> j)%nat -> control c' a b = control c a b) -> control c' i j = vadd (control c i j) v ->
     exists point normal normal', evaluate c p q x y = Some (as_point point, normal) /\ evaluate c' p q x y = Some (as_point (vadd point (smul w v)), normal').
Proof. exact shaped_by_weight. Qed.
Print Assumptions C153_share.

(** No point of the surface moves further than the control points. *)
Theorem C153_never_further : forall c c' p q x y d point normal point' normal', fits c p q -> n_u c' = n_u c -> n_v c' = n_v c ->
  (forall i j, (i < n_u c)%nat -> (j < n_v c)%nat -> norm (vsub (control c' i j) (control c i j)) <= d) -> 0 <= x < 1 -> 0 <= y < 1 ->
  evaluate c p q x y = Some (point, normal) -> evaluate c' p q x y = Some (point', normal') -> norm (vsub (enu point') (enu point)) <= d.
Proof. exact moved_little. Qed.
Print Assumptions C153_never_further.

(** [lifted h]: a flat facet of five by five control points with the first one lifted by [h].  Lifting it leaves the
    surface unchanged at the parameter 3/4 and lifts the surface at the parameters (1/4, 1/4) by a fixed share. *)
Example C153_case : fits (planar_net 5 5 2 3) 3 3
  /\ (forall h y, 0 <= y < 1 -> evaluate (lifted h) 3 3 (3 / 4) y = evaluate (planar_net 5 5 2 3) 3 3 (3 / 4) y)
  /\ exists w, 0 < w <= 1 /\ forall h, exists point normal normal', evaluate (planar_net 5 5 2 3) 3 3 (/ 4) (/ 4) = Some (as_point point, normal)
     /\ evaluate (lifted h) 3 3 (/ 4) (/ 4) = Some (as_point (vadd point (vec 0 0 (w * h))), normal').
Proof. exact local_case. Qed.
