(** C152: surfaces facing the front. *)
From Coq Require Import List Arith ZArith Reals Lra Lia Psatz.
From Verif Require Import RealSums ModelField ModelVectors ProofsVectors ModelTransforms ModelActuators ModelNurbs SpecTransforms SpecNurbs ProofsSurface
  ModelSchedulers ModelOptimization ModelLearning ProofsLearning ProofsUpright.
Import ListNotations.
Local Open Scope R_scope.

(** C152 (full statement: a surface whose control points start as a grid in the plane of the facet faces the front after every
    training: all its normals point up).
    Proved: the normals point up whenever neighbouring control points are further apart along their own direction than askew, whatever
    their heights are; so they do if every control point stays within a quarter of the spacing of its place in the grid; so they do after
    every number of epochs if the learning rate, which the exponential scheduler lets decay, is small compared to the spacing.
    Refuted: a learning rate above half the spacing can turn the surface over in the first epoch. *)
Theorem C152_upright_partial : forall c p q x y a b a' b', fits c p q -> 0 <= x < 1 -> 0 <= y < 1 ->
  (forall i j, (S i < n_u c)%nat -> (j < n_v c)%nat -> a <= pe (control c (S i) j) - pe (control c i j)
     /\ Rabs (pn (control c (S i) j) - pn (control c i j)) <= b') ->
  (forall i j, (i < n_u c)%nat -> (S j < n_v c)%nat -> b <= pn (control c i (S j)) - pn (control c i j)
     /\ Rabs (pe (control c i (S j)) - pe (control c i j)) <= a') ->
  0 <= a -> 0 <= b -> a' * b' < a * b ->
  exists point normal, evaluate c p q x y = Some (as_point point, as_direction normal) /\ 0 < pu normal.
Proof. exact upright. Qed.
Print Assumptions C152_upright_partial.

Theorem C152_near_grid_partial : forall c p q x y (e f : nat -> R) d_e d_n delta, fits c p q -> 0 <= x < 1 -> 0 <= y < 1 ->
  (forall i, (S i < n_u c)%nat -> d_e <= e (S i) - e i) -> (forall j, (S j < n_v c)%nat -> d_n <= f (S j) - f j) ->
  (forall i j, (i < n_u c)%nat -> (j < n_v c)%nat -> Rabs (pe (control c i j) - e i) <= delta /\ Rabs (pn (control c i j) - f j) <= delta) ->
  4 * delta < d_e -> 4 * delta < d_n ->
  exists point normal, evaluate c p q x y = Some (as_point point, as_direction normal) /\ 0 < pu normal.
Proof. exact near_grid. Qed.
Print Assumptions C152_near_grid_partial.

(** [history i j k]: the gradients and losses component [k] of control point [i], [j] sees. *)
Theorem C152_training_partial : forall c0 c p q x y (e f : nat -> R) d_e d_n gamma initial st (history : nat -> nat -> nat -> list (R * R)),
  fits c p q -> 0 <= x < 1 -> 0 <= y < 1 ->
  (forall i j, pe (control c0 i j) = e i /\ pn (control c0 i j) = f j) ->
  (forall i, (S i < n_u c)%nat -> d_e <= e (S i) - e i) -> (forall j, (S j < n_v c)%nat -> d_n <= f (S j) - f j) ->
  0 <= gamma < 1 -> 0 <= initial -> create_scheduler (Exponential gamma) initial = Ok st ->
  (forall i j, control c i j = vec (trained (Exponential gamma) st (pe (control c0 i j)) (history i j 0%nat))
                                   (trained (Exponential gamma) st (pn (control c0 i j)) (history i j 1%nat))
                                   (trained (Exponential gamma) st (pu (control c0 i j)) (history i j 2%nat))) ->
  44 * initial < d_e * (1 - gamma) -> 44 * initial < d_n * (1 - gamma) ->
  exists point normal, evaluate c p q x y = Some (as_point point, as_direction normal) /\ 0 < pu normal.
Proof. exact trained_upright. Qed.
Print Assumptions C152_training_partial.

(** A grid of 4 by 4 control points on a facet of 1.6 m by 1.25 m, trained with a learning rate of 1e-4 and a decay of 0.98. *)
Example C152_case : forall st history c x y, create_scheduler (Exponential (98/100)) (/ 10000) = Ok st -> 0 <= x < 1 -> 0 <= y < 1 ->
  n_u c = 4%nat -> n_v c = 4%nat ->
  (forall i j, control c i j = vec (trained (Exponential (98/100)) st (pe (control (planar_net 4 4 (4/5) (5/8)) i j)) (history i j 0%nat))
                                   (trained (Exponential (98/100)) st (pn (control (planar_net 4 4 (4/5) (5/8)) i j)) (history i j 1%nat))
                                   (trained (Exponential (98/100)) st (pu (control (planar_net 4 4 (4/5) (5/8)) i j)) (history i j 2%nat))) ->
  exists point normal, evaluate c 2 2 x y = Some (as_point point, as_direction normal) /\ 0 < pu normal.
Proof.
  intros st history c x y S X Y NU NV C.
  apply (C152_training_partial (planar_net 4 4 (4/5) (5/8)) c 2 2 x y (fun i => - (4/5) + 2 * (4/5) * linspace 0 1 4 i) (fun j => - (5/8) + 2 * (5/8) * linspace 0 1 4 j)
    (8/15) (5/12) (98/100) (/ 10000) st history); auto; try lra.
  - unfold fits. rewrite NU, NV. lia.
  - rewrite NU. intros i I. do 3 (destruct i as [|i]; [unfold linspace; cbn; lra|]). lia.
  - rewrite NV. intros i I. do 3 (destruct i as [|i]; [unfold linspace; cbn; lra|]). lia.
Qed.

(** Control points in the reverse order turn the surface over, ... *)
Theorem C152_turned_over_refuted : forall c p q x y a b a' b', fits c p q -> 0 <= x < 1 -> 0 <= y < 1 ->
  (forall i j, (S i < n_u c)%nat -> (j < n_v c)%nat -> a <= pe (control c i j) - pe (control c (S i) j)
     /\ Rabs (pn (control c (S i) j) - pn (control c i j)) <= b') ->
  (forall i j, (i < n_u c)%nat -> (S j < n_v c)%nat -> b <= pn (control c i (S j)) - pn (control c i j)
     /\ Rabs (pe (control c i (S j)) - pe (control c i j)) <= a') ->
  0 <= a -> 0 <= b -> a' * b' < a * b ->
  exists point normal, evaluate c p q x y = Some (as_point point, as_direction normal) /\ pu normal < 0.
Proof. exact turned_over. Qed.
Print Assumptions C152_turned_over_refuted.

(** ... which one epoch can do with every learning rate above half the spacing. *)
Theorem C152_first_epoch_refuted : forall d gamma initial st loss, 0 < d -> d / 2 < initial -> create_scheduler (Exponential gamma) initial = Ok st ->
  exists gradient : nat -> R, forall c, n_u c = 2%nat -> n_v c = 2%nat ->
  (forall i j, control c i j = vec (trained (Exponential gamma) st (INR i * d) [(gradient i, loss)])
                                   (trained (Exponential gamma) st (INR j * d) [(0, loss)]) (trained (Exponential gamma) st 0 [(0, loss)])) ->
  forall x y, 0 <= x < 1 -> 0 <= y < 1 ->
  exists point normal, evaluate c 1 1 x y = Some (as_point point, as_direction normal) /\ pu normal < 0.
Proof. exact one_epoch_turns. Qed.
Print Assumptions C152_first_epoch_refuted.
