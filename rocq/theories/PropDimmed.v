(** C155: losses dim the image. *)
From Coq Require Import List Arith ZArith Reals Lra Lia.
From Verif Require Import RealSums ModelField ModelVectors ModelLBVH SpecLBVH ProofsLBVHRefuted ModelBlocking SpecBlocking ModelSplatting SpecSplatting ModelIntersections
  SpecIntersections ModelTrace SpecTrace ProofsTraceBatch ProofsDimmed ProofsFurther PropObstruction.
Import ListNotations.
Local Open Scope R_scope.

(** C155 (full statement: losses only ever dim: with blocking, with further mirrors in the field, with more atmospheric extinction or with less
    reflectivity no pixel of any flux image gets brighter and no ray gets lost or found on the target).
    Proved: this holds pixel by pixel for blocking switched on instead of off, for more extinction and for less reflectivity, in any combination, for
    every batch of samples and every field; and for further mirrors if the hierarchy of the larger field reaches each mirror once.
    Refuted: with further mirrors, in general, an image can get more than three times as bright. *)
Theorem C155_dimmed_partial : forall sort fuel width height magnitude extinction extinction' reflectivity reflectivity' blocking blocking' samples rows rows',
  sorts sort -> (2 <= width)%nat -> (2 <= height)%nat -> 0 <= magnitude ->
  0 <= extinction <= extinction' -> extinction' <= 1 -> 0 <= reflectivity' <= reflectivity -> blocking = None \/ blocking = blocking' ->
  (forall corners c, blocking' = Some corners -> In c corners -> independent (span_u (primitive_of_corners c)) (span_v (primitive_of_corners c))) ->
  trace_samples sort fuel width height magnitude extinction reflectivity blocking samples = Traced rows ->
  trace_samples sort fuel width height magnitude extinction' reflectivity' blocking' samples = Traced rows' ->
  forall k s owner, nth_error samples k = Some (s, owner) -> proper_sample s ->
  exists t t', nth_error rows k = Some (Some t) /\ nth_error rows' k = Some (Some t')
    /\ (forall r c, (r < height)%nat -> (c < width)%nat -> 0 <= pixel (t_bitmap t') height r c <= pixel (t_bitmap t) height r c)
    /\ t_on_target t' = t_on_target t /\ t_intercept t' <= t_intercept t.
Proof. exact dimmed. Qed.
Print Assumptions C155_dimmed_partial.

(** A ray that one mirror blocks arrives undiminished after four mirrors have been added, although one of these is in its way as well. *)
Theorem C155_further_mirrors_refuted : exists corners corners' s, proper_sample s /\ incl corners corners' /\ hd [] corners = hd [] corners'
  /\ (forall c, In c corners' -> independent (span_u (primitive_of_corners c)) (span_v (primitive_of_corners c)))
  /\ forall sort, sorts sort -> exists t t', trace_samples sort 9 3 3 1 0 1 (Some corners) [(s, 0%nat)] = Traced [Some t]
     /\ trace_samples sort 9 3 3 1 0 1 (Some corners') [(s, 0%nat)] = Traced [Some t']
     /\ image_total (t_bitmap t) <= 1/4 /\ image_total (t_bitmap t') = 1.
Proof. exact (brightened C150_case). Qed.
Print Assumptions C155_further_mirrors_refuted.

(** Two samples traced with blocking and losses, and without. *)
Example C155_case : forall sort, sorts sort -> exists ta tb ta' tb',
  trace_samples sort 9 3 3 1 0 1 None [(upward (-5) 95, 1%nat); (upward (-3) (-2), 2%nat)] = Traced [Some ta; Some tb]
  /\ trace_samples sort 9 3 3 1 0 1 (Some stacked) [(upward (-5) 95, 1%nat); (upward (-3) (-2), 2%nat)] = Traced [Some ta'; Some tb']
  /\ image_total (t_bitmap tb) = 1 /\ image_total (t_bitmap tb') <= 1/4
  /\ forall r c, (r < 3)%nat -> (c < 3)%nat -> 0 <= pixel (t_bitmap tb') 3 r c <= pixel (t_bitmap tb) 3 r c.
Proof.
  intros sort HS. destruct (upward_traced (-5) 95 0) as (ta & TA & _). destruct (upward_traced (-3) (-2) 0) as (tb & TB & IB).
  destruct stacked_dependent as (P1 & P2 & IC & Q). destruct (Q sort HS) as (ta' & tb' & _ & E' & _ & _ & IB').
  assert (E : trace_samples sort 9 3 3 1 0 1 None [(upward (-5) 95, 1%nat); (upward (-3) (-2), 2%nat)] = Traced [Some ta; Some tb]).
  { unfold trace_samples, trace_rows. cbn [map fst flat_map]. rewrite !upward_rays. cbn [app map List.length split_at firstn skipn combine map_res all_some option_map].
    rewrite TA, TB. reflexivity. }
  exists ta, tb, ta', tb'. split; auto. split; auto. split; [rewrite IB; ring|]. split; auto.
  destruct (C155_dimmed_partial sort 9 3 3 1 0 0 1 1 None (Some stacked) _ _ _ HS ltac:(lia) ltac:(lia) ltac:(lra) ltac:(lra) ltac:(lra) ltac:(lra) (or_introl eq_refl)
    ltac:(intros corners c EC; injection EC as <-; apply IC) E E' 1%nat _ _ eq_refl P2) as (t & t' & N & N' & D & _).
  cbn in N, N'. injection N as <-. injection N' as <-. exact D.
Qed.

(** Mirrors appended to a field only dim its images if the hierarchy of the larger field reaches each mirror once, which C19 gives for at most
    five mirrors of which no three share a grid cell, for example. *)
Theorem C155_further_mirrors_partial : forall sort fuel fuel' width height magnitude extinction reflectivity corners extra codes lefts rights samples rows,
  sorts sort -> (2 <= width)%nat -> (2 <= height)%nat -> 0 <= magnitude -> 0 <= extinction <= 1 -> 0 <= reflectivity -> corners <> [] ->
  morton_codes (/ 10 ^ 6) (map centroid (corners ++ extra)) = Ok codes -> child_arrays (fst (sort codes)) = Some (lefts, rights) ->
  reaches_all_once (List.length (corners ++ extra)) (fun k => nth k lefts (-1)%Z) (fun k => nth k rights (-1)%Z) ->
  (forall c, In c (corners ++ extra) -> independent (span_u (primitive_of_corners c)) (span_v (primitive_of_corners c))) ->
  (forall s owner r, In (s, owner) samples -> In r (blocking_rays width height magnitude s owner) -> sane_ray r) ->
  (2 * List.length (corners ++ extra) - 1 <= fuel')%nat -> (forall s owner, In (s, owner) samples -> proper_sample s) ->
  trace_samples sort fuel width height magnitude extinction reflectivity (Some corners) samples = Traced rows ->
  exists rows', trace_samples sort fuel' width height magnitude extinction reflectivity (Some (corners ++ extra)) samples = Traced rows'
  /\ forall k s owner, nth_error samples k = Some (s, owner) ->
     exists t t', nth_error rows k = Some (Some t) /\ nth_error rows' k = Some (Some t')
     /\ (forall r c, (r < height)%nat -> (c < width)%nat -> 0 <= pixel (t_bitmap t') height r c <= pixel (t_bitmap t) height r c)
     /\ t_on_target t' = t_on_target t /\ t_intercept t' <= t_intercept t.
Proof. exact further_dimmed. Qed.
Print Assumptions C155_further_mirrors_partial.

(** A third mirror above the sample, added to two. *)
Example C155_further_case : forall sort, sorts sort -> exists t t',
  trace_samples sort 9 3 3 1 0 1 (Some [square 0 0; square 0 (-5)]) [(upward (-5) 95, 1%nat)] = Traced [Some t]
  /\ trace_samples sort 9 3 3 1 0 1 (Some ([square 0 0; square 0 (-5)] ++ [square 0 (-3)])) [(upward (-5) 95, 1%nat)] = Traced [Some t']
  /\ forall r c, (r < 3)%nat -> (c < 3)%nat -> 0 <= pixel (t_bitmap t') 3 r c <= pixel (t_bitmap t) 3 r c.
Proof. exact further_case. Qed.
