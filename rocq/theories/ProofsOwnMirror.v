(** Proofs about own mirrors used against their rays (C25). *)
From Coq Require Import List Arith ZArith Reals Bool Lra Lia Permutation.
From Verif Require Import RealSums ModelField ModelVectors ModelLBVH SpecLBVH ProofsTraversal ModelBlocking SpecBlocking ProofsBlocking ProofsBlockingTracer.
Import ListNotations.
Local Open Scope R_scope.

Theorem own_mirror_applied : forall sort corners rays fuel codes lefts rights i r r' p,
  sorts sort -> (p < List.length corners)%nat ->
  morton_codes (/ 10 ^ 6) (map centroid corners) = Ok codes -> child_arrays (fst (sort codes)) = Some (lefts, rights) ->
  reaches_all_once (List.length corners) (fun k => nth k lefts (-1)%Z) (fun k => nth k rights (-1)%Z) ->
  (forall c, In c corners -> independent (span_u (primitive_of_corners c)) (span_v (primitive_of_corners c))) ->
  (forall x, In x rays -> sane_ray x) -> (2 * List.length corners - 1 <= fuel)%nat ->
  nth_error rays i = Some r -> r_owner r = p ->
  In r' rays -> r_owner r' <> p -> meets r' (corners_box (nth p corners [])) ->
  exists values b own, batch_blocked sort fuel corners rays = Blocked values /\ nth_error values i = Some (Some b)
    /\ traced_mask r [primitive_of_corners (nth p corners [])] = Some own /\ 0 < own <= b.
Proof.
  intros sort corners rays fuel codes lefts rights i r r' p HS HP HM HC HR IC SR HF HI OW IR' O' M'.
  assert (NE : corners <> []) by (intros ->; cbn in HP; lia).
  destruct (filter_primitives_exact sort corners rays fuel codes lefts rights) as (found & F & ND & M); auto.
  assert (IP : In p found) by (apply M; split; auto; exists r'; auto).
  set (lk := fun p => primitive_of_corners (nth p corners [])).
  assert (IQ : forall q, In q (map lk found) -> independent (span_u q) (span_v q)).
  { intros q Q. apply in_map_iff in Q. destruct Q as (k & <- & Q). apply M in Q. apply IC. apply nth_In. tauto. }
  destruct (in_split _ _ IP) as (l1 & l2 & EF).
  destruct (soft_mask_monotone (/ 10 ^ 12) 1000 100 (5/100) (r_origin r) (r_direction r) [lk p] (map lk (l1 ++ l2)) (map lk found)) as (own & b & B1 & B2 & LE & _); try lra; auto.
  { change ([lk p] ++ map lk (l1 ++ l2)) with (map lk (p :: l1 ++ l2)). apply Permutation_map. rewrite EF. apply Permutation_sym, Permutation_middle. }
  destruct (soft_mask_fraction (/ 10 ^ 12) 1000 100 (5/100) (r_origin r) (r_direction r) [lk p]) as (own' & B3 & K & Z); try lra.
  { intros q [<-|[]]. apply IQ, in_map. auto. }
  rewrite B1 in B3. injection B3 as <-.
  assert (own <> 0) by (intros Q; apply Z in Q; discriminate).
  exists (map (fun r => traced_mask r (map lk found)) rays), b, own. split.
  - unfold batch_blocked. rewrite F. destruct found; [destruct IP|reflexivity].
  - split; [rewrite nth_error_map, HI; cbn [option_map]; unfold traced_mask; rewrite B2; auto|]. split; [exact B1|lra].
Qed.
