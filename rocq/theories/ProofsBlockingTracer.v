(** Proofs about the use of blocking in the tracer (C24, C25, C71). *)
From Coq Require Import List Arith ZArith Reals Bool Lra Lia Psatz Permutation Sorted.
From Verif Require Import RealSums ModelField SpecField ModelVectors ProofsVectors ModelLBVH SpecLBVH ProofsMorton ProofsTraversal ProofsLBVHRefuted ModelBlocking SpecBlocking ProofsBlocking.
Import ListNotations.
Local Open Scope R_scope.

(** ** Soundness of the filter, for every hierarchy *)
Lemma traverse_sound : forall fuel capacity h hit own stack marked m,
  traverse fuel capacity h hit own stack marked = Visited m ->
  forall p, In p m -> In p marked \/ exists k, hit k = true /\ h_is_leaf h k = true /\ h_primitive h k = p /\ own <> p.
Proof.
  induction fuel; intros capacity h hit own stack marked m T p I.
  - destruct stack; simpl in T; [injection T as <-; auto|discriminate].
  - destruct stack as [|k stack]; simpl in T; [injection T as <-; auto|].
    destruct (hit k) eqn:H; [|eapply IHfuel in T; eauto].
    destruct (h_is_leaf h k) eqn:L.
    + eapply IHfuel in T; eauto. destruct T as [T|T]; auto.
      destruct (Nat.eqb_spec own (h_primitive h k)); auto. destruct T as [<-|T]; auto. right. exists k. auto.
    + match type of T with (if ?c then _ else _) = _ => destruct c; [discriminate|] end. eapply IHfuel in T; eauto.
Qed.
Lemma traverse_all_sound : forall fuel capacity h rays marked m,
  traverse_all fuel capacity h rays marked = Filtered m ->
  forall p, In p m -> In p marked \/ exists r k, In r rays /\ box_hit r (h_boxes h k) = true /\ h_is_leaf h k = true /\ h_primitive h k = p /\ r_owner r <> p.
Proof.
  intros fuel capacity h rays. induction rays as [|r rays IH]; intros marked m T p I; simpl in T.
  - injection T as <-. auto.
  - destruct (traverse fuel capacity h (fun node => box_hit r (h_boxes h node)) (r_owner r) [0%nat] []) eqn:V; try discriminate.
    destruct (IH _ _ T _ I) as [J|(r' & k & J & K)].
    + apply in_app_or in J. destruct J as [J|J]; auto. destruct (traverse_sound _ _ _ _ _ _ _ _ V _ J) as [[]|(k & K)].
      right. exists r, k. split; [left; auto|]. tauto.
    + right. exists r', k. split; [right; auto|]. tauto.
Qed.
Lemma propagate_leaves : forall rounds internal total l r c bx k, (internal <= k)%nat ->
  snd (propagate rounds internal total l r c bx) k = bx k.
Proof.
  induction rounds; intros; simpl; auto.
  destruct (forallb c (seq 0 internal)); auto. destruct (existsb (ready internal l r c) (seq 0 internal)); auto.
  rewrite IHrounds by auto. destruct (Nat.ltb_spec k internal); [lia|]. reflexivity.
Qed.
Lemma filter_sound : forall fuel codes order pb rays found, lbvh_filter fuel codes order pb rays = Filtered found ->
  forall p, In p found -> (p < List.length codes)%nat /\ exists r, In r rays /\ r_owner r <> p /\ box_hit r (pb p) = true.
Proof.
  intros fuel codes order pb rays found F p I. unfold lbvh_filter in F.
  destruct (List.length codes =? 0)%nat; [discriminate|].
  destruct (build_hierarchy codes order pb) as [h|] eqn:B; [|discriminate].
  destruct (max_depth fuel h); [|discriminate].
  destruct (traverse_all fuel n h rays []) as [m| |] eqn:T; try discriminate.
  injection F as <-. apply filter_In in I. destruct I as (I & J). apply in_seq in I. split; [lia|].
  apply existsb_exists in J. destruct J as (q & J & Q). apply Nat.eqb_eq in Q. subst q.
  destruct (traverse_all_sound _ _ _ _ _ _ T _ J) as [[]|(r & k & R & H & L & P & O)].
  exists r. split; auto. split; auto.
  unfold build_hierarchy in B. destruct (child_arrays codes) as [[lefts rights]|]; [|discriminate].
  match type of B with context [propagate ?a ?b ?c ?d ?e ?f ?g] =>
    pose proof (propagate_leaves a b c d e f g k) as PL; destruct (propagate a b c d e f g) as [cc bx] end.
  injection B as <-. cbn [h_is_leaf h_boxes h_primitive] in *. apply Nat.leb_le in L.
  cbn [snd] in PL. rewrite PL in H by auto. destruct (Nat.leb_spec (List.length codes - 1) k); [|lia]. rewrite P in H. auto.
Qed.
Lemma filter_primitives_sound : forall sort fuel corners rays found, sorts sort ->
  filter_primitives sort fuel corners rays = Filtered found -> (forall r, In r rays -> sane_ray r) ->
  forall p, In p found -> (p < List.length corners)%nat /\ exists r, In r rays /\ r_owner r <> p /\ meets r (corners_box (nth p corners [])).
Proof.
  intros sort fuel corners rays found HS F SR p I. unfold filter_primitives in F.
  destruct (morton_codes_spec (/ 10 ^ 6) (map centroid corners)) as (codes & E & L & _); [lra|].
  rewrite E in F. rewrite map_length in L. pose proof (HS codes) as HS'. destruct (sort codes) as (sc & order).
  destruct HS' as (P & Q & _).
  destruct (filter_sound _ _ _ _ _ _ F _ I) as (B & r & R & O & H).
  assert (List.length sc = List.length corners).
  { rewrite Q, map_length. rewrite (Permutation_length P), seq_length. lia. }
  split; [lia|]. exists r. split; auto. split; auto. apply box_hit_meets; auto. apply corners_box_proper.
Qed.

(** ** What the blocked values depend on *)
Theorem blocked_depends : forall sort fuel corners rays values, sorts sort -> (forall r, In r rays -> sane_ray r) ->
  batch_blocked sort fuel corners rays = Blocked values ->
  exists found, (forall p, In p found -> (p < List.length corners)%nat /\
                   exists r, In r rays /\ r_owner r <> p /\ meets r (corners_box (nth p corners [])))
    /\ values = map (fun r => traced_mask r (map (fun p => primitive_of_corners (nth p corners [])) found)) rays.
Proof.
  intros sort fuel corners rays values HS SR B. unfold batch_blocked in B.
  destruct (filter_primitives sort fuel corners rays) as [found| |] eqn:F; try discriminate.
  exists found. split; [apply (filter_primitives_sound _ _ _ _ _ HS F SR)|].
  destruct found as [|p found].
  - injection B as <-. apply map_ext. intros r. unfold traced_mask, soft_mask. cbn [map densities option_map]. rewrite Rsum_nil, Rmult_0_r, Ropp_0, exp_0.
    f_equal. ring.
  - injection B as <-. reflexivity.
Qed.

(** ** A mirror behind the target blocks *)
Lemma square_primitive : forall e u, primitive_of_corners (square e u)
  = {| corner0 := vec (e - 1/4) (-1/4) u; span_u := vec (1/2) 0 0; span_v := vec 0 (1/2) 0; prim_normal := vec 0 0 1 |}.
Proof.
  intros. unfold primitive_of_corners, primitive_of, square. cbn [nth].
  assert (A : vsub {| pe := e + 1 / 4; pn := -1 / 4; pu := u |} {| pe := e - 1 / 4; pn := -1 / 4; pu := u |} = vec (1/2) 0 0).
  { apply point_eq; vunfold; field. }
  assert (B : vsub {| pe := e - 1 / 4; pn := 1 / 4; pu := u |} {| pe := e - 1 / 4; pn := -1 / 4; pu := u |} = vec 0 (1/2) 0).
  { apply point_eq; vunfold; field. }
  rewrite A, B. f_equal.
  assert (C : cross (vec (1 / 2) 0 0) (vec 0 (1 / 2) 0) = smul (/4) (vec 0 0 1)).
  { apply point_eq; vunfold; field. }
  rewrite C. unfold normalize, normalize_eps. rewrite norm_smul.
  assert (N : norm (vec 0 0 1) = 1) by (apply norm_unit_dot; vunfold; ring). rewrite N.
  rewrite (Rabs_right (/4)) by lra. rewrite Rmax_left by lra. apply point_eq; vunfold; field.
Qed.
Definition up_ray (u target : R) (owner : nat) : ray :=
  {| r_origin := {| pe := 0; pn := 0; pu := u |}; r_direction := {| pe := 0; pn := 0; pu := 1 |};
     r_target_distance := target; r_owner := owner |}.
Lemma up_regular : forall e u, regular_for (/ 10 ^ 12) {| pe := 0; pn := 0; pu := 1 |} (primitive_of_corners (square e u)).
Proof.
  intros. rewrite square_primitive. unfold regular_for. cbn [span_u span_v prim_normal].
  assert (C : cross (vec (1 / 2) 0 0) (vec 0 (1 / 2) 0) = vec 0 0 (1/4)) by (apply point_eq; vunfold; field).
  rewrite C. vunfold. replace (0 * 0 + 0 * 0 + 1 * 1) with 1 by ring. rewrite Rabs_R1. repeat split; lra.
Qed.
Lemma up_crosses : forall u target own e v t a b,
  crosses_at (r_origin (up_ray u target own)) (r_direction (up_ray u target own)) (primitive_of_corners (square e v)) t a b
  <-> t = v - u /\ a = 1/2 - 2 * e /\ b = 1/2.
Proof.
  intros. rewrite square_primitive. unfold crosses_at, up_ray. cbn [r_origin r_direction corner0 span_u span_v].
  vunfold. split.
  - intros H. apply point_inv in H. lra.
  - intros (-> & -> & ->). apply point_eq; cbn [pe pn pu]; lra.
Qed.
Lemma up_sane : forall u target own, sane_ray (up_ray u target own).
Proof. intros u target own f [<-|[<-|[<-|[]]]]; cbn [up_ray r_direction pe pn pu]; lra. Qed.

Lemma exp_minus_3 : exp (- (100 * / 32)) <= 1/4.
Proof.
  rewrite exp_Ropp. pose proof (exp_ineq1_le (100 * / 32)). 
  apply (Rle_trans _ (/ (1 + 100 * / 32))); [apply Rinv_le_contravar; lra|lra].
Qed.

Lemma two_found : forall sort rays, sorts sort -> (forall r, In r rays -> sane_ray r) ->
  exists found, filter_primitives sort 9 [square 0 0; square 1023 0] rays = Filtered found /\ NoDup found
    /\ forall p, In p found <-> (p < 2)%nat /\ exists r, In r rays /\ r_owner r <> p
                                 /\ meets r (corners_box (nth p [square 0 0; square 1023 0] [])).
Proof.
  intros sort rays HS SR. set (corners := [square 0 0; square 1023 0]).
  destruct (morton_codes_spec (/ 10 ^ 6) (map centroid corners)) as (codes & E & L & _).
  { lra. }
  apply (five_mirrors_exact sort corners rays 9 codes HS); auto.
  - discriminate.
  - intros c. unfold prefix_count. assert (G : (List.length (filter (fun c0 => Z.eqb (Z.shiftr c0 (30 - 30)) c) codes) <= List.length codes)%nat).
    { generalize (fun c0 => Z.eqb (Z.shiftr c0 (30 - 30)) c). intros f. clear. induction codes; simpl; auto. destruct (f a); simpl; lia. }
    rewrite L in G. change (List.length (map centroid corners)) with 2%nat in G. lia.
Qed.

Theorem behind_target_blocks_all : forall sort corners rays fuel codes lefts rights i r r' p t a b,
  sorts sort -> (p < List.length corners)%nat ->
  morton_codes (/ 10 ^ 6) (map centroid corners) = Ok codes ->
  child_arrays (fst (sort codes)) = Some (lefts, rights) ->
  reaches_all_once (List.length corners) (fun k => nth k lefts (-1)%Z) (fun k => nth k rights (-1)%Z) ->
  (forall x, In x rays -> sane_ray x) -> (2 * List.length corners - 1 <= fuel)%nat ->
  nth_error rays i = Some r -> (forall q, (q < List.length corners)%nat -> regular_for (/ 10 ^ 12) (r_direction r) (primitive_of_corners (nth q corners []))) ->
  crosses_at (r_origin r) (r_direction r) (primitive_of_corners (nth p corners [])) t a b -> 0 <= a <= 1 -> 0 <= b <= 1 ->
  5/100 <= t -> r_target_distance r < t ->
  In r' rays -> r_owner r' <> p -> meets r' (corners_box (nth p corners [])) ->
  exists values x, batch_blocked sort fuel corners rays = Blocked values /\ nth_error values i = Some (Some x) /\ 3/4 <= x.
Proof.
  intros sort corners rays fuel codes lefts rights i r r' p t a b HS HP HM HC HR SR HF HI RG CR HA HB HT _ I' O' M'.
  assert (NE : corners <> []) by (intros ->; cbn in HP; lia).
  destruct (filter_primitives_exact sort corners rays fuel codes lefts rights) as (found & F & ND & M); auto.
  assert (IP : In p found) by (apply M; split; auto; exists r'; auto).
  unfold batch_blocked. rewrite F. destruct found as [|f0 found]; [destruct IP|].
  set (ps := map (fun p => primitive_of_corners (nth p corners [])) (f0 :: found)).
  destruct (soft_mask_blocks (/ 10 ^ 12) 1000 100 (5/100) (r_origin r) (r_direction r) ps (primitive_of_corners (nth p corners [])) t a b 0) as (x & B & K); try lra.
  - intros q Q. apply in_map_iff in Q. destruct Q as (q' & <- & I). apply M in I. destruct I as (I & _). auto.
  - apply (in_map (fun p => primitive_of_corners (nth p corners []))). auto.
  - exact CR.
  - unfold clearly_blocks. lra.
  - exists (map (fun r => traced_mask r ps) rays), x. split; auto. split.
    + rewrite nth_error_map, HI. cbn [option_map]. unfold traced_mask. rewrite B. auto.
    + rewrite Rmult_0_r, sigmoid_half in K. replace (100 * (/ 2) ^ 5) with (100 * / 32) in K by field. pose proof exp_minus_3. lra.
Qed.
Theorem behind_target_blocks : exists corners rays r,
  In r rays /\ (forall p, (p < List.length corners)%nat -> beyond_target r (primitive_of_corners (nth p corners [])))
  /\ forall sort, sorts sort -> exists values b,
     batch_blocked sort 9 corners rays = Blocked values /\ nth_error values 1 = Some (Some b)
     /\ nth_error rays 1 = Some r /\ 3/4 <= b.
Proof.
  exists [square 0 0; square 1023 0], [example_ray; up_ray (-5) 1 1], (up_ray (-5) 1 1).
  split; [right; left; auto|]. split.
  - intros p Hp t a b C. destruct p as [|[|p]]; [| |cbn in Hp; lia]; cbn [nth] in C; apply up_crosses in C; cbn [up_ray r_target_distance]; lra.
  - intros sort HS.
    destruct (two_found sort [example_ray; up_ray (-5) 1 1] HS) as (found & F & ND & M).
    { intros r [<-|[<-|[]]]; [apply example_sane|apply up_sane]. }
    assert (I0 : In 0%nat found).
    { apply M. split; [lia|]. exists example_ray. split; [left; auto|]. split; [discriminate|]. apply example_meets. }
    unfold batch_blocked. rewrite F. destruct found as [|f0 found]; [destruct I0|].
    set (ps := map (fun p => primitive_of_corners (nth p [square 0 0; square 1023 0] [])) (f0 :: found)).
    destruct (soft_mask_blocks (/ 10 ^ 12) 1000 100 (5/100) (r_origin (up_ray (-5) 1 1)) (r_direction (up_ray (-5) 1 1)) ps
                (primitive_of_corners (square 0 0)) 5 (1/2) (1/2) 0) as (b & B & K); try lra.
    + intros q Q. apply in_map_iff in Q. destruct Q as (p & <- & I). apply M in I. destruct I as (I & _).
      destruct p as [|[|p]]; [| |lia]; cbn [nth]; apply up_regular.
    + apply in_map_iff. exists 0%nat. auto.
    + apply up_crosses. lra.
    + unfold clearly_blocks. lra.
    + exists (map (fun r => traced_mask r ps) [example_ray; up_ray (-5) 1 1]), b.
      split; auto. cbn [map nth_error]. unfold traced_mask. rewrite B. split; auto. split; auto.
      rewrite Rmult_0_r, sigmoid_half in K. replace (100 * (/ 2) ^ 5) with (100 * / 32) in K by field.
      pose proof exp_minus_3. lra.
Qed.

(** ** The own mirror stays in the mask of its own rays *)
Lemma exp_INR : forall n, exp (INR n) = exp 1 ^ n.
Proof. induction n; [apply exp_0|]. rewrite S_INR, exp_plus, IHn. simpl. ring. Qed.
Lemma exp_50 : exp (Ropp 50) <= / 10 ^ 15.
Proof.
  rewrite exp_Ropp. apply Rinv_le_contravar; [lra|].
  replace 50 with (INR 50) by (simpl; lra). rewrite exp_INR.
  apply (Rle_trans _ (2 ^ 50)); [lra|]. apply pow_incr. pose proof (exp_ineq1_le 1). lra.
Qed.

Theorem own_mirror_kept : exists corners rays r, r_owner r = 0%nat
  /\ forall sort, sorts sort -> exists values b,
     batch_blocked sort 9 corners rays = Blocked values
     /\ nth_error rays 1 = Some r /\ nth_error values 1 = Some (Some b)
     /\ traced_mask r [primitive_of_corners (nth 0 corners [])] = Some b /\ 0 < b.
Proof.
  exists [square 0 0; square 1023 0], [example_ray; up_ray 0 100 0], (up_ray 0 100 0).
  split; auto. intros sort HS.
  destruct (two_found sort [example_ray; up_ray 0 100 0] HS) as (found & F & ND & M).
  { intros r [<-|[<-|[]]]; [apply example_sane|apply up_sane]. }
  assert (I0 : In 0%nat found).
  { apply M. split; [lia|]. exists example_ray. split; [left; auto|]. split; [discriminate|]. apply example_meets. }
  assert (N1 : ~ In 1%nat found).
  { intros I. apply M in I. destruct I as (_ & r & [<-|[<-|[]]] & O & _ & (t & T & IB)); [apply O; auto|].
    specialize (IB pe (or_introl eq_refl)) as Q1. specialize (IB pu (or_intror (or_intror (or_introl eq_refl)))) as Q2.
    revert Q1 Q2. unfold ray_at, up_ray, square; cbn [nth corners_box map Rmin_list Rmax_list fold_left box_min box_max pe pn pu r_origin r_direction].
    eval_minmax. intros Q1 Q2.
    assert (0 <= t * (1 + / 10 ^ 12) <= 0) by lra. assert (t = 0) by nra. subst t. lra. }
  assert (FE : found = [0%nat]).
  { assert (A : forall p, In p found -> p = 0%nat).
    { intros p I. apply M in I as J. destruct J as (J & _). destruct p as [|[|p]]; auto; [contradiction|lia]. }
    destruct found as [|f0 [|f1 found]]; [destruct I0| |].
    - f_equal. apply A. left; auto.
    - exfalso. rewrite (A f0), (A f1) in ND by (simpl; auto). inversion ND as [|? ? NI _]. apply NI. left; auto. }
  subst found. unfold batch_blocked. rewrite F.
  destruct (soft_mask_fraction (/ 10 ^ 12) 1000 100 (5/100) (r_origin (up_ray 0 100 0)) (r_direction (up_ray 0 100 0))
              [primitive_of_corners (square 0 0)]) as (b & B & K & Z); try lra.
  { intros p [<-|[]]. apply (regular_independent (/ 10 ^ 12) {| pe := 0; pn := 0; pu := 1 |}); [lra|apply up_regular]. }
  exists (map (fun r => traced_mask r [primitive_of_corners (square 0 0)]) [example_ray; up_ray 0 100 0]), b.
  split; auto. split; auto. split; [cbn [map nth_error]; unfold traced_mask; rewrite B; auto|]. split; [exact B|].
  assert (b <> 0). { intros Q. apply Z in Q. discriminate. } lra.
Qed.

(** ... but its contribution is negligible for a ray that starts in the mirror's plane. *)
Theorem own_mirror_negligible : forall r p a b, regular_for (/ 10 ^ 12) (r_direction r) p ->
  crosses_at (r_origin r) (r_direction r) p 0 a b ->
  exists x, traced_mask r [p] = Some x /\ 0 < x <= / 10 ^ 13.
Proof.
  intros r p a b R C. unfold traced_mask.
  destruct (soft_mask_misses (/ 10 ^ 12) 1000 100 (5/100) (r_origin r) (r_direction r) [p] (5/100)) as (x & X & K); try lra.
  { intros q [<-|[]]. split; auto. exists 0, a, b. split; auto. left. lra. }
  destruct (soft_mask_fraction (/ 10 ^ 12) 1000 100 (5/100) (r_origin r) (r_direction r) [p]) as (x' & X' & B & Z); try lra.
  { intros q [<-|[]]. apply (regular_independent (/ 10 ^ 12) (r_direction r)); [lra|auto]. }
  rewrite X in X'. injection X' as <-. exists x. split; auto.
  assert (x <> 0). { intros Q. apply Z in Q. discriminate. }
  split; [lra|]. cbn [List.length INR] in K. replace (1000 * (5 / 100)) with 50 in K by field. pose proof exp_50. lra.
Qed.

(** ** Owners and surfaces *)
Lemma nonzero_from : forall mask s h, (forall m, In m mask -> (m <= 1)%nat) -> nth h mask 0%nat = 1%nat ->
  nth_error (map fst (filter (fun '(_, m) => negb (m =? 0)%nat) (combine (seq s (List.length mask)) mask))) (list_sum (firstn h mask))
  = Some (s + h)%nat.
Proof.
  induction mask as [|m mask IH]; intros s h B H; [destruct h; discriminate|].
  cbn [List.length seq combine filter]. destruct h as [|h].
  - cbn [nth] in H. subst m. cbn. f_equal. lia.
  - cbn [nth] in H. cbn [firstn list_sum fold_right].
    assert (BM : (m <= 1)%nat) by (apply B; left; auto).
    specialize (IH (S s) h (fun x I => B x (or_intror I)) H). change (fold_right Nat.add 0%nat (firstn h mask)) with (list_sum (firstn h mask)) in *.
    destruct m as [|[|m]]; [| |lia].
    + cbn [Nat.eqb negb]. cbn [plus]. rewrite IH. f_equal. lia.
    + cbn [Nat.eqb negb map fst plus nth_error]. rewrite IH. f_equal. lia.
Qed.
Lemma nonzero_length : forall mask s, no_repetition mask ->
  List.length (map fst (filter (fun '(_, m) => negb (m =? 0)%nat) (combine (seq s (List.length mask)) mask))) = list_sum mask.
Proof.
  induction mask as [|m mask IH]; intros s B; auto.
  cbn [List.length seq combine filter].
  assert (BM : (m <= 1)%nat) by (apply B; left; auto).
  specialize (IH (S s) (fun x I => B x (or_intror I))).
  change (list_sum (m :: mask)) with (m + list_sum mask)%nat.
  destruct m as [|[|m]]; [| |lia]; cbn [Nat.eqb negb map fst List.length]; lia.
Qed.
(** Every sample of a mask without repetitions belongs to one active heliostat. *)
Lemma sample_heliostat : forall mask i, no_repetition mask -> (i < list_sum mask)%nat ->
  exists h, (h < List.length mask)%nat /\ nth h mask 0%nat = 1%nat /\ active_before mask h = i.
Proof.
  induction mask as [|m mask IH]; intros i B H; [cbn in H; lia|].
  change (list_sum (m :: mask)) with (m + list_sum mask)%nat in H.
  assert (BM : (m <= 1)%nat) by (apply B; left; auto).
  assert (B' : no_repetition mask) by (intros x I; apply B; right; auto).
  destruct m as [|[|m]]; [| |lia].
  - destruct (IH i B') as (h & L & N & A); [lia|]. exists (S h). cbn [List.length nth]. split; [lia|]. split; auto.
  - destruct i as [|i].
    + exists 0%nat. cbn. split; [lia|]. auto.
    + destruct (IH i B') as (h & L & N & A); [lia|]. exists (S h). cbn [List.length nth]. split; [lia|]. split; auto.
      unfold active_before in *. cbn [firstn]. change (list_sum (1%nat :: firstn h mask)) with (S (list_sum (firstn h mask))). lia.
Qed.
Lemma batch_owners_ok : forall mask batch, no_repetition mask -> (forall i, In i batch -> (i < list_sum mask)%nat) ->
  exists owners, batch_owners mask batch = Ok owners /\ List.length owners = List.length batch
    /\ forall k i o, nth_error batch k = Some i -> nth_error owners k = Some o ->
         nth o mask 0%nat = 1%nat /\ active_before mask o = i.
Proof.
  intros mask batch NR. induction batch as [|i batch IH]; intros B.
  - exists []. split; auto. split; auto. intros k j o H. destruct k; discriminate.
  - destruct IH as (owners & E & L & N); [intros j J; apply B; right; auto|].
    destruct (sample_heliostat mask i NR (B i (or_introl eq_refl))) as (h & LH & NH & AH).
    pose proof (nonzero_from mask 0 h NR NH) as Q. fold (nonzero mask) in Q. unfold active_before in AH. rewrite AH in Q.
    exists (h :: owners). unfold batch_owners in *. cbn [map_res]. rewrite Q. cbn [bind]. rewrite E. cbn [bind]. split; auto. split; [cbn; lia|].
    intros k j o HB HO. destruct k as [|k]; cbn [nth_error] in *; [|eauto].
    injection HB as <-. injection HO as <-. auto.
Qed.

Lemma assign_masked_nth : forall A (l : list A) mask values h, no_repetition mask -> List.length mask = List.length l ->
  List.length values = list_sum mask ->
  nth_error (assign_masked l mask values) h
  = if (nth h mask 0 =? 1)%nat then nth_error values (active_before mask h) else nth_error l h.
Proof.
  intros A l. induction l as [|x l IH]; intros mask values h NR L LV.
  - destruct mask; [|discriminate]. cbn. destruct h; auto.
  - destruct mask as [|m mask]; [discriminate|]. cbn [assign_masked].
    assert (BM : (m <= 1)%nat) by (apply NR; left; auto).
    assert (NR' : no_repetition mask) by (intros y I; apply NR; right; auto).
    change (list_sum (m :: mask)) with (m + list_sum mask)%nat in LV.
    destruct m as [|[|m]]; [| |lia].
    + cbn [Nat.eqb]. destruct h as [|h]; auto. cbn [nth_error nth]. rewrite IH; auto.
    + cbn [Nat.eqb]. destruct values as [|v values]; [cbn in LV; lia|]. destruct h as [|h]; auto.
      cbn [nth_error nth]. rewrite IH; auto.
Qed.
Lemma assign_masked_length : forall A (l : list A) mask values, List.length (assign_masked l mask values) = List.length l.
Proof.
  intros A l. induction l as [|x l IH]; intros [|m mask] values; auto. cbn [assign_masked].
  destruct (m =? 0)%nat; [cbn; rewrite IH; auto|]. destruct values; cbn; rewrite IH; auto.
Qed.
Lemma masked_assignment_ok : forall A (l : list A) mask values, no_repetition mask -> List.length mask = List.length l ->
  List.length values = list_sum mask -> masked_assignment l mask values = Ok (assign_masked l mask values).
Proof.
  intros. unfold masked_assignment. rewrite H0, Nat.eqb_refl. cbn [negb].
  unfold nonzero. rewrite nonzero_length by auto. rewrite <- H1, Nat.eqb_refl.
  destruct values as [|v [|v' values]]; auto.
Qed.

Theorem blocking_surfaces_ok : forall A (groups : list (blocking_group A)),
  (forall g, In g groups -> consistent_group g /\ no_repetition (g_mask g)) ->
  exists surfaces, blocking_surfaces groups = Ok surfaces
    /\ forall k g h, nth_error groups k = Some g -> (h < List.length (g_horizontal g))%nat ->
       nth_error surfaces (field_index groups k h)
       = if (nth h (g_mask g) 0 =? 1)%nat then nth_error (g_active g) (active_before (g_mask g) h)
         else nth_error (g_horizontal g) h.
Proof.
  intros A groups. unfold blocking_surfaces. induction groups as [|g groups IH]; intros H.
  - exists []. split; auto. intros k g h E. destruct k; discriminate.
  - destruct IH as (surfaces & E & N); [intros x I; apply H; right; auto|].
    destruct (H g (or_introl eq_refl)) as ((C1 & C2) & NR).
    assert (Q : exists s, (if existsb (fun m => negb (m =? 0)%nat) (g_mask g) then masked_assignment (g_horizontal g) (g_mask g) (g_active g) else Ok (g_horizontal g)) = Ok s
              /\ List.length s = List.length (g_horizontal g)
              /\ forall h, nth_error s h = if (nth h (g_mask g) 0 =? 1)%nat then nth_error (g_active g) (active_before (g_mask g) h) else nth_error (g_horizontal g) h).
    { destruct (existsb (fun m => negb (m =? 0)%nat) (g_mask g)) eqn:X.
      - exists (assign_masked (g_horizontal g) (g_mask g) (g_active g)). split; [apply masked_assignment_ok; auto|].
        split; [apply assign_masked_length|]. intros h. apply assign_masked_nth; auto.
      - exists (g_horizontal g). split; auto. split; auto. intros h.
        destruct (Nat.eqb_spec (nth h (g_mask g) 0%nat) 1) as [K|K]; auto. exfalso.
        assert (existsb (fun m => negb (m =? 0)%nat) (g_mask g) = true); [|congruence].
        apply existsb_exists. exists 1%nat. split; auto. rewrite <- K. apply nth_In.
        destruct (Nat.lt_ge_cases h (List.length (g_mask g))); auto. rewrite nth_overflow in K by auto. lia. }
    destruct Q as (s & QE & QL & QN). cbn [map_res]. rewrite QE. cbn [bind].
    destruct (map_res _ groups) as [ls|e] eqn:ML in E; [|discriminate]. rewrite ML. cbn [bind] in E |- *. injection E as <-.
    exists (s ++ List.concat ls). split; auto.
    intros k g' h KE HL. destruct k as [|k].
    + injection KE as <-. unfold field_index. cbn [firstn map list_sum fold_right plus]. rewrite nth_error_app1 by lia. apply QN.
    + cbn [nth_error] in KE. specialize (N k g' h KE HL). rewrite <- N.
      unfold field_index. cbn [firstn map]. change (list_sum (List.length (g_horizontal g) :: map (fun x => List.length (g_horizontal x)) (firstn k groups)))
        with (List.length (g_horizontal g) + list_sum (map (fun x => List.length (g_horizontal x)) (firstn k groups)))%nat.
      rewrite nth_error_app2 by lia. f_equal. lia.
Qed.

(** The owner found for samples of the first group is right. *)
Theorem owner_first_group : forall A (g : blocking_group A) groups batch,
  (forall x, In x (g :: groups) -> consistent_group x /\ no_repetition (g_mask x)) ->
  (forall i, In i batch -> (i < list_sum (g_mask g))%nat) ->
  exists surfaces owners, blocking_surfaces (g :: groups) = Ok surfaces /\ batch_owners (g_mask g) batch = Ok owners
    /\ List.length owners = List.length batch
    /\ forall k i o, nth_error batch k = Some i -> nth_error owners k = Some o ->
         nth_error surfaces o = nth_error (g_active g) i.
Proof.
  intros A g groups batch H B. destruct (blocking_surfaces_ok A (g :: groups) H) as (s & E & N).
  destruct (H g (or_introl eq_refl)) as ((C1 & C2) & NR).
  destruct (batch_owners_ok (g_mask g) batch NR B) as (owners & EO & L & NO).
  exists s, owners. split; auto. split; auto. split; auto. intros k i o KB KO.
  destruct (NO k i o KB KO) as (M & AB).
  assert (LO : (o < List.length (g_horizontal g))%nat).
  { rewrite <- C1. destruct (Nat.lt_ge_cases o (List.length (g_mask g))); auto. rewrite nth_overflow in M by auto. lia. }
  specialize (N 0%nat g o eq_refl LO). unfold field_index in N. cbn [firstn map list_sum fold_right plus] in N.
  rewrite N, M. cbn [Nat.eqb]. rewrite AB. auto.
Qed.

(** In the other groups it belongs to another heliostat. *)
Theorem owner_other_group : forall A (groups : list (blocking_group A)) k g i,
  (forall x, In x groups -> consistent_group x /\ no_repetition (g_mask x)) ->
  (1 <= k)%nat -> nth_error groups k = Some g -> (i < list_sum (g_mask g))%nat ->
  (exists first, nth_error groups 0 = Some first /\ g_horizontal first <> []) ->
  exists surfaces owner surface, blocking_surfaces groups = Ok surfaces /\ batch_owners (g_mask g) [i] = Ok [owner]
  /\ nth_error (g_active g) i = Some surface /\ nth_error surfaces (field_index groups k owner) = Some surface
  /\ (owner < field_index groups k owner)%nat.
Proof.
  intros A groups k g i H K KG I (first & F & NE). destruct (blocking_surfaces_ok A groups H) as (s & E & N).
  destruct (H g (nth_error_In _ _ KG)) as ((C1 & C2) & NR).
  destruct (batch_owners_ok (g_mask g) [i] NR) as (owners & EO & L & NO); [intros j [<-|[]]; auto|].
  destruct owners as [|o [|]]; try discriminate. destruct (NO 0%nat i o eq_refl eq_refl) as (M & AB).
  assert (LO : (o < List.length (g_horizontal g))%nat).
  { rewrite <- C1. destruct (Nat.lt_ge_cases o (List.length (g_mask g))); auto. rewrite nth_overflow in M by auto. lia. }
  destruct (nth_error (g_active g) i) as [surface|] eqn:SU; [|apply nth_error_None in SU; lia].
  exists s, o, surface. split; [auto|]. split; [auto|]. split; [auto|]. split.
  - rewrite (N k g o KG LO), M. cbn [Nat.eqb]. rewrite AB. auto.
  - unfold field_index. destruct groups as [|g0 groups]; [discriminate|]. injection F as ->. destruct k as [|k]; [lia|].
    cbn [firstn map]. destruct (g_horizontal first); [congruence|]. cbn [List.length]. unfold list_sum. cbn [fold_right]. lia.
Qed.

Lemma nonzero_at_most : forall mask i, let n := List.length (map fst (filter (fun '(_, m) => negb (m =? 0)%nat) (combine (seq i (List.length mask)) mask))) in
  (n <= list_sum mask)%nat /\ (~ no_repetition mask -> (n < list_sum mask /\ 2 <= list_sum mask)%nat).
Proof.
  induction mask as [|m mask IH]; intros i; [cbn; split; [lia|intros N; destruct N; intros m []]|].
  destruct (IH (S i)) as (A & B). clear IH. unfold list_sum in *. cbn [List.length seq combine filter fold_right]. cbn zeta in *.
  rewrite map_length in *. set (k := List.length (filter _ (combine (seq (S i) _) mask))) in *.
  assert (E : List.length (if negb (m =? 0)%nat then (i, m) :: filter (fun '(_, m0) => negb (m0 =? 0)%nat) (combine (seq (S i) (List.length mask)) mask)
     else filter (fun '(_, m0) => negb (m0 =? 0)%nat) (combine (seq (S i) (List.length mask)) mask)) = (k + if (m =? 0)%nat then 0 else 1)%nat).
  { destruct (m =? 0)%nat; cbn [negb List.length]; unfold k; lia. }
  rewrite E. destruct (Nat.eqb_spec m 0) as [Z|Z]; (split; [lia|]); intros N.
  - destruct B as (B1 & B2); [|lia]. intros M. apply N. intros x [<-|X]; [lia|apply M; auto].
  - destruct (le_lt_dec m 1) as [L|L]; [|lia]. destruct B as (B1 & B2); [|lia]. intros M. apply N. intros x [<-|X]; [lia|apply M; auto].
Qed.
Lemma no_repetition_dec : forall mask, no_repetition mask \/ ~ no_repetition mask.
Proof.
  intros mask. destruct (forallb (fun m => m <=? 1)%nat mask) eqn:E.
  - left. intros m I. rewrite forallb_forall in E. apply Nat.leb_le, E, I.
  - right. intros N. assert (forallb (fun m => m <=? 1)%nat mask = true); [|congruence]. apply forallb_forall. intros m I. apply Nat.leb_le, N, I.
Qed.
Theorem repetition_fails : forall A (groups : list (blocking_group A)),
  (forall g, In g groups -> consistent_group g) -> (exists g, In g groups /\ ~ no_repetition (g_mask g)) ->
  blocking_surfaces groups = Err ShapeError.
Proof.
  intros A groups H X. unfold blocking_surfaces.
  set (f := fun g : blocking_group A => if existsb (fun m => negb (m =? 0)%nat) (g_mask g) then masked_assignment (g_horizontal g) (g_mask g) (g_active g) else Ok (g_horizontal g)).
  assert (B : forall g, In g groups -> ~ no_repetition (g_mask g) -> f g = Err ShapeError).
  { intros g I N. destruct (H g I) as (C1 & C2). destruct (nonzero_at_most (g_mask g) 0) as (_ & Q). destruct (Q N) as (Q1 & Q2). unfold f.
    assert (E : existsb (fun m => negb (m =? 0)%nat) (g_mask g) = true).
    { destruct (existsb (fun m => negb (m =? 0)%nat) (g_mask g)) eqn:E; auto. exfalso. apply N. intros m M.
      destruct (Nat.eqb_spec m 0); [lia|]. assert (existsb (fun m => negb (m =? 0)%nat) (g_mask g) = true); [|congruence].
      apply existsb_exists. exists m. split; auto. destruct (Nat.eqb_spec m 0); [lia|auto]. }
    rewrite E. unfold masked_assignment. rewrite <- C1, Nat.eqb_refl. cbn [negb]. fold (nonzero (g_mask g)) in Q1.
    destruct (g_active g) as [|v [|v' values]]; [cbn [List.length] in C2; lia|cbn [List.length] in C2; lia|].
    destruct (Nat.eqb_spec (List.length (v :: v' :: values)) (List.length (nonzero (g_mask g)))) as [K|K]; [lia|auto]. }
  assert (D : forall g, In g groups -> (exists s, f g = Ok s) \/ f g = Err ShapeError).
  { intros g I. destruct (no_repetition_dec (g_mask g)) as [N|N]; [left|right; auto]. destruct (H g I) as (C1 & C2).
    unfold f. destruct (existsb _ _); eauto using masked_assignment_ok. }
  clearbody f. destruct X as (g & I & N). specialize (B g I N). clear H N.
  induction groups as [|g' groups IH]; [destruct I|]. cbn [map_res].
  destruct (D g' (or_introl eq_refl)) as [(s & E)|E]; rewrite E; cbn [bind]; auto.
  destruct I as [->|I]; [congruence|]. assert (Q := IH I (fun g K => D g (or_intror K))).
  destruct (map_res f groups); cbn [bind] in Q |- *; [discriminate|auto].
Qed.
