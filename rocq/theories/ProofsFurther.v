(** Proofs about further mirrors in a field (C155). *)
From Coq Require Import List Arith ZArith Reals Bool Lra Lia Permutation.
From Verif Require Import RealSums ModelField ModelVectors ModelLBVH SpecLBVH ProofsMorton ProofsRadixCounts ProofsTraversal ModelBlocking SpecBlocking ProofsBlocking ProofsBlockingTracer ModelSplatting SpecSplatting
  ModelIntersections SpecIntersections ModelTrace SpecTrace ProofsTrace ProofsTracePower ProofsDimmed.
Import ListNotations.
Local Open Scope R_scope.

Lemma found_once : forall sort fuel corners rays found, filter_primitives sort fuel corners rays = Filtered found -> NoDup found.
Proof.
  intros sort fuel corners rays found E. unfold filter_primitives in E. destruct (morton_codes _ _) as [codes|]; [|discriminate].
  destruct (sort codes) as (sorted & order). unfold lbvh_filter in E. destruct (List.length sorted =? 0)%nat; [discriminate|].
  destruct (build_hierarchy _ _ _); [|discriminate]. destruct (max_depth _ _); [|discriminate].
  destruct (traverse_all _ _ _ _ _); try discriminate. injection E as <-. apply NoDup_filter, seq_NoDup.
Qed.
Lemma extended : forall a b : list nat, NoDup a -> NoDup b -> incl a b -> exists c, Permutation b (a ++ c).
Proof.
  intros a b A B I. exists (filter (fun x => negb (existsb (Nat.eqb x) a)) b).
  assert (E : forall x, existsb (Nat.eqb x) a = true <-> In x a).
  { intros x. rewrite existsb_exists. split; [intros (y & Y & Q); apply Nat.eqb_eq in Q; subst; auto|intros X; exists x; split; auto; apply Nat.eqb_refl]. }
  apply NoDup_Permutation; auto.
  - revert A. clear -B E. intros A. induction a as [|x a IH] using rev_ind; [apply NoDup_filter; auto|].
    clear IH. assert (G : forall l m : list nat, NoDup l -> NoDup m -> (forall x, In x l -> ~ In x m) -> NoDup (l ++ m)).
    { clear. induction l as [|y l IH]; intros m L M D; auto. inversion L; subst. cbn. constructor.
      - intros Q. apply in_app_or in Q. destruct Q as [Q|Q]; auto. apply (D y); [left; auto|auto].
      - apply IH; auto. intros z Z. apply D. right. auto. }
    apply G; auto; [apply NoDup_filter; auto|]. intros y Y Q. apply filter_In in Q. destruct Q as (_ & Q). apply E in Y. rewrite Y in Q. discriminate.
  - intros x. rewrite in_app_iff, filter_In. split.
    + intros X. destruct (existsb (Nat.eqb x) a) eqn:Q; [left; apply E; auto|right; split; auto].
    + intros [X|(X & _)]; auto.
Qed.
Definition no_less (o o' : option R) : Prop := exists b b', o = Some b /\ o' = Some b' /\ 0 <= b <= b' /\ b' <= 1.
Theorem more_blocked : forall sort corners extra rays fuel fuel' codes lefts rights values,
  sorts sort -> corners <> [] -> morton_codes (/ 10 ^ 6) (map centroid (corners ++ extra)) = Ok codes ->
  child_arrays (fst (sort codes)) = Some (lefts, rights) ->
  reaches_all_once (List.length (corners ++ extra)) (fun k => nth k lefts (-1)%Z) (fun k => nth k rights (-1)%Z) ->
  (forall c, In c (corners ++ extra) -> independent (span_u (primitive_of_corners c)) (span_v (primitive_of_corners c))) ->
  (forall r, In r rays -> sane_ray r) -> (2 * List.length (corners ++ extra) - 1 <= fuel')%nat ->
  batch_blocked sort fuel corners rays = Blocked values ->
  exists values', batch_blocked sort fuel' (corners ++ extra) rays = Blocked values' /\ Forall2 no_less values values'.
Proof.
  intros sort corners extra rays fuel fuel' codes lefts rights values HS NE HM HC HR IC SR HF B.
  destruct (filter_primitives_exact sort (corners ++ extra) rays fuel' codes lefts rights) as (found' & F' & ND' & M'); auto.
  { destruct corners; [congruence|discriminate]. }
  unfold batch_blocked in B. destruct (filter_primitives sort fuel corners rays) as [found| |] eqn:F; try discriminate.
  pose proof (filter_primitives_sound _ _ _ _ _ HS F SR) as M. pose proof (found_once _ _ _ _ _ F) as ND.
  assert (IF : incl found found').
  { intros p P. apply M in P. destruct P as (L & r & R1 & R2 & R3). apply M'. rewrite app_length. split; [lia|]. exists r. split; auto. split; auto.
    rewrite app_nth1; auto. }
  destruct (extended found found' ND ND' IF) as (c & PM).
  set (lk := fun p => primitive_of_corners (nth p (corners ++ extra) [])).
  assert (EF : map (fun p => primitive_of_corners (nth p corners [])) found = map lk found).
  { apply map_ext_in. intros p P. apply M in P. unfold lk. rewrite app_nth1; [auto|tauto]. }
  assert (MONO : forall r, no_less (traced_mask r (map lk found)) (traced_mask r (map lk found'))).
  { intros r. assert (IQ : forall p, In p (map lk found') -> independent (span_u p) (span_v p)).
    { intros p P. apply in_map_iff in P. destruct P as (q & <- & P). apply M' in P. apply IC. apply nth_In. tauto. }
    destruct (soft_mask_monotone (/ 10 ^ 12) 1000 100 (5/100) (r_origin r) (r_direction r) (map lk found) (map lk c) (map lk found')) as (b & b' & B1 & B2 & LE & _); try lra; auto.
    { rewrite <- map_app. apply Permutation_map. auto. }
    destruct (soft_mask_fraction (/ 10 ^ 12) 1000 100 (5/100) (r_origin r) (r_direction r) (map lk found')) as (b2 & B3 & K & _); try lra; auto.
    destruct (soft_mask_fraction (/ 10 ^ 12) 1000 100 (5/100) (r_origin r) (r_direction r) (map lk found)) as (b3 & B4 & K' & _); try lra.
    { intros p P. apply IQ. apply in_map_iff in P. destruct P as (q & <- & P). apply in_map. auto. }
    rewrite B2 in B3. injection B3 as <-. rewrite B1 in B4. injection B4 as <-. exists b, b'. unfold traced_mask. rewrite B1, B2. split; auto. split; auto. lra. }
  assert (EMPTY : forall r, traced_mask r [] = Some 0).
  { intros r. unfold traced_mask, soft_mask. cbn [map densities option_map]. rewrite Rsum_nil, Rmult_0_r, Ropp_0, exp_0. f_equal. ring. }
  assert (V : values = map (fun r => traced_mask r (map lk found)) rays).
  { destruct found as [|p found]; injection B as <-.
    - apply map_ext. intros r. cbn [map]. rewrite EMPTY. auto.
    - rewrite <- EF. reflexivity. }
  exists (map (fun r => traced_mask r (map lk found')) rays). split.
  - unfold batch_blocked. rewrite F'. destruct found' as [|p found']; [|reflexivity]. f_equal. apply map_ext. intros r. cbn [map]. rewrite EMPTY. auto.
  - subst values. clear -MONO. induction rays; cbn [map]; constructor; auto.
Qed.

Lemma Forall2_firstn : forall {A B} (P : A -> B -> Prop) n l m, Forall2 P l m -> Forall2 P (firstn n l) (firstn n m).
Proof. intros A B P n l m F. revert n. induction F; intros [|n]; cbn [firstn]; constructor; auto. Qed.
Lemma Forall2_skipn : forall {A B} (P : A -> B -> Prop) n l m, Forall2 P l m -> Forall2 P (skipn n l) (skipn n m).
Proof. intros A B P n l m F. revert n. induction F; intros [|n]; cbn [skipn]; auto; constructor; auto. Qed.
Lemma rows_exist : forall w h m x f samples values', (2 <= w)%nat -> (2 <= h)%nat -> 0 <= m -> 0 <= x <= 1 -> 0 <= f ->
  fractions (list_sum (map (fun s => List.length (sample_rays s)) samples)) values' -> (forall s, In s samples -> proper_sample s) ->
  exists rows', trace_rows w h m x f samples values' = Traced rows'.
Proof.
  intros w h m x f samples values' W H M X F FR' PS.
  unfold trace_rows. match goal with |- context [map_res ?g ?l] => destruct (map_res_all g l) as (ys & EY) end; [|rewrite EY; eauto].
    intros (s & b) I. apply In_nth_error in I. destruct I as (k & I).
    assert (I1 : nth_error samples k = Some s /\ nth_error (split_at (map (fun s => List.length (sample_rays s)) samples) values') k = Some b).
    { revert I. generalize (split_at (map (fun s => List.length (sample_rays s)) samples) values'). generalize samples. clear. intros l l'. revert l' k.
      induction l as [|y l IH]; intros [|z l'] [|k] I; cbn in *; try discriminate; [injection I as <- <-; auto|auto]. }
    destruct I1 as (I1 & I2). assert (P : proper_sample s) by (apply PS; apply (nth_error_In _ _ I1)).
    assert (EZ : nth_error (map (fun s => List.length (sample_rays s)) samples) k = Some (ray_count s)).
    { erewrite map_nth_error by exact I1. f_equal. apply sample_rays_length. auto. }
    rewrite (split_at_nth _ _ _ _ EZ) in I2. injection I2 as <-. destruct FR' as (BL & BF). set (sizes := map (fun s => List.length (sample_rays s)) samples) in *.
    set (mine := firstn _ _). destruct (all_some_ok (fun b => 0 <= b <= 1) mine) as (xs & AE & EM & PX).
    { intros o I3. apply BF. rewrite <- (firstn_skipn (list_sum (firstn k sizes)) values'). apply in_or_app. right.
      unfold mine in I3. rewrite <- (firstn_skipn (ray_count s) (skipn _ values')). apply in_or_app. left. exact I3. }
    assert (LX : List.length xs = ray_count s).
    { rewrite <- (map_length Some), <- EM. unfold mine. rewrite firstn_length, skipn_length, BL.
      destruct (nth_error_split sizes k EZ) as (l1 & l2 & ESZ & LK).
      rewrite ESZ. rewrite firstn_app, LK, Nat.sub_diag, firstn_O, app_nil_r.
      rewrite firstn_all2 by lia. rewrite list_sum_app. cbn [list_sum fold_right]. fold (list_sum l2). lia. }
    rewrite AE. destruct (trace_sample_power w h m x f s xs W H P M X F LX PX) as (t & ET & _). rewrite ET. cbn [bind]. eauto.
Qed.
Theorem further_dimmed : forall sort fuel fuel' w h m x f corners extra codes lefts rights samples rows, sorts sort -> (2 <= w)%nat -> (2 <= h)%nat -> 0 <= m ->
  0 <= x <= 1 -> 0 <= f -> corners <> [] -> morton_codes (/ 10 ^ 6) (map centroid (corners ++ extra)) = Ok codes ->
  child_arrays (fst (sort codes)) = Some (lefts, rights) ->
  reaches_all_once (List.length (corners ++ extra)) (fun k => nth k lefts (-1)%Z) (fun k => nth k rights (-1)%Z) ->
  (forall c, In c (corners ++ extra) -> independent (span_u (primitive_of_corners c)) (span_v (primitive_of_corners c))) ->
  (forall s owner r, In (s, owner) samples -> In r (blocking_rays w h m s owner) -> sane_ray r) -> (2 * List.length (corners ++ extra) - 1 <= fuel')%nat ->
  (forall s owner, In (s, owner) samples -> proper_sample s) ->
  trace_samples sort fuel w h m x f (Some corners) samples = Traced rows ->
  exists rows', trace_samples sort fuel' w h m x f (Some (corners ++ extra)) samples = Traced rows'
  /\ forall k s owner, nth_error samples k = Some (s, owner) ->
     exists t t', nth_error rows k = Some (Some t) /\ nth_error rows' k = Some (Some t')
     /\ (forall r c, (r < h)%nat -> (c < w)%nat -> 0 <= pixel (t_bitmap t') h r c <= pixel (t_bitmap t) h r c)
     /\ t_on_target t' = t_on_target t /\ t_intercept t' <= t_intercept t.
Proof.
  intros sort fuel fuel' w h m x f corners extra codes lefts rights samples rows HS W H M X F NE HM HC HR IC SR HF PS E.
  unfold trace_samples in E. set (rays := flat_map _ samples) in E.
  destruct (batch_blocked sort fuel corners rays) as [values| |] eqn:EB; try discriminate.
  assert (SR' : forall r, In r rays -> sane_ray r). { intros r R1. apply in_flat_map in R1. destruct R1 as ((s & owner) & R1 & R2). eapply SR; eauto. }
  destruct (more_blocked sort corners extra rays fuel fuel' codes lefts rights values) as (values' & EB' & NL); auto.
  assert (LR : List.length rays = list_sum (map (fun s => List.length (sample_rays s)) (map fst samples))).
  { unfold rays. rewrite flat_map_length. f_equal. rewrite map_map. apply map_ext. intros (s & owner). apply blocking_rays_length. }
  assert (FR : fractions (list_sum (map (fun s => List.length (sample_rays s)) (map fst samples))) values).
  { rewrite <- LR. apply (batch_fractions sort fuel corners rays values); auto; [intros c I; apply IC, in_or_app; auto|].
    intros found EF. exact (found_in_range sort fuel corners rays found HS EF). }
  assert (FR' : fractions (list_sum (map (fun s => List.length (sample_rays s)) (map fst samples))) values').
  { rewrite <- LR. apply (batch_fractions sort fuel' (corners ++ extra) rays values'); auto.
    intros found EF. exact (found_in_range sort fuel' (corners ++ extra) rays found HS EF). }
  destruct (rows_exist w h m x f (map fst samples) values' W H M X F FR') as (rows' & E').
  { intros s I. apply in_map_iff in I. destruct I as ((s' & owner) & <- & I). eapply PS; eauto. }
  exists rows'. split.
  { unfold trace_samples. fold rays. rewrite EB'. exact E'. }
  intros k s owner ES. assert (P : proper_sample s) by (eapply PS; apply (nth_error_In _ _ ES)).
  assert (ES' : nth_error (map fst samples) k = Some s) by (rewrite nth_error_map, ES; auto).
  destruct (row_of_sample w h m x f (map fst samples) values rows FR E k s ES' P) as (xs & t & L & PX & MX & TS & NR).
  destruct (row_of_sample w h m x f (map fst samples) values' rows' FR' E' k s ES' P) as (xs' & t' & L' & PX' & MX' & TS' & NR').
  assert (FA : Forall2 (fun b b' => 0 <= b <= b' /\ b' <= 1) xs xs').
  { assert (G : Forall2 no_less (map Some xs) (map Some xs')) by (rewrite MX, MX'; apply Forall2_firstn, Forall2_skipn; auto).
    clear -G L L'. revert xs' G L'. generalize (ray_count s). intros n. revert n. clear L. induction xs as [|a xs IH]; intros n [|b xs'] G L'; try constructor; try (inversion G; fail).
    - inversion G as [|? ? ? ? (b1 & b2 & Q1 & Q2 & Q3) G2]; subst. injection Q1 as <-. injection Q2 as <-. auto.
    - inversion G; subst. apply (IH (List.length xs')); auto. }
  destruct (sample_dimmed w h m x x f f s xs xs' W H P M ltac:(lra) ltac:(lra) ltac:(lra) L FA) as (t1 & t1' & T1 & T1' & R1). rewrite TS in T1. rewrite TS' in T1'. injection T1 as <-. injection T1' as <-.
  exists t, t'. auto.
Qed.

(** ** Fields of few mirrors *)
Lemma few_tree : forall sort corners codes, sorts sort -> corners <> [] -> (List.length corners <= 5)%nat ->
  morton_codes (/ 10 ^ 6) (map centroid corners) = Ok codes -> at_most_twice codes ->
  exists lefts rights, child_arrays (fst (sort codes)) = Some (lefts, rights)
    /\ reaches_all_once (List.length corners) (fun k => nth k lefts (-1)%Z) (fun k => nth k rights (-1)%Z).
Proof.
  intros sort corners codes HS NE L5 HM T.
  destruct (morton_codes_spec (/ 10 ^ 6) (map centroid corners)) as (codes' & E' & L & Bd & _).
  { apply Rinv_0_lt_compat. apply pow_lt. lra. }
  rewrite HM in E'. injection E' as <-. rewrite map_length in L.
  pose proof (sort_permutes sort codes HS) as P. pose proof (Permutation_length P) as LP.
  destruct (radix_tree_small (fst (sort codes))) as (ls & rs & CA & RA).
  - intros E. rewrite E in LP. destruct corners; [congruence|]. simpl in *. lia.
  - lia.
  - intros c Hc. apply Bd. apply (Permutation_in _ P). auto.
  - specialize (HS codes). destruct (sort codes). apply HS.
  - intros c. rewrite (prefix_count_perm _ _ _ _ P). apply T.
  - exists ls, rs. split; auto. rewrite <- L, <- LP. auto.
Qed.
Theorem few_traced : forall sort fuel w h m x f corners codes samples, sorts sort -> (2 <= w)%nat -> (2 <= h)%nat -> 0 <= m -> 0 <= x <= 1 -> 0 <= f ->
  corners <> [] -> (List.length corners <= 5)%nat -> (9 <= fuel)%nat ->
  morton_codes (/ 10 ^ 6) (map centroid corners) = Ok codes -> at_most_twice codes ->
  (forall c, In c corners -> independent (span_u (primitive_of_corners c)) (span_v (primitive_of_corners c))) ->
  (forall s owner r, In (s, owner) samples -> In r (blocking_rays w h m s owner) -> sane_ray r) ->
  (forall s owner, In (s, owner) samples -> proper_sample s) ->
  exists rows, trace_samples sort fuel w h m x f (Some corners) samples = Traced rows.
Proof.
  intros sort fuel w h m x f corners codes samples HS W H M X F NE L5 HF HM T IC SR PS. unfold trace_samples. set (rays := flat_map _ samples).
  assert (SR' : forall r, In r rays -> sane_ray r). { intros r R1. apply in_flat_map in R1. destruct R1 as ((s & owner) & R1 & R2). eapply SR; eauto. }
  destruct (five_mirrors_exact sort corners rays fuel codes HS NE L5 HM T SR' HF) as (found & FP & _).
  assert (EB : exists values, batch_blocked sort fuel corners rays = Blocked values) by (unfold batch_blocked; rewrite FP; destruct found; eauto).
  destruct EB as (values & EB). rewrite EB. apply rows_exist; auto.
  - pose proof (batch_fractions sort fuel corners rays values IC (fun found EF => found_in_range sort fuel corners rays found HS EF) EB) as (L & Q). split; auto.
    rewrite L. unfold rays. rewrite flat_map_length. f_equal. rewrite map_map. apply map_ext. intros (s & owner). apply blocking_rays_length.
  - intros s I. apply in_map_iff in I. destruct I as ((s' & owner) & <- & I). eapply PS; eauto.
Qed.

From Verif Require Import ProofsLBVHRefuted ProofsTraceBatch.
Lemma two_codes : forall a b, exists codes, morton_codes (/ 10 ^ 6) (map centroid [a; b]) = Ok codes /\ at_most_twice codes.
Proof.
  intros a b. destruct (morton_codes_spec (/ 10 ^ 6) (map centroid [a; b])) as (codes & E & L & _); [lra|]. exists codes. split; auto.
  intros c. unfold prefix_count. assert (G : (List.length (filter (fun c0 => Z.eqb (Z.shiftr c0 (30 - 30)) c) codes) <= List.length codes)%nat).
  { generalize (fun c0 => Z.eqb (Z.shiftr c0 (30 - 30)) c). intros f. clear. induction codes; simpl; auto. destruct (f a); simpl; lia. }
  rewrite L in G. change (List.length (map centroid [a; b])) with 2%nat in G. lia.
Qed.
Lemma further_case : forall sort, sorts sort -> exists t t',
  trace_samples sort 9 3 3 1 0 1 (Some [square 0 0; square 0 (-5)]) [(upward (-5) 95, 1%nat)] = Traced [Some t]
  /\ trace_samples sort 9 3 3 1 0 1 (Some ([square 0 0; square 0 (-5)] ++ [square 0 (-3)])) [(upward (-5) 95, 1%nat)] = Traced [Some t']
  /\ forall r c, (r < 3)%nat -> (c < 3)%nat -> 0 <= pixel (t_bitmap t') 3 r c <= pixel (t_bitmap t) 3 r c.
Proof.
  intros sort HS. destruct (two_codes (square 0 0) (square 0 (-5))) as (codes & E & T).
  assert (PS : forall s owner, In (s, owner) [(upward (-5) 95, 1%nat)] -> proper_sample s) by (intros s owner [Q|[]]; injection Q as <- <-; apply upward_proper).
  assert (SR : forall s owner r, In (s, owner) [(upward (-5) 95, 1%nat)] -> In r (blocking_rays 3 3 1 s owner) -> sane_ray r).
  { intros s owner r [Q|[]] I; injection Q as <- <-. rewrite upward_blocking_rays in I. destruct I as [<-|[]]. apply up_sane. }
  assert (IC : forall c, In c stacked -> independent (span_u (primitive_of_corners c)) (span_v (primitive_of_corners c))).
  { intros c [<-|[<-|[<-|[]]]]; apply squares_independent. }
  destruct (few_traced sort 9 3 3 1 0 1 [square 0 0; square 0 (-5)] codes [(upward (-5) 95, 1%nat)]) as (rows & R); auto; try lia; try lra; try discriminate; try (cbn; lia); try (intros c I; apply IC; unfold stacked; cbn in *; tauto).
  destruct stacked_codes as (codes' & E' & T'). destruct (few_tree sort stacked codes' HS ltac:(discriminate) ltac:(cbn; lia) E' T') as (ls & rs & CA & RA).
  destruct (further_dimmed sort 9 9 3 3 1 0 1 [square 0 0; square 0 (-5)] [square 0 (-3)] codes' ls rs [(upward (-5) 95, 1%nat)] rows) as (rows' & R' & D); auto; try lia; try lra; try discriminate; try (cbn; lia).
  destruct (D 0%nat _ _ eq_refl) as (t & t' & N & N' & P & _).
  assert (LEN : forall b rows, trace_samples sort 9 3 3 1 0 1 b [(upward (-5) 95, 1%nat)] = Traced rows -> List.length rows = 1%nat).
  { intros b rows0 Q. assert (G : exists v, trace_rows 3 3 1 0 1 (map fst [(upward (-5) 95, 1%nat)]) v = Traced rows0).
    { unfold trace_samples in Q. destruct b; [destruct (batch_blocked _ _ _ _); try discriminate|]; eauto. }
    destruct G as (v & G). unfold trace_rows in G. destruct (map_res _ _) as [rs0|] eqn:ER in G; [|discriminate]. injection G as ->.
    destruct (map_res_nth _ _ _ ER) as (L & _). rewrite L, combine_length, split_at_length. reflexivity. }
  pose proof (LEN _ _ R) as L1. pose proof (LEN _ _ R') as L2. destruct rows as [|y [|]]; try discriminate. destruct rows' as [|y' [|]]; try discriminate.
  cbn in N, N'. injection N as ->. injection N' as ->. exists t, t'. auto.
Qed.
