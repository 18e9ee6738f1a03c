(** Proofs about batches shared with other heliostats (C66). *)
From Coq Require Import List Arith ZArith Reals Bool Lra Lia Permutation.
From Verif Require Import RealSums ModelField ModelVectors ModelLBVH SpecLBVH ProofsMorton ProofsRadixCounts ProofsTraversal ModelBlocking SpecBlocking ProofsBlocking ProofsBlockingTracer ModelSplatting SpecSplatting ProofsSplatting
  ModelIntersections SpecIntersections ModelTrace SpecTrace ProofsTrace ProofsTracePower ProofsDimmed ProofsFurther.
Import ListNotations.
Local Open Scope R_scope.

Lemma pixel_darker : forall w h x f ii b b' r c, 0 <= x <= 1 -> 0 <= f ->
  (forall i, In i ii -> 0 <= i_intensity i) -> Forall2 (fun b b' => 0 <= b < b' /\ b' <= 1) b b' ->
  let g := fun ray => hit_intensity ray * hat (hit_e ray - INR c) * hat (hit_u ray - INR r) in
  0 <= sum_where (on_bitmap w h) g (map (lit x f) (combine ii b')) <= sum_where (on_bitmap w h) g (map (lit x f) (combine ii b))
  /\ (0 < sum_where (on_bitmap w h) g (map (lit x f) (combine ii b)) ->
      sum_where (on_bitmap w h) g (map (lit x f) (combine ii b')) < sum_where (on_bitmap w h) g (map (lit x f) (combine ii b))).
Proof.
  intros w h x f ii b b' r c X F I B g. revert ii I. induction B as [|y y' b b' (Y & Y1) B IH]; intros [|i ii] I; try (cbn; lra).
  specialize (IH ii (fun j J => I j (or_intror J))). specialize (I i (or_introl eq_refl)).
  unfold sum_where in *. cbn [combine map filter]. change (on_bitmap w h (lit x f (i, y'))) with (on_bitmap w h (lit x f (i, y))).
  destruct (on_bitmap w h (lit x f (i, y))); auto. cbn [map Rsum fold_right]. fold (Rsum (map g (filter (on_bitmap w h) (map (lit x f) (combine ii b'))))).
  fold (Rsum (map g (filter (on_bitmap w h) (map (lit x f) (combine ii b))))).
  assert (G : exists k, 0 <= k /\ g (lit x f (i, y')) = k * (1 - y') /\ g (lit x f (i, y)) = k * (1 - y)).
  { exists (i_intensity i * (1 - x) * f * hat (i_e i - INR c) * hat (i_u i - INR r)).
    pose proof (hat_nonneg (i_e i - INR c)). pose proof (hat_nonneg (i_u i - INR r)).
    split; [repeat apply Rmult_le_pos; lra|]. unfold g, lit, ray_intensity. cbn [hit_e hit_u hit_intensity fst snd]. split; ring. }
  destruct G as (k & K & -> & ->). destruct IH as (IH1 & IH2).
  assert (K1 : 0 <= k * (1 - y')) by (apply Rmult_le_pos; lra).
  assert (K2 : k * (1 - y') <= k * (1 - y)) by (apply Rmult_le_compat_l; lra).
  split; [lra|]. intros Q.
  destruct (Rlt_dec 0 k) as [K3|K3].
  - assert (k * (1 - y') < k * (1 - y)) by (apply Rmult_lt_compat_l; lra). lra.
  - assert (k = 0) by lra. subst k. assert (Q2 : 0 < Rsum (map g (filter (on_bitmap w h) (map (lit x f) (combine ii b))))) by lra. specialize (IH2 Q2). lra.
Qed.

Lemma sample_darker : forall w h m x f s b b', (2 <= w)%nat -> (2 <= h)%nat -> proper_sample s -> 0 <= m -> 0 <= x <= 1 -> 0 <= f ->
  List.length b = ray_count s -> Forall2 (fun b b' => 0 <= b < b' /\ b' <= 1) b b' ->
  exists t t', trace_sample w h m x f s b = Ok t /\ trace_sample w h m x f s b' = Ok t'
    /\ forall r c, (r < h)%nat -> (c < w)%nat -> 0 <= pixel (t_bitmap t') h r c <= pixel (t_bitmap t) h r c
       /\ (0 < pixel (t_bitmap t) h r c -> pixel (t_bitmap t') h r c < pixel (t_bitmap t) h r c).
Proof.
  intros w h m x f s b b' W H PS M X F L B. unfold trace_sample.
  assert (P : forall i, In i (sample_intersections w h m s) -> 0 <= i_e i /\ 0 <= i_u i /\ 0 <= i_intensity i).
  { intros i I. unfold sample_intersections in I. apply in_map_iff in I. destruct I as ((o & d) & <- & I).
    pose proof (sample_ray_unit s o d PS I) as U. destruct PS as (_ & _ & T & _).
    pose proof (intersect_bounds w h (s_target s) o d m W H T U M). cbv zeta in *. tauto. }
  set (ii := sample_intersections w h m s) in *. clearbody ii.
  assert (LL : forall b, map (fun '(i, b) => {| hit_e := i_e i; hit_u := i_u i; hit_intensity := ray_intensity x f (i_intensity i) b |}) (combine ii b) = map (lit x f) (combine ii b)).
  { intros. apply map_ext. intros (i & y). reflexivity. }
  rewrite !LL.
  assert (Q : forall b r, In r (map (lit x f) (combine ii b)) -> 0 <= hit_e r /\ 0 <= hit_u r).
  { intros b0 r I. apply in_map_iff in I. destruct I as ((i & y) & <- & I). apply in_combine_l in I. destruct (P i I) as (P1 & P2 & _). cbn. auto. }
  destruct (splatting_pixels w h (map (lit x f) (combine ii b))) as (image & E & _ & N); try lia; [apply Q|].
  destruct (splatting_pixels w h (map (lit x f) (combine ii b'))) as (image' & E' & _ & N'); try lia; [apply Q|].
  rewrite E, E'. cbn [bind]. eexists. eexists. split; [reflexivity|]. split; [reflexivity|]. cbn [t_bitmap].
  intros r c RH CW. rewrite N, N' by auto. apply pixel_darker; auto. intros; apply P; auto.
Qed.

Definition less (o o' : option R) : Prop := exists b b', o = Some b /\ o' = Some b' /\ 0 <= b < b' /\ b' <= 1.
Theorem shared_blocked : forall sort corners own others fuel codes lefts rights p,
  sorts sort -> corners <> [] -> morton_codes (/ 10 ^ 6) (map centroid corners) = Ok codes ->
  child_arrays (fst (sort codes)) = Some (lefts, rights) ->
  reaches_all_once (List.length corners) (fun k => nth k lefts (-1)%Z) (fun k => nth k rights (-1)%Z) ->
  (forall c, In c corners -> independent (span_u (primitive_of_corners c)) (span_v (primitive_of_corners c))) ->
  (forall r, In r (own ++ others) -> sane_ray r) -> (2 * List.length corners - 1 <= fuel)%nat ->
  (p < List.length corners)%nat -> (forall r, In r own -> r_owner r = p \/ ~ meets r (corners_box (nth p corners []))) ->
  (exists r, In r others /\ r_owner r <> p /\ meets r (corners_box (nth p corners []))) ->
  exists values values', batch_blocked sort fuel corners own = Blocked values /\ batch_blocked sort fuel corners (own ++ others) = Blocked values'
    /\ List.length values = List.length own /\ List.length values' = List.length (own ++ others)
    /\ Forall2 less values (firstn (List.length own) values').
Proof.
  intros sort corners own others fuel codes lefts rights p HS NE HM HC HR IC SR HF PL NO (r0 & R0 & R1 & R2).
  destruct (filter_primitives_exact sort corners own fuel codes lefts rights) as (found & F & ND & M); auto.
  { intros r I. apply SR. apply in_or_app. auto. }
  destruct (filter_primitives_exact sort corners (own ++ others) fuel codes lefts rights) as (found' & F' & ND' & M'); auto.
  assert (IF : incl found found').
  { intros q Q. apply M in Q. destruct Q as (L & r & Q1 & Q2). apply M'. split; auto. exists r. split; auto. apply in_or_app. auto. }
  assert (NP : ~ In p found).
  { intros Q. apply M in Q. destruct Q as (_ & r & Q1 & Q2 & Q3). destruct (NO r Q1); auto. }
  assert (IP : In p found').
  { apply M'. split; auto. exists r0. split; [apply in_or_app; auto|auto]. }
  destruct (extended found found' ND ND' IF) as (c & PM).
  assert (CN : c <> []).
  { intros ->. rewrite app_nil_r in PM. apply NP. apply (Permutation_in _ PM IP). }
  set (lk := fun p => primitive_of_corners (nth p corners [])).
  assert (MONO : forall r, less (traced_mask r (map lk found)) (traced_mask r (map lk found'))).
  { intros r. assert (IQ : forall p, In p (map lk found') -> independent (span_u p) (span_v p)).
    { intros q Q. apply in_map_iff in Q. destruct Q as (j & <- & Q). apply M' in Q. apply IC. apply nth_In. tauto. }
    destruct (soft_mask_monotone (/ 10 ^ 12) 1000 100 (5/100) (r_origin r) (r_direction r) (map lk found) (map lk c) (map lk found')) as (b & b' & B1 & B2 & _ & LT); try lra; auto.
    { rewrite <- map_app. apply Permutation_map. auto. }
    destruct (soft_mask_fraction (/ 10 ^ 12) 1000 100 (5/100) (r_origin r) (r_direction r) (map lk found')) as (b2 & B3 & K & _); try lra; auto.
    destruct (soft_mask_fraction (/ 10 ^ 12) 1000 100 (5/100) (r_origin r) (r_direction r) (map lk found)) as (b3 & B4 & K' & _); try lra.
    { intros q Q. apply IQ. apply in_map_iff in Q. destruct Q as (j & <- & Q). apply in_map. auto. }
    rewrite B2 in B3. injection B3 as <-. rewrite B1 in B4. injection B4 as <-. exists b, b'. unfold traced_mask. rewrite B1, B2. split; auto. split; auto.
    assert (b < b') by (apply LT; destruct c; [congruence|discriminate]). lra. }
  assert (EMPTY : forall r, traced_mask r [] = Some 0).
  { intros r. unfold traced_mask, soft_mask. cbn [map densities option_map]. rewrite Rsum_nil, Rmult_0_r, Ropp_0, exp_0. f_equal. ring. }
  assert (V : forall rays found, filter_primitives sort fuel corners rays = Filtered found -> batch_blocked sort fuel corners rays = Blocked (map (fun r => traced_mask r (map lk found)) rays)).
  { intros rays fd E. unfold batch_blocked. rewrite E. destruct fd as [|q fd]; [|reflexivity]. f_equal. apply map_ext. intros r. cbn [map]. rewrite EMPTY. auto. }
  eexists. eexists. split; [apply V; eauto|]. split; [apply V; eauto|]. split; [apply map_length|]. split; [apply map_length|].
  rewrite map_app, firstn_app, map_length, Nat.sub_diag, firstn_O, app_nil_r, firstn_all2 by (rewrite map_length; auto).
  clear -MONO. induction own; cbn [map]; constructor; auto.
Qed.

Theorem shared_darker : forall sort fuel w h m x f corners codes lefts rights s owner others p, sorts sort -> (2 <= w)%nat -> (2 <= h)%nat -> 0 <= m ->
  0 <= x <= 1 -> 0 <= f -> corners <> [] -> morton_codes (/ 10 ^ 6) (map centroid corners) = Ok codes ->
  child_arrays (fst (sort codes)) = Some (lefts, rights) ->
  reaches_all_once (List.length corners) (fun k => nth k lefts (-1)%Z) (fun k => nth k rights (-1)%Z) ->
  (forall c, In c corners -> independent (span_u (primitive_of_corners c)) (span_v (primitive_of_corners c))) ->
  (forall s' owner' r, In (s', owner') ((s, owner) :: others) -> In r (blocking_rays w h m s' owner') -> sane_ray r) -> (2 * List.length corners - 1 <= fuel)%nat ->
  (forall s' owner', In (s', owner') ((s, owner) :: others) -> proper_sample s') ->
  (p < List.length corners)%nat -> p = owner \/ (forall r, In r (blocking_rays w h m s owner) -> ~ meets r (corners_box (nth p corners []))) ->
  (exists s' owner' r, In (s', owner') others /\ owner' <> p /\ In r (blocking_rays w h m s' owner') /\ meets r (corners_box (nth p corners []))) ->
  exists t t' rows', trace_samples sort fuel w h m x f (Some corners) [(s, owner)] = Traced [Some t]
    /\ trace_samples sort fuel w h m x f (Some corners) ((s, owner) :: others) = Traced (Some t' :: rows')
    /\ forall r c, (r < h)%nat -> (c < w)%nat -> 0 <= pixel (t_bitmap t') h r c <= pixel (t_bitmap t) h r c
       /\ (0 < pixel (t_bitmap t) h r c -> pixel (t_bitmap t') h r c < pixel (t_bitmap t) h r c).
Proof.
  intros sort fuel w h m x f corners codes lefts rights s owner others p HS W H M X F NE HM HC HR IC SR HF PS PL NO MT.
  assert (OW : forall s' owner' r, In r (blocking_rays w h m s' owner') -> r_owner r = owner').
  { intros s' owner' r I. unfold blocking_rays in I. apply in_map_iff in I. destruct I as (y & E & _). subst r. destruct y as ((y1 & y2) & y3). reflexivity. }
  set (fr := fun '(s, owner) => blocking_rays w h m s owner).
  destruct (shared_blocked sort corners (flat_map fr [(s, owner)]) (flat_map fr others) fuel codes lefts rights p) as (v & v' & B & B' & LV & LV' & FA); auto.
  { intros r I. rewrite <- flat_map_app in I. apply in_flat_map in I. destruct I as ((s' & o') & I1 & I2). exact (SR s' o' r I1 I2). }
  { intros r I. cbn [flat_map fr] in I. rewrite app_nil_r in I. destruct NO as [->|NO]; [left; eapply OW; eauto|right; auto]. }
  { destruct MT as (s' & o' & r & Q1 & Q2 & Q3 & Q4). exists r. split; [apply in_flat_map; exists (s', o'); auto|]. split; auto. rewrite (OW _ _ _ Q3). auto. }
  rewrite <- flat_map_app in B'. change ([(s, owner)] ++ others) with ((s, owner) :: others) in B'. 
  assert (LR : forall samples, List.length (flat_map fr samples) = list_sum (map (fun s => List.length (sample_rays s)) (map fst samples))).
  { intros samples. rewrite flat_map_length. f_equal. rewrite map_map. apply map_ext. intros (s' & o'). apply blocking_rays_length. }
  assert (FR : forall samples vs, batch_blocked sort fuel corners (flat_map fr samples) = Blocked vs -> fractions (list_sum (map (fun s => List.length (sample_rays s)) (map fst samples))) vs).
  { intros samples vs E. rewrite <- LR. apply (batch_fractions sort fuel corners _ vs); auto.
    intros found EF. exact (found_in_range sort fuel corners _ found HS EF). }
  pose proof (PS s owner (or_introl eq_refl)) as P.
  destruct (rows_exist w h m x f (map fst [(s, owner)]) v W H M X F (FR _ _ B)) as (rows & E).
  { intros s' [<-|[]]. auto. }
  destruct (rows_exist w h m x f (map fst ((s, owner) :: others)) v' W H M X F (FR _ _ B')) as (rows' & E').
  { intros s' I. apply in_map_iff in I. destruct I as ((s2 & o2) & <- & I). eapply PS; eauto. }
  destruct (row_of_sample w h m x f _ v rows (FR _ _ B) E 0%nat s eq_refl P) as (xs & t & L & PX & MX & TS & NR).
  destruct (row_of_sample w h m x f _ v' rows' (FR _ _ B') E' 0%nat s eq_refl P) as (xs' & t' & L' & PX' & MX' & TS' & NR').
  assert (LO : List.length (flat_map fr [(s, owner)]) = ray_count s).
  { rewrite LR. cbn [map fst list_sum fold_right]. rewrite Nat.add_0_r. apply sample_rays_length. auto. }
  assert (FX : Forall2 (fun b b' => 0 <= b < b' /\ b' <= 1) xs xs').
  { assert (G : Forall2 less (map Some xs) (map Some xs')).
    { rewrite MX, MX'. cbn [firstn list_sum fold_right skipn]. rewrite (firstn_all2 v) by lia. rewrite <- LO. exact FA. }
    clear -G. revert xs' G. induction xs as [|a xs IH]; intros [|b xs'] G; try constructor; try (inversion G; fail).
    - inversion G as [|? ? ? ? (b1 & b2 & Q1 & Q2 & Q3) G2]; subst. injection Q1 as <-. injection Q2 as <-. auto.
    - inversion G; subst. apply IH; auto. }
  destruct (sample_darker w h m x f s xs xs' W H P M X F L FX) as (t1 & t1' & T1 & T1' & R1). rewrite TS in T1. rewrite TS' in T1'. injection T1 as <-. injection T1' as <-.
  destruct rows' as [|row' rows']; [discriminate|]. injection NR' as ->.
  exists t, t', rows'. split; [|split; auto].
  - unfold trace_samples. fold fr. rewrite B. rewrite E. f_equal.
    unfold trace_rows in E. destruct (map_res _ _) as [rr|] eqn:ER in E; [|discriminate]. injection E as <-.
    destruct (map_res_nth _ _ _ ER) as (LL & _). cbn in LL. destruct rr as [|? [|? ?]]; try discriminate. injection NR as ->. auto.
  - unfold trace_samples. fold fr. rewrite B'. exact E'.
Qed.

(** ** The scene of C66_blocking_refuted *)
From Verif Require Import ProofsLBVHRefuted ProofsTraceBatch.
Lemma shared_case : forall sort, sorts sort -> exists t t' rows',
  trace_samples sort 9 3 3 1 0 1 (Some stacked) [(upward (-3) (-2), 2%nat)] = Traced [Some t]
  /\ trace_samples sort 9 3 3 1 0 1 (Some stacked) ((upward (-3) (-2), 2%nat) :: [(upward (-5) 95, 1%nat)]) = Traced (Some t' :: rows')
  /\ forall r c, (r < 3)%nat -> (c < 3)%nat -> 0 <= pixel (t_bitmap t') 3 r c <= pixel (t_bitmap t) 3 r c
     /\ (0 < pixel (t_bitmap t) 3 r c -> pixel (t_bitmap t') 3 r c < pixel (t_bitmap t) 3 r c).
Proof.
  intros sort HS. destruct stacked_codes as (codes & E & T). destruct (few_tree sort stacked codes HS ltac:(discriminate) ltac:(cbn; lia) E T) as (ls & rs & CA & RA).
  apply (shared_darker sort 9 3 3 1 0 1 stacked codes ls rs (upward (-3) (-2)) 2 [(upward (-5) 95, 1%nat)] 2); auto; try lia; try lra; try discriminate; try (cbn; lia).
  - intros c [<-|[<-|[<-|[]]]]; apply squares_independent.
  - intros s owner r [Q|[Q|[]]] I; injection Q as <- <-; rewrite upward_blocking_rays in I; destruct I as [<-|[]]; apply up_sane.
  - intros s owner [Q|[Q|[]]]; injection Q as <- <-; apply upward_proper.
  - exists (upward (-5) 95), 1%nat, (up_ray (-5) (95 - -5) 1). split; [left; auto|]. split; [discriminate|]. rewrite upward_blocking_rays. split; [left; auto|].
    assert (K : 1 <= 2 / (1 + / 10 ^ 12) <= 2) by lra. assert (K2 : 2 / (1 + / 10 ^ 12) * (1 + / 10 ^ 12) = 2) by (field; lra).
    set (k := 2 / (1 + / 10 ^ 12)) in *. clearbody k.
    assert (B : in_box (ray_at (up_ray (-5) (95 - -5) 1) k) (corners_box (nth 2 stacked []))).
    { intros f [<-|[<-|[<-|[]]]]; unfold ray_at, up_ray, stacked, square;
        cbn [nth corners_box map Rmin_list Rmax_list fold_left box_min box_max pe pn pu r_origin r_direction]; eval_minmax; lra. }
    split; exists k; (split; [cbn [up_ray r_target_distance]; lra|exact B]).
Qed.

(** ** Batches in which the other rays meet no further mirror *)
Theorem shared_same : forall sort fuel w h m x f corners codes lefts rights s owner others, sorts sort -> (2 <= w)%nat -> (2 <= h)%nat -> 0 <= m ->
  0 <= x <= 1 -> 0 <= f -> corners <> [] -> morton_codes (/ 10 ^ 6) (map centroid corners) = Ok codes ->
  child_arrays (fst (sort codes)) = Some (lefts, rights) ->
  reaches_all_once (List.length corners) (fun k => nth k lefts (-1)%Z) (fun k => nth k rights (-1)%Z) ->
  (forall c, In c corners -> independent (span_u (primitive_of_corners c)) (span_v (primitive_of_corners c))) ->
  (forall s' owner' r, In (s', owner') ((s, owner) :: others) -> In r (blocking_rays w h m s' owner') -> sane_ray r) -> (2 * List.length corners - 1 <= fuel)%nat ->
  (forall s' owner', In (s', owner') ((s, owner) :: others) -> proper_sample s') ->
  (forall s' owner' r p, In (s', owner') others -> In r (blocking_rays w h m s' owner') -> (p < List.length corners)%nat -> owner' <> p ->
     meets r (corners_box (nth p corners [])) -> owner <> p /\ exists r', In r' (blocking_rays w h m s owner) /\ meets r' (corners_box (nth p corners []))) ->
  exists t rows', trace_samples sort fuel w h m x f (Some corners) [(s, owner)] = Traced [Some t]
    /\ trace_samples sort fuel w h m x f (Some corners) ((s, owner) :: others) = Traced (Some t :: rows').
Proof.
  intros sort fuel w h m x f corners codes lefts rights s owner others HS W H M X F NE HM HC HR IC SR HF PS SAME.
  assert (OW : forall s' owner' r, In r (blocking_rays w h m s' owner') -> r_owner r = owner').
  { intros s' owner' r I. unfold blocking_rays in I. apply in_map_iff in I. destruct I as (y & E & _). subst r. destruct y as ((y1 & y2) & y3). reflexivity. }
  set (fr := fun '(s, owner) => blocking_rays w h m s owner).
  set (own := flat_map fr [(s, owner)]). set (all := flat_map fr ((s, owner) :: others)).
  assert (SA : forall r, In r all -> sane_ray r).
  { intros r I. apply in_flat_map in I. destruct I as ((s' & o') & I1 & I2). exact (SR s' o' r I1 I2). }
  assert (EA : all = own ++ flat_map fr others) by (unfold all, own; cbn [flat_map]; rewrite app_nil_r; auto).
  destruct (filter_primitives_exact sort corners own fuel codes lefts rights) as (found & FP & ND & MM); auto.
  { intros r I. apply SA. rewrite EA. apply in_or_app. auto. }
  destruct (filter_primitives_exact sort corners all fuel codes lefts rights) as (found' & FP' & ND' & MM'); auto.
  assert (PM : Permutation found found').
  { apply NoDup_Permutation; auto. intros p. rewrite MM, MM'. split; intros (L & r & Q1 & Q2 & Q3); (split; [auto|]).
    - exists r. split; auto. rewrite EA. apply in_or_app. auto.
    - rewrite EA in Q1. apply in_app_or in Q1. destruct Q1 as [Q1|Q1]; [eauto|]. apply in_flat_map in Q1. destruct Q1 as ((s' & o') & Q4 & Q5).
      rewrite (OW _ _ _ Q5) in Q2. destruct (SAME s' o' r p Q4 Q5 L Q2 Q3) as (NO & r' & R1 & R2). exists r'. split.
      + unfold own. cbn [flat_map fr]. rewrite app_nil_r. auto.
      + rewrite (OW _ _ _ R1). auto. }
  set (lk := fun p => primitive_of_corners (nth p corners [])).
  assert (EQ : forall r, traced_mask r (map lk found') = traced_mask r (map lk found)).
  { intros r. assert (IQ : forall p, In p (map lk found') -> independent (span_u p) (span_v p)).
    { intros q Q. apply in_map_iff in Q. destruct Q as (j & <- & Q). apply MM' in Q. apply IC. apply nth_In. tauto. }
    assert (PL : Permutation (map lk found) (map lk found')) by (apply Permutation_map; auto).
    destruct (soft_mask_monotone (/ 10 ^ 12) 1000 100 (5/100) (r_origin r) (r_direction r) (map lk found) [] (map lk found')) as (b & b' & B1 & B2 & LE & _); try lra; auto.
    { rewrite app_nil_r. apply Permutation_sym. auto. }
    destruct (soft_mask_monotone (/ 10 ^ 12) 1000 100 (5/100) (r_origin r) (r_direction r) (map lk found') [] (map lk found)) as (c & c' & C1 & C2 & LE' & _); try lra; auto.
    { intros p I. apply IQ. apply (Permutation_in _ PL I). }
    { rewrite app_nil_r. auto. }
    unfold traced_mask. rewrite B1, B2. rewrite B2 in C1. rewrite B1 in C2. injection C1 as <-. injection C2 as <-. f_equal. lra. }
  assert (EMPTY : forall r, traced_mask r [] = Some 0).
  { intros r. unfold traced_mask, soft_mask. cbn [map densities option_map]. rewrite Rsum_nil, Rmult_0_r, Ropp_0, exp_0. f_equal. ring. }
  assert (V : forall rays fd, filter_primitives sort fuel corners rays = Filtered fd -> batch_blocked sort fuel corners rays = Blocked (map (fun r => traced_mask r (map lk fd)) rays)).
  { intros rays fd E. unfold batch_blocked. rewrite E. destruct fd as [|q fd]; [|reflexivity]. f_equal. apply map_ext. intros r. cbn [map]. rewrite EMPTY. auto. }
  pose proof (V _ _ FP) as B. pose proof (V _ _ FP') as B'. 
  rewrite (map_ext _ _ EQ) in B'.
  set (v := map (fun r => traced_mask r (map lk found)) own) in *. set (v' := map (fun r => traced_mask r (map lk found)) all) in *.
  assert (LR : forall samples, List.length (flat_map fr samples) = list_sum (map (fun s => List.length (sample_rays s)) (map fst samples))).
  { intros samples. rewrite flat_map_length. f_equal. rewrite map_map. apply map_ext. intros (s' & o'). apply blocking_rays_length. }
  assert (FR : forall samples vs, batch_blocked sort fuel corners (flat_map fr samples) = Blocked vs -> fractions (list_sum (map (fun s => List.length (sample_rays s)) (map fst samples))) vs).
  { intros samples vs E. rewrite <- LR. apply (batch_fractions sort fuel corners _ vs); auto.
    intros fd EF. exact (found_in_range sort fuel corners _ fd HS EF). }
  pose proof (PS s owner (or_introl eq_refl)) as P.
  destruct (rows_exist w h m x f (map fst [(s, owner)]) v W H M X F (FR _ _ B)) as (rows & E).
  { intros s' [<-|[]]. auto. }
  destruct (rows_exist w h m x f (map fst ((s, owner) :: others)) v' W H M X F (FR _ _ B')) as (rows' & E').
  { intros s' I. apply in_map_iff in I. destruct I as ((s2 & o2) & <- & I). eapply PS; eauto. }
  destruct (row_of_sample w h m x f _ v rows (FR _ _ B) E 0%nat s eq_refl P) as (xs & t & L & PX & MX & TS & NR).
  destruct (row_of_sample w h m x f _ v' rows' (FR _ _ B') E' 0%nat s eq_refl P) as (xs' & t' & L' & PX' & MX' & TS' & NR').
  assert (LO : List.length own = ray_count s).
  { unfold own. rewrite LR. cbn [map fst list_sum fold_right]. rewrite Nat.add_0_r. apply sample_rays_length. auto. }
  assert (EX : xs = xs').
  { assert (G : map Some xs = map Some xs').
    { rewrite MX, MX'. cbn [firstn list_sum fold_right skipn]. unfold v, v'. rewrite EA, map_app, firstn_app, map_length, LO, Nat.sub_diag, firstn_O, app_nil_r. auto. }
    clear -G. revert xs' G. induction xs as [|a xs IH]; intros [|b xs'] G; try discriminate; auto. cbn [map] in G. injection G as -> G. f_equal. auto. }
  subst xs'. rewrite TS in TS'. injection TS' as <-.
  destruct rows' as [|row' rows']; [discriminate|]. injection NR' as ->.
  exists t, rows'. split.
  - unfold trace_samples. fold fr. fold own. rewrite B. rewrite E. f_equal.
    unfold trace_rows in E. destruct (map_res _ _) as [rr|] eqn:ER in E; [|discriminate]. injection E as <-.
    destruct (map_res_nth _ _ _ ER) as (LL & _). cbn in LL. destruct rr as [|? [|? ?]]; try discriminate. injection NR as ->. auto.
  - unfold trace_samples. fold fr. fold all. rewrite B'. exact E'.
Qed.
Lemma same_case : forall sort, sorts sort -> exists t rows',
  trace_samples sort 9 3 3 1 0 1 (Some stacked) [(upward (-5) 95, 1%nat)] = Traced [Some t]
  /\ trace_samples sort 9 3 3 1 0 1 (Some stacked) ((upward (-5) 95, 1%nat) :: [(upward (-3) (-2), 2%nat)]) = Traced (Some t :: rows').
Proof.
  intros sort HS. destruct stacked_codes as (codes & E & T). destruct (few_tree sort stacked codes HS ltac:(discriminate) ltac:(cbn; lia) E T) as (ls & rs & CA & RA).
  apply (shared_same sort 9 3 3 1 0 1 stacked codes ls rs (upward (-5) 95) 1 [(upward (-3) (-2), 2%nat)]); auto; try lia; try lra; try discriminate; try (cbn; lia).
  - intros c [<-|[<-|[<-|[]]]]; apply squares_independent.
  - intros s owner r [Q|[Q|[]]] I; injection Q as <- <-; rewrite upward_blocking_rays in I; destruct I as [<-|[]]; apply up_sane.
  - intros s owner [Q|[Q|[]]]; injection Q as <- <-; apply upward_proper.
  - intros s owner r p [Q|[]] I LP NO ((t1 & T1 & B1) & (t2 & T2 & B2)); injection Q as <- <-; rewrite upward_blocking_rays in I; destruct I as [<-|[]]; exfalso.
    cbn [up_ray r_target_distance] in T1.
    assert (C1 := B1 pu (or_intror (or_intror (or_introl eq_refl)))). assert (C2 := B2 pu (or_intror (or_intror (or_introl eq_refl)))).
    destruct p as [|[|[|p]]]; [| |lia|cbn in LP; lia]; revert C1 C2; unfold ray_at, up_ray, stacked, square;
      cbn [nth corners_box map Rmin_list Rmax_list fold_left box_min box_max pe pn pu r_origin r_direction]; eval_minmax; intros; lra.
Qed.
