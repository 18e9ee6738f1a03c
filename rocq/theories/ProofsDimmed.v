(** Proofs about losses that dim the image (C155). *)
From Coq Require Import List Arith ZArith Reals Bool Lra Lia Permutation.
From Verif Require Import RealSums ModelField ModelVectors ModelLBVH SpecLBVH ModelBlocking SpecBlocking ModelSplatting SpecSplatting ProofsSplatting
  ModelIntersections SpecIntersections ModelTrace SpecTrace ProofsTrace ProofsTracePower.
Import ListNotations.
Local Open Scope R_scope.

(** [dimmer]: no pixel is brighter, and none is negative. *)
Definition lit (extinction reflectivity : R) (x : intersection * R) : ray_hit :=
  {| hit_e := i_e (fst x); hit_u := i_u (fst x); hit_intensity := ray_intensity extinction reflectivity (i_intensity (fst x)) (snd x) |}.
Lemma intensity_dimmed : forall x x' f f' i b b', 0 <= x <= x' -> x' <= 1 -> 0 <= f' <= f -> 0 <= i -> 0 <= b <= b' -> b' <= 1 ->
  0 <= ray_intensity x' f' i b' <= ray_intensity x f i b.
Proof.
  intros x x' f f' i b b' X X1 F I B B1. unfold ray_intensity. split.
  - repeat apply Rmult_le_pos; lra.
  - repeat apply Rmult_le_compat; try lra; repeat apply Rmult_le_pos; lra.
Qed.
Lemma pixel_dimmed : forall w h x x' f f' ii b b' r c, 0 <= x <= x' -> x' <= 1 -> 0 <= f' <= f ->
  (forall i, In i ii -> 0 <= i_intensity i) -> Forall2 (fun b b' => 0 <= b <= b' /\ b' <= 1) b b' ->
  let g := fun ray => hit_intensity ray * hat (hit_e ray - INR c) * hat (hit_u ray - INR r) in
  0 <= sum_where (on_bitmap w h) g (map (lit x' f') (combine ii b')) <= sum_where (on_bitmap w h) g (map (lit x f) (combine ii b)).
Proof.
  intros w h x x' f f' ii b b' r c X X1 F I B g. revert ii I. induction B as [|y y' b b' (Y & Y1) B IH]; intros [|i ii] I; try (cbn; lra).
  specialize (IH ii (fun j J => I j (or_intror J))). specialize (I i (or_introl eq_refl)).
  unfold sum_where in *. cbn [combine map filter]. change (on_bitmap w h (lit x' f' (i, y'))) with (on_bitmap w h (lit x f (i, y))).
  destruct (on_bitmap w h (lit x f (i, y))); auto. cbn [map Rsum fold_right]. fold (Rsum (map g (filter (on_bitmap w h) (map (lit x' f') (combine ii b'))))).
  fold (Rsum (map g (filter (on_bitmap w h) (map (lit x f) (combine ii b))))).
  pose proof (intensity_dimmed x x' f f' (i_intensity i) y y' X X1 F I Y Y1) as D.
  assert (G : 0 <= g (lit x' f' (i, y')) <= g (lit x f (i, y))).
  { unfold g, lit. cbn [hit_e hit_u hit_intensity fst snd]. pose proof (hat_nonneg (i_e i - INR c)). pose proof (hat_nonneg (i_u i - INR r)). split.
    - repeat apply Rmult_le_pos; lra.
    - repeat apply Rmult_le_compat; try lra; repeat apply Rmult_le_pos; lra. }
  lra.
Qed.
Lemma same_positive : forall ii b b', List.length b = List.length b' -> 
  on_target_factor (map (fun '(i, b) => (i_intensity i, b)) (combine ii b)) = on_target_factor (map (fun '(i, b) => (i_intensity i, b)) (combine ii b')).
Proof.
  intros ii b b' L. unfold on_target_factor, fraction. rewrite !map_length, !combine_length, L. do 2 f_equal.
  revert b b' L. induction ii as [|i ii IH]; intros [|y b] [|y' b'] L; try discriminate; auto. cbn [combine map filter]. injection L as L. specialize (IH _ _ L).
  destruct (positive (i_intensity i)); cbn [List.length]; auto.
Qed.
Lemma fewer_positive : forall x x' f f' ii b b', 0 <= x <= x' -> x' <= 1 -> 0 <= f' <= f ->
  (forall i, In i ii -> 0 <= i_intensity i) -> Forall2 (fun b b' => 0 <= b <= b' /\ b' <= 1) b b' ->
  intercept_factor x' f' (map (fun '(i, b) => (i_intensity i, b)) (combine ii b')) <= intercept_factor x f (map (fun '(i, b) => (i_intensity i, b)) (combine ii b)).
Proof.
  intros x x' f f' ii b b' X X1 F I B. unfold intercept_factor, fraction.
  assert (L : List.length b = List.length b') by (clear -B; induction B; cbn; auto). rewrite !map_length, !combine_length, L.
  assert (C : forall n m, (n <= m)%nat -> forall k, INR n / INR k <= INR m / INR k).
  { intros n m NM [|k]; [unfold Rdiv; change (INR 0) with 0; rewrite Rinv_0; lra|]. apply Rmult_le_compat_r; [left; apply Rinv_0_lt_compat; apply lt_0_INR; lia|apply le_INR; auto]. }
  apply C. clear C L. revert ii I. induction B as [|y y' b b' (Y & Y1) B IH]; intros [|i ii] I; auto.
  specialize (IH ii (fun j J => I j (or_intror J))). specialize (I i (or_introl eq_refl)). cbn [combine map filter].
  pose proof (intensity_dimmed x x' f f' (i_intensity i) y y' X X1 F I Y Y1) as D. 
  destruct (positive (ray_intensity x' f' (i_intensity i) y')) eqn:P1, (positive (ray_intensity x f (i_intensity i) y)) eqn:P2; cbn [List.length]; try lia.
  exfalso. unfold positive in P1, P2. destruct (Rlt_dec 0 (ray_intensity x' f' (i_intensity i) y')), (Rlt_dec 0 (ray_intensity x f (i_intensity i) y)); try discriminate; lra.
Qed.

Lemma sample_dimmed : forall w h m x x' f f' s b b', (2 <= w)%nat -> (2 <= h)%nat -> proper_sample s -> 0 <= m -> 0 <= x <= x' -> x' <= 1 -> 0 <= f' <= f ->
  List.length b = ray_count s -> Forall2 (fun b b' => 0 <= b <= b' /\ b' <= 1) b b' ->
  exists t t', trace_sample w h m x f s b = Ok t /\ trace_sample w h m x' f' s b' = Ok t'
    /\ (forall r c, (r < h)%nat -> (c < w)%nat -> 0 <= pixel (t_bitmap t') h r c <= pixel (t_bitmap t) h r c)
    /\ t_on_target t' = t_on_target t /\ t_intercept t' <= t_intercept t.
Proof.
  intros w h m x x' f f' s b b' W H PS M X X1 F L B. unfold trace_sample.
  assert (P : forall i, In i (sample_intersections w h m s) -> 0 <= i_e i /\ 0 <= i_u i /\ 0 <= i_intensity i).
  { intros i I. unfold sample_intersections in I. apply in_map_iff in I. destruct I as ((o & d) & <- & I).
    pose proof (sample_ray_unit s o d PS I) as U. destruct PS as (_ & _ & T & _).
    pose proof (intersect_bounds w h (s_target s) o d m W H T U M). cbv zeta in *. tauto. }
  set (ii := sample_intersections w h m s) in *. clearbody ii.
  assert (LL : forall x f b, map (fun '(i, b) => {| hit_e := i_e i; hit_u := i_u i; hit_intensity := ray_intensity x f (i_intensity i) b |}) (combine ii b) = map (lit x f) (combine ii b)).
  { intros. apply map_ext. intros (i & y). reflexivity. }
  rewrite !LL.
  assert (Q : forall x f b r, In r (map (lit x f) (combine ii b)) -> 0 <= hit_e r /\ 0 <= hit_u r).
  { intros x0 f0 b0 r I. apply in_map_iff in I. destruct I as ((i & y) & <- & I). apply in_combine_l in I. destruct (P i I) as (P1 & P2 & _). cbn. auto. }
  destruct (splatting_pixels w h (map (lit x f) (combine ii b))) as (image & E & _ & N); try lia; [apply Q|].
  destruct (splatting_pixels w h (map (lit x' f') (combine ii b'))) as (image' & E' & _ & N'); try lia; [apply Q|].
  rewrite E, E'. cbn [bind]. eexists. eexists. split; [reflexivity|]. split; [reflexivity|]. cbn [t_bitmap t_on_target t_intercept].
  assert (PI' : forall i, In i ii -> 0 <= i_intensity i) by (intros; apply P; auto).
  split; [|split].
  - intros r c RH CW. rewrite N, N' by auto. apply pixel_dimmed; auto.
  - apply same_positive. clear -B. induction B; cbn; auto.
  - apply fewer_positive; auto.
Qed.

Lemma row_of_sample : forall w h m x f samples blocked rows, fractions (list_sum (map (fun s => List.length (sample_rays s)) samples)) blocked ->
  trace_rows w h m x f samples blocked = Traced rows ->
  forall k s, nth_error samples k = Some s -> proper_sample s ->
  exists xs t, List.length xs = ray_count s /\ (forall y, In y xs -> 0 <= y <= 1)
    /\ map Some xs = firstn (ray_count s) (skipn (list_sum (firstn k (map (fun s => List.length (sample_rays s)) samples))) blocked)
    /\ trace_sample w h m x f s xs = Ok t /\ nth_error rows k = Some (Some t).
Proof.
  intros w h m x f samples blocked rows (BL & BF) E k s ES PS. unfold trace_rows in E.
  set (sizes := map (fun s => List.length (sample_rays s)) samples) in *.
  destruct (map_res _ _) as [rows'|] eqn:ER in E; [|discriminate]. injection E as ->.
  destruct (map_res_nth _ _ _ ER) as (L & N).
  assert (EZ : nth_error sizes k = Some (ray_count s)).
  { unfold sizes. erewrite map_nth_error by exact ES. f_equal. apply sample_rays_length. auto. }
  pose proof (split_at_nth sizes blocked k _ EZ) as EB. set (mine := firstn _ _) in EB.
  destruct (N k (s, mine)) as (row & NR & RE); [apply nth_combine; auto|].
  assert (INC : forall o, In o mine -> In o blocked).
  { intros o I. rewrite <- (firstn_skipn (list_sum (firstn k sizes)) blocked). apply in_or_app. right.
    unfold mine in I. rewrite <- (firstn_skipn (ray_count s) (skipn _ blocked)). apply in_or_app. left. exact I. }
  destruct (all_some_ok (fun b => 0 <= b <= 1) mine) as (xs & AE & EM & PX); [intros o I; apply BF; auto|].
  assert (LX : List.length xs = ray_count s).
  { rewrite <- (map_length Some), <- EM. unfold mine. rewrite firstn_length, skipn_length, BL.
    destruct (nth_error_split sizes k EZ) as (l1 & l2 & ESZ & LK).
    rewrite ESZ. rewrite firstn_app, LK, Nat.sub_diag, firstn_O, app_nil_r.
    rewrite firstn_all2 by lia. rewrite list_sum_app. cbn [list_sum fold_right]. fold (list_sum l2). lia. }
  rewrite AE in RE. destruct (trace_sample w h m x f s xs) as [t|] eqn:ET; [|discriminate]. cbn [bind] in RE. injection RE as <-.
  exists xs, t. auto.
Qed.
Lemma run_fractions : forall sort fuel w h m blocking samples, sorts sort ->
  (forall corners c, blocking = Some corners -> In c corners -> independent (span_u (primitive_of_corners c)) (span_v (primitive_of_corners c))) ->
  (exists e, forall x f, trace_samples sort fuel w h m x f blocking samples = e /\ forall rows, e <> Traced rows)
  \/ exists blocked, fractions (list_sum (map (fun s => List.length (sample_rays s)) (map fst samples))) blocked
     /\ (forall x f, trace_samples sort fuel w h m x f blocking samples = trace_rows w h m x f (map fst samples) blocked)
     /\ (blocking = None -> forall y, In y blocked -> y = Some 0).
Proof.
  intros sort fuel w h m blocking samples HS IC. unfold trace_samples. destruct blocking as [corners|].
  - destruct (batch_blocked _ _ _ _) as [values|e|] eqn:EB; [right|left; eexists; split; [reflexivity|discriminate]..].
    exists values. destruct (batch_fractions sort fuel corners _ values (fun c => IC corners c eq_refl)
                     (fun found EF => found_in_range sort fuel corners _ found HS EF) EB) as (L & Q).
    split; [split; auto|split; [auto|discriminate]]. rewrite L, flat_map_length. f_equal. rewrite map_map. apply map_ext. intros (s & owner). apply blocking_rays_length.
  - right. eexists. split; [|split; [reflexivity|]].
    + split; [rewrite map_length, flat_map_length; auto|]. intros o I. apply in_map_iff in I. destruct I as (r & <- & _). exists 0. split; auto. lra.
    + intros _ y I. apply in_map_iff in I. destruct I as (r & <- & _). auto.
Qed.
Theorem dimmed : forall sort fuel w h m x x' f f' blocking blocking' samples rows rows', sorts sort -> (2 <= w)%nat -> (2 <= h)%nat -> 0 <= m ->
  0 <= x <= x' -> x' <= 1 -> 0 <= f' <= f -> blocking = None \/ blocking = blocking' ->
  (forall corners c, blocking' = Some corners -> In c corners -> independent (span_u (primitive_of_corners c)) (span_v (primitive_of_corners c))) ->
  trace_samples sort fuel w h m x f blocking samples = Traced rows -> trace_samples sort fuel w h m x' f' blocking' samples = Traced rows' ->
  forall k s owner, nth_error samples k = Some (s, owner) -> proper_sample s ->
  exists t t', nth_error rows k = Some (Some t) /\ nth_error rows' k = Some (Some t')
    /\ (forall r c, (r < h)%nat -> (c < w)%nat -> 0 <= pixel (t_bitmap t') h r c <= pixel (t_bitmap t) h r c)
    /\ t_on_target t' = t_on_target t /\ t_intercept t' <= t_intercept t.
Proof.
  intros sort fuel w h m x x' f f' blocking blocking' samples rows rows' HS W H M X X1 F BB IC E E' k s owner ES PS.
  assert (ES' : nth_error (map fst samples) k = Some s) by (rewrite nth_error_map, ES; auto).
  destruct (run_fractions sort fuel w h m blocking' samples HS IC) as [(e & Q)|(bl' & FR' & T' & _)]; [destruct (Q x' f') as (Q1 & Q2); rewrite Q1 in E'; exfalso; eapply Q2; eauto|].
  assert (IC2 : forall corners c, blocking = Some corners -> In c corners -> independent (span_u (primitive_of_corners c)) (span_v (primitive_of_corners c))).
  { destruct BB as [->| ->]; [discriminate|auto]. }
  destruct (row_of_sample w h m x' f' (map fst samples) bl' rows' FR' ltac:(rewrite <- T'; exact E') k s ES' PS) as (xs' & t' & L' & P' & MX' & TS' & NR').
  assert (G : exists xs t, List.length xs = ray_count s /\ Forall2 (fun b b' => 0 <= b <= b' /\ b' <= 1) xs xs' /\ trace_sample w h m x f s xs = Ok t /\ nth_error rows k = Some (Some t)).
  { destruct BB as [->| ->].
    - destruct (unblocked_rows _ _ _ _ _ _ _ _ _ E) as (_ & U). destruct (U k s owner ES) as (t & NT & TT).
      exists (repeat 0 (List.length (sample_rays s))), t. rewrite repeat_length. split; [apply sample_rays_length; auto|]. split; [|auto].
      rewrite (sample_rays_length s PS), <- L'. clear -P'. induction xs' as [|y xs' IH]; cbn [List.length repeat]; constructor.
      + pose proof (P' y (or_introl eq_refl)). lra.
      + apply IH. intros z Z. apply P'. right. auto.
    - destruct (row_of_sample w h m x f (map fst samples) bl' rows FR' ltac:(rewrite <- T'; exact E) k s ES' PS) as (xs & t & L & P & MX & TS & NR).
      exists xs, t. split; auto. split; [|auto]. rewrite <- MX' in MX.
      assert (EQ : xs = xs'). { clear -MX. revert xs' MX. induction xs as [|a xs IH]; intros [|b xs'] MX; try discriminate; auto. cbn [map] in MX. injection MX as -> MX. f_equal. auto. }
      subst xs'. clear -P. induction xs as [|y xs IH]; constructor.
      + pose proof (P y (or_introl eq_refl)). lra.
      + apply IH. intros z Z. apply P. right. auto. }
  destruct G as (xs & t & L & FA & TS & NR).
  destruct (sample_dimmed w h m x x' f f' s xs xs' W H PS M X X1 F L FA) as (t1 & t1' & T1 & T1' & R1). rewrite TS in T1. rewrite TS' in T1'. injection T1 as <-. injection T1' as <-.
  exists t, t'. auto.
Qed.

(** ** Further mirrors can brighten an image *)
From Verif Require Import ProofsVectors ModelTransforms ProofsTransforms ProofsTracing ProofsIntersections ProofsLBVHRefuted ProofsBlocking ProofsBlockingTracer ProofsObstruction ProofsTraceBatch.
Definition east_area : plane := {| plane_center := vec 1023 0 95; plane_normal := vec 0 0 (-1); plane_width := 2; plane_height := 2 |}.
Definition eastern : sample :=
  {| s_incident := vec 0 0 (-1); s_surface := [(vec 1023 0 (-5), vec 0 0 1)]; s_target := PlanarTarget east_area; s_distortions := [[(0, 0)]] |}.
Lemma eastern_proper : proper_sample eastern.
Proof.
  unfold proper_sample, eastern. cbn [s_incident s_surface s_target s_distortions]. split; [unfold unit; vunfold; ring|]. split.
  - intros p n [E|[]]. injection E as <- <-. unfold unit. vunfold. ring.
  - split; [|intros row [<-|[]]; auto]. cbn [proper_target]. unfold sized, east_area. cbn [plane_width plane_height plane_normal]. unfold unit. vunfold. lra.
Qed.
Lemma eastern_rays : sample_rays eastern = [(vec 1023 0 (-5), vec 0 0 1)].
Proof.
  unfold sample_rays, eastern. cbn [s_distortions s_surface s_incident flat_map combine map app]. rewrite scatter_zero.
  unfold reflect. do 2 f_equal. apply point_eq; vunfold; cbn [pe pn pu]; ring.
Qed.
Lemma eastern_intersection : sample_intersections 3 3 1 eastern = [{| i_e := 1; i_u := 1; i_distance := 100; i_intensity := 1 |}].
Proof.
  unfold sample_intersections. rewrite eastern_rays. cbn [map eastern s_target intersect].
  assert (HA : hits_area east_area (vec 1023 0 (-5)) (vec 0 0 1) 100).
  { unfold hits_area, on_plane, within_area, along, east_area. cbn [plane_center plane_normal plane_width plane_height]. vunfold.
    repeat split; try match goal with |- Rabs ?x <= _ => replace x with 0 by ring; rewrite Rabs_R0 end; lra. }
  assert (S : sized east_area) by (unfold sized, east_area; cbn; lra).
  rewrite (plane_hit 3 3 east_area ltac:(lia) ltac:(lia) S _ _ 1 _ HA).
  unfold along, east_area. cbn [plane_center plane_normal plane_width plane_height INR]. vunfold. repeat f_equal; field.
Qed.
Lemma eastern_blocked : forall sort fuel corners b, batch_blocked sort fuel corners [east_ray] = Blocked [Some b] ->
  exists t, trace_samples sort fuel 3 3 1 0 1 (Some corners) [(eastern, 0%nat)] = Traced [Some t] /\ image_total (t_bitmap t) = 1 - b.
Proof.
  intros sort fuel corners b E. unfold trace_samples. cbn [flat_map app]. unfold blocking_rays. rewrite eastern_intersection, eastern_rays. cbn [combine map i_distance app].
  change {| r_origin := vec 1023 0 (-5); r_direction := vec 0 0 1; r_target_distance := 100; r_owner := 0 |} with east_ray. rewrite E.
  unfold trace_rows. cbn [map fst]. rewrite eastern_rays. cbn [List.length split_at firstn skipn combine map_res all_some option_map].
  unfold trace_sample. rewrite eastern_intersection. cbn [combine map i_e i_u i_intensity].
  destruct (power_conserved 3 3 [{| hit_e := 1; hit_u := 1; hit_intensity := ray_intensity 0 1 1 b |}]) as (image & EI & _ & T & _); try lia.
  { intros r [<-|[]]. cbn. lra. }
  rewrite EI. cbn [bind]. eexists. split; [reflexivity|]. cbn [t_bitmap]. rewrite T. unfold sum_where. cbn [filter].
  assert (I : inside_gridb 3 3 {| hit_e := 1; hit_u := 1; hit_intensity := ray_intensity 0 1 1 b |} = true).
  { apply inside_gridb_iff. unfold inside_grid. cbn [hit_e hit_u INR]. lra. }
  rewrite I. cbn [map Rsum fold_right hit_intensity]. unfold ray_intensity. ring.
Qed.
Lemma squares_independent : forall e u, independent (span_u (primitive_of_corners (square e u))) (span_v (primitive_of_corners (square e u))).
Proof. intros. apply (regular_independent (/ 10 ^ 12) {| pe := 0; pn := 0; pu := 1 |}); [lra|apply up_regular]. Qed.
Theorem brightened : (forall sort, sorts sort -> exists x, batch_blocked sort 9 [square 0 0; square 1023 0] [east_ray] = Blocked [Some x] /\ 3/4 <= x < 1) ->
  exists corners corners' s, proper_sample s /\ incl corners corners' /\ hd [] corners = hd [] corners'
  /\ (forall c, In c corners' -> independent (span_u (primitive_of_corners c)) (span_v (primitive_of_corners c)))
  /\ forall sort, sorts sort -> exists t t', trace_samples sort 9 3 3 1 0 1 (Some corners) [(s, 0%nat)] = Traced [Some t]
     /\ trace_samples sort 9 3 3 1 0 1 (Some corners') [(s, 0%nat)] = Traced [Some t']
     /\ image_total (t_bitmap t) <= 1/4 /\ image_total (t_bitmap t') = 1.
Proof.
  intros TWO. exists [square 0 0; square 1023 0], six, eastern. split; [apply eastern_proper|]. split.
  { intros c [<-|[<-|[]]]; unfold six; [left; auto|]. do 4 right. left. auto. }
  split; [reflexivity|]. split.
  { intros c I. unfold six in I. cbn [In] in I. repeat (destruct I as [<-|I]; [apply squares_independent|]). destruct I. }
  intros sort HS. destruct (TWO sort HS) as (x & B & K). destruct (eastern_blocked sort 9 _ x B) as (t & T & IT).
  destruct (eastern_blocked sort 9 six 0 (six_overlooked sort 9 HS (le_n 9))) as (t' & T' & IT').
  exists t, t'. split; auto. split; auto. lra.
Qed.
