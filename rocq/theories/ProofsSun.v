From Coq Require Import List Arith Reals Bool ZArith Lia Lra.
From Verif Require Import RealSums ModelField ModelDistributed SpecDistributed ProofsDistributed ModelVectors ModelSplatting SpecSplatting ProofsSplatting ProofsTracing
  ModelIntersections SpecIntersections ModelLBVH ModelTrace SpecTrace ProofsTrace ModelSun.
Import ListNotations.
Local Open Scope nat_scope.

Section Generator.
Context {G : Type}.
Variables (seeded : nat -> G) (draw : G -> sun -> nat * nat * nat -> (nat -> nat -> nat -> R * R) * G).

Lemma reproducible : forall s points heliostats seed before before',
  get_distortions seeded draw s points heliostats seed before = get_distortions seeded draw s points heliostats seed before'
  /\ length (fst (get_distortions seeded draw s points heliostats seed before)) = heliostats
  /\ (forall angles, In angles (fst (get_distortions seeded draw s points heliostats seed before)) ->
        length angles = sun_rays s /\ forall row, In row angles -> length row = points).
Proof.
  intros. unfold get_distortions. destruct (draw _ _ _) as (values & g). split; [reflexivity|]. cbn [fst]. split.
  - rewrite map_length, seq_length. reflexivity.
  - intros angles I. apply in_map_iff in I. destruct I as (h & <- & _). rewrite map_length, seq_length. split; [reflexivity|].
    intros row I. apply in_map_iff in I. destruct I as (r & <- & _). rewrite map_length, seq_length. reflexivity.
Qed.

Lemma reproducible_rows : forall {S A} (trace : list (list (R * R)) -> S -> A) s points mask state world rank batch_size seed before before',
  traced_rows seeded draw trace s points mask state world rank batch_size seed before
  = traced_rows seeded draw trace s points mask state world rank batch_size seed before'.
Proof. intros. unfold traced_rows, distortions_dataset. rewrite (proj1 (reproducible s points (list_sum mask) seed before before')). reflexivity. Qed.

Lemma nth_error_some : forall {A} (l : list A) i, i < length l -> exists x, nth_error l i = Some x.
Proof. intros A l i H. destruct (nth_error l i) eqn:E; eauto. apply nth_error_None in E. lia. Qed.

Lemma distributed_rows : forall {S A} (trace : list (list (R * R)) -> S -> A) s points mask state world batch_size batch_size' seed before per,
  1 <= batch_size -> 1 <= batch_size' -> 1 <= world -> (exists m, In m mask /\ 0 < m) -> (forall m, In m mask -> m = 0 \/ m = per) -> length state = list_sum mask ->
  forall i, i < list_sum mask -> exists owner row, owner < world
    /\ nth_error (traced_rows seeded draw trace s points mask state 1 0 batch_size' seed before) i = Some (Some row)
    /\ nth_error (traced_rows seeded draw trace s points mask state world owner batch_size seed before) i = Some (Some row)
    /\ forall rank, rank < world -> rank <> owner -> nth_error (traced_rows seeded draw trace s points mask state world rank batch_size seed before) i = Some None.
Proof.
  intros S A trace s points mask state world batch_size batch_size' seed before per B B' W M E L i I.
  assert (LD : length (fst (distortions_dataset seeded draw s points mask seed before)) = list_sum mask) by (apply reproducible; auto).
  destruct (nth_error_some (fst (distortions_dataset seeded draw s points mask seed before)) i ltac:(lia)) as (d & D).
  destruct (nth_error_some state i ltac:(lia)) as (x & X).
  destruct (batched_tracing trace (fst (distortions_dataset seeded draw s points mask seed before)) state mask world batch_size per) as (_ & H); auto.
  destruct (batched_tracing trace (fst (distortions_dataset seeded draw s points mask seed before)) state mask 1 batch_size' per) as (_ & H1); auto.
  destruct (H i d x D X) as (o & O & R1 & R2). destruct (H1 i d x D X) as (o' & O' & R1' & _). assert (o' = 0) by lia. subst o'.
  exists o, (trace d x). unfold traced_rows. auto.
Qed.

Lemma rank_one_samples : forall mask world per, 2 <= world -> 2 <= mask_active mask -> (forall m, In m mask -> m = 0 \/ m = per) ->
  1 <= per /\ per < list_sum mask /\ In per (tracer_sampler_indices mask world 1).
Proof.
  intros mask world per W A E.
  assert (SM : list_sum mask = mask_active mask * per).
  { clear A. unfold mask_active. induction mask as [|m mask IH]; auto. cbn [list_sum fold_right filter]. change (fold_right Nat.add 0 mask) with (list_sum mask).
    rewrite IH by (intros; apply E; right; auto). destruct (E m (or_introl eq_refl)) as [->| ->]; [reflexivity|].
    destruct (Nat.ltb_spec 0 per); cbn [length]; nia. }
  assert (P : 1 <= per).
  { destruct per; [|lia]. exfalso. unfold mask_active in A.
    assert (Z : filter (fun m => 0 <? m) mask = []).
    { clear A SM. induction mask as [|m mask IH]; auto. cbn [filter]. destruct (E m (or_introl eq_refl)) as [->| ->]; change (0 <? 0) with false; cbv iota; apply IH; intros; apply E; right; auto. }
    rewrite Z in A. cbn in A. lia. }
  split; auto. split; [nia|]. unfold tracer_sampler_indices, mask_samples, sampler_indices. rewrite SM.
  destruct (Nat.ltb_spec 1 (Nat.min (mask_active mask) world)); [|lia]. apply in_flat_map. exists 1. split; [apply in_seq; lia|].
  rewrite Nat.mod_small by lia. cbn [Nat.eqb]. rewrite (Nat.mul_comm (mask_active mask) per), Nat.div_mul by lia. apply in_seq. lia.
Qed.

Lemma seeded_by_rank : forall {S A} (trace : list (list (R * R)) -> S -> A) s points mask state world batch_size before per,
  1 <= batch_size -> 2 <= world -> 2 <= mask_active mask -> (forall m, In m mask -> m = 0 \/ m = per) -> length state = list_sum mask ->
  (forall i d d' x, nth_error (fst (distortions_dataset seeded draw s points mask 0 before)) i = Some d ->
     nth_error (fst (distortions_dataset seeded draw s points mask 1 before)) i = Some d' -> nth_error state i = Some x -> trace d x <> trace d' x) ->
  exists i single distributed, nth_error (optimizer_rows seeded draw trace s points mask state 1 0 batch_size before) i = Some (Some single)
    /\ nth_error (optimizer_rows seeded draw trace s points mask state world 1 batch_size before) i = Some (Some distributed)
    /\ single <> distributed.
Proof.
  intros S A trace s points mask state world batch_size before per B W AC E L D.
  destruct (rank_one_samples mask world per W AC E) as (P & I & IN).
  assert (LD : forall seed, length (fst (distortions_dataset seeded draw s points mask seed before)) = list_sum mask) by (intros; apply reproducible; auto).
  destruct (nth_error_some (fst (distortions_dataset seeded draw s points mask 0 before)) per ltac:(rewrite LD; auto)) as (d & D0).
  destruct (nth_error_some (fst (distortions_dataset seeded draw s points mask 1 before)) per ltac:(rewrite LD; auto)) as (d' & D1).
  destruct (nth_error_some state per ltac:(lia)) as (x & X).
  assert (SP : forall seed w r dd, nth_error (fst (distortions_dataset seeded draw s points mask seed before)) per = Some dd -> In per (tracer_sampler_indices mask w r) ->
    nth_error (trace_batches trace (fst (distortions_dataset seeded draw s points mask seed before)) state (tracer_sampler_indices mask w r) batch_size) per = Some (Some (trace dd x))).
  { intros seed w r dd DD II. destruct (trace_batches_spec trace (fst (distortions_dataset seeded draw s points mask seed before)) state (tracer_sampler_indices mask w r) batch_size) as (_ & N); auto.
    - rewrite LD, L. auto.
    - apply tracer_sampler_sorted.
    - intros i Hi. rewrite L. eapply tracer_sampler_lt; eauto.
    - rewrite (N per dd x DD X). apply existsb_eqb_iff in II. rewrite II. reflexivity. }
  assert (IN0 : In per (tracer_sampler_indices mask 1 0)).
  { assert (HP : exact_partition (tracer_sampler_indices mask 1) 1 (list_sum mask)).
    { apply (tracer_exact_partition per mask 1); auto. unfold mask_active in AC. destruct (filter (fun m => 0 <? m) mask) as [|m l] eqn:F; [cbn in AC; lia|].
      assert (FI : In m (filter (fun m => 0 <? m) mask)) by (rewrite F; left; auto). apply filter_In in FI. destruct FI as (FI & FP). apply Nat.ltb_lt in FP. eauto. }
    destruct (partition_owner _ _ _ _ HP I) as (o & O & Q). assert (o = 0) by lia. subst. auto. }
  exists per, (trace d x), (trace d' x). split; [apply SP; auto|]. split; [apply SP; auto|]. eapply D; eauto.
Qed.
End Generator.

(** ** Stored shapes *)
Lemma broadcast_same : forall {A} n (l : list A), length l = n -> broadcast_dim n l = Ok l.
Proof. intros A n l E. unfold broadcast_dim. rewrite E, Nat.eqb_refl. reflexivity. Qed.
Lemma broadcast_fails : forall {A} n (l : list A), length l <> n -> length l <> 1 -> broadcast_dim n l = Err RuntimeError.
Proof. intros A n l E O. unfold broadcast_dim. destruct (Nat.eqb_spec (length l) n); [contradiction|]. destruct l as [|x [|y l]]; auto. cbn in O. lia. Qed.
Lemma map_res_same : forall {A} (f : A -> res A) l, (forall x, In x l -> f x = Ok x) -> map_res f l = Ok l.
Proof. induction l as [|x l IH]; intros H; auto. cbn [map_res]. rewrite H by (left; auto). cbn [bind]. rewrite IH by (intros; apply H; right; auto). reflexivity. Qed.

Lemma rows_length : forall width height magnitude s, proper_sample s -> forall row, In row (intersection_rows width height magnitude s) -> length row = length (s_surface s).
Proof.
  intros width height magnitude s (_ & _ & _ & D) row I. unfold intersection_rows in I. apply in_map_iff in I. destruct I as (angles & <- & I).
  rewrite map_length, combine_length, (D angles I). apply Nat.min_id.
Qed.
Lemma rows_concat : forall width height magnitude s, concat (intersection_rows width height magnitude s) = sample_intersections width height magnitude s.
Proof.
  intros. unfold intersection_rows, sample_intersections, sample_rays. rewrite flat_map_concat_map, concat_map, map_map. f_equal. apply map_ext.
  intros angles. rewrite map_map. apply map_ext. intros ((o & n) & (u & e)). reflexivity.
Qed.
Lemma stored_same : forall width height magnitude s, proper_sample s ->
  store_rays (length (s_distortions s)) (length (s_surface s)) (intersection_rows width height magnitude s) = Ok (intersection_rows width height magnitude s).
Proof.
  intros width height magnitude s P. unfold store_rays. rewrite map_res_same.
  - cbn [bind]. apply broadcast_same. unfold intersection_rows. apply map_length.
  - intros row I. apply broadcast_same. eapply rows_length; eauto.
Qed.
Lemma combine_repeat : forall {A B} (l : list A) (x : B) n, length l = n -> combine l (repeat x n) = map (fun a => (a, x)) l.
Proof. intros A B l x n <-. induction l as [|a l IH]; auto. cbn. f_equal. auto. Qed.

Lemma unchanged_sizes : forall width height magnitude extinction reflectivity s, proper_sample s ->
  trace_stored width height magnitude extinction reflectivity (length (s_distortions s)) (length (s_surface s)) s
  = trace_sample width height magnitude extinction reflectivity s (repeat 0%R (ray_count s)).
Proof.
  intros width height magnitude extinction reflectivity s P. unfold trace_stored. rewrite stored_same by auto. cbn [bind]. rewrite rows_concat.
  unfold trace_sample. cbv zeta. rewrite combine_repeat.
  - rewrite !map_map. reflexivity.
  - unfold sample_intersections. rewrite map_length. apply sample_rays_length. auto.
Qed.

Lemma changed_rays : forall width height magnitude extinction reflectivity rays points s, proper_sample s -> points = length (s_surface s) ->
  length (s_distortions s) <> rays -> length (s_distortions s) <> 1 ->
  trace_stored width height magnitude extinction reflectivity rays points s = Err RuntimeError.
Proof.
  intros width height magnitude extinction reflectivity rays points s P PE N O. unfold trace_stored, store_rays. subst points. rewrite map_res_same.
  - cbn [bind]. rewrite broadcast_fails; auto; unfold intersection_rows; rewrite map_length; auto.
  - intros row I. apply broadcast_same. eapply rows_length; eauto.
Qed.
Lemma changed_points : forall width height magnitude extinction reflectivity rays points s, proper_sample s -> 1 <= length (s_distortions s) ->
  length (s_surface s) <> points -> length (s_surface s) <> 1 ->
  trace_stored width height magnitude extinction reflectivity rays points s = Err RuntimeError.
Proof.
  intros width height magnitude extinction reflectivity rays points s P D N O. unfold trace_stored, store_rays.
  pose proof (rows_length width height magnitude s P) as RL.
  assert (LI : length (intersection_rows width height magnitude s) = length (s_distortions s)) by (unfold intersection_rows; apply map_length).
  destruct (intersection_rows width height magnitude s) as [|row rows]; [cbn in LI; lia|]. cbn [map_res].
  rewrite broadcast_fails; [reflexivity| |]; rewrite (RL row); auto; left; auto.
Qed.

Lemma sum_where_app : forall {A} (p : A -> bool) f (a b : list A), sum_where p f (a ++ b) = (sum_where p f a + sum_where p f b)%R.
Proof. intros. unfold sum_where. rewrite filter_app, map_app, Rsum_app. reflexivity. Qed.
Lemma sum_where_repeat : forall {A} (p : A -> bool) f (l : list A) n, sum_where p f (concat (repeat l n)) = (INR n * sum_where p f l)%R.
Proof.
  intros A p f l n. induction n as [|n IH]; [cbn; unfold sum_where; cbn; lra|]. cbn [repeat concat]. rewrite sum_where_app, IH, S_INR. lra.
Qed.
Lemma map_repeat' : forall {A B} (f : A -> B) x n, map f (repeat x n) = repeat (f x) n.
Proof. intros A B f x n. induction n; auto. cbn. f_equal. auto. Qed.
Lemma single_ray_multiplied : forall width height magnitude extinction reflectivity rays s, 2 <= width -> 2 <= height ->
  proper_sample s -> (0 <= magnitude)%R -> length (s_distortions s) = 1 ->
  exists t t', trace_stored width height magnitude extinction reflectivity 1 (length (s_surface s)) s = Ok t
  /\ trace_stored width height magnitude extinction reflectivity rays (length (s_surface s)) s = Ok t'
  /\ image_total (t_bitmap t') = (INR rays * image_total (t_bitmap t))%R.
Proof.
  intros width height magnitude extinction reflectivity rays s W H P M O.
  pose proof (rows_length width height magnitude s P) as RL.
  assert (LI : length (intersection_rows width height magnitude s) = 1) by (unfold intersection_rows; rewrite map_length; auto).
  assert (BO : forall i, In i (sample_intersections width height magnitude s) -> (0 <= i_e i /\ 0 <= i_u i)%R).
  { intros i I. unfold sample_intersections in I. apply in_map_iff in I. destruct I as ((o & d) & <- & I).
    pose proof (sample_ray_unit s o d P I) as U. destruct P as (_ & _ & T & _).
    pose proof (intersect_bounds width height (s_target s) o d magnitude W H T U M). cbv zeta in *. tauto. }
  rewrite <- rows_concat in BO. unfold trace_stored, store_rays.
  rewrite (map_res_same _ (intersection_rows width height magnitude s)) by (intros row I; apply broadcast_same; apply RL; auto). cbn [bind].
  destruct (intersection_rows width height magnitude s) as [|row [|? ?]]; [cbn in LI; lia| |cbn in LI; lia]. clear LI RL. cbn [concat] in BO. rewrite app_nil_r in BO.
  rewrite (broadcast_same 1) by reflexivity. cbn [bind concat]. rewrite app_nil_r.
  assert (BR : broadcast_dim rays [row] = Ok (repeat row rays)).
  { unfold broadcast_dim. cbn [length]. destruct (Nat.eqb_spec 1 rays) as [<-|]; reflexivity. }
  rewrite BR. cbn [bind].
  set (hit := fun i => {| hit_e := i_e i; hit_u := i_u i; hit_intensity := ray_intensity extinction reflectivity (i_intensity i) 0%R |}).
  destruct (power_conserved width height (map hit row)) as (im & E & _ & T & _); try lia.
  { intros r I. apply in_map_iff in I. destruct I as (i & <- & I). cbn. auto. }
  destruct (power_conserved width height (map hit (concat (repeat row rays)))) as (im' & E' & _ & T' & _); try lia.
  { intros r I. apply in_map_iff in I. destruct I as (i & <- & I). cbn. apply BO. apply in_concat in I. destruct I as (l & I & J). apply repeat_spec in I. subst. auto. }
  rewrite E, E'. cbn [bind]. eexists. eexists. split; [reflexivity|]. split; [reflexivity|]. cbn [t_bitmap]. rewrite T, T'.
  rewrite concat_map, map_repeat', sum_where_repeat. reflexivity.
Qed.
