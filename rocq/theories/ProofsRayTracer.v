(** Proofs about whole calls of [trace_rays] (C125). *)
From Coq Require Import List Arith ZArith Reals Bool Lra Lia Sorted.
From Verif Require Import RealSums ModelField ModelVectors ModelTransforms ModelDistributed ModelLBVH ModelBlocking ModelSplatting ModelIntersections ModelKinematics ModelTrace
  ModelRayTracer SpecIntersections SpecTransforms SpecSplatting SpecTrace SpecDistributed SpecRayTracer ProofsDistributed ProofsTracing ProofsTrace ProofsTracePower.
Import ListNotations.
Local Open Scope R_scope.

Lemma area_unique : forall t number a, area_with_number t number a <-> target_at (rt_planar t) (rt_cylindrical t) number = Ok a.
Proof.
  intros t number a. unfold target_at. destruct (Nat.ltb_spec number (List.length (rt_planar t))) as [L|L].
  - destruct (nth_error (rt_planar t) number) as [p|] eqn:E; [|apply nth_error_None in E; lia]. destruct a as [q|c]; cbn [area_with_number].
    + split; intros Q; [congruence|]. injection Q as ->. auto.
    + split; [intros (k & -> & _); lia|discriminate].
  - destruct a as [q|c]; cbn [area_with_number].
    + split; [intros Q; assert (number < List.length (rt_planar t))%nat by (apply nth_error_Some; congruence); lia|].
      destruct (nth_error (rt_cylindrical t) _); discriminate.
    + split.
      * intros (k & -> & E). replace (List.length (rt_planar t) + k - List.length (rt_planar t))%nat with k by lia. rewrite E. auto.
      * destruct (nth_error (rt_cylindrical t) _) as [c'|] eqn:E; [|discriminate]. intros Q. injection Q as <-. eexists. split; [|exact E]. lia.
Qed.
Lemma read_at : forall {A} (l : list A) (x0 : A) batch, StronglySorted lt batch -> (forall i, In i batch -> (i < List.length l)%nat) ->
  read_masked l (fun i => existsb (Nat.eqb i) batch) = map (fun i => nth i l x0) batch.
Proof.
  intros A l x0 batch HS HI. unfold read_masked. rewrite (read_masked_spec x0), sorted_filter_seq; auto.
  - apply map_ext. intros. rewrite Nat.sub_0_r. auto.
  - intros i I. specialize (HI i I). lia.
Qed.
Lemma loaded : forall {A} (l : list A) (x0 : A) batch, (forall i, In i batch -> (i < List.length l)%nat) ->
  flat_map (fun i => match nth_error l i with Some d => [d] | None => [] end) batch = map (fun i => nth i l x0) batch.
Proof.
  intros A l x0 batch. induction batch as [|i b IH]; intros HI; auto. cbn [flat_map map].
  rewrite (nth_error_nth' l x0) by (apply HI; left; auto). cbn [app]. f_equal. apply IH. intros; apply HI; right; auto.
Qed.
Lemma combine_maps : forall {A B C} (f : A -> B) (g : A -> C) l, combine (map f l) (map g l) = map (fun x => (f x, g x)) l.
Proof. induction l; cbn; congruence. Qed.

Section Rows.
Variables (sort : list Z -> list Z * list nat) (fuel : nat) (t : ray_tracer) (incident : list point) (targets : list nat) (extinction reflectivity : R).
Let n := list_sum (rt_mask t).
Hypothesis (OP : one_per_sample t) (LI : List.length incident = n) (LT : List.length targets = n).

(** A batch in which all samples have a target area. *)
Lemma batch_samples : forall (smp : nat -> sample) out batch, StronglySorted lt batch -> (forall i, In i batch -> (i < n)%nat) ->
  (forall i, In i batch -> sample_at t incident targets i (smp i)) ->
  rays_batch sort fuel t incident targets extinction reflectivity out batch
  = match match rt_blocking t with Some _ => batch_owners (rt_mask t) batch | None => Ok (map (fun _ => 0%nat) batch) end with
    | Ok owners =>
      match trace_samples sort fuel (rt_width t) (rt_height t) (rt_magnitude t) extinction reflectivity (rt_blocking t) (combine (map smp batch) owners) with
      | Traced rows => Rows (write_masked out 0 (fun i => existsb (Nat.eqb i) batch) rows)
      | TraceError e => RowsError e
      | TraceNoFuel => RowsNoFuel
      end
    | Err e => RowsError e
    end.
Proof.
  intros smp out batch HS HI SM. destruct OP as (LP & LN & LD). unfold rays_batch. fold n in LP, LN, LD.
  rewrite (read_at targets 0%nat), (read_at incident (vec 0 0 0)), (read_at (rt_points t) []), (read_at (rt_normals t) []), (loaded (rt_distortions t) [])
    by (auto; intros i I; specialize (HI i I); lia).
  replace (map_res (target_at (rt_planar t) (rt_cylindrical t)) (map (fun i => nth i targets 0%nat) batch)) with (Ok (map (fun i => s_target (smp i)) batch) : res (list target)).
  2: { clear - SM. induction batch as [|i b IH]; auto. cbn [map map_res]. destruct (SM i (or_introl eq_refl)) as (_ & _ & _ & k & NK & AK).
       rewrite (nth_error_nth _ _ 0%nat NK). apply area_unique in AK. rewrite AK. cbn [bind]. rewrite <- IH by (intros; apply SM; right; auto). auto. }
  rewrite !combine_maps, map_map.
  replace (map _ batch) with (map smp batch); [reflexivity|]. apply map_ext_in. intros i I.
  destruct (SM i I) as (S1 & (ps & ns & S2 & S3 & S4) & S5 & _). rewrite (nth_error_nth _ _ _ S1), (nth_error_nth _ _ _ S2), (nth_error_nth _ _ _ S3), (nth_error_nth _ _ _ S5).
  destruct (smp i) as [a b c d]. cbn [s_incident s_surface s_target s_distortions] in *. rewrite S4. reflexivity.
Qed.

(** Without blocking. *)
Variables (smp : nat -> sample) (row : nat -> traced).
Hypothesis (NB : rt_blocking t = None).
Hypothesis (SM : forall i, (i < n)%nat -> sample_at t incident targets i (smp i)).
Hypothesis (ROW : forall i, (i < n)%nat ->
  trace_sample (rt_width t) (rt_height t) (rt_magnitude t) extinction reflectivity (smp i) (repeat 0 (List.length (sample_rays (smp i)))) = Ok (row i)).

Lemma traced_batch : forall batch, (forall i, In i batch -> (i < n)%nat) ->
  trace_samples sort fuel (rt_width t) (rt_height t) (rt_magnitude t) extinction reflectivity None (combine (map smp batch) (map (fun _ => 0%nat) batch))
  = Traced (map (fun i => Some (row i)) batch).
Proof.
  intros batch HI. unfold trace_samples, trace_rows. rewrite split_zeros, combine_maps, !map_map. cbn [fst]. rewrite combine_maps.
  match goal with |- match map_res ?f ?l with _ => _ end = _ => assert (E : map_res f l = Ok (map (fun i => Some (row i)) batch)); [|rewrite E; auto] end.
  clear - HI ROW. induction batch as [|i b IH]; auto. cbn [map map_res]. rewrite all_some_zeros, ROW by (apply HI; left; auto). cbn [bind].
  rewrite IH by (intros; apply HI; right; auto). auto.
Qed.
Lemma rows_batch : forall out batch, List.length out = n -> StronglySorted lt batch -> (forall i, In i batch -> (i < n)%nat) ->
  exists out', rays_batch sort fuel t incident targets extinction reflectivity out batch = Rows out' /\ List.length out' = n
  /\ forall j, (j < n)%nat -> nth_error out' j = if existsb (Nat.eqb j) batch then Some (Some (Some (row j))) else nth_error out j.
Proof.
  intros out batch LO HS HI. rewrite (batch_samples smp); auto. rewrite NB, traced_batch by auto. eexists. split; [reflexivity|].
  split; [rewrite write_masked_length; auto|]. intros j J.
  assert (FB : filter (fun i => existsb (Nat.eqb i) batch) (seq 0 n) = batch) by (apply sorted_filter_seq; auto; intros i I; specialize (HI i I); lia).
  replace (map (fun i => Some (row i)) batch) with (map (fun i => Some (row i)) (filter (fun i => existsb (Nat.eqb i) batch) (seq 0 (List.length out)))) by (rewrite LO, FB; auto).
  rewrite write_masked_spec. cbn [Nat.add]. destruct (nth_error out j) eqn:E; [|apply nth_error_None in E; lia]. destruct (existsb _ batch); auto.
Qed.
Lemma rows_batches : forall batches out, List.length out = n -> (forall b, In b batches -> StronglySorted lt b) -> (forall b i, In b batches -> In i b -> (i < n)%nat) ->
  exists out', rays_batches sort fuel t incident targets extinction reflectivity out batches = Rows out' /\ List.length out' = n
  /\ forall j, (j < n)%nat -> nth_error out' j = if existsb (Nat.eqb j) (List.concat batches) then Some (Some (Some (row j))) else nth_error out j.
Proof.
  induction batches as [|b bs IH]; intros out LO HS HI; cbn [rays_batches List.concat]; [eauto|].
  destruct (rows_batch out b LO) as (out1 & E1 & L1 & N1); [apply HS; left; auto|intros i I; eapply HI; [left; auto|auto]|]. rewrite E1.
  destruct (IH out1 L1) as (out2 & E2 & L2 & N2); [intros; apply HS; right; auto|intros; eapply HI; [right; eauto|auto]|]. exists out2. split; auto. split; auto.
  intros j J. rewrite N2, N1, existsb_app by auto. destruct (existsb (Nat.eqb j) b), (existsb (Nat.eqb j) (List.concat bs)); auto.
Qed.
End Rows.

Theorem traced_rows_of_group : forall sort fuel t world incident targets extinction reflectivity per,
  rt_blocking t = None -> one_per_sample t -> (1 <= rt_batch_size t)%nat -> (1 <= world)%nat ->
  (exists m, In m (rt_mask t) /\ (0 < m)%nat) -> (forall m, In m (rt_mask t) -> m = 0%nat \/ m = per) ->
  List.length incident = list_sum (rt_mask t) -> List.length targets = list_sum (rt_mask t) ->
  (2 <= rt_width t)%nat -> (2 <= rt_height t)%nat -> 0 <= rt_magnitude t -> 0 <= extinction <= 1 -> 0 <= reflectivity ->
  (forall i, (i < list_sum (rt_mask t))%nat -> exists s, sample_at t incident targets i s /\ proper_sample s) ->
  exists rows : nat -> list (option (option traced)),
  (forall rank, (rank < world)%nat -> trace_rays sort fuel (on_rank t world rank) incident (rt_mask t) targets extinction reflectivity = Rows (rows rank)
     /\ List.length (rows rank) = list_sum (rt_mask t))
  /\ forall i s, sample_at t incident targets i s -> exists owner row, (owner < world)%nat
     /\ trace_sample (rt_width t) (rt_height t) (rt_magnitude t) extinction reflectivity s (repeat 0 (List.length (sample_rays s))) = Ok row
     /\ nth_error (rows owner) i = Some (Some (Some row))
     /\ forall rank, (rank < world)%nat -> rank <> owner -> nth_error (rows rank) i = Some None.
Proof.
  intros sort fuel t world incident targets extinction reflectivity per NB OP HB HW HM HE LI LT W H M X F SAM.
  set (n := list_sum (rt_mask t)) in *.
  assert (SMP : exists smp row, forall i, (i < n)%nat -> sample_at t incident targets i (smp i)
    /\ trace_sample (rt_width t) (rt_height t) (rt_magnitude t) extinction reflectivity (smp i) (repeat 0 (List.length (sample_rays (smp i)))) = Ok (row i)).
  { assert (G : forall k, (k <= n)%nat -> exists smp row, forall i, (i < k)%nat -> sample_at t incident targets i (smp i)
      /\ trace_sample (rt_width t) (rt_height t) (rt_magnitude t) extinction reflectivity (smp i) (repeat 0 (List.length (sample_rays (smp i)))) = Ok (row i)).
    { induction k as [|k IH]; intros K.
      - exists (fun _ => {| s_incident := vec 0 0 0; s_surface := []; s_target := PlanarTarget {| plane_center := vec 0 0 0; plane_normal := vec 0 0 0; plane_width := 0; plane_height := 0 |}; s_distortions := [] |}),
          (fun _ => {| t_bitmap := []; t_intercept := 0; t_on_target := 0; t_blocking := 0 |}). intros i I. lia.
      - destruct IH as (smp & row & IH); [lia|]. destruct (SAM k) as (s & SA & PS); [lia|].
        destruct (trace_sample_power (rt_width t) (rt_height t) (rt_magnitude t) extinction reflectivity s (repeat 0 (List.length (sample_rays s)))) as (r & ET & _); auto.
        { rewrite repeat_length. apply sample_rays_length. auto. } { intros b I. apply repeat_spec in I. lra. }
        exists (fun i => if (i =? k)%nat then s else smp i), (fun i => if (i =? k)%nat then r else row i). intros i I.
        destruct (Nat.eqb_spec i k) as [->|NE]; auto. apply IH. lia. }
    apply (G n). auto. }
  destruct SMP as (smp & row & SR).
  assert (PER : forall rank, exists out, trace_rays sort fuel (on_rank t world rank) incident (rt_mask t) targets extinction reflectivity = Rows out
    /\ List.length out = n /\ forall j, (j < n)%nat -> nth_error out j = if existsb (Nat.eqb j) (tracer_sampler_indices (rt_mask t) world rank) then Some (Some (Some (row j))) else Some None).
  { intros rank. unfold trace_rays. cbn [rt_mask rt_sampler rt_batch_size on_rank]. unfold list_nat_eqb.
    destruct (list_eq_dec Nat.eq_dec (rt_mask t) (rt_mask t)) as [_|]; [|congruence]. fold n. rewrite LI, LT, Nat.eqb_refl. cbn [negb andb].
    set (sampler := tracer_sampler_indices (rt_mask t) world rank).
    assert (CC : List.concat (chunks (List.length sampler) (rt_batch_size t) sampler) = sampler) by (apply chunks_concat; auto).
    destruct (rows_batches sort fuel (on_rank t world rank) incident targets extinction reflectivity) with (smp := smp) (row := row)
      (batches := chunks (List.length sampler) (rt_batch_size t) sampler) (out := repeat (@None (option traced)) n) as (out & E & L & N); auto.
    - intros i I. apply SR. auto.
    - intros i I. apply SR. auto.
    - apply repeat_length.
    - intros b Hb. eapply chunks_sorted; [|exact Hb]. apply tracer_sampler_sorted.
    - intros b i Hb Hi. cbn [rt_mask on_rank]. apply (tracer_sampler_lt _ world rank). fold sampler. rewrite <- CC. apply in_concat. eauto.
    - exists out. split; [exact E|]. split; [exact L|]. intros j J. rewrite N, CC by auto. rewrite (nth_error_repeat None J). auto. }
  assert (CH : exists rows : nat -> list (option (option traced)), forall rank, trace_rays sort fuel (on_rank t world rank) incident (rt_mask t) targets extinction reflectivity = Rows (rows rank)
    /\ List.length (rows rank) = n /\ forall j, (j < n)%nat -> nth_error (rows rank) j = if existsb (Nat.eqb j) (tracer_sampler_indices (rt_mask t) world rank) then Some (Some (Some (row j))) else Some None).
  { exists (fun rank => match trace_rays sort fuel (on_rank t world rank) incident (rt_mask t) targets extinction reflectivity with Rows out => out | _ => [] end).
    intros rank. destruct (PER rank) as (out & E & L & N). rewrite E. auto. }
  destruct CH as (rows & CH). exists rows. split; [intros rank _; split; apply CH|]. intros i s SA.
  assert (I : (i < n)%nat) by (destruct SA as (A & _); rewrite <- LI; apply nth_error_Some; congruence).
  destruct (SR i I) as (SI & RI).
  assert (s = smp i) as ->.
  { destruct SA as (A1 & (ps & ns & A2 & A3 & A4) & A5 & k & A6 & A7), SI as (B1 & (ps' & ns' & B2 & B3 & B4) & B5 & k' & B6 & B7).
    destruct s as [a1 a2 a3 a4], (smp i) as [b1 b2 b3 b4]. cbn [s_incident s_surface s_target s_distortions] in *. replace k' with k in * by congruence.
    apply area_unique in A7, B7. rewrite A7 in B7. injection B7 as <-. f_equal; congruence. }
  assert (HP : exact_partition (tracer_sampler_indices (rt_mask t) world) world n) by (eapply tracer_exact_partition; eauto).
  destruct (partition_owner _ _ _ _ HP I) as (o & Ho & Io). exists o, (row i). split; auto. split; auto. split.
  - destruct (CH o) as (_ & _ & N). rewrite (N i I). apply existsb_eqb_iff in Io. rewrite Io. auto.
  - intros rank Hr Ne. destruct (CH rank) as (_ & _ & N). rewrite (N i I).
    destruct (existsb _ _) eqn:E; auto. apply existsb_eqb_iff in E. exfalso. apply Ne. eapply partition_unique; eauto.
Qed.

(** A number that no target area has. *)
Lemma map_res_in : forall {A B} (f : A -> res B) l ys x, map_res f l = Ok ys -> In x l -> exists y, f x = Ok y.
Proof.
  induction l as [|a l IH]; intros ys x E I; [destruct I|]. cbn [map_res] in E. destruct (f a) as [y|] eqn:Fa; [|discriminate]. cbn [bind] in E.
  destruct (map_res f l) as [ys'|] eqn:El; [|discriminate]. destruct I as [<-|I]; eauto.
Qed.
Lemma read_in : forall {A} (l : list A) mask i x, nth_error l i = Some x -> mask i = true -> In x (read_masked l mask).
Proof.
  intros A l mask i x N M. unfold read_masked. apply in_map_iff. exists (i, x). split; auto. apply filter_In. split; auto.
  assert (G : forall (l : list A) s i x, nth_error l i = Some x -> In ((s + i)%nat, x) (combine (seq s (List.length l)) l)).
  { clear. induction l as [|a l IH]; intros s i x N; destruct i; try discriminate.
    - injection N as ->. left. f_equal. lia.
    - right. replace (s + S i)%nat with (S s + i)%nat by lia. apply IH. auto. }
  apply (G l 0%nat i x N).
Qed.
Theorem unknown_target : forall sort fuel t incident mask targets extinction reflectivity i number,
  (1 <= rt_batch_size t)%nat -> In i (rt_sampler t) -> nth_error targets i = Some number -> (List.length (rt_planar t) + List.length (rt_cylindrical t) <= number)%nat ->
  forall rows, trace_rays sort fuel t incident mask targets extinction reflectivity <> Rows rows.
Proof.
  intros sort fuel t incident mask targets extinction reflectivity i number HB I N OUT rows. unfold trace_rays.
  destruct (negb (list_nat_eqb _ _)); [discriminate|]. destruct (negb (_ && _)); [discriminate|].
  assert (IC : In i (List.concat (chunks (List.length (rt_sampler t)) (rt_batch_size t) (rt_sampler t)))) by (rewrite chunks_concat; auto).
  revert IC. generalize (repeat (@None (option traced)) (list_sum mask)). induction (chunks _ _ _) as [|b bs IH]; intros out IC; [destruct IC|].
  cbn [rays_batches]. destruct (rays_batch sort fuel t incident targets extinction reflectivity out b) as [out'|e|] eqn:E; [|discriminate|discriminate].
  cbn [List.concat] in IC. apply in_app_or in IC. destruct IC as [IB|IC]; [|apply IH; auto]. exfalso. unfold rays_batch in E.
  destruct (map_res (target_at (rt_planar t) (rt_cylindrical t)) _) as [areas|] eqn:EA; [|discriminate].
  destruct (map_res_in _ _ _ number EA) as (a & TA).
  { apply (read_in _ _ i); auto. apply existsb_eqb_iff. auto. }
  apply area_unique in TA. destruct a as [p|c].
  - assert (number < List.length (rt_planar t))%nat by (apply nth_error_Some; cbn in TA; congruence). lia.
  - destruct TA as (k & -> & NK). assert (k < List.length (rt_cylindrical t))%nat by (apply nth_error_Some; congruence). lia.
Qed.

(** Blocking by the own mirror only. *)
From Verif Require Import SpecLBVH ProofsBlockingTracer.
Lemma mask_nil : forall r, traced_mask r [] = Some 0.
Proof.
  intros r. unfold traced_mask, soft_mask. cbn [densities option_map]. f_equal. replace (- (100 * Rsum [])) with 0 by (cbn; ring). rewrite exp_0. ring.
Qed.
Theorem own_mirror_only : forall sort fuel width height magnitude extinction reflectivity corners samples rows, sorts sort ->
  (forall s owner r, In (s, owner) samples -> In r (blocking_rays width height magnitude s owner) ->
     sane_ray r /\ forall p, (p < List.length corners)%nat -> p <> owner -> ~ meets r (corners_box (nth p corners []))) ->
  trace_samples sort fuel width height magnitude extinction reflectivity (Some corners) samples = Traced rows ->
  trace_samples sort fuel width height magnitude extinction reflectivity None samples = Traced rows.
Proof.
  intros sort fuel width height magnitude extinction reflectivity corners samples rows HS FREE E. unfold trace_samples in *.
  set (rays := flat_map (fun '(s, owner) => blocking_rays width height magnitude s owner) samples) in *.
  destruct (batch_blocked sort fuel corners rays) as [values|e|] eqn:EB; [|discriminate|discriminate].
  assert (IN : forall r, In r rays -> exists s, In (s, r_owner r) samples /\ In r (blocking_rays width height magnitude s (r_owner r))).
  { intros r I. unfold rays in I. apply in_flat_map in I. destruct I as ((s, owner) & I1 & I2). exists s.
    assert (r_owner r = owner) as ->; [|auto]. unfold blocking_rays in I2. apply in_map_iff in I2. destruct I2 as (((q, d), i) & <- & _). auto. }
  destruct (blocked_depends sort fuel corners rays values HS) as (found & FO & EV); auto.
  { intros r I. destruct (IN r I) as (s & I1 & I2). apply (FREE s (r_owner r) r I1 I2). }
  assert (found = []) as ->.
  { destruct found as [|p f]; auto. exfalso. destruct (FO p (or_introl eq_refl)) as (PL & r & I & NO & ME). destruct (IN r I) as (s & I1 & I2).
    destruct (FREE s (r_owner r) r I1 I2) as (_ & NM). apply (NM p); auto. }
  cbn [map] in EV. rewrite <- E. f_equal. rewrite EV. unfold rays.
  assert (G : forall l, map (fun _ : point * point => Some 0) (flat_map sample_rays (map fst l))
    = map (fun r => traced_mask r []) (flat_map (fun '(s, owner) => blocking_rays width height magnitude s owner) l)).
  { clear. induction l as [|(s, owner) l IH]; auto. cbn [map flat_map fst]. rewrite !map_app, IH. f_equal.
    unfold blocking_rays. rewrite map_map. unfold sample_intersections.
    induction (sample_rays s) as [|(q, d) ray IHr]; auto. cbn [map combine]. rewrite IHr, mask_nil. auto. }
  apply G.
Qed.
