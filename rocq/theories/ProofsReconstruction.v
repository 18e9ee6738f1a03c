From Coq Require Import List Arith Reals Lra Lia Bool.
From Verif Require Import RealSums ModelField ModelDistributed ModelLBVH ModelLosses ModelOptimization ModelReconstruction SpecDistributed SpecOptimization SpecReconstruction ProofsDistributed ProofsField ProofsLosses ProofsOptimization.
Import ListNotations.
Local Open Scope nat_scope.

Lemma flat_map_filter : forall {A B} (f : A -> list B) p l, (forall x, p x = false -> f x = []) -> flat_map f l = flat_map f (filter p l).
Proof. intros A B f p l H. induction l as [|x l IH]; auto. cbn [flat_map filter]. destruct (p x) eqn:E; cbn [flat_map]; rewrite IH; auto. rewrite (H x E). auto. Qed.
Lemma sample_rows_even : forall mask f per c, (forall m, In m mask -> m = 0 \/ m = per) -> f 0 = 0 -> f per = c -> 0 < per ->
  sample_rows (map f mask) = flat_map (fun i => map (fun k => (i, k)) (seq 0 c)) (active_indices mask).
Proof.
  intros mask f per c E F0 FP P. unfold sample_rows, active_indices. rewrite map_length.
  rewrite (flat_map_filter _ (fun i => negb (nth i mask 0 =? 0))).
  - apply flat_map_ext_in. intros i I. apply filter_In in I. destruct I as (I & N). apply in_seq in I. apply negb_true_iff, Nat.eqb_neq in N.
    rewrite <- F0, map_nth, F0. destruct (E (nth i mask 0)) as [Z|Z]; [apply nth_In; lia|lia|]. rewrite Z, FP. auto.
  - intros i N. apply negb_false_iff, Nat.eqb_eq in N. rewrite <- F0, map_nth, F0, N, F0. auto.
Qed.
Lemma active_count : forall mask, length (active_indices mask) = mask_active mask.
Proof.
  intros mask. unfold active_indices, mask_active.
  assert (G : forall pre, length (filter (fun i => negb (nth i (pre ++ mask) 0 =? 0)) (seq (length pre) (length mask))) = length (filter (fun m => 0 <? m) mask)).
  { induction mask as [|m mask IH]; intros pre; auto. cbn [length seq filter]. rewrite app_nth2, Nat.sub_diag by auto. cbn [nth].
    specialize (IH (pre ++ [m])). rewrite <- app_assoc in IH. cbn [app] in IH. rewrite app_length in IH. cbn [length] in IH. rewrite Nat.add_1_r in IH.
    destruct (Nat.eqb_spec m 0) as [->|N]; cbn [negb]; [exact IH|]. destruct (Nat.ltb_spec 0 m); [|lia]. cbn [length]. f_equal. exact IH. }
  exact (G []).
Qed.
Lemma active_nodup : forall mask, NoDup (active_indices mask).
Proof. intros. apply NoDup_filter, seq_NoDup. Qed.
Lemma active_in : forall mask i, In i (active_indices mask) <-> i < length mask /\ nth i mask 0 <> 0.
Proof. intros. unfold active_indices. rewrite filter_In, in_seq, negb_true_iff, Nat.eqb_neq. intuition lia. Qed.

Lemma nth_error_flat_blocks : forall {A B} (f : A -> nat -> B) per (l : list A) h k x, nth_error l h = Some x -> k < per ->
  nth_error (flat_map (fun i => map (f i) (seq 0 per)) l) (h * per + k) = Some (f x k).
Proof.
  induction l as [|y l IH]; intros h k x E K; [destruct h; discriminate|]. cbn [flat_map]. destruct h as [|h].
  - cbn in E. injection E as ->. rewrite nth_error_app1 by (rewrite map_length, seq_length; lia). rewrite nth_error_map. rewrite (nth_error_nth' _ 0) by (rewrite seq_length; lia). rewrite seq_nth by lia. auto.
  - rewrite nth_error_app2 by (rewrite map_length, seq_length; nia). rewrite map_length, seq_length. replace (S h * per + k - per) with (h * per + k) by nia. apply IH; auto.
Qed.
Lemma select_all_some : forall {A} (rows : list A) idx out, length idx = length out -> (forall j i, nth_error idx j = Some i -> nth_error rows i = nth_error out j) -> select_rows rows idx = Ok out.
Proof.
  induction idx as [|i idx IH]; intros [|x out] L H; try discriminate; auto. cbn [select_rows]. rewrite (H 0 i eq_refl). cbn [nth_error]. rewrite (IH out); auto. intros j k E. apply (H (S j) k E).
Qed.
Lemma select_labelled : forall {A B} (f : A -> nat -> B) per t (l : list A), t <= per ->
  select_rows (flat_map (fun i => map (f i) (seq 0 per)) l) (flat_map (fun start => map (fun k => start + k) (seq 0 t)) (map (fun b => b * per) (seq 0 (length l))))
  = Ok (flat_map (fun i => map (f i) (seq 0 t)) l).
Proof.
  intros A B f per t l T.
  assert (G : forall post pre, l = pre ++ post -> select_rows (flat_map (fun i => map (f i) (seq 0 per)) l) (flat_map (fun start => map (fun k => start + k) (seq 0 t)) (map (fun b => b * per) (seq (length pre) (length post)))) = Ok (flat_map (fun i => map (f i) (seq 0 t)) post)).
  { induction post as [|x post IH]; intros pre E; auto. cbn [length seq map flat_map]. rewrite select_rows_app.
    rewrite (select_all_some _ _ (map (f x) (seq 0 t))).
    - cbn [bind]. specialize (IH (pre ++ [x])). rewrite <- app_assoc in IH. specialize (IH E). rewrite app_length in IH. cbn [length] in IH. rewrite Nat.add_1_r in IH. rewrite IH. auto.
    - rewrite !map_length. auto.
    - intros j i N. rewrite nth_error_map in N. destruct (nth_error (seq 0 t) j) as [k|] eqn:S; [|discriminate]. cbn in N. injection N as <-.
      assert (J : j < t) by (rewrite <- (seq_length t 0); apply nth_error_Some; congruence). rewrite nth_error_map, S. cbn [option_map].
      rewrite (nth_error_nth' _ 0) in S by (rewrite seq_length; auto). injection S as <-. rewrite seq_nth by auto. apply nth_error_flat_blocks; [|lia].
      rewrite E, nth_error_app2, Nat.sub_diag by auto. auto. }
  exact (G l [] eq_refl).
Qed.
Lemma select_seq : forall {A} (l : list A), select_rows l (seq 0 (length l)) = Ok l.
Proof.
  intros A l. apply select_all_some; [apply seq_length|]. intros j i E. assert (J : j < length l) by (rewrite <- (seq_length (length l) 0); apply nth_error_Some; congruence).
  rewrite (nth_error_nth' _ 0) in E by (rewrite seq_length; auto). injection E as <-. rewrite seq_nth by auto. auto.
Qed.

Lemma scatter_distinct : forall {A} (positions : list nat) (values l : list A), length positions = length values -> NoDup positions -> (forall i, In i positions -> i < length l) ->
  exists r, scatter l positions values = Ok r /\ length r = length l
  /\ (forall j p x, nth_error positions j = Some p -> nth_error values j = Some x -> nth_error r p = Some x)
  /\ (forall p, ~ In p positions -> nth_error r p = nth_error l p).
Proof.
  intros A positions values l L ND B. unfold scatter.
  assert (X : existsb (fun i => length l <=? i) positions = false).
  { apply not_true_is_false. intros X. apply existsb_exists in X. destruct X as (k & I & X). apply Nat.leb_le in X. specialize (B k I). lia. }
  rewrite X, L, Nat.eqb_refl. eexists. split; [reflexivity|]. clear X. revert values l L B. induction ND as [|p positions N ND IH]; intros [|v values] l L B; try discriminate; cbn [combine fold_left].
  - repeat split; auto. intros [|j] p x; discriminate.
  - destruct (IH values (replace_at l p v)) as (R1 & R2 & R3); [cbn in L; lia|intros i I; rewrite replace_at_length; apply B; right; auto|].
    rewrite replace_at_length in R1. repeat split; auto.
    + intros [|j] q x Q V; cbn in Q, V.
      * injection Q as <-. injection V as <-. rewrite R3 by auto. rewrite replace_at_nth, Nat.eqb_refl. destruct (Nat.ltb_spec p (length l)) as [_|C]; auto. specialize (B p (or_introl eq_refl)). lia.
      * eapply R2; eauto.
    + intros q Q. rewrite R3 by (intros I; apply Q; right; auto). rewrite replace_at_nth. destruct (Nat.eqb_spec q p); auto. subst. exfalso. apply Q. left. auto.
Qed.

Lemma combine_flat_blocks : forall {A B C D} (f : A -> nat -> B) (g : A -> nat -> C) (h : B -> C -> D) n (l : list A),
  map (fun '(x, y) => h x y) (combine (flat_map (fun i => map (f i) (seq 0 n)) l) (flat_map (fun i => map (g i) (seq 0 n)) l)) = flat_map (fun i => map (fun k => h (f i k) (g i k)) (seq 0 n)) l.
Proof.
  intros A B C D f g h n l. induction l as [|x l IH]; auto. cbn [flat_map].
  assert (G : forall (a1 : list B) (b1 : list C) a2 b2, length a1 = length b1 -> combine (a1 ++ a2) (b1 ++ b2) = combine a1 b1 ++ combine a2 b2).
  { induction a1 as [|u a1 IHa]; intros [|w b1] a2 b2 L; try discriminate; auto. cbn. f_equal. apply IHa. cbn in L. lia. }
  rewrite G by (rewrite !map_length; auto). rewrite map_app, IH. f_equal. generalize 0. clear. induction n; intros s; cbn; auto. f_equal. apply IHn.
Qed.
Lemma flat_blocks_length : forall {A B} (f : A -> nat -> B) n (l : list A), length (flat_map (fun i => map (f i) (seq 0 n)) l) = length l * n.
Proof. intros A B f n l. induction l; auto. cbn. rewrite app_length, map_length, seq_length, IHl. auto. Qed.
Lemma rows_of_blocks : forall {A B} (f : A -> nat -> B) n (l : list A), ModelLosses.rows_of (length l) n (flat_map (fun i => map (f i) (seq 0 n)) l) = map (fun i => map (f i) (seq 0 n)) l.
Proof.
  intros A B f n l. induction l as [|x l IH]; auto. cbn [length ModelLosses.rows_of flat_map map].
  assert (L : length (map (f x) (seq 0 n)) = n) by (rewrite map_length, seq_length; auto).
  rewrite firstn_app, skipn_app, L, Nat.sub_diag. cbn [firstn skipn]. rewrite firstn_all2, skipn_all2 by lia. rewrite app_nil_r. cbn [app]. rewrite IH. auto.
Qed.
Lemma reduce_blocks : forall {A} (f : A -> nat -> R) n (l : list A) reduction, 0 < n ->
  reduce_loss_per_sample (flat_map (fun i => map (f i) (seq 0 n)) l) n reduction = Ok (map (fun i => (reduction (map (f i) (seq 0 n)) : R)) l).
Proof.
  intros A f n l reduction N. unfold reduce_loss_per_sample. destruct (Nat.eqb_spec n 0); [lia|]. rewrite flat_blocks_length, Nat.div_mul by auto.
  rewrite firstn_all2 by (rewrite flat_blocks_length; lia). rewrite rows_of_blocks, map_map. auto.
Qed.
Lemma map_flat_blocks : forall {A B C} (h : B -> C) (f : A -> nat -> B) n l, map h (flat_map (fun i => map (f i) (seq 0 n)) l) = flat_map (fun i => map (fun k => h (f i k)) (seq 0 n)) l.
Proof. intros. induction l; auto. cbn [flat_map]. rewrite map_app, map_map, IHl. auto. Qed.
Lemma every_block : forall h t, 0 < t -> every t (seq 0 (h * t)) = Ok (map (fun b => b * t) (seq 0 h)).
Proof.
  intros h t T. unfold every. destruct (Nat.eqb_spec t 0); [lia|]. rewrite seq_length, arange_step_blocks by lia.
  apply select_all_some; auto. intros j i E. rewrite nth_error_map in E. destruct (nth_error (seq 0 h) j) as [b|] eqn:N; [|discriminate]. cbn in E. injection E as <-.
  rewrite nth_error_map, N. cbn [option_map]. assert (J : j < h) by (rewrite <- (seq_length h 0); apply nth_error_Some; congruence).
  rewrite (nth_error_nth' _ 0) in N by (rewrite seq_length; auto). injection N as <-. rewrite seq_nth by auto. cbn.
  rewrite (nth_error_nth' _ 0) by (rewrite seq_length; nia). rewrite seq_nth by nia. auto.
Qed.
Lemma tracer_single : forall mask per, (forall m, In m mask -> m = 0 \/ m = per) -> 0 < per -> tracer_sampler_indices mask 1 0 = seq 0 (mask_active mask * per).
Proof.
  intros mask per E P. unfold tracer_sampler_indices, mask_samples. rewrite (mask_even_samples per) by auto. fold (mask_active mask). set (h := mask_active mask).
  unfold sampler_indices. destruct h as [|h]; [reflexivity|]. rewrite (Nat.min_r (S h) 1) by lia. cbn [Nat.ltb Nat.leb].
  rewrite (Nat.mul_comm (S h) per), Nat.div_mul by lia. rewrite (flat_map_ext _ (fun i => seq (i * per) per)); [|intros i; rewrite Nat.mod_1_r; reflexivity].
  rewrite flat_map_seq_blocks. f_equal. lia.
Qed.

Section Reconstruction.
Context {P M : Type}.
Variable masks : list (list nat).
Variable test_of_count : nat -> nat.
Variable loss_definition : P -> M -> R.
Variable reduction : list R -> R.
Variables prediction garbage : nat -> nat -> nat -> P.
Variable measured : nat -> nat -> nat -> M.
Hypothesis usable : forall mask, In mask masks -> usable_mask test_of_count mask.

Let value g i := reported test_of_count reduction (fun k => loss_definition (prediction g i k) (measured g i k)) (nth i (nth g masks []) 0).
Let sizes := group_sizes masks.
Lemma size_nth : forall g, nth g sizes 0 = length (group_mask masks g).
Proof. intros g. unfold sizes, group_sizes, group_mask. change 0 with (length (@nil nat)). apply map_nth. Qed.
Lemma sizes_length : length sizes = length masks.
Proof. apply map_length. Qed.

(** What a group contributes when one rank handles all its samples. *)
Lemma stored : forall final g, g < length masks -> length final = list_sum sizes ->
  exists final', scatter final (map (fun i => i + group_offset sizes g) (active_indices (group_mask masks g))) (map (fun i => value g i) (active_indices (group_mask masks g))) = Ok final'
  /\ length final' = list_sum sizes
  /\ (forall i, i < length (group_mask masks g) -> nth i (group_mask masks g) 0 <> 0 -> nth_error final' (field_index sizes g i) = Some (value g i))
  /\ (forall p, (forall i, i < length (group_mask masks g) -> nth i (group_mask masks g) 0 <> 0 -> p <> field_index sizes g i) -> nth_error final' p = nth_error final p).
Proof.
  intros final g G L. pose proof (offset_bound sizes g ltac:(rewrite sizes_length; auto)) as OB. rewrite size_nth in OB.
  destruct (scatter_distinct (map (fun i => i + group_offset sizes g) (active_indices (group_mask masks g))) (map (fun i => value g i) (active_indices (group_mask masks g))) final) as (r & E & LR & H1 & H2).
  - rewrite !map_length. auto.
  - assert (I : forall l, NoDup l -> NoDup (map (fun i => i + group_offset sizes g) l)).
    { induction 1 as [|x l N D IH]; cbn; constructor; auto. intros C. apply in_map_iff in C. destruct C as (y & Q & C). assert (y = x) by lia. subst. auto. }
    apply I, active_nodup.
  - intros p I. apply in_map_iff in I. destruct I as (i & <- & I). apply active_in in I. lia.
  - exists r. split; [exact E|]. split; [congruence|]. split.
    + intros i I N. assert (A : In i (active_indices (group_mask masks g))) by (apply active_in; auto). apply In_nth_error in A. destruct A as (j & J).
      unfold field_index. rewrite Nat.add_comm. apply (H1 j); rewrite nth_error_map, J; auto.
    + intros p N. apply H2. intros C. apply in_map_iff in C. destruct C as (i & Q & C). apply active_in in C. destruct C as (C1 & C2). apply (N i C1 C2). unfold field_index. unfold group_offset in Q. lia.
Qed.

Lemma empty_mask : forall mask, list_sum mask = 0 -> forall i, nth i mask 0 = 0.
Proof.
  induction mask as [|m mask IH]; intros S0 i; [destruct i; auto|]. change (list_sum (m :: mask)) with (m + list_sum mask) in S0. destruct i; cbn; [lia|apply IH; lia].
Qed.
Lemma split_of : forall g, g < length masks -> list_sum (group_mask masks g) <> 0 -> exists per split, 2 <= per /\ (forall m, In m (group_mask masks g) -> m = 0 \/ m = per)
  /\ train_test_split (group_mask masks g) test_of_count = Ok split
  /\ sr_number_of_train split = per - Nat.max 1 (test_of_count per) /\ 0 < per - Nat.max 1 (test_of_count per)
  /\ sr_mask_train split = map (fun m => m - Nat.max 1 (test_of_count per)) (group_mask masks g)
  /\ sr_train_indices split = flat_map (fun start => map (fun k => start + k) (seq 0 (per - Nat.max 1 (test_of_count per)))) (map (fun b => b * per) (seq 0 (length (active_indices (group_mask masks g))))).
Proof.
  intros g G S. destruct (usable (group_mask masks g)) as (per & P2 & T & E); [apply nth_In; auto|]. exists per. set (mask := group_mask masks g) in *.
  unfold train_test_split. fold (mask_active mask). rewrite (mask_even_samples per) by auto. fold (mask_active mask).
  assert (H : mask_active mask <> 0). { intros Z. apply S. rewrite (mask_even_samples per) by auto. fold (mask_active mask). rewrite Z. auto. }
  destruct (Nat.eqb_spec (mask_active mask) 0); [contradiction|]. rewrite (Nat.mul_comm (mask_active mask) per), Nat.div_mul by auto.
  destruct (Nat.ltb_spec per (Nat.max 1 (test_of_count per))); [lia|]. eexists. split; [auto|]. split; [auto|]. split; [reflexivity|]. cbn [sr_number_of_train sr_mask_train sr_train_indices].
  split; auto. split; [lia|]. split; auto. rewrite (Nat.mul_comm per), arange_step_blocks by lia. rewrite active_count. auto.
Qed.
Lemma trained_value : forall g i per, i < length (group_mask masks g) -> nth i (group_mask masks g) 0 <> 0 -> (forall m, In m (group_mask masks g) -> m = 0 \/ m = per) ->
  value g i = Some (reduction (map (fun k => loss_definition (prediction g i k) (measured g i k)) (seq 0 (per - Nat.max 1 (test_of_count per))))).
Proof.
  intros g i per L N E. unfold value, reported. fold (group_mask masks g). destruct (Nat.eqb_spec (nth i (group_mask masks g) 0) 0); [contradiction|].
  destruct (E (nth i (group_mask masks g) 0)) as [Z|Z]; [apply nth_In; auto|contradiction|]. rewrite Z. auto.
Qed.

Definition stores (final final' : list loss_value) (g : nat) : Prop :=
  length final' = list_sum sizes
  /\ (forall i, i < length (group_mask masks g) -> nth i (group_mask masks g) 0 <> 0 -> nth_error final' (field_index sizes g i) = Some (value g i))
  /\ (forall p, (forall i, i < length (group_mask masks g) -> nth i (group_mask masks g) 0 <> 0 -> p <> field_index sizes g i) -> nth_error final' p = nth_error final p).

Lemma measured_train : forall g per t, (forall m, In m (group_mask masks g) -> m = 0 \/ m = per) -> 0 < per -> t <= per ->
  select_rows (measured_rows masks measured g) (flat_map (fun start => map (fun k => start + k) (seq 0 t)) (map (fun b => b * per) (seq 0 (length (active_indices (group_mask masks g))))))
  = Ok (flat_map (fun i => map (measured g i) (seq 0 t)) (active_indices (group_mask masks g))).
Proof.
  intros g per t E P0 T. unfold measured_rows. rewrite <- (map_id (group_mask masks g)) at 1. rewrite (sample_rows_even _ _ per per) by auto.
  rewrite (map_flat_blocks (fun '(i, k) => measured g i k)). apply select_labelled. auto.
Qed.
Lemma reconstruct_group_single : forall final g, g < length masks -> length final = list_sum sizes ->
  exists final', reconstruct_group masks test_of_count loss_definition reduction prediction garbage measured 1 0 final g = Ok final' /\ stores final final' g.
Proof.
  intros final g G L. unfold reconstruct_group. destruct (Nat.eqb_spec (list_sum (group_mask masks g)) 0) as [Z|Z].
  - exists final. split; auto. split; auto. split; auto. intros i _ N. exfalso. apply N. apply empty_mask. auto.
  - destruct (split_of g G Z) as (per & split & P2 & E & SP & NT & T & MT & TI). rewrite SP. cbn [bind]. rewrite NT, MT, TI. set (test := Nat.max 1 (test_of_count per)) in *. set (t := per - test) in *. set (act := active_indices (group_mask masks g)) in *.
    rewrite (sample_rows_even _ _ per t) by (auto; unfold t, test; lia). fold act.
    assert (TS : tracer_sampler_indices (map (fun m => m - test) (group_mask masks g)) 1 0 = seq 0 (length act * t)).
    { rewrite (tracer_single _ t); auto.
      - f_equal. f_equal. unfold act. rewrite active_count. unfold mask_active. clear - T P2 E. induction (group_mask masks g) as [|m mask IH]; auto. cbn [map filter].
        assert (IHH := IH ltac:(intros; apply E; right; auto)). destruct (E m (or_introl eq_refl)) as [->| ->].
        + cbn. exact IHH.
        + fold t. destruct (Nat.ltb_spec 0 t); [|lia]. destruct (Nat.ltb_spec 0 per); [|lia]. cbn [length]. f_equal. exact IHH.
      - intros m I. apply in_map_iff in I. destruct I as (m' & <- & I). destruct (E m' I) as [->| ->]; auto. }
    rewrite TS. rewrite measured_train by (auto; unfold t; lia). cbn [bind]. fold act.
    pose proof (flat_blocks_length (fun i k => measured g i k) t act) as LM. rewrite <- LM, select_seq. cbn [bind].
    match goal with |- context [broadcast_loss _ ?r _] => assert (ROWS : r = flat_map (fun i => map (prediction g i) (seq 0 t)) act) end.
    { rewrite LM. set (pairs := flat_map (fun i => map (fun k => (i, k)) (seq 0 t)) act). assert (LP : length pairs = length act * t) by (unfold pairs; apply (flat_blocks_length (fun i k => (i, k)))).
      assert (Q : forall s l, s + length l <= length act * t -> map (fun '(s, (i, k)) => if existsb (Nat.eqb s) (seq 0 (length act * t)) then prediction g i k else garbage g i k) (combine (seq s (length l)) l) = map (fun '(i, k) => prediction g i k) l).
      { intros s l. revert s. induction l as [|[i k] l IH]; intros s B; auto. cbn [length seq combine map] in *. rewrite IH by lia. f_equal.
        replace (existsb (Nat.eqb s) (seq 0 (length act * t))) with true; auto. symmetry. apply existsb_exists. exists s. rewrite Nat.eqb_refl. split; auto. apply in_seq. lia. }
      rewrite (Q 0 pairs) by lia. unfold pairs. rewrite (map_flat_blocks (fun '(i, k) => prediction g i k)). auto. }
    rewrite ROWS. unfold broadcast_loss. rewrite !flat_blocks_length, Nat.eqb_refl. cbn [bind].
    rewrite (combine_flat_blocks (prediction g) (measured g)). rewrite reduce_blocks by auto. cbn [bind]. rewrite every_block by auto. cbn [bind].
    rewrite map_map. rewrite (map_ext _ (fun b => b)) by (intros b; apply Nat.div_mul; lia). rewrite map_id, select_seq. cbn [bind].
    destruct (stored final g G L) as (final' & S1 & S2 & S3 & S4). exists final'. split; [|split; auto]. etransitivity; [|exact S1]. f_equal. rewrite map_map. apply map_ext_in.
    intros i I. apply active_in in I. destruct I as (I & N). symmetry. apply (trained_value g i per); auto.
Qed.
Lemma align_group_stores : forall final g, g < length masks -> length final = list_sum sizes ->
  exists final', align_group masks test_of_count loss_definition reduction prediction measured final g = Ok final' /\ stores final final' g.
Proof.
  intros final g G L. unfold align_group. destruct (Nat.eqb_spec (list_sum (group_mask masks g)) 0) as [Z|Z].
  - exists final. split; auto. split; auto. split; auto. intros i _ N. exfalso. apply N. apply empty_mask. auto.
  - destruct (split_of g G Z) as (per & split & P2 & E & SP & NT & T & MT & TI). rewrite SP. cbn [bind]. rewrite NT, MT, TI. set (test := Nat.max 1 (test_of_count per)) in *. set (t := per - test) in *. set (act := active_indices (group_mask masks g)) in *.
    rewrite (sample_rows_even _ _ per t) by (auto; unfold t, test; lia). fold act. rewrite measured_train by (auto; unfold t; lia). cbn [bind]. fold act.
    rewrite (map_flat_blocks (fun '(i, k) => prediction g i k)). unfold broadcast_loss. rewrite !flat_blocks_length, Nat.eqb_refl. cbn [bind].
    rewrite (combine_flat_blocks (prediction g) (measured g)). rewrite reduce_blocks by auto. cbn [bind].
    destruct (stored final g G L) as (final' & S1 & S2 & S3 & S4). exists final'. split; [|split; auto]. etransitivity; [|exact S1]. f_equal. rewrite map_map. apply map_ext_in.
    intros i I. apply active_in in I. destruct I as (I & N). symmetry. apply (trained_value g i per); auto.
Qed.

(** Blocks of different groups do not overlap. *)
Lemma index_apart : forall g i g' i', g < length masks -> g' < length masks -> i < length (group_mask masks g) -> i' < length (group_mask masks g') -> field_index sizes g i = field_index sizes g' i' -> g = g' /\ i = i'.
Proof.
  intros g i g' i' G G' I I' E. unfold field_index in E. fold (group_offset sizes g) in E. fold (group_offset sizes g') in E.
  destruct (lt_eq_lt_dec g g') as [[H|H]|H].
  - pose proof (offset_mono sizes g g' H ltac:(rewrite sizes_length; lia)) as O. rewrite size_nth in O. lia.
  - subst. split; auto. lia.
  - pose proof (offset_mono sizes g' g H ltac:(rewrite sizes_length; lia)) as O. rewrite size_nth in O. lia.
Qed.
Lemma index_bound : forall g i, g < length masks -> i < length (group_mask masks g) -> field_index sizes g i < list_sum sizes.
Proof. intros g i G I. pose proof (offset_bound sizes g ltac:(rewrite sizes_length; auto)) as O. rewrite size_nth in O. unfold field_index. unfold group_offset in O. lia. Qed.

Definition holds (final : list loss_value) (groups : list nat) : Prop :=
  length final = list_sum sizes
  /\ forall g i, g < length masks -> i < length (group_mask masks g) -> nth_error final (field_index sizes g i) = Some (if existsb (Nat.eqb g) groups then value g i else None).
Lemma holds_initial : holds (initial_losses masks) [].
Proof.
  unfold holds, initial_losses. fold sizes. rewrite repeat_length. split; auto. intros g i G I. cbn [existsb]. rewrite (nth_error_nth' _ (None : loss_value)) by (rewrite repeat_length; apply index_bound; auto). rewrite nth_repeat. auto.
Qed.
Lemma holds_step : forall final final' groups g, g < length masks -> holds final groups -> stores final final' g -> holds final' (groups ++ [g]).
Proof.
  intros final final' groups g G (L & H) (L' & S1 & S2). split; auto. intros g' i G' I. rewrite existsb_app. cbn [existsb]. rewrite orb_false_r.
  destruct (Nat.eqb_spec g' g) as [->|NE].
  - rewrite orb_true_r. destruct (Nat.eq_dec (nth i (group_mask masks g) 0) 0) as [Z|Z].
    + rewrite S2.
      * rewrite H by auto. unfold value, reported. fold (group_mask masks g). rewrite Z. cbn. destruct (existsb _ _); auto.
      * intros i' I' N' E. destruct (index_apart g i g i' G G I I' E) as (_ & <-). contradiction.
    + apply S1; auto.
  - rewrite orb_false_r. rewrite S2; [apply H; auto|]. intros i' I' _ E. destruct (index_apart g' i g i' G' G I I' E) as (C & _). contradiction.
Qed.
Lemma groups_loop : forall (step : list loss_value -> nat -> res (list loss_value)) (loop : list loss_value -> list nat -> res (list loss_value)),
  (forall final, loop final [] = Ok final) -> (forall final g groups, loop final (g :: groups) = bind (step final g) (fun f => loop f groups)) ->
  (forall final g, g < length masks -> length final = list_sum sizes -> exists final', step final g = Ok final' /\ stores final final' g) ->
  forall groups before final, (forall g, In g groups -> g < length masks) -> holds final before -> exists final', loop final groups = Ok final' /\ holds final' (before ++ groups).
Proof.
  intros step loop L0 L1 ST. induction groups as [|g groups IH]; intros before final B H.
  - exists final. rewrite L0, app_nil_r. auto.
  - rewrite L1. destruct (ST final g (B g (or_introl eq_refl)) (proj1 H)) as (f & -> & S1). cbn [bind].
    destruct (IH (before ++ [g]) f) as (f' & E & H'); [intros; apply B; right; auto|eapply holds_step; eauto; apply B; left; auto|].
    rewrite <- app_assoc in H'. exists f'. auto.
Qed.

Lemma in_existsb : forall g l, existsb (Nat.eqb g) l = true <-> In g l.
Proof. intros. rewrite existsb_exists. split; [intros (x & I & E); apply Nat.eqb_eq in E; subst; auto|intros I; exists g; rewrite Nat.eqb_refl; auto]. Qed.
Lemma min_same : forall a b : loss_value, (a = None \/ b = None \/ a = b) -> min_loss a b = match a with None => b | _ => a end.
Proof. intros [a|] [b|] H; cbn; auto. destruct H as [H|[H|H]]; try discriminate. injection H as ->. f_equal. unfold Rmin. destruct (Rle_dec b b); auto. Qed.

Lemma combine_nth_error : forall {A B} (l : list A) (l' : list B) n a b, nth_error l n = Some a -> nth_error l' n = Some b -> nth_error (combine l l') n = Some (a, b).
Proof. induction l as [|x l IH]; intros [|y l'] [|n] a b E F; try discriminate; cbn in *; [congruence|]. apply IH; auto. Qed.
Lemma reduced : forall all groups, Forall2 holds all groups -> holds (fold_right min_losses (initial_losses masks) all) (concat groups).
Proof.
  induction 1 as [|final gs all groups H F IH]; cbn [fold_right concat]; [apply holds_initial|]. destruct H as (L & H). destruct IH as (L' & IH). split.
  - unfold min_losses. rewrite map_length, combine_length. fold min_losses. etransitivity; [apply f_equal2; [exact L|exact L']|]. apply Nat.min_id.
  - intros g i G I. unfold min_losses at 1. rewrite nth_error_map.
    assert (C : nth_error (combine final (fold_right min_losses (initial_losses masks) all)) (field_index sizes g i) = Some (if existsb (Nat.eqb g) gs then value g i else None, if existsb (Nat.eqb g) (concat groups) then value g i else None)).
    { apply combine_nth_error; [apply H; auto|apply IH; auto]. }
    rewrite C. cbn [option_map]. f_equal. rewrite existsb_app. destruct (existsb (Nat.eqb g) gs), (existsb (Nat.eqb g) (concat groups)); cbn [orb]; rewrite min_same; auto; destruct (value g i); auto.
Qed.

Theorem reported_losses : forall world, 1 <= world <= length masks ->
  exists losses, reconstruct masks test_of_count loss_definition reduction prediction garbage measured world = Ok losses
  /\ length losses = list_sum (map (@length nat) masks)
  /\ forall g i, g < length masks -> i < length (nth g masks []) -> nth_error losses (field_index (map (@length nat) masks) g i) = Some (value g i).
Proof.
  intros world W. unfold reconstruct. destruct (groups_distribution world (length masks) ltac:(lia) ltac:(lia)) as (_ & NESTED & COVER & VALID & _ & _).
  assert (R : forall ranks, (forall r, In r ranks -> r < world) -> exists all, map_res (reconstruct_rank masks test_of_count loss_definition reduction prediction garbage measured world) ranks = Ok all /\ Forall2 holds all (map (groups_of_rank world (length masks)) ranks)).
  { induction ranks as [|r ranks IH]; intros B; [exists []; split; auto; constructor|]. cbn [map_res map]. unfold reconstruct_rank at 1.
    assert (SU : setup_rank world (length masks) r = {| sg_rank := 0; sg_world := 1; sg_members := None |}).
    { unfold setup_rank. destruct (distribute_groups_among_ranks world (length masks)) as [mapping nested] eqn:D. cbn [snd] in NESTED. destruct nested; auto. exfalso. assert (length masks < world) by (apply NESTED; auto). lia. }
    rewrite SU. cbn [sg_world sg_rank].
    destruct (groups_loop (reconstruct_group masks test_of_count loss_definition reduction prediction garbage measured 1 0) (reconstruct_groups masks test_of_count loss_definition reduction prediction garbage measured 1 0)
      ltac:(reflexivity) ltac:(reflexivity) reconstruct_group_single (groups_of_rank world (length masks) r) [] (initial_losses masks)) as (final & E & H); [|apply holds_initial|].
    - intros g I. apply (VALID r g); auto. apply B. left. auto.
    - rewrite E. cbn [bind]. destruct IH as (all & E' & F); [intros; apply B; right; auto|]. rewrite E'. cbn [bind]. exists (final :: all). split; auto. }
  destruct (R (seq 0 world)) as (all & E & F); [intros r I; apply in_seq in I; lia|]. rewrite E. cbn [bind]. eexists. split; [reflexivity|].
  destruct (reduced _ _ F) as (L & H). split; auto. intros g i G I. rewrite H by auto. replace (existsb _ _) with true; auto. symmetry. apply in_existsb. destruct (COVER g G) as (r & RB & RI).
  apply in_concat. exists (groups_of_rank world (length masks) r). split; auto. apply in_map, in_seq. lia.
Qed.

Theorem alignment_losses : forall world rank, 1 <= world -> 1 <= length masks -> rank < world ->
  exists losses, reconstruct_alignment masks test_of_count loss_definition reduction prediction measured world rank = Ok losses
  /\ length losses = list_sum (map (@length nat) masks)
  /\ forall g i, g < length masks -> i < length (nth g masks []) ->
     (In g (groups_of_rank world (length masks) rank) -> nth_error losses (field_index (map (@length nat) masks) g i) = Some (value g i))
     /\ (~ In g (groups_of_rank world (length masks) rank) -> nth_error losses (field_index (map (@length nat) masks) g i) = Some None).
Proof.
  intros world rank W G1 R. unfold reconstruct_alignment. destruct (groups_distribution world (length masks) W G1) as (_ & _ & _ & VALID & _ & _).
  destruct (groups_loop (align_group masks test_of_count loss_definition reduction prediction measured) (align_groups masks test_of_count loss_definition reduction prediction measured)
      ltac:(reflexivity) ltac:(reflexivity) align_group_stores (groups_of_rank world (length masks) rank) [] (initial_losses masks)) as (final & E & (L & H)); [|apply holds_initial|].
  - intros g I. apply (VALID rank g); auto.
  - exists final. split; auto. split; auto. intros g i G I. rewrite H by auto. cbn [app]. split; intros X.
    + apply in_existsb in X. rewrite X. auto.
    + destruct (existsb _ _) eqn:Y; auto. apply in_existsb in Y. contradiction.
Qed.
End Reconstruction.

(** ** More ranks than groups *)
Lemma sampler_share_blocks : forall h t members rank, 2 <= h -> 0 < t -> 2 <= members -> exists c, length (sampler_indices (h * t) h members rank) = c * t /\ c < h.
Proof.
  intros h t members rank H T ME. destruct (Nat.lt_ge_cases rank (Nat.min h members)) as [R|R].
  - rewrite sampler_length by auto. rewrite (Nat.mul_comm h t), Nat.div_mul by lia. eexists. split; [reflexivity|].
    set (k := Nat.min h members) in *. assert (K : 2 <= k) by (unfold k; lia). pose proof (Nat.div_mod h k ltac:(lia)) as D. pose proof (Nat.mod_upper_bound h k ltac:(lia)) as U.
    assert (k <= h) by (unfold k; lia). destruct (Nat.ltb_spec rank (h mod k)); nia.
  - rewrite sampler_idle by auto. exists 0. split; auto. lia.
Qed.
Lemma select_length : forall {A} (rows : list A) idx out, select_rows rows idx = Ok out -> length out = length idx.
Proof.
  induction idx as [|i idx IH]; intros out E; cbn in E; [injection E as <-; auto|]. destruct (nth_error rows i); [|discriminate]. destruct (select_rows rows idx) as [o|] eqn:S; [|discriminate].
  cbn in E. injection E as <-. cbn. f_equal. apply IH. auto.
Qed.
Lemma mask_active_train : forall mask per t, (forall m, In m mask -> m = 0 \/ m = per) -> 0 < per - t -> mask_active (map (fun m => m - t) mask) = mask_active mask.
Proof.
  intros mask per t E T. unfold mask_active. induction mask as [|m mask IH]; auto. cbn [map filter]. assert (IHH := IH ltac:(intros; apply E; right; auto)).
  destruct (E m (or_introl eq_refl)) as [->| ->].
  - cbn. exact IHH.
  - destruct (Nat.ltb_spec 0 (per - t)); [|lia]. destruct (Nat.ltb_spec 0 per); [|lia]. cbn [length]. f_equal. exact IHH.
Qed.
Theorem nested_reconstruction_fails : forall {P M} masks test_of_count (loss_definition : P -> M -> R) reduction prediction garbage measured world,
  1 <= length masks < world -> (forall mask, In mask masks -> usable_mask test_of_count mask) -> (forall mask, In mask masks -> 2 <= mask_active mask) ->
  exists e, reconstruct masks test_of_count loss_definition reduction prediction garbage measured world = Err e.
Proof.
  intros P M masks tc loss reduction prediction garbage measured world W US ACT. unfold reconstruct.
  destruct (shared_group world (length masks) W) as (r & R & MB). destruct (groups_distribution world (length masks) ltac:(lia) ltac:(lia)) as (_ & _ & _ & _ & _ & NEST). destruct (NEST ltac:(lia)) as (SINGLE & _). destruct (SINGLE r R) as (g & G & WORK).
  assert (F : exists e, reconstruct_rank masks tc loss reduction prediction garbage measured world r = Err e).
  { unfold reconstruct_rank. rewrite WORK. cbn [reconstruct_groups]. set (members := sg_world _) in *. set (rg := sg_rank _).
    assert (X : exists e, reconstruct_group masks tc loss reduction prediction garbage measured members rg (initial_losses masks) g = Err e); [|destruct X as (e & ->); exists e; auto].
    pose proof (ACT (group_mask masks g) (nth_In _ _ G)) as H2. pose proof (US (group_mask masks g) (nth_In _ _ G)) as (per0 & _).
    unfold reconstruct_group. assert (Z : list_sum (group_mask masks g) <> 0).
    { intros Z. assert (N : mask_active (group_mask masks g) = 0); [|lia]. unfold mask_active. clear - Z. induction (group_mask masks g) as [|m mask IH]; auto. change (list_sum (m :: mask)) with (m + list_sum mask) in Z. cbn [filter]. destruct (Nat.ltb_spec 0 m); [lia|]. apply IH. lia. }
    destruct (Nat.eqb_spec (list_sum (group_mask masks g)) 0); [contradiction|].
    destruct (split_of masks tc US g G Z) as (per & split & P2 & E & SP & NT & T & MT & TI). rewrite SP. cbn [bind]. rewrite NT, MT, TI. set (test := Nat.max 1 (tc per)) in *. set (t := per - test) in *. set (act := active_indices (group_mask masks g)) in *.
    rewrite (sample_rows_even _ _ per t) by (auto; unfold t, test; lia). fold act.
    assert (HA : 2 <= length act) by (unfold act; rewrite active_count; auto).
    assert (SA : tracer_sampler_indices (map (fun m => m - test) (group_mask masks g)) members rg = sampler_indices (length act * t) (length act) members rg).
    { unfold tracer_sampler_indices, mask_samples. rewrite (mask_even_samples t).
      - fold (mask_active (map (fun m => m - test) (group_mask masks g))). rewrite (mask_active_train _ per) by (auto; fold t; lia). unfold act. rewrite active_count. auto.
      - intros m I. apply in_map_iff in I. destruct I as (m' & <- & I). destruct (E m' I) as [->| ->]; auto. }
    rewrite SA. destruct (sampler_share_blocks (length act) t members rg HA T MB) as (c & LS & C). set (sampler := sampler_indices _ _ _ _) in *.
    set (pairs := flat_map _ act). assert (LP : length pairs = length act * t) by (unfold pairs; apply (flat_blocks_length (fun i k => (i, k)))).
    set (rows := map _ (combine (seq 0 (length pairs)) pairs)). assert (LR : length rows = length act * t) by (unfold rows; rewrite map_length, combine_length, seq_length, Nat.min_id; exact LP).
    clearbody rows pairs. destruct (select_rows (measured_rows masks measured g) _) as [mt|e]; cbn [bind]; [|exists e; auto].
    destruct (select_rows mt sampler) as [truth|e] eqn:TR; cbn [bind]; [|exists e; auto]. apply select_length in TR. rewrite LS in TR.
    unfold broadcast_loss. rewrite LR, TR. destruct (Nat.eqb_spec (length act * t) (c * t)) as [Q|Q]; [exfalso; nia|].
    destruct rows as [|x [|y rows]]; [cbn in LR; nia|cbn in LR; nia|]. destruct truth as [|u [|w truth]]; [exists RuntimeError; auto| |exists RuntimeError; auto].
    cbn [bind]. cbn [length] in TR. assert (t = 1 /\ c = 1) as (T1 & C1) by (symmetry in TR; apply Nat.eq_mul_1 in TR; destruct TR; auto). rewrite T1 in *. clear T1.
    set (losses := map (fun a => loss a u) (x :: y :: rows)). assert (LL : length losses = length act * 1) by (unfold losses; rewrite map_length; exact LR). clearbody losses.
    destruct (reduce_loss_per_sample losses 1 reduction) as [per_heliostat|e] eqn:RE; cbn [bind]; [|exists e; auto].
    assert (LH : length per_heliostat = length act). { destruct (reduce_all _ losses 1 reduction ltac:(lia)) as (out & E1 & E2 & _). rewrite E1 in RE. injection RE as <-. rewrite E2, LL, Nat.mul_1_r, Nat.div_1_r. auto. }
    destruct (every 1 sampler) as [first|e] eqn:EV; cbn [bind]; [|exists e; auto]. unfold every in EV. cbn [Nat.eqb] in EV. apply select_length in EV. unfold arange_step in EV. rewrite map_length, seq_length, LS in EV.
    assert (LF : length first = 1) by (rewrite EV; replace (c * 1) with 1 by lia; reflexivity).
    destruct (select_rows act _) as [hs|e] eqn:HS; cbn [bind]; [|exists e; auto]. apply select_length in HS. rewrite map_length, LF in HS.
    unfold scatter. destruct (existsb _ _); [exists IndexError; auto|]. rewrite !map_length, HS, LH. destruct (Nat.eqb_spec 1 (length act)); [lia|].
    destruct per_heliostat as [|v [|v' l]]; [cbn in LH; lia|cbn in LH; lia|]. exists ShapeError. reflexivity. }
  destruct F as (e & F). destruct (map_res_fails (reconstruct_rank masks tc loss reduction prediction garbage measured world) (seq 0 world) r e) as (e' & ->); [apply in_seq; lia|exact F|]. exists e'. auto.
Qed.

(** ** Parameters *)
Lemma lookup_append_list : forall gs rank d (k : nat),
  (forall e, find (fun e => fst e =? k) d = Some e -> snd e <> []) ->
  let d' := fold_left (fun d g => dict_append d g rank) gs d in
  (In k gs -> exists e, find (fun e => fst e =? k) d' = Some e /\ snd e <> [])
  /\ (forall e, find (fun e => fst e =? k) d' = Some e -> snd e <> [] /\ forall r, In r (snd e) -> (r = rank /\ In k gs) \/ exists e0, find (fun e => fst e =? k) d = Some e0 /\ In r (snd e0))
  /\ (forall e, find (fun e => fst e =? k) d = Some e -> exists e', find (fun e => fst e =? k) d' = Some e').
Proof.
  induction gs as [|g gs IH]; intros rank d k NE; cbn [fold_left].
  - split; [intros []|]. split; [|eauto]. intros e E. split; [apply NE; auto|]. intros r I. right. eauto.
  - assert (NE' : forall e, find (fun e => fst e =? k) (dict_append d g rank) = Some e -> snd e <> []).
    { intros e E. rewrite dict_append_lookup in E. destruct (Nat.eqb_spec g k); [injection E as <-; cbn; intros X; apply app_eq_nil in X; destruct X; discriminate|apply NE; auto]. }
    destruct (IH rank (dict_append d g rank) k NE') as (A & B & C). split; [|split].
    + intros [->|I]; [|apply A; auto]. destruct (C _ ltac:(rewrite dict_append_lookup, Nat.eqb_refl; reflexivity)) as (e' & E'). exists e'. split; auto. apply (B e' E').
    + intros e E. destruct (B e E) as (B1 & B2). split; auto. intros r I. destruct (B2 r I) as [(-> & J)|(e0 & F & J)]; [left; split; auto; right; auto|].
      rewrite dict_append_lookup in F. destruct (Nat.eqb_spec g k) as [->|N].
      * injection F as <-. cbn [snd] in J. apply in_app_iff in J. destruct J as [J|[<-|[]]]; [|left; split; auto; left; auto].
        right. destruct (find (fun e => fst e =? k) d) as [e0|]; [exists e0; auto|destruct J].
      * right. exists e0. auto.
    + intros e E. destruct (Nat.eqb_spec g k) as [->|N].
      * apply (C (k, match find (fun e => fst e =? k) d with Some e => snd e | None => [] end ++ [rank])). rewrite dict_append_lookup, Nat.eqb_refl. reflexivity.
      * apply (C e). rewrite dict_append_lookup. destruct (Nat.eqb_spec g k); [contradiction|]. auto.
Qed.
Lemma lookup_ranks : forall world groups g, 1 <= world -> 1 <= groups -> g < groups ->
  exists ranks, ranks_training_group world groups g = Some ranks /\ ranks <> [] /\ forall r, In r ranks -> r < world /\ In g (groups_of_rank world groups r).
Proof.
  intros world groups g W GR G. unfold ranks_training_group, ranks_to_groups. rewrite distribute_length, distribute_as_map.
  assert (L : forall n a d, a + n <= world -> (forall e, find (fun e => fst e =? g) d = Some e -> snd e <> [] /\ forall r, In r (snd e) -> r < world /\ In g (groups_of_rank world groups r)) ->
     let d' := fold_left (fun d '(rank, gs) => fold_left (fun d g => dict_append d g rank) gs d) (combine (seq a n) (map (groups_of_rank world groups) (seq a n))) d in
     (forall e, find (fun e => fst e =? g) d' = Some e -> snd e <> [] /\ forall r, In r (snd e) -> r < world /\ In g (groups_of_rank world groups r))
     /\ ((exists e, find (fun e => fst e =? g) d = Some e) \/ (exists r, a <= r < a + n /\ In g (groups_of_rank world groups r)) -> exists e, find (fun e => fst e =? g) d' = Some e)).
  { induction n as [|n IH]; intros a d A D; cbn [seq map combine fold_left].
    - split; auto. intros [X|(r & X & _)]; auto. lia.
    - destruct (lookup_append_list (groups_of_rank world groups a) a d g) as (P1 & P2 & P3); [intros e E; apply (D e E)|].
      destruct (IH (S a) (fold_left (fun d g0 => dict_append d g0 a) (groups_of_rank world groups a) d)) as (Q1 & Q2); [lia| |].
      + intros e E. destruct (P2 e E) as (E1 & E2). split; auto. intros r I. destruct (E2 r I) as [(-> & J)|(e0 & F & J)]; [split; [lia|auto]|]. apply (D e0 F). auto.
      + split; auto. intros [(e & E)|(r & X & I)].
        * apply Q2. left. eapply P3; eauto.
        * destruct (Nat.eq_dec r a) as [->|N]; [apply Q2; left; destruct (P1 I) as (e & E & _); eauto|]. apply Q2. right. exists r. split; auto. lia. }
  destruct (L world 0 [] ltac:(lia)) as (L1 & L2); [intros e; discriminate|]. destruct (groups_distribution world groups W GR) as (_ & _ & COVER & _). destruct (COVER g G) as (r & R & I).
  destruct L2 as (e & E); [right; exists r; split; auto; lia|]. rewrite E. exists (snd e). split; auto. 
Qed.
Theorem parameters_everywhere : forall {A} world groups (initial : nat -> A) trained g, 1 <= world -> 1 <= groups -> g < groups ->
  exists source, source < world /\ In g (groups_of_rank world groups source)
  /\ forall rank, rank < world -> broadcast_parameters world groups (local_parameters world groups initial trained) rank g = Ok (trained source g).
Proof.
  intros A world groups initial trained g W GR G. unfold broadcast_parameters. destruct (Nat.eqb_spec world 1) as [->|N].
  - exists 0. split; auto. pose proof (single_rank_groups groups g GR G) as X. split; [apply existsb_exists in X; destruct X as (y & I & Y); apply Nat.eqb_eq in Y; subst; auto|].
    intros rank R. assert (rank = 0) by lia. subst. unfold local_parameters. rewrite X. auto.
  - destruct (lookup_ranks world groups g W GR G) as (ranks & E & NE & IN). rewrite E. destruct ranks as [|s ranks]; [contradiction|]. destruct (IN s (or_introl eq_refl)) as (S1 & S2).
    exists s. split; auto. split; auto. intros rank _. unfold local_parameters. replace (existsb _ _) with true; auto. symmetry. apply existsb_exists. exists g. rewrite Nat.eqb_refl. auto.
Qed.
Theorem parameters_stay_local : forall {A} world groups (initial : nat -> A) trained g rank, ~ In g (groups_of_rank world groups rank) -> local_parameters world groups initial trained rank g = initial g.
Proof.
  intros A world groups initial trained g rank N. unfold local_parameters. destruct (existsb _ _) eqn:E; auto. apply existsb_exists in E. destruct E as (y & I & Y). apply Nat.eqb_eq in Y. subst. contradiction.
Qed.

Theorem initial_somewhere : forall world groups g, 2 <= world -> 2 <= groups -> g < groups ->
  exists rank, rank < world
  /\ forall (A : Type) (initial : nat -> A) trained, local_parameters world groups initial trained rank g = initial g.
Proof.
  intros world groups g W G L.
  assert (exists rank, rank < world /\ ~ In g (groups_of_rank world groups rank)) as (rank & R1 & R2).
  { destruct (Nat.ltb_spec groups world) as [H|H].
    - exists (if g =? 0 then 1 else 0). split; [destruct (g =? 0); lia|]. rewrite groups_of_rank_spec by (destruct (g =? 0); lia).
      destruct (Nat.ltb_spec groups world); [|lia]. destruct (Nat.eqb_spec g 0).
      + rewrite Nat.mod_small by lia. intros [E|[]]. lia.
      + rewrite Nat.mod_0_l by lia. intros [E|[]]. lia.
    - exists (if g mod world =? 0 then 1 else 0). split; [destruct (g mod world =? 0); lia|]. rewrite groups_of_rank_spec by (destruct (g mod world =? 0); lia).
      destruct (Nat.ltb_spec groups world); [lia|]. intros I. apply filter_In in I as (_ & I). apply Nat.eqb_eq in I.
      destruct (Nat.eqb_spec (g mod world) 0); lia. }
  exists rank. split; auto. intros. apply parameters_stay_local; auto.
Qed.
