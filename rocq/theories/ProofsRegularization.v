From Coq Require Import List Arith Bool Lia.
From Verif Require Import ModelField ProofsField ModelDistributed ProofsDistributed ModelReconstruction SpecReconstruction ProofsReconstruction ModelRegularization.
Import ListNotations.
Local Open Scope nat_scope.

Lemma every_first : forall {A B} (f : A -> nat -> B) t (l : list A), 0 < t -> every t (flat_map (fun i => map (f i) (seq 0 t)) l) = Ok (map (fun i => f i 0) l).
Proof.
  intros A B f t l T. unfold every. destruct (Nat.eqb_spec t 0); [lia|]. rewrite flat_blocks_length, arange_step_blocks by lia.
  pose proof (select_labelled f t 1 l ltac:(lia)) as Q. cbn [seq map] in Q.
  replace (flat_map (fun start => [start + 0]) (map (fun b => b * t) (seq 0 (length l)))) with (map (fun b => b * t) (seq 0 (length l))) in Q.
  - rewrite Q. reflexivity.
  - clear. induction (map _ _); auto. cbn. rewrite <- IHl0. f_equal. lia.
Qed.
Lemma select_map : forall {A} (g : nat -> A) (l : list nat) idx, (forall j, In j idx -> j < length l) -> select_rows (map g l) idx = Ok (map (fun j => g (nth j l 0)) idx).
Proof.
  intros A g l idx H. apply select_all_some; [rewrite map_length; auto|]. intros j i E. rewrite !nth_error_map, E. cbn [option_map].
  assert (I : i < length l) by (apply H; eapply nth_error_In; eauto). rewrite (nth_error_nth' l 0) by auto. reflexivity.
Qed.
Lemma combine_maps : forall {A B C} (f : A -> B) (g : A -> C) l, combine (map f l) (map g l) = map (fun x => (f x, g x)) l.
Proof. intros. induction l; auto. cbn. f_equal. auto. Qed.

Definition rank_heliostats (mask : list nat) (members rank : nat) : list nat :=
  map (fun j => nth j (active_indices mask) 0) (filter (fun j => j mod Nat.min (mask_active mask) members =? rank) (seq 0 (mask_active mask))).

Lemma regularized_own : forall {A} mask test_of_count (current original : nat -> A) members rank, usable_mask test_of_count mask -> 1 <= mask_active mask -> 1 <= members -> rank < members ->
  regularized_pairs mask test_of_count current original members rank = Ok (map (fun i => (current i, original i)) (rank_heliostats mask members rank)).
Proof.
  intros A mask test_of_count current original members rank (per & P2 & T & E) AC M R. unfold regularized_pairs, train_test_split.
  fold (mask_active mask). rewrite (mask_even_samples per) by auto. fold (mask_active mask). set (h := mask_active mask) in *.
  destruct (Nat.eqb_spec h 0); [lia|]. rewrite (Nat.mul_comm h per), Nat.div_mul by lia. set (test := Nat.max 1 (test_of_count per)).
  destruct (Nat.ltb_spec per test) as [L|L]; [unfold test in L; lia|]. cbn [bind sr_number_of_train sr_mask_train]. set (t := per - test).
  assert (TP : 0 < t) by (unfold t, test; lia).
  assert (ET : forall m, In m (map (fun m => m - test) mask) -> m = 0 \/ m = t).
  { intros m I. apply in_map_iff in I. destruct I as (m' & <- & I). destruct (E m' I) as [->| ->]; [left; lia|right; reflexivity]. }
  assert (HA : mask_active (map (fun m => m - test) mask) = h).
  { unfold h, mask_active. clear - E T TP t. induction mask as [|m mask IH]; auto. cbn [map filter]. specialize (IH (fun m I => E m (or_intror I))).
    destruct (E m (or_introl eq_refl)) as [->| ->].
    - rewrite Nat.sub_0_l. change (0 <? 0) with false. cbv iota. exact IH.
    - destruct (Nat.ltb_spec 0 (per - test)); [|unfold t in TP; lia]. destruct (Nat.ltb_spec 0 per); [|lia]. cbn [length]. f_equal. exact IH. }
  rewrite (sample_rows_even _ _ per t) by (auto; unfold t, test; lia).
  rewrite (map_flat_blocks (fun '(i, _) => current i)). rewrite (every_first (fun i _ => current i)) by auto.
  unfold tracer_sampler_indices, mask_samples. rewrite (mask_even_samples t) by auto. fold (mask_active (map (fun m => m - test) mask)). rewrite HA.
  unfold sampler_indices, rank_heliostats. fold h. set (ar := Nat.min h members). set (mine := filter (fun j => j mod ar =? rank) (seq 0 h)).
  assert (SA : (if rank <? ar then flat_map (fun index => if index mod ar =? rank then seq (index * (h * t / h)) (h * t / h) else []) (seq 0 h) else [])
               = flat_map (fun j => map (fun k => j * t + k) (seq 0 t)) mine).
  { rewrite (Nat.mul_comm h t), Nat.div_mul by lia. destruct (Nat.ltb_spec rank ar) as [RA|RA].
    - rewrite (flat_map_filter _ (fun j => j mod ar =? rank)) by (intros x Q; rewrite Q; auto). apply flat_map_ext_in. intros j J. apply filter_In in J. destruct J as (_ & J). rewrite J.
      clear. generalize (j * t). intros b. clear j. assert (G : forall n s, seq (b + s) n = map (fun k => b + k) (seq s n)). { induction n; intros s; auto. cbn. f_equal. rewrite <- IHn. f_equal. lia. }
      rewrite <- G. f_equal. lia.
    - unfold mine. assert (Z : filter (fun j => j mod ar =? rank) (seq 0 h) = []); [|rewrite Z; reflexivity].
      assert (ar <> 0) by (unfold ar; lia). clear - RA H. induction (seq 0 h) as [|j l IH]; auto. cbn [filter]. destruct (Nat.eqb_spec (j mod ar) rank) as [Q|]; auto.
      pose proof (Nat.mod_upper_bound j ar H). lia. }
  rewrite SA. rewrite (every_first (fun j k => j * t + k)) by auto. cbn [bind]. rewrite map_map.
  assert (LI : map (fun x => (x * t + 0) / t) mine = mine).
  { rewrite <- (map_id mine) at 2. apply map_ext. intros x. rewrite Nat.add_0_r. apply Nat.div_mul. lia. }
  rewrite LI.
  assert (B : forall j, In j mine -> j < length (active_indices mask)).
  { intros j J. rewrite active_count. apply filter_In in J. destruct J as (J & _). apply in_seq in J. fold h. lia. }
  rewrite !select_map by auto. cbn [bind]. rewrite combine_maps, map_map. reflexivity.
Qed.

Lemma rank_heliostats_cover : forall mask members i, 1 <= members -> i < length mask -> nth i mask 0 <> 0 ->
  exists rank, rank < members /\ In i (rank_heliostats mask members rank) /\ forall rank', In i (rank_heliostats mask members rank') -> rank' = rank.
Proof.
  intros mask members i M I N. assert (IA : In i (active_indices mask)) by (apply active_in; auto).
  destruct (In_nth (active_indices mask) i 0 IA) as (j & J & E). rewrite active_count in J.
  exists (j mod Nat.min (mask_active mask) members). split; [|split].
  - pose proof (Nat.mod_upper_bound j (Nat.min (mask_active mask) members) ltac:(lia)). lia.
  - unfold rank_heliostats. apply in_map_iff. exists j. split; auto. apply filter_In. split; [apply in_seq; lia|apply Nat.eqb_refl].
  - intros rank' Q. unfold rank_heliostats in Q. apply in_map_iff in Q. destruct Q as (j' & E' & Q). apply filter_In in Q. destruct Q as (Q1 & Q2). apply in_seq in Q1. apply Nat.eqb_eq in Q2.
    assert (j' = j); [|subst; auto]. apply (NoDup_nth (active_indices mask) 0); [apply active_nodup|rewrite active_count; lia|rewrite active_count; lia|congruence].
Qed.
Lemma rank_heliostats_distinct : forall mask members rank, NoDup (rank_heliostats mask members rank) /\ forall i, In i (rank_heliostats mask members rank) -> i < length mask /\ nth i mask 0 <> 0.
Proof.
  intros mask members rank. split.
  - unfold rank_heliostats. assert (G : forall l, NoDup l -> (forall j, In j l -> j < mask_active mask) -> NoDup (map (fun j => nth j (active_indices mask) 0) l)).
    { induction 1 as [|j l NI ND IH]; intros B; cbn [map]; constructor; [|apply IH; intros; apply B; right; auto].
      intros Q. apply in_map_iff in Q. destruct Q as (j' & E & Q). apply NI.
      assert (j' = j); [|subst; auto]. apply (NoDup_nth (active_indices mask) 0); auto; [apply active_nodup| |]; rewrite active_count; apply B; [right|left]; auto. }
    apply G; [apply NoDup_filter, seq_NoDup|]. intros j J. apply filter_In in J. destruct J as (J & _). apply in_seq in J. lia.
  - intros i I. apply active_in. unfold rank_heliostats in I. apply in_map_iff in I. destruct I as (j & <- & J). apply filter_In in J. destruct J as (J & _). apply in_seq in J. apply nth_In. rewrite active_count. lia.
Qed.
Lemma regularizers_own : forall {A} mask test_of_count (current original : nat -> A) members, usable_mask test_of_count mask -> 1 <= mask_active mask -> 1 <= members ->
  exists heliostats : nat -> list nat,
  (forall rank, rank < members -> regularized_pairs mask test_of_count current original members rank = Ok (map (fun i => (current i, original i)) (heliostats rank)))
  /\ (forall rank, NoDup (heliostats rank) /\ forall i, In i (heliostats rank) -> i < length mask /\ nth i mask 0 <> 0)
  /\ (forall i, i < length mask -> nth i mask 0 <> 0 -> exists rank, rank < members /\ In i (heliostats rank) /\ forall rank', In i (heliostats rank') -> rank' = rank).
Proof.
  intros A mask test_of_count current original members U AC M. exists (rank_heliostats mask members). split; [|split].
  - intros rank R. apply regularized_own; auto.
  - apply rank_heliostats_distinct.
  - intros i I N. apply rank_heliostats_cover; auto.
Qed.
