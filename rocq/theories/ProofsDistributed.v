From Coq Require Import List Arith Bool Lia Permutation Sorted.
From Verif Require Import ModelDistributed SpecDistributed.
Import ListNotations.
Local Arguments Nat.modulo : simpl never.
Local Arguments Nat.div : simpl never.

(** * Generic list lemmas *)

Lemma concat_map_app_perm : forall {A B} (a b : A -> list B) rs,
  Permutation (concat (map (fun r => a r ++ b r) rs))
              (concat (map a rs) ++ concat (map b rs)).
Proof.
  induction rs as [|r rs IH]; simpl; [constructor|].
  rewrite <- !app_assoc. apply Permutation_app_head.
  rewrite IH. rewrite !app_assoc. apply Permutation_app_tail.
  apply Permutation_app_comm.
Qed.

Lemma concat_map_eqb_nil : forall {B} k (f : list B) a n,
  (k < a \/ a + n <= k) ->
  concat (map (fun r => if k =? r then f else []) (seq a n)) = [].
Proof.
  intros B k f a n; revert a; induction n; simpl; intros; auto.
  destruct (Nat.eqb_spec k a); [lia|]. simpl. apply IHn. lia.
Qed.

Lemma concat_map_eqb : forall {B} k (f : list B) a n,
  a <= k < a + n ->
  concat (map (fun r => if k =? r then f else []) (seq a n)) = f.
Proof.
  intros B k f a n; revert a; induction n; simpl; intros; [lia|].
  destruct (Nat.eqb_spec k a).
  - rewrite concat_map_eqb_nil; [apply app_nil_r | lia].
  - apply IHn. lia.
Qed.

Lemma partition_by_key : forall {A B} (key : A -> nat) (f : A -> list B) n l,
  (forall x, In x l -> key x < n) ->
  Permutation
    (concat (map (fun r => flat_map (fun x => if key x =? r then f x else []) l) (seq 0 n)))
    (flat_map f l).
Proof.
  induction l as [|x l IH]; intros H.
  - simpl. assert (E : forall s : list nat, concat (map (fun _ : nat => @nil B) s) = [])
      by (induction s; auto). rewrite E. constructor.
  - cbn [flat_map].
    rewrite (concat_map_app_perm (fun r => if key x =? r then f x else [])
              (fun r => flat_map (fun x => if key x =? r then f x else []) l)).
    rewrite concat_map_eqb by (specialize (H x (or_introl eq_refl)); lia).
    apply Permutation_app_head, IH. intros; apply H; right; auto.
Qed.

Lemma flat_map_seq_blocks : forall s n a,
  flat_map (fun i => seq (i * s) s) (seq a n) = seq (a * s) (n * s).
Proof.
  induction n; simpl; intros; auto.
  rewrite IHn, seq_app. do 2 f_equal. lia.
Qed.

Lemma concat_map_nil : forall {A B} (f : A -> list B) l,
  (forall x, In x l -> f x = []) -> concat (map f l) = [].
Proof.
  induction l; simpl; intros; auto.
  rewrite H, IHl; auto.
Qed.

(** * Sampler *)

Lemma sampler_union : forall samples active world,
  1 <= active -> 1 <= world ->
  Permutation (concat (map (sampler_indices samples active world) (seq 0 world)))
              (seq 0 (active * (samples / active))).
Proof.
  intros samples active world Ha Hw.
  set (ar := Nat.min active world).
  assert (Hs : seq 0 world = seq 0 ar ++ seq ar (world - ar)).
  { rewrite <- (seq_app ar). f_equal. unfold ar; lia. }
  rewrite Hs, map_app, concat_app.
  rewrite (concat_map_nil _ (seq ar (world - ar))).
  2:{ intros x Hx. apply in_seq in Hx. unfold sampler_indices. fold ar.
      destruct (Nat.ltb_spec x ar); [lia|auto]. }
  rewrite app_nil_r.
  rewrite (map_ext_in _ (fun r => flat_map (fun i => if i mod ar =? r
              then seq (i * (samples / active)) (samples / active) else []) (seq 0 active))).
  2:{ intros x Hx. apply in_seq in Hx. unfold sampler_indices. fold ar.
      destruct (Nat.ltb_spec x ar); [auto|lia]. }
  rewrite (partition_by_key (fun i => i mod ar)).
  - rewrite flat_map_seq_blocks. simpl. reflexivity.
  - intros. apply Nat.mod_upper_bound. unfold ar; lia.
Qed.

Lemma sampler_partition : forall active per world,
  1 <= active -> 1 <= world ->
  Permutation (concat (map (sampler_indices (active * per) active world) (seq 0 world)))
              (seq 0 (active * per)).
Proof.
  intros. rewrite sampler_union by auto.
  rewrite (Nat.mul_comm active per), Nat.div_mul by lia.
  rewrite (Nat.mul_comm active per). reflexivity.
Qed.

Lemma in_sampler : forall samples active world rank i,
  In i (sampler_indices samples active world rank) <->
  rank < Nat.min active world /\
  exists h, h < active /\ h mod Nat.min active world = rank /\
            h * (samples / active) <= i < (h + 1) * (samples / active).
Proof.
  intros. unfold sampler_indices.
  destruct (Nat.ltb_spec rank (Nat.min active world)).
  - rewrite in_flat_map. split.
    + intros (h & Hh & Hi). apply in_seq in Hh.
      destruct (Nat.eqb_spec (h mod Nat.min active world) rank); [|destruct Hi].
      apply in_seq in Hi. split; auto. exists h. lia.
    + intros (_ & h & H1 & H2 & H3). exists h. split; [apply in_seq; lia|].
      rewrite H2, Nat.eqb_refl. apply in_seq. lia.
  - simpl. split; [tauto|lia].
Qed.

(** ** Counting residues *)
Lemma filter_ext_len : forall {A} (f : A -> bool) l x,
  length (filter f (l ++ [x])) = length (filter f l) + (if f x then 1 else 0).
Proof. intros. rewrite filter_app, app_length. simpl. destruct (f x); auto. Qed.

Lemma count_mod : forall w r n, r < w ->
  length (filter (fun i => i mod w =? r) (seq 0 n)) =
  n / w + (if r <? n mod w then 1 else 0).
Proof.
  intros w r n Hr. induction n as [|n IH].
  - simpl. rewrite Nat.mod_0_l, Nat.div_0_l by lia.
    destruct (Nat.ltb_spec r 0); lia.
  - rewrite seq_S, filter_ext_len, IH. simpl (0 + n).
    pose proof (Nat.div_mod n w ltac:(lia)) as E.
    pose proof (Nat.mod_upper_bound n w ltac:(lia)) as U.
    set (q := n / w) in *. set (m := n mod w) in *.
    destruct (Nat.eq_dec (S m) w).
    + assert (D : S n / w = S q) by (symmetry; apply (Nat.div_unique _ _ _ 0); nia).
      assert (M : S n mod w = 0) by (symmetry; apply (Nat.mod_unique _ _ (S q)); nia).
      rewrite D, M.
      destruct (Nat.ltb_spec r m), (Nat.ltb_spec r 0), (Nat.eqb_spec m r); lia.
    + assert (D : S n / w = q) by (symmetry; apply (Nat.div_unique _ _ _ (S m)); nia).
      assert (M : S n mod w = S m) by (symmetry; apply (Nat.mod_unique _ _ q); nia).
      rewrite D, M.
      destruct (Nat.ltb_spec r m), (Nat.ltb_spec r (S m)), (Nat.eqb_spec m r); lia.
Qed.

Lemma flat_map_if_length : forall s (p : nat -> bool) l,
  length (flat_map (fun i => if p i then seq (i * s) s else []) l) =
  length (filter p l) * s.
Proof.
  induction l; simpl; auto.
  rewrite app_length, IHl. destruct (p a); simpl; rewrite ?seq_length; lia.
Qed.

Lemma sampler_length : forall samples active world rank,
  rank < Nat.min active world ->
  length (sampler_indices samples active world rank) =
  (active / Nat.min active world +
   (if rank <? active mod Nat.min active world then 1 else 0)) * (samples / active).
Proof.
  intros. unfold sampler_indices.
  destruct (Nat.ltb_spec rank (Nat.min active world)); [|lia].
  rewrite (flat_map_if_length _ (fun i => i mod Nat.min active world =? rank)).
  rewrite count_mod by auto. reflexivity.
Qed.

Lemma sampler_idle : forall samples active world rank,
  Nat.min active world <= rank -> sampler_indices samples active world rank = [].
Proof.
  intros. unfold sampler_indices.
  destruct (Nat.ltb_spec rank (Nat.min active world)); [lia|auto].
Qed.

Lemma strongly_sorted_app : forall (l1 l2 : list nat),
  StronglySorted lt l1 -> StronglySorted lt l2 ->
  (forall x y, In x l1 -> In y l2 -> x < y) -> StronglySorted lt (l1 ++ l2).
Proof.
  induction l1; simpl; intros; auto.
  inversion H; subst. constructor.
  - apply IHl1; auto.
  - apply Forall_app. split; auto.
    all: apply Forall_forall; intros; apply H1; auto.
Qed.

Lemma strongly_sorted_seq : forall n a, StronglySorted lt (seq a n).
Proof.
  induction n; simpl; intros; constructor; auto.
  apply Forall_forall. intros x Hx. apply in_seq in Hx. lia.
Qed.

Lemma blocks_sorted : forall s (p : nat -> bool) n a,
  StronglySorted lt (flat_map (fun i => if p i then seq (i * s) s else []) (seq a n)).
Proof.
  induction n; simpl; intros; [constructor|].
  apply strongly_sorted_app; [| apply IHn |].
  - destruct (p a); [apply strongly_sorted_seq | constructor].
  - intros x y Hx Hy. apply in_flat_map in Hy. destruct Hy as (j & Hj & Hy).
    apply in_seq in Hj.
    destruct (p a); [|destruct Hx]. destruct (p j); [|destruct Hy].
    apply in_seq in Hx. apply in_seq in Hy. nia.
Qed.

Lemma sampler_sorted : forall samples active world rank,
  StronglySorted lt (sampler_indices samples active world rank).
Proof.
  intros. unfold sampler_indices. destruct (_ <? _); [|constructor].
  apply blocks_sorted.
Qed.

Lemma sampler_heliostat_local : forall active per world h,
  1 <= world -> h < active -> exists rank,
    rank < world /\ forall k, k < per -> In (h * per + k) (sampler_indices (active * per) active world rank).
Proof.
  intros active per world h Hw Hh.
  pose proof (Nat.mod_upper_bound h (Nat.min active world) ltac:(lia)) as U.
  exists (h mod Nat.min active world). split; [lia|].
  intros k Hk. apply in_sampler. split; [lia|].
  exists h. rewrite (Nat.mul_comm active per), Nat.div_mul by lia. repeat split; auto; nia.
Qed.

Lemma sampler_balance : forall active per world r1 r2,
  r1 < Nat.min active world -> r2 < Nat.min active world ->
  length (sampler_indices (active * per) active world r1)
  <= length (sampler_indices (active * per) active world r2) + per.
Proof.
  intros. rewrite !sampler_length by auto.
  rewrite (Nat.mul_comm active per), Nat.div_mul by lia.
  destruct (r1 <? _), (r2 <? _); nia.
Qed.

Lemma nodup_concat_disjoint : forall {A} (f : nat -> list A) n a r1 r2 x,
  NoDup (concat (map f (seq a n))) ->
  a <= r1 < a + n -> a <= r2 < a + n -> In x (f r1) -> In x (f r2) -> r1 = r2.
Proof.
  induction n; simpl; intros; [lia|].
  assert (D : forall r, S a <= r < S a + n -> In x (f a) -> In x (f r) -> False).
  { intros r Hr I1 I2. clear - H Hr I1 I2.
    assert (In x (concat (map f (seq (S a) n)))).
    { apply in_concat. exists (f r). split; auto. apply in_map. apply in_seq. lia. }
    revert H I1 H0. generalize (concat (map f (seq (S a) n))) as l2.
    induction (f a) as [|y l IHl]; simpl; intros; auto.
    inversion H; subst. destruct I1 as [->|I1]; eauto.
    apply H3. apply in_or_app; auto. }
  assert (ND : NoDup (concat (map f (seq (S a) n)))).
  { clear - H. induction (f a); simpl in *; auto. inversion H; auto. }
  destruct (Nat.eq_dec r1 a), (Nat.eq_dec r2 a); subst; auto.
  - exfalso. apply (D r2); auto; lia.
  - exfalso. apply (D r1); auto; lia.
  - eapply IHn; eauto; lia.
Qed.

Lemma sampler_disjoint : forall active per world r1 r2 i,
  1 <= active -> r1 < world -> r2 < world ->
  In i (sampler_indices (active * per) active world r1) ->
  In i (sampler_indices (active * per) active world r2) -> r1 = r2.
Proof.
  intros. eapply (nodup_concat_disjoint (sampler_indices (active * per) active world) world 0); eauto; try lia.
  eapply Permutation_NoDup; [symmetry; apply sampler_partition; lia | apply seq_NoDup].
Qed.

(** Masks *)
Lemma mask_even_samples : forall per mask,
  (forall m, In m mask -> m = 0 \/ m = per) -> 
  mask_samples mask = mask_active mask * per.
Proof.
  unfold mask_samples, mask_active. induction mask as [|m mask IH]; simpl; intros H; auto.
  rewrite IH by (intros; apply H; auto).
  destruct (H m (or_introl eq_refl)); subst m; simpl.
  - reflexivity.
  - destruct per; simpl; lia.
Qed.

Lemma tracer_sampler_even : forall per mask world,
  1 <= world -> 1 <= mask_active mask ->
  (forall m, In m mask -> m = 0 \/ m = per) ->
  Permutation (concat (map (tracer_sampler_indices mask world) (seq 0 world)))
              (seq 0 (mask_samples mask)).
Proof.
  intros. unfold tracer_sampler_indices. rewrite (mask_even_samples per) by auto.
  apply sampler_partition; auto.
Qed.

Lemma tracer_sampler_union : forall mask world,
  1 <= world -> 1 <= mask_active mask ->
  Permutation (concat (map (tracer_sampler_indices mask world) (seq 0 world)))
              (seq 0 (mask_samples mask - mask_samples mask mod mask_active mask)).
Proof.
  intros. unfold tracer_sampler_indices. rewrite sampler_union by auto.
  rewrite (Nat.div_mod (mask_samples mask) (mask_active mask)) at 2 by lia.
  rewrite Nat.add_sub. reflexivity.
Qed.

Lemma tracer_sampler_complete_iff : forall mask world,
  1 <= world -> 1 <= mask_active mask ->
  (Permutation (concat (map (tracer_sampler_indices mask world) (seq 0 world)))
               (seq 0 (mask_samples mask))
   <-> mask_samples mask mod mask_active mask = 0).
Proof.
  intros mask world Hw Ha. pose proof (tracer_sampler_union mask world Hw Ha) as U. split; intros H.
  - assert (L := Permutation_length (Permutation_trans (Permutation_sym U) H)).
    rewrite !seq_length in L.
    pose proof (Nat.mod_le (mask_samples mask) (mask_active mask) ltac:(lia)). lia.
  - rewrite H, Nat.sub_0_r in U. exact U.
Qed.

(** * Distribution of groups *)

Lemma islice_cycle_nth : forall {A} (d : A) n all rest i,
  all <> [] -> i < n ->
  nth i (islice_cycle all rest n) d =
  (if i <? length rest then nth i rest d else nth ((i - length rest) mod length all) all d).
Proof.
  induction n; intros all rest i Hne Hi; [lia|]. simpl.
  destruct rest as [|x r].
  - destruct all as [|y r]; [congruence|]. simpl.
    destruct i.
    + rewrite Nat.mod_0_l by lia. reflexivity.
    + rewrite IHn by (try congruence; lia). 
      replace (S i - 0) with (S i) by lia.
      set (m := S (length r)).
      destruct (Nat.ltb_spec i (length r)).
      * rewrite Nat.mod_small by (unfold m; lia). reflexivity.
      * change (length (y :: r)) with m.
        replace (S i) with ((i - length r) + 1 * m) at 1 by (unfold m; lia).
        rewrite Nat.mod_add by (unfold m; lia). reflexivity.
  - destruct i; simpl; auto. rewrite IHn by (auto; lia).
    change (S i <? S (length r)) with (i <? length r). reflexivity.
Qed.

Lemma islice_cycle_length : forall {A} n (all rest : list A),
  all <> [] -> length (islice_cycle all rest n) = n.
Proof.
  induction n; intros; simpl; auto.
  destruct rest; [destruct all; [congruence|]|]; simpl; f_equal; apply IHn; congruence.
Qed.

Lemma islice_cycle_seq : forall g n, 1 <= g ->
  islice_cycle (seq 0 g) (seq 0 g) n = map (fun i => i mod g) (seq 0 n).
Proof.
  intros g n Hg.
  assert (Hne : seq 0 g <> []) by (destruct g; [lia|simpl; congruence]).
  apply (nth_ext _ _ 0 (0 mod g)).
  - rewrite islice_cycle_length, map_length, seq_length; auto.
  - rewrite islice_cycle_length by auto. intros i Hi.
    rewrite islice_cycle_nth by auto. rewrite !seq_length.
    rewrite (map_nth (fun i => i mod g)). rewrite (@seq_nth n 0 i) by lia. simpl.
    destruct (Nat.ltb_spec i g).
    + rewrite seq_nth, Nat.mod_small by lia. reflexivity.
    + pose proof (Nat.mod_upper_bound (i - g) g ltac:(lia)).
      rewrite seq_nth by lia. simpl.
      replace i with ((i - g) + 1 * g) at 2 by lia. rewrite Nat.mod_add by lia. reflexivity.
Qed.

Lemma append_at_length : forall {A} (l : list (list A)) p v, length (append_at l p v) = length l.
Proof. induction l; destruct p; simpl; auto. Qed.

Lemma append_at_nth : forall {A} (l : list (list A)) p v r, r < length l ->
  nth r (append_at l p v) [] = nth r l [] ++ (if p =? r then [v] else []).
Proof.
  induction l; simpl; intros p v r Hr; [lia|].
  destruct p, r; simpl; rewrite ?app_nil_r; auto.
  - apply IHl. lia.
Qed.

Lemma deal_length : forall gs l p, length (deal l p gs) = length l.
Proof. induction gs; simpl; intros; auto. rewrite IHgs. apply append_at_length. Qed.

Lemma deal_nth : forall w gs l k r, length l = w -> r < w ->
  nth r (deal l (k mod w) gs) [] =
  nth r l [] ++ flat_map (fun '(i, g) => if i mod w =? r then [g] else [])
                         (combine (seq k (length gs)) gs).
Proof.
  induction gs as [|g gs IH]; intros l k r Hl Hr; cbn [deal length seq combine flat_map].
  - rewrite app_nil_r. reflexivity.
  - assert (Hnext : (if S (k mod w) =? length l then 0 else S (k mod w)) = S k mod w).
    { rewrite Hl. pose proof (Nat.mod_upper_bound k w ltac:(lia)).
      pose proof (Nat.div_mod k w ltac:(lia)).
      destruct (Nat.eqb_spec (S (k mod w)) w).
      - apply (Nat.mod_unique _ _ (S (k / w))); nia.
      - apply (Nat.mod_unique _ _ (k / w)); nia. }
    rewrite Hnext, IH by (rewrite ?append_at_length; auto).
    rewrite append_at_nth by lia. rewrite <- app_assoc. f_equal. 
Qed.

Lemma nth_repeat_nil : forall {A} n r, nth r (repeat (@nil A) n) [] = [].
Proof. induction n; destruct r; simpl; auto. Qed.

Lemma combine_map_seq : forall (f : nat -> nat) n a,
  combine (seq a n) (map f (seq a n)) = map (fun i => (i, f i)) (seq a n).
Proof. induction n; simpl; intros; auto. f_equal; auto. Qed.

Lemma flat_map_map : forall {A B C} (f : B -> list C) (g : A -> B) l,
  flat_map f (map g l) = flat_map (fun x => f (g x)) l.
Proof. induction l; simpl; auto. rewrite IHl; auto. Qed.

Lemma deal_nth0 : forall w gs r, r < w ->
  nth r (deal (repeat [] w) 0 gs) [] =
  flat_map (fun '(i, g) => if i mod w =? r then [g] else []) (combine (seq 0 (length gs)) gs).
Proof.
  intros. pose proof (deal_nth w gs (repeat [] w) 0 r (repeat_length _ _) H) as E.
  rewrite Nat.mod_0_l in E by lia. rewrite E, nth_repeat_nil. reflexivity.
Qed.

Lemma groups_of_rank_spec : forall w g r, 1 <= g -> r < w ->
  groups_of_rank w g r =
  if g <? w then [r mod g] else filter (fun i => i mod w =? r) (seq 0 g).
Proof.
  intros w g r Hg Hr. unfold groups_of_rank, distribute_groups_among_ranks. cbn [fst].
  destruct (Nat.ltb_spec g w) as [H|H].
  - rewrite deal_nth0 by auto.
    rewrite islice_cycle_seq by auto. rewrite map_length, seq_length.
    rewrite combine_map_seq, flat_map_map.
    assert (G : forall n a, a <= r < a + n -> a + n <= w ->
       flat_map (fun x => if x mod w =? r then [x mod g] else []) (seq a n) = [r mod g]).
    { assert (N : forall n a, r < a -> a + n <= w ->
        flat_map (fun x => if x mod w =? r then [x mod g] else []) (seq a n) = []).
      { induction n; simpl; intros; auto. rewrite Nat.mod_small by lia.
        destruct (Nat.eqb_spec a r); [lia|]. simpl. apply IHn; lia. }
      induction n; simpl; intros; [lia|]. rewrite Nat.mod_small by lia.
      destruct (Nat.eqb_spec a r).
      - subst. rewrite N by lia. reflexivity.
      - simpl. apply IHn; lia. }
    apply G; lia.
  - rewrite deal_nth0 by auto. rewrite seq_length.
    generalize 0. clear. induction g; simpl; intros; auto.
    rewrite IHg. destruct (n mod w =? r); reflexivity.
Qed.

Lemma distribute_length : forall w g, length (fst (distribute_groups_among_ranks w g)) = w.
Proof. intros. unfold distribute_groups_among_ranks; simpl. rewrite deal_length. apply repeat_length. Qed.

Lemma nth_map_seq : forall {A} (l : list A) d, l = map (fun i => nth i l d) (seq 0 (length l)).
Proof.
  induction l; simpl; intros; auto. f_equal. rewrite <- seq_shift, map_map. apply IHl.
Qed.

Lemma distribute_as_map : forall w g,
  fst (distribute_groups_among_ranks w g) = map (groups_of_rank w g) (seq 0 w).
Proof.
  intros. rewrite (nth_map_seq (fst (distribute_groups_among_ranks w g)) []) at 1.
  rewrite distribute_length. reflexivity.
Qed.

Lemma groups_valid : forall w g r x, 1 <= g -> r < w -> In x (groups_of_rank w g r) -> x < g.
Proof.
  intros w g r x Hg Hr. rewrite groups_of_rank_spec by auto.
  destruct (g <? w).
  - intros [<-|[]]. apply Nat.mod_upper_bound. lia.
  - rewrite filter_In, in_seq. lia.
Qed.

Lemma flat_map_singletons : forall {A} (l : list A), flat_map (fun x => [x]) l = l.
Proof. induction l; simpl; congruence. Qed.

Lemma filter_flat_map : forall {A} (p : A -> bool) l,
  filter p l = flat_map (fun x => if p x then [x] else []) l.
Proof. induction l; simpl; auto. rewrite IHl. destruct (p a); auto. Qed.

Lemma groups_partition : forall w g, 1 <= w <= g ->
  Permutation (concat (map (groups_of_rank w g) (seq 0 w))) (seq 0 g).
Proof.
  intros w g H.
  rewrite (map_ext_in _ (fun r => flat_map (fun x => if x mod w =? r then [x] else []) (seq 0 g))).
  - rewrite (partition_by_key (fun x => x mod w) (fun x => [x])).
    + rewrite flat_map_singletons. reflexivity.
    + intros; apply Nat.mod_upper_bound; lia.
  - intros r Hr. apply in_seq in Hr. rewrite groups_of_rank_spec by lia.
    destruct (Nat.ltb_spec g w); [lia|]. apply filter_flat_map.
Qed.

Lemma groups_balance : forall w g r1 r2, 1 <= g -> r1 < w -> r2 < w ->
  length (groups_of_rank w g r1) <= length (groups_of_rank w g r2) + 1.
Proof.
  intros. rewrite !groups_of_rank_spec by auto.
  destruct (Nat.ltb_spec g w); [simpl; lia|].
  rewrite !count_mod by auto. destruct (r1 <? _), (r2 <? _); lia.
Qed.

Notation ranks_of_group w g x := (ranks_processing (groups_of_rank w g) w x).

Lemma ranks_of_group_nested : forall w g x, 1 <= g < w ->
  ranks_of_group w g x = filter (fun r => r mod g =? x) (seq 0 w).
Proof.
  intros. unfold ranks_processing. apply filter_ext_in. intros r Hr. apply in_seq in Hr.
  rewrite groups_of_rank_spec by lia. destruct (Nat.ltb_spec g w); [|lia].
  simpl. rewrite orb_false_r. apply Nat.eqb_sym.
Qed.

Lemma nested_singleton : forall w g r, 1 <= g < w -> r < w ->
  groups_of_rank w g r = [r mod g].
Proof.
  intros. rewrite groups_of_rank_spec by lia. destruct (Nat.ltb_spec g w); [auto|lia].
Qed.

Lemma nested_balance : forall w g x1 x2, 1 <= g < w -> x1 < g -> x2 < g ->
  length (ranks_of_group w g x1) <= length (ranks_of_group w g x2) + 1
  /\ 1 <= length (ranks_of_group w g x1).
Proof.
  intros w g x1 x2 H H1 H2. rewrite !ranks_of_group_nested by auto. rewrite !count_mod by auto.
  split.
  - destruct (x1 <? _), (x2 <? _); lia.
  - assert (1 <= w / g) by (apply Nat.div_le_lower_bound; lia). lia.
Qed.

Lemma groups_cover : forall w g x, 1 <= w -> 1 <= g -> x < g ->
  exists r, r < w /\ In x (groups_of_rank w g r).
Proof.
  intros w g x Hw Hg Hx. destruct (Nat.lt_ge_cases g w).
  - exists x. split; [lia|]. rewrite nested_singleton by lia. left. apply Nat.mod_small; lia.
  - exists (x mod w). assert (x mod w < w) by (apply Nat.mod_upper_bound; lia). split; auto.
    rewrite groups_of_rank_spec by lia. destruct (Nat.ltb_spec g w); [lia|].
    apply filter_In. split; [apply in_seq; lia|apply Nat.eqb_refl].
Qed.

(** * Nested subgroups *)
Lemma dict_append_lookup : forall d k v,
  forall k', find (fun e => fst e =? k') (dict_append d k v) =
    if k =? k' then Some (k, match find (fun e => fst e =? k) d with Some e => snd e | None => [] end ++ [v])
    else find (fun e => fst e =? k') d.
Proof.
  induction d as [|[k0 vs] d IH]; intros k v k'; simpl.
  - destruct (Nat.eqb_spec k k'); auto.
  - destruct (Nat.eqb_spec k0 k).
    + subst. simpl. destruct (Nat.eqb_spec k k'); auto.
    + simpl. rewrite IH. destruct (Nat.eqb_spec k0 k'), (Nat.eqb_spec k k'); subst; auto; congruence.
Qed.

Lemma dict_append_keys : forall d k v k', 
  In k' (map fst (dict_append d k v)) <-> In k' (map fst d) \/ k' = k.
Proof.
  induction d as [|[k0 vs] d IH]; simpl; intros.
  - intuition.
  - destruct (Nat.eqb_spec k0 k); simpl.
    + subst. intuition.
    + rewrite IH. intuition.
Qed.

Lemma dict_append_nodup : forall d k v, NoDup (map fst d) -> NoDup (map fst (dict_append d k v)).
Proof.
  induction d as [|[k0 vs] d IH]; simpl; intros.
  - constructor; auto.
  - inversion H; subst. destruct (Nat.eqb_spec k0 k); simpl; constructor; auto.
    rewrite dict_append_keys. intuition.
Qed.

(** The inverted dictionary after [n] ranks, in nested mode. *)
Definition inv_nested g n := fold_left (fun d r => dict_append d (r mod g) r) (seq 0 n) [].

Lemma ranks_to_groups_nested : forall w g, 1 <= g < w ->
  ranks_to_groups (fst (distribute_groups_among_ranks w g)) = inv_nested g w.
Proof.
  intros w g H. unfold ranks_to_groups. rewrite distribute_length, distribute_as_map.
  unfold inv_nested.
  assert (G : forall n a d, a + n <= w ->
     fold_left (fun d '(rank, groups) => fold_left (fun d g => dict_append d g rank) groups d)
       (combine (seq a n) (map (groups_of_rank w g) (seq a n))) d =
     fold_left (fun d r => dict_append d (r mod g) r) (seq a n) d).
  { induction n; intros a d Ha; auto. cbn [seq map combine fold_left].
    rewrite IHn by lia. rewrite nested_singleton by lia. reflexivity. }
  apply G; lia.
Qed.

Definition dlookup k (d : list (nat * list nat)) :=
  match find (fun e => fst e =? k) d with Some e => snd e | None => [] end.

Lemma inv_nested_lookup : forall g n x, dlookup x (inv_nested g n) = filter (fun r => r mod g =? x) (seq 0 n).
Proof.
  intros g n x. unfold inv_nested. induction n; auto.
  rewrite seq_S, fold_left_app, filter_app. simpl. unfold dlookup in *.
  rewrite dict_append_lookup.
  destruct (Nat.eqb_spec (n mod g) x).
  - simpl. subst x. f_equal. rewrite <- IHn. reflexivity.
  - rewrite app_nil_r. apply IHn.
Qed.

Lemma inv_nested_nodup : forall g n, NoDup (map fst (inv_nested g n)).
Proof.
  intros. unfold inv_nested. induction n; [constructor|].
  rewrite seq_S, fold_left_app. simpl. apply dict_append_nodup. auto.
Qed.

Lemma inv_nested_entry : forall g n x rs, In (x, rs) (inv_nested g n) ->
  rs = filter (fun r => r mod g =? x) (seq 0 n).
Proof.
  intros g n x rs H. rewrite <- inv_nested_lookup. unfold dlookup.
  pose proof (inv_nested_nodup g n) as ND. revert H ND.
  induction (inv_nested g n) as [|[k vs] d IH]; simpl; intros H ND; [tauto|].
  inversion ND; subst. destruct H as [H|H].
  - injection H as -> ->. rewrite Nat.eqb_refl. reflexivity.
  - destruct (Nat.eqb_spec k x); [|auto].
    subst. exfalso. apply H2. change x with (fst (x, rs)). apply in_map. auto.
Qed.

Lemma index_of_none : forall x l, index_of x l = None <-> ~ In x l.
Proof.
  induction l; simpl; [intuition|].
  destruct (Nat.eqb_spec a x).
  - subst. split; [congruence|]. intuition.
  - destruct (index_of x l); simpl; split; intros H; try congruence.
    + exfalso. assert (E : Some n0 = None) by (apply IHl; tauto). congruence.
    + assert (~ In x l) by (apply IHl; auto). tauto.
Qed.

Lemma index_of_some : forall x l i, index_of x l = Some i -> nth_error l i = Some x.
Proof.
  induction l; simpl; intros i H; [congruence|].
  destruct (Nat.eqb_spec a x).
  - injection H as <-. subst. reflexivity.
  - destruct (index_of x l) eqn:E; simpl in H; [|congruence].
    injection H as <-. simpl. auto.
Qed.

Lemma create_subgroups_fold : forall rank (d : list (nat * list nat)) acc rs,
  (forall x l, In (x, l) d -> In rank l -> l = rs) ->
  (exists x l, In (x, l) d /\ In rank l) ->
  fold_left (fun acc '(_, ranks) =>
               match index_of rank ranks with
               | Some i => {| sg_rank := i; sg_world := length ranks; sg_members := Some ranks |}
               | None => acc
               end) d acc =
  {| sg_rank := match index_of rank rs with Some i => i | None => 0 end;
     sg_world := length rs; sg_members := Some rs |}.
Proof.
  assert (N : forall rank rs (d : list (nat * list nat)) acc, (forall x l, In (x, l) d -> In rank l -> l = rs) ->
     (acc = {| sg_rank := match index_of rank rs with Some i => i | None => 0 end;
     sg_world := length rs; sg_members := Some rs |}) ->
     fold_left (fun acc '(_, ranks) =>
               match index_of rank ranks with
               | Some i => {| sg_rank := i; sg_world := length ranks; sg_members := Some ranks |}
               | None => acc
               end) d acc = acc).
  { induction d as [|[x l] d IH]; simpl; intros acc H Hacc; auto.
    destruct (index_of rank l) eqn:E.
    - assert (l = rs). { apply (H x); auto. apply index_of_some in E. eapply nth_error_In; eauto. }
      subst l. assert (acc = {| sg_rank := n; sg_world := length rs; sg_members := Some rs |})
        by (rewrite Hacc, E; reflexivity).
      rewrite <- H0. apply IH; [eauto|]. auto.
    - apply IH; eauto. }
  induction d as [|[x l] d IH]; intros acc rs H (y & l' & Hin & Hr); [destruct Hin|]. simpl.
  destruct (index_of rank l) eqn:E.
  - assert (l = rs). { apply (H x); [left; auto|]. apply index_of_some in E. eapply nth_error_In; eauto. }
    subst l. rewrite (N rank rs).
    + rewrite E. reflexivity.
    + intros. apply (H x0); [right; auto|auto].
    + rewrite E. reflexivity.
  - apply IH.
    + intros. eapply H; [right; eauto|auto].
    + destruct Hin as [Hin|Hin].
      * injection Hin as -> ->. apply index_of_none in E. tauto.
      * eauto.
Qed.

Lemma inv_nested_has : forall g n r, 1 <= g -> r < n ->
  exists x l, In (x, l) (inv_nested g n) /\ In r l.
Proof.
  intros g n r Hg Hr. exists (r mod g).
  assert (I : In r (dlookup (r mod g) (inv_nested g n))).
  { rewrite inv_nested_lookup. apply filter_In. split; [apply in_seq; lia|apply Nat.eqb_refl]. }
  unfold dlookup in I. destruct (find _ (inv_nested g n)) as [[k vs]|] eqn:F; [|destruct I].
  apply find_some in F. destruct F as [F1 F2]. simpl in *. apply Nat.eqb_eq in F2. subst k.
  eauto.
Qed.

Lemma setup_rank_nested : forall w g r, 1 <= g < w -> r < w ->
  let rs := filter (fun s => s mod g =? r mod g) (seq 0 w) in
  setup_rank w g r =
  {| sg_rank := match index_of r rs with Some i => i | None => 0 end;
     sg_world := length rs; sg_members := Some rs |}.
Proof.
  intros w g r H Hr rs. unfold setup_rank.
  destruct (distribute_groups_among_ranks w g) as [m nested] eqn:E.
  assert (En : nested = true).
  { unfold distribute_groups_among_ranks in E. injection E as _ <-.
    apply Nat.ltb_lt. lia. }
  rewrite En. unfold create_subgroups.
  replace m with (fst (distribute_groups_among_ranks w g)) by (rewrite E; auto).
  rewrite ranks_to_groups_nested by auto.
  apply create_subgroups_fold.
  - intros x l Hin Hrl. apply inv_nested_entry in Hin. subst l.
    apply filter_In in Hrl. destruct Hrl as [_ Hx]. apply Nat.eqb_eq in Hx. subst x. reflexivity.
  - apply inv_nested_has; lia.
Qed.

Lemma setup_rank_consistent : forall w g r, 1 <= g < w -> r < w ->
  exists members,
    sg_members (setup_rank w g r) = Some members /\
    NoDup members /\
    nth_error members (sg_rank (setup_rank w g r)) = Some r /\
    sg_world (setup_rank w g r) = length members /\
    (forall r', In r' members <-> r' < w /\ groups_of_rank w g r' = groups_of_rank w g r) /\
    (forall r', In r' members -> sg_members (setup_rank w g r') = Some members).
Proof.
  intros w g r H Hr. rewrite setup_rank_nested by auto. simpl.
  set (rs := filter (fun s => s mod g =? r mod g) (seq 0 w)).
  assert (Hin : In r rs) by (apply filter_In; split; [apply in_seq; lia|apply Nat.eqb_refl]).
  exists rs. split; [auto|]. split; [apply NoDup_filter, seq_NoDup|]. split; [|split; [auto|]].
  - destruct (index_of r rs) eqn:E; [apply index_of_some; auto|].
    apply index_of_none in E. tauto.
  - assert (C : forall r', In r' rs <-> r' < w /\ r' mod g = r mod g).
    { intros. unfold rs. rewrite filter_In, in_seq, Nat.eqb_eq. intuition. }
    split; intros r'.
    + rewrite C. split; intros [A B]; split; auto.
      * rewrite !nested_singleton by auto. congruence.
      * rewrite !nested_singleton in B by auto. congruence.
    + rewrite C. intros [A B]. rewrite setup_rank_nested by auto. simpl. rewrite B. reflexivity.
Qed.

Lemma setup_rank_local_ranks : forall w g r i, 1 <= g < w -> r < w ->
  i < sg_world (setup_rank w g r) ->
  exists r', r' < w /\ sg_members (setup_rank w g r') = sg_members (setup_rank w g r) /\
             sg_rank (setup_rank w g r') = i.
Proof.
  intros w g r i H Hr Hi.
  destruct (setup_rank_consistent w g r H Hr) as (ms & M1 & M2 & M3 & M4 & M5 & M6).
  rewrite M4 in Hi. destruct (nth_error ms i) as [r'|] eqn:E.
  2:{ apply nth_error_None in E. lia. }
  assert (I : In r' ms) by (eapply nth_error_In; eauto).
  exists r'. assert (r' < w) by (apply M5; auto). split; auto. split; [rewrite M6, M1; auto|].
  destruct (setup_rank_consistent w g r' H H0) as (ms' & N1 & _ & N3 & _).
  rewrite M6 in N1 by auto. injection N1 as <-.
  eapply (proj1 (NoDup_nth_error ms)); auto.
  - apply nth_error_Some. rewrite N3. congruence.
  - rewrite N3, E. reflexivity.
Qed.

(** * Assembled statements *)
Lemma mask_active_pos : forall mask, (exists m, In m mask /\ 0 < m) -> 1 <= mask_active mask.
Proof.
  intros mask (m & H1 & H2). unfold mask_active.
  assert (I : In m (filter (fun m => 0 <? m) mask)) by (apply filter_In; split; auto; apply Nat.ltb_lt; auto).
  destruct (filter _ mask); [destruct I|simpl; lia].
Qed.

Lemma tracer_exact_partition : forall per mask world,
  1 <= world -> (exists m, In m mask /\ 0 < m) ->
  (forall m, In m mask -> m = 0 \/ m = per) ->
  exact_partition (tracer_sampler_indices mask world) world (list_sum mask).
Proof.
  intros. eapply tracer_sampler_even; eauto. apply mask_active_pos; auto.
Qed.

Lemma sampler_locality_and_balance : forall active per world,
  1 <= world ->
  (forall h, h < active -> exists rank, rank < world /\
      forall k, k < per -> In (h * per + k) (sampler_indices (active * per) active world rank))
  /\ (forall rank, StronglySorted lt (sampler_indices (active * per) active world rank))
  /\ (forall r1 r2, r1 < Nat.min active world -> r2 < Nat.min active world ->
        length (sampler_indices (active * per) active world r1)
        <= length (sampler_indices (active * per) active world r2) + per)
  /\ (forall rank, Nat.min active world <= rank ->
        sampler_indices (active * per) active world rank = []).
Proof.
  intros. split; [|split; [|split]]; intros.
  - apply sampler_heliostat_local; auto.
  - apply sampler_sorted.
  - apply sampler_balance; auto.
  - apply sampler_idle; auto.
Qed.

Lemma uneven_masks_partial : forall mask world,
  1 <= world -> (exists m, In m mask /\ 0 < m) ->
  let active := length (filter (fun m => 0 <? m) mask) in
  exact_partition (tracer_sampler_indices mask world) world
                  (list_sum mask - list_sum mask mod active)
  /\ (exact_partition (tracer_sampler_indices mask world) world (list_sum mask)
      <-> list_sum mask mod active = 0).
Proof.
  intros. apply mask_active_pos in H0. split.
  - apply tracer_sampler_union; auto.
  - apply tracer_sampler_complete_iff; auto.
Qed.

Lemma uneven_masks_refuted :
  ~ (forall mask world, 1 <= world -> (exists m, In m mask /\ 0 < m) ->
       exact_partition (tracer_sampler_indices mask world) world (list_sum mask)).
Proof.
  intros H. specialize (H [1; 2] 1 ltac:(lia) ltac:(exists 1; simpl; auto)).
  apply Permutation_length in H. vm_compute in H. discriminate.
Qed.

Lemma groups_distribution : forall world groups,
  1 <= world -> 1 <= groups ->
  let work := groups_of_rank world groups in
  length (fst (distribute_groups_among_ranks world groups)) = world
  /\ (snd (distribute_groups_among_ranks world groups) = true <-> groups < world)
  /\ (forall g, g < groups -> exists rank, rank < world /\ In g (work rank))
  /\ (forall rank g, rank < world -> In g (work rank) -> g < groups)
  /\ (world <= groups ->
        exact_partition work world groups
        /\ forall r1 r2, r1 < world -> r2 < world -> length (work r1) <= length (work r2) + 1)
  /\ (groups < world ->
        (forall rank, rank < world -> exists g, g < groups /\ work rank = [g])
        /\ forall g1 g2, g1 < groups -> g2 < groups ->
             length (ranks_processing work world g1) <= length (ranks_processing work world g2) + 1).
Proof.
  intros w g Hw Hg work. unfold work. split; [apply distribute_length|].
  split; [apply Nat.ltb_lt|]. split; [intros; apply groups_cover; auto|].
  split; [intros; eapply groups_valid; eauto|]. split; intros H.
  - split; [apply groups_partition; auto|]. intros; apply groups_balance; auto.
  - split.
    + intros r Hr. exists (r mod g). split; [apply Nat.mod_upper_bound; lia|].
      apply nested_singleton; auto.
    + intros. apply nested_balance; auto.
Qed.

Lemma nodup_filter_index : forall l : list nat, NoDup l ->
  forall i, i < length l -> index_of (nth i l 0) l = Some i.
Proof.
  induction l as [|x l IH]; simpl; intros ND i Hi; [lia|].
  inversion ND; subst. destruct i.
  - rewrite Nat.eqb_refl. auto.
  - destruct (Nat.eqb_spec x (nth i l 0)).
    + exfalso. apply H1. subst. apply nth_In. lia.
    + rewrite IH by (auto; lia). reflexivity.
Qed.

Lemma nested_run_traces_everything_once : forall world groups g active per,
  1 <= groups < world -> g < groups -> 1 <= active ->
  Permutation
    (concat (map (fun rank => sampler_indices (active * per) active
                                (sg_world (setup_rank world groups rank))
                                (sg_rank (setup_rank world groups rank)))
                 (ranks_processing (groups_of_rank world groups) world g)))
    (seq 0 (active * per)).
Proof.
  intros w gs g active per H Hg Ha.
  rewrite ranks_of_group_nested by auto.
  set (rs := filter (fun r => r mod gs =? g) (seq 0 w)).
  assert (Hne : 1 <= length rs).
  { unfold rs. rewrite <- ranks_of_group_nested by auto.
    apply (nested_balance w gs g g); auto. }
  assert (ND : NoDup rs) by (apply NoDup_filter, seq_NoDup).
  rewrite <- (sampler_partition active per (length rs)) by auto.
  assert (E : map (fun rank => sampler_indices (active * per) active
                      (sg_world (setup_rank w gs rank)) (sg_rank (setup_rank w gs rank))) rs
              = map (sampler_indices (active * per) active (length rs)) (seq 0 (length rs))).
  { rewrite (nth_map_seq rs 0) at 1. rewrite map_map. apply map_ext_in.
    intros i Hi. apply in_seq in Hi.
    assert (I : In (nth i rs 0) rs) by (apply nth_In; lia).
    unfold rs in I. apply filter_In in I. destruct I as [I1 I2].
    apply in_seq in I1. apply Nat.eqb_eq in I2.
    fold rs in I1, I2. rewrite setup_rank_nested by (auto; lia). simpl.
    rewrite I2. fold rs. rewrite nodup_filter_index by (auto; lia). reflexivity. }
  rewrite E. reflexivity.
Qed.
