(** From prefix counts to exact split searches (C19). *)
From Coq Require Import List Arith ZArith Reals Bool Lia Permutation.
From Verif Require Import ModelField ModelLBVH SpecLBVH ProofsMorton ProofsRadix.
Import ListNotations.
Local Open Scope Z_scope.
Local Arguments Z.div : simpl never.
Local Arguments Z.mul : simpl never.
Local Arguments Z.pow : simpl never.
Local Arguments longest_common_prefix : simpl never.

Lemma filter_positions : forall (f : Z -> bool) l, 
  List.length (filter f l) = List.length (filter (fun i => f (nth i l 0)) (seq 0 (List.length l))).
Proof.
  intros f l. rewrite <- (map_length (fun i => nth i l 0)).
  assert (G : forall s, map (fun i => nth i l 0) (filter (fun i => f (nth i l 0)) s) = filter f (map (fun i => nth i l 0) s)).
  { induction s; simpl; auto. destruct (f (nth a l 0)); simpl; rewrite IHs; auto. }
  rewrite G. f_equal. f_equal. symmetry.
  apply (nth_ext _ _ 0 0); rewrite map_length, seq_length; auto.
  intros n Hn. rewrite (nth_indep _ 0 (nth (List.length l) l 0)) by (rewrite map_length, seq_length; auto).
  rewrite (map_nth (fun i => nth i l 0)). rewrite seq_nth by auto. auto.
Qed.

Lemma filter_interval : forall (f : nat -> bool) a m n, (a + m <= n)%nat ->
  (forall i, (i < n)%nat -> (f i = true <-> (a <= i < a + m)%nat)) -> List.length (filter f (seq 0 n)) = m.
Proof.
  intros f a m n H F. replace n with (a + (m + (n - a - m)))%nat by lia.
  rewrite !seq_app, !filter_app, !app_length. simpl.
  assert (Z : forall s k, (forall i, (s <= i < s + k)%nat -> f i = false) -> filter f (seq s k) = []).
  { intros s k. revert s. induction k; simpl; intros s Q; auto. rewrite (Q s) by lia. apply IHk. intros. apply Q. lia. }
  assert (T : forall s k, (forall i, (s <= i < s + k)%nat -> f i = true) -> filter f (seq s k) = seq s k).
  { intros s k. revert s. induction k; simpl; intros s Q; auto. rewrite (Q s) by lia. f_equal. apply IHk. intros. apply Q. lia. }
  rewrite (Z 0%nat), (T a m), (Z (a + m)%nat); simpl.
  - rewrite seq_length. lia.
  - intros i Hi. destruct (f i) eqn:E; auto. apply F in E; lia.
  - intros i Hi. apply F; lia.
  - intros i Hi. destruct (f i) eqn:E; auto. apply F in E; lia.
Qed.

Lemma prefix_count_interval : forall codes L p a b, 0 <= a <= b -> b < Z.of_nat (List.length codes) ->
  (forall i, inr codes i -> (Z.shiftr (code codes i) (30 - L) = p <-> a <= i <= b)) ->
  prefix_count codes L p = b - a + 1.
Proof.
  intros codes L p a b Ha Hb H. unfold prefix_count. rewrite filter_positions.
  rewrite (filter_interval _ (Z.to_nat a) (Z.to_nat (b - a + 1))); [lia|lia|].
  intros i Hi. rewrite Z.eqb_eq. specialize (H (Z.of_nat i)). unfold code, inr in H. rewrite Nat2Z.id in H.
  rewrite H by lia. lia.
Qed.

Lemma shiftr_succ : forall c L, 0 <= L < 30 -> Z.shiftr c (30 - L) = Z.shiftr c (30 - (L + 1)) / 2.
Proof.
  intros c L H. replace (30 - L) with (30 - (L + 1) + 1) by lia. rewrite <- Z.shiftr_shiftr by lia.
  rewrite Z.shiftr_div_pow2 by lia. auto.
Qed.

(** Counts on both sides of the split of a cluster. *)
Lemma cluster_counts : forall codes a b g, thirty_bit codes -> ascending codes -> no_triple codes ->
  cluster codes a b -> split_at codes a b g -> lcp codes a b < 30 ->
  exists L p, 0 <= L < 30 /\ prefix_count codes (L + 1) (2 * p) = g - a + 1
    /\ prefix_count codes (L + 1) (2 * p + 1) = b - g.
Proof.
  intros codes a b g B A NT (Hab & Hb & Cl & Cr) (G1 & G2 & G3 & G4) HL.
  set (n := Z.of_nat (List.length codes)) in *. set (L := lcp codes a b) in *.
  assert (Ia : inr codes a) by (unfold inr; lia). assert (Ib : inr codes b) by (unfold inr; lia).
  assert (R : 0 <= L <= 30) by (apply lcp_range; auto).
  set (p := Z.shiftr (code codes a) (30 - L)).
  exists L, p. split; [lia|].
  assert (Pb : Z.shiftr (code codes b) (30 - L) = p) by (symmetry; apply (lcp_ge_iff codes a b L); auto; fold (lcp codes a b); fold L; lia).
  assert (D : Z.shiftr (code codes a) (30 - (L + 1)) <> Z.shiftr (code codes b) (30 - (L + 1))).
  { intros E. apply (lcp_ge_iff codes a b (L + 1)) in E; auto; try lia. fold (lcp codes a b) in E. fold L in E. lia. }
  assert (M : Z.shiftr (code codes a) (30 - (L + 1)) <= Z.shiftr (code codes b) (30 - (L + 1))).
  { apply shiftr_mono; [lia|]. apply ascending_code; auto; fold n; lia. }
  assert (Ea : Z.shiftr (code codes a) (30 - (L + 1)) / 2 = p) by (rewrite <- shiftr_succ by lia; auto).
  assert (Eb : Z.shiftr (code codes b) (30 - (L + 1)) / 2 = p) by (rewrite <- shiftr_succ by lia; auto).
  assert (Va : Z.shiftr (code codes a) (30 - (L + 1)) = 2 * p) by (pose proof (Z.div_mod (Z.shiftr (code codes a) (30 - (L + 1))) 2 ltac:(lia)); pose proof (Z.mod_pos_bound (Z.shiftr (code codes a) (30 - (L + 1))) 2); pose proof (Z.div_mod (Z.shiftr (code codes b) (30 - (L + 1))) 2 ltac:(lia)); pose proof (Z.mod_pos_bound (Z.shiftr (code codes b) (30 - (L + 1))) 2); lia).
  assert (Vb : Z.shiftr (code codes b) (30 - (L + 1)) = 2 * p + 1) by (pose proof (Z.div_mod (Z.shiftr (code codes b) (30 - (L + 1))) 2 ltac:(lia)); pose proof (Z.mod_pos_bound (Z.shiftr (code codes b) (30 - (L + 1))) 2); lia).
  unfold lcp in *. split.
  - rewrite (prefix_count_interval codes (L + 1) (2 * p) a g); try (fold n; lia).
    intros i Hi. rewrite <- Va. split.
    + intros E. apply (lcp_ge_iff codes i a (L + 1)) in E; auto; try lia.
      assert (HL1 : L < longest_common_prefix codes i a) by lia. unfold inr in Hi. fold n in Hi.
      destruct (Z_lt_dec i a) as [Lt|Ge].
      * exfalso. assert (longest_common_prefix codes i a <= longest_common_prefix codes (a - 1) a) by (apply (lcp_mono_left codes i (a - 1) a); auto; fold n; lia).
        rewrite (lcp_sym codes (a - 1) a) in H by (auto; unfold inr; fold n; lia). lia.
      * split; [lia|]. destruct (Z.eq_dec i a); [lia|].
        rewrite (lcp_sym codes i a) in HL1 by (auto; unfold inr; fold n; lia).
        destruct (Z_le_dec i b).
        { apply G2; lia. }
        { exfalso. assert (longest_common_prefix codes a i <= longest_common_prefix codes a b) by (apply (lcp_mono_right codes a b i); auto; fold n; lia). fold L in H. lia. }
    + intros E. apply (lcp_ge_iff codes i a (L + 1)); auto; try lia.
      destruct (Z.eq_dec i a) as [->|]; [rewrite lcp_in, Z.eqb_refl by auto; lia|].
      rewrite (lcp_sym codes i a) by auto. assert (L < longest_common_prefix codes a i) by (apply G2; lia). lia.
  - rewrite (prefix_count_interval codes (L + 1) (2 * p + 1) (g + 1) b); try (fold n; lia).
    intros i Hi. rewrite <- Vb. split.
    + intros E. apply (lcp_ge_iff codes i b (L + 1)) in E; auto; try lia.
      assert (HL1 : L < longest_common_prefix codes i b) by lia. unfold inr in Hi. fold n in Hi.
      destruct (Z_lt_dec b i) as [Lt|Ge].
      * exfalso. rewrite (lcp_sym codes i b) in HL1 by (auto; unfold inr; fold n; lia).
        assert (longest_common_prefix codes b i <= longest_common_prefix codes b (b + 1)) by (apply (lcp_mono_right codes b (b + 1) i); auto; fold n; lia). lia.
      * split; [|lia]. destruct (Z.eq_dec i b); [lia|].
        rewrite (lcp_sym codes i b) in HL1 by (auto; unfold inr; fold n; lia).
        destruct (Z_le_dec a i).
        { assert (g < i) by (apply G3; lia). lia. }
        { exfalso. rewrite (lcp_sym codes b i) in HL1 by (auto; unfold inr; fold n; lia).
          assert (longest_common_prefix codes i b <= longest_common_prefix codes a b) by (apply (lcp_mono_left codes i a b); auto; fold n; lia). fold L in H. lia. }
    + intros E. apply (lcp_ge_iff codes i b (L + 1)); auto; try lia.
      destruct (Z.eq_dec i b) as [->|]; [rewrite lcp_in, Z.eqb_refl by auto; lia|].
      rewrite (lcp_sym codes i b) by auto. assert (L < longest_common_prefix codes b i) by (apply G3; lia). lia.
Qed.

Lemma halvable_splits : forall codes, thirty_bit codes -> ascending codes -> no_triple codes ->
  halvable codes -> splits_exactly codes.
Proof.
  intros codes B A NT H a b g C G. unfold search_exact.
  destruct (Z.eq_dec (lcp codes a b) 30) as [E|N].
  - destruct C as (Hab & Hb & _). destruct G as (G1 & G2 & G3 & _).
    assert (b = a + 1).
    { destruct (Z_le_dec b (a + 1)); [lia|]. exfalso.
      assert (Ia : inr codes a) by (unfold inr; lia). assert (Ib : inr codes b) by (unfold inr; lia).
      assert (I1 : inr codes (a + 1)) by (unfold inr; lia).
      assert (T1 : 30 <= lcp codes a (a + 1)) by (rewrite <- E; apply lcp_mono_right; auto; lia).
      assert (T2 : 30 <= lcp codes (a + 1) b) by (rewrite <- E; apply lcp_mono_left; auto; lia).
      unfold lcp in *.
      apply (lcp_ge_iff codes _ _ 30) in T1; auto; try lia. apply (lcp_ge_iff codes _ _ 30) in T2; auto; try lia.
      change (30 - 30) with 0 in *. rewrite !Z.shiftr_0_r in *.
      apply (NT a (a + 1) b); lia. }
    subst b. assert (g = a) by lia. subst g.
    replace (a + 1 - a + 1) with 2 by lia. replace (a - a + 1 - 1) with 0 by lia. replace (a + 1 - a - 1) with 0 by lia.
    change (2 / 2) with 1. assert (halving_exact 1 0); auto.
    apply halving_skip; try lia. apply halving_end. change (1 / 2) with 0. lia.
  - assert (R : 0 <= lcp codes a b <= 30) by (destruct C as (? & ? & _); apply lcp_range; auto; unfold inr; lia).
    destruct (cluster_counts codes a b g) as (L & p & HL & C1 & C2); auto; try lia.
    specialize (H L p HL). cbv zeta in H. rewrite C1, C2 in H.
    destruct C as (Hab & Hb & _). destruct G as (G1 & _).
    destruct H as [H1 H2]; try lia. replace (g - a + 1 + (b - g)) with (b - a + 1) in * by lia. auto.
Qed.

Lemma prefix_count_split : forall codes L p, 0 <= L < 30 ->
  prefix_count codes L p = prefix_count codes (L + 1) (2 * p) + prefix_count codes (L + 1) (2 * p + 1).
Proof.
  intros codes L p HL. unfold prefix_count. rewrite <- Nat2Z.inj_add. f_equal.
  induction codes as [|c l IH]; auto. cbn [filter].
  rewrite (shiftr_succ c L HL). set (x := Z.shiftr c (30 - (L + 1))).
  pose proof (Z.div_mod x 2 ltac:(lia)). pose proof (Z.mod_pos_bound x 2 ltac:(lia)).
  set (q := x / 2) in *. set (r := x mod 2) in *. clearbody q r x.
  destruct (Z.eqb_spec q p); destruct (Z.eqb_spec x (2 * p)); destruct (Z.eqb_spec x (2 * p + 1)); cbn [List.length]; try (exfalso; lia); rewrite IH; lia.
Qed.

Lemma powers_halvable : forall codes, power_of_two_clusters codes -> halvable codes.
Proof.
  intros codes H L p HL zeros ones H0 H1.
  assert (S : zeros + ones = prefix_count codes L p) by (symmetry; apply prefix_count_split; auto).
  destruct (H L p HL) as [Z|(k & Hk & C)]; [lia|].
  assert (K : exists j, 0 <= j /\ (prefix_count codes L p = 2 ^ (j + 1) \/ prefix_count codes L p = 2 ^ (j + 1) + 1)).
  { destruct (Z.eq_dec k 0) as [->|].
    - exists 0. change (2 ^ 0) with 1 in C. change (2 ^ (0 + 1)) with 2. lia.
    - exists (k - 1). replace (k - 1 + 1) with k by lia. split; [lia|auto]. }
  clear k Hk C. destruct K as (j & Hj & C).
  assert (P : 2 ^ (j + 1) = 2 * 2 ^ j) by (rewrite Z.pow_add_r by lia; change (2 ^ 1) with 2; lia).
  assert (HQ : (zeros + ones) / 2 = 2 ^ j).
  { rewrite S. destruct C as [-> | ->]; rewrite P.
    - rewrite Z.mul_comm, Z.div_mul; lia.
    - symmetry. apply (Z.div_unique_pos _ _ _ 1); lia. }
  rewrite HQ. split; apply halving_exact_pow2; auto; lia.
Qed.

Lemma small_halvable : forall codes, (List.length codes <= 5)%nat -> power_of_two_clusters codes.
Proof.
  intros codes H L p HL. unfold prefix_count.
  assert (List.length (filter (fun c => Z.eqb (Z.shiftr c (30 - L)%Z) p) codes) <= 5)%nat.
  { apply (Nat.le_trans _ (List.length codes)); [|exact H]. generalize (fun c => Z.eqb (Z.shiftr c (30 - L)%Z) p). intros f. clear. induction codes; simpl; auto. destruct (f a); simpl; lia. }
  set (m := List.length (filter _ codes)) in *.
  clearbody m. assert (m = 0 \/ m = 1 \/ m = 2 \/ m = 3 \/ m = 4 \/ m = 5)%nat as [-> | [-> | [-> | [-> | [-> | ->]]]]] by lia.
  - left. reflexivity.
  - right. exists 0. split; [lia|]. left. reflexivity.
  - right. exists 1. split; [lia|]. left. reflexivity.
  - right. exists 1. split; [lia|]. right. reflexivity.
  - right. exists 2. split; [lia|]. left. reflexivity.
  - right. exists 2. split; [lia|]. right. reflexivity.
Qed.

Theorem radix_tree_halvable : forall codes, codes <> [] -> thirty_bit codes -> ascending codes -> at_most_twice codes ->
  halvable codes ->
  exists lefts rights, child_arrays codes = Some (lefts, rights)
    /\ reaches_all_once (List.length codes) (fun k => nth k lefts (-1)) (fun k => nth k rights (-1)).
Proof.
  intros codes NE B A T H. pose proof (twice_no_triple codes T) as NT.
  destruct (radix_tree codes NE B A NT (halvable_splits codes B A NT H)) as (ls & rs & E & S).
  exists ls, rs. split; auto. exists (seq (List.length codes - 1) (List.length codes)). split; auto.
Qed.

Theorem radix_tree_powers : forall codes, codes <> [] -> thirty_bit codes -> ascending codes -> at_most_twice codes ->
  power_of_two_clusters codes ->
  exists lefts rights, child_arrays codes = Some (lefts, rights)
    /\ reaches_all_once (List.length codes) (fun k => nth k lefts (-1)) (fun k => nth k rights (-1)).
Proof. intros. apply radix_tree_halvable; auto. apply powers_halvable. auto. Qed.
Theorem radix_tree_small : forall codes, codes <> [] -> (List.length codes <= 5)%nat -> thirty_bit codes -> ascending codes -> at_most_twice codes ->
  exists lefts rights, child_arrays codes = Some (lefts, rights)
    /\ reaches_all_once (List.length codes) (fun k => nth k lefts (-1)) (fun k => nth k rights (-1)).
Proof. intros. apply radix_tree_powers; auto. apply small_halvable. auto. Qed.

Lemma construction_terminates : forall codes, thirty_bit codes ->
  exists lefts rights, child_arrays codes = Some (lefts, rights)
    /\ List.length lefts = (2 * List.length codes - 1)%nat /\ List.length rights = (2 * List.length codes - 1)%nat.
Proof.
  intros codes B. destruct (child_arrays_some codes B) as (l & r & E & L1 & L2 & _). exists l, r. auto.
Qed.
