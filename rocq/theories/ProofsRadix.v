(** The radix tree built from sorted Morton codes (C19, C20). *)
From Coq Require Import List Arith ZArith Reals Bool Lia Permutation Znumtheory.
From Verif Require Import ModelField ModelLBVH SpecLBVH ProofsMorton.
Import ListNotations.
Local Open Scope Z_scope.
Local Arguments Z.div : simpl never.
Local Arguments Z.mul : simpl never.
Local Arguments Z.pow : simpl never.
Local Arguments longest_common_prefix : simpl never.

(** * Facts about prefix lengths of sorted codes *)
Definition code (codes : list Z) (i : Z) : Z := nth (Z.to_nat i) codes 0.
Definition inr (codes : list Z) (i : Z) : Prop := 0 <= i < Z.of_nat (List.length codes).

Lemma code_bound : forall codes i, thirty_bit codes -> inr codes i -> 0 <= code codes i < 2 ^ 30.
Proof. intros codes i B H. apply B. apply nth_In. unfold inr in H. lia. Qed.

Lemma lcp_in : forall codes i j, thirty_bit codes -> inr codes i -> inr codes j ->
  longest_common_prefix codes i j =
  if code codes i =? code codes j then 30 else 29 - Z.log2 (Z.lxor (code codes i) (code codes j)).
Proof.
  intros codes i j B Hi Hj. apply lcp_log2.
  - unfold inr in *. lia.
  - exact Hj.
  - apply nth_error_nth'. unfold inr in *. lia.
  - apply nth_error_nth'. unfold inr in *. lia.
  - apply code_bound; auto.
  - apply code_bound; auto.
Qed.

Lemma lcp_range : forall codes i j, thirty_bit codes -> inr codes i -> inr codes j ->
  0 <= longest_common_prefix codes i j <= 30.
Proof.
  intros codes i j B Hi Hj.
  destruct (lcp_spec codes i j (code codes i) (code codes j)) as (A & _); auto; try (unfold inr in *; lia);
  apply nth_error_nth'; unfold inr in *; lia.
Qed.

Lemma lcp_ge_m1 : forall codes i j, thirty_bit codes -> inr codes i -> -1 <= longest_common_prefix codes i j.
Proof.
  intros codes i j B Hi. destruct (Z_le_dec 0 j); [destruct (Z_lt_dec j (Z.of_nat (List.length codes)))|].
  - pose proof (lcp_range codes i j B Hi). unfold inr in *. lia.
  - rewrite lcp_out_of_range by lia. lia.
  - rewrite lcp_out_of_range by lia. lia.
Qed.

Lemma lcp_sym : forall codes i j, thirty_bit codes -> inr codes i -> inr codes j ->
  longest_common_prefix codes i j = longest_common_prefix codes j i.
Proof.
  intros codes i j B Hi Hj. rewrite !lcp_in by auto. rewrite Z.eqb_sym, Z.lxor_comm. auto.
Qed.

(** Prefixes of length at least [L] agree exactly when the shifted codes do. *)
Lemma lcp_ge_iff : forall codes i j L, thirty_bit codes -> inr codes i -> inr codes j -> 0 <= L <= 30 ->
  (L <= longest_common_prefix codes i j <-> Z.shiftr (code codes i) (30 - L) = Z.shiftr (code codes j) (30 - L)).
Proof.
  intros codes i j L B Hi Hj HL. rewrite lcp_in by auto.
  pose proof (code_bound _ _ B Hi). pose proof (code_bound _ _ B Hj).
  destruct (Z.eqb_spec (code codes i) (code codes j)) as [E|E].
  - rewrite E. split; auto. lia.
  - rewrite lxor_log2_agree by lia. lia.
Qed.

Lemma shiftr_mono : forall a b m, 0 <= m -> a <= b -> Z.shiftr a m <= Z.shiftr b m.
Proof. intros a b m Hm H. rewrite !Z.shiftr_div_pow2 by auto. apply Z.div_le_mono; auto. apply Z.pow_pos_nonneg; lia. Qed.

Lemma ascending_code : forall codes i j, ascending codes -> 0 <= i <= j -> j < Z.of_nat (List.length codes) ->
  code codes i <= code codes j.
Proof. intros codes i j A H1 H2. apply A. lia. Qed.

Lemma lcp_min : forall codes i j k, thirty_bit codes -> ascending codes -> inr codes i -> inr codes k -> i <= j <= k ->
  longest_common_prefix codes i k = Z.min (longest_common_prefix codes i j) (longest_common_prefix codes j k).
Proof.
  intros codes i j k B A Hi Hk Hj. assert (Hj' : inr codes j) by (unfold inr in *; lia).
  pose proof (lcp_range codes i k B Hi Hk) as R1. pose proof (lcp_range codes i j B Hi Hj') as R2.
  pose proof (lcp_range codes j k B Hj' Hk) as R3.
  assert (G : forall L, 0 <= L <= 30 -> (L <= longest_common_prefix codes i k <->
     L <= longest_common_prefix codes i j /\ L <= longest_common_prefix codes j k)).
  { intros L HL. rewrite !lcp_ge_iff by auto.
    assert (S1 : Z.shiftr (code codes i) (30 - L) <= Z.shiftr (code codes j) (30 - L)).
    { apply shiftr_mono; [lia|]. apply ascending_code; unfold inr in *; auto; lia. }
    assert (S2 : Z.shiftr (code codes j) (30 - L) <= Z.shiftr (code codes k) (30 - L)).
    { apply shiftr_mono; [lia|]. apply ascending_code; unfold inr in *; auto; lia. }
    lia. }
  destruct (G (longest_common_prefix codes i k) R1) as [G1 _]. specialize (G1 ltac:(lia)).
  destruct (G (Z.min (longest_common_prefix codes i j) (longest_common_prefix codes j k))) as [_ G2]; [lia|].
  specialize (G2 ltac:(lia)). lia.
Qed.

(** No value three times: two adjacent prefix lengths differ. *)
Definition no_triple (codes : list Z) : Prop :=
  forall i j k, 0 <= i -> i < j -> j < k -> k < Z.of_nat (List.length codes) ->
    ~ (code codes i = code codes j /\ code codes j = code codes k).

Lemma filter_eq_all : forall (x : Z) l, (forall y, In y l -> y = x) -> filter (Z.eqb x) l = l.
Proof.
  induction l; simpl; intros H; auto. rewrite (H a) by auto. rewrite Z.eqb_refl. f_equal. apply IHl. auto.
Qed.

Lemma filter_length_nth : forall (f : Z -> bool) l i j k, (i < j)%nat -> (j < k)%nat -> (k < List.length l)%nat ->
  f (nth i l 0) = true -> f (nth j l 0) = true -> f (nth k l 0) = true -> (3 <= List.length (filter f l))%nat.
Proof.
  intros f l i j k Hij Hjk Hk Fi Fj Fk.
  assert (S : forall l i, (i < List.length l)%nat -> f (nth i l 0) = true ->
     l = firstn i l ++ nth i l 0 :: skipn (S i) l).
  { clear. intros l i Hi _. revert i Hi. induction l; simpl; intros i Hi; [lia|]. destruct i; simpl; auto. f_equal. apply IHl. lia. }
  rewrite (S l k Hk Fk). rewrite filter_app, app_length. simpl. rewrite Fk.
  assert (N1 : nth j (firstn k l) 0 = nth j l 0).
  { rewrite <- (firstn_skipn k l) at 2. rewrite app_nth1; auto. rewrite firstn_length. lia. }
  assert (N2 : nth i (firstn j (firstn k l)) 0 = nth i l 0).
  { rewrite firstn_firstn, Nat.min_l by lia. rewrite <- (firstn_skipn j l) at 2. rewrite app_nth1; auto. rewrite firstn_length. lia. }
  rewrite (S (firstn k l) j) by (rewrite ?firstn_length; try rewrite N1; auto; lia).
  rewrite filter_app, app_length. simpl. rewrite N1, Fj.
  rewrite (S (firstn j (firstn k l)) i) by (rewrite ?firstn_length; try rewrite N2; auto; lia).
  rewrite filter_app, app_length. simpl. rewrite N2, Fi. simpl. lia.
Qed.

Lemma twice_no_triple : forall codes, at_most_twice codes -> no_triple codes.
Proof.
  intros codes H i j k Hi Hij Hjk Hk [E1 E2]. specialize (H (code codes i)). unfold prefix_count in H.
  assert (3 <= List.length (filter (fun c => Z.eqb (Z.shiftr c (30 - 30)%Z) (code codes i)) codes))%nat; [|lia].
  apply (filter_length_nth _ codes (Z.to_nat i) (Z.to_nat j) (Z.to_nat k)); try lia; fold (code codes i) (code codes j) (code codes k);
  change (30 - 30) with 0; rewrite Z.shiftr_0_r; apply Z.eqb_eq; congruence.
Qed.

Lemma lcp_adjacent_differ : forall codes i j k, thirty_bit codes -> ascending codes -> no_triple codes ->
  0 <= i -> i < j -> j < k -> k < Z.of_nat (List.length codes) ->
  longest_common_prefix codes i j <> longest_common_prefix codes j k.
Proof.
  intros codes i j k B A NT Hi Hij Hjk Hk E.
  assert (Ii : inr codes i) by (unfold inr; lia). assert (Ij : inr codes j) by (unfold inr; lia). assert (Ik : inr codes k) by (unfold inr; lia).
  destruct (lcp_spec codes i j (code codes i) (code codes j)) as (R1 & Q1 & _ & D1); auto; try lia;
    try (apply nth_error_nth'; lia).
  destruct (lcp_spec codes j k (code codes j) (code codes k)) as (R2 & Q2 & _ & D2); auto; try lia;
    try (apply nth_error_nth'; lia).
  rewrite <- E in *. set (L := longest_common_prefix codes i j) in *.
  destruct (Z.eq_dec L 30) as [E30|N30].
  - apply (NT i j k); auto. split; [apply Q1|apply Q2]; auto.
  - specialize (D1 ltac:(lia)). specialize (D2 ltac:(lia)).
    assert (S1 : Z.shiftr (code codes i) (30 - L) = Z.shiftr (code codes j) (30 - L)) by (apply (lcp_ge_iff codes i j L); auto; fold L; lia).
    assert (S2 : Z.shiftr (code codes j) (30 - L) = Z.shiftr (code codes k) (30 - L)) by (apply (lcp_ge_iff codes j k L); auto; rewrite <- E; fold L; lia).
    assert (S3 : Z.shiftr (code codes i) (30 - (L + 1)) = Z.shiftr (code codes k) (30 - (L + 1))).
    { apply Z.bits_inj_iff'. intros b Hb. rewrite !Z.shiftr_spec by auto.
      destruct (Z.eq_dec b 0) as [->|Nb].
      - replace (0 + (30 - (L + 1))) with (29 - L) by lia. rewrite D1, D2, negb_involutive. auto.
      - assert (S4 : Z.shiftr (code codes i) (30 - L) = Z.shiftr (code codes k) (30 - L)) by congruence.
        apply (f_equal (fun z => Z.testbit z (b - 1))) in S4. rewrite !Z.shiftr_spec in S4 by lia.
        replace (b + (30 - (L + 1))) with (b - 1 + (30 - L)) by lia. auto. }
    assert (G : L + 1 <= longest_common_prefix codes i k) by (apply lcp_ge_iff; auto; lia).
    rewrite (lcp_min codes i j k) in G by (auto; lia). fold L in G. lia.
Qed.

(** * The searches *)

(** The halving search on a downward closed condition is greedy subtraction. *)
Lemma halving_greedy : forall fuel codes i d thr B t l,
  0 <= t -> t < 2 ^ (Z.of_nat fuel - 1) -> (0 < fuel)%nat -> 0 <= l <= B ->
  (forall s, 1 <= s -> (thr < longest_common_prefix codes i (i + s * d) <-> s <= B)) ->
  halving_exact t (B - l) -> halving_search fuel codes i d thr l t = Some B.
Proof.
  induction fuel; intros codes i d thr B t l Ht Hf Hp Hl HP HE; [lia|]. simpl.
  destruct (Z.ltb_spec t 1) as [L|L].
  - inversion HE; subst; try lia. f_equal. lia.
  - assert (1 <= l + t) by lia.
    assert (fuel <> 0)%nat. { intros ->. change (2 ^ (Z.of_nat 1 - 1)) with 1 in Hf. lia. }
    assert (Hf' : t / 2 < 2 ^ (Z.of_nat fuel - 1)).
    { apply Z.div_lt_upper_bound; [lia|]. rewrite <- Z.pow_succ_r by lia. replace (Z.succ (Z.of_nat fuel - 1)) with (Z.of_nat (S fuel) - 1) by lia. auto. }
    assert (0 <= t / 2) by (apply Z.div_pos; lia).
    destruct (Z.ltb_spec thr (longest_common_prefix codes i (i + (l + t) * d))) as [P|P].
    + apply HP in P; auto. apply IHfuel; auto; try lia. inversion HE; subst; try lia.
      replace (B - (l + t)) with (B - l - t) by lia. auto.
    + assert (~ (l + t <= B)) by (intros Q; apply (HP (l + t)) in Q; lia).
      apply IHfuel; auto; try lia. inversion HE; subst; try lia. auto.
Qed.

Lemma halving_some : forall fuel codes i d thr t l, 0 <= t -> t < 2 ^ (Z.of_nat fuel - 1) -> (0 < fuel)%nat ->
  exists r, halving_search fuel codes i d thr l t = Some r.
Proof.
  induction fuel; intros codes i d thr t l Ht Hf Hp; [lia|]. simpl.
  destruct (Z.ltb_spec t 1) as [L|L]; [eauto|].
  assert (fuel <> 0)%nat. { intros ->. change (2 ^ (Z.of_nat 1 - 1)) with 1 in Hf. lia. }
  apply IHfuel; try lia.
  - apply Z.div_pos; lia.
  - apply Z.div_lt_upper_bound; [lia|]. rewrite <- Z.pow_succ_r by lia. replace (Z.succ (Z.of_nat fuel - 1)) with (Z.of_nat (S fuel) - 1) by lia. auto.
Qed.

Lemma halving_range : forall fuel codes i d thr t l r, 0 <= t -> 
  halving_search fuel codes i d thr l t = Some r -> l <= r <= l + 2 * t.
Proof.
  induction fuel; intros codes i d thr t l r Ht H; simpl in H; [discriminate|].
  destruct (Z.ltb_spec t 1) as [L|L]; [injection H as <-; lia|].
  assert (0 <= t / 2) by (apply Z.div_pos; lia). assert (2 * (t / 2) <= t) by (apply Z.mul_div_le; lia).
  apply IHfuel in H; auto. destruct (thr <? _) in H; lia.
Qed.

Lemma halving_exact_pow2 : forall k B, 0 <= k -> 0 <= B < 2 ^ (k + 1) -> halving_exact (2 ^ k) B.
Proof.
  intros k B Hk. revert B. apply (natlike_ind (fun k => forall B, 0 <= B < 2 ^ (k + 1) -> halving_exact (2 ^ k) B)); auto; clear.
  - intros B HB. change (2 ^ 0) with 1. change (2 ^ (0 + 1)) with 2 in HB.
    assert (C : B = 0 \/ B = 1) by lia. destruct C as [-> | ->].
    + apply halving_skip; try lia. apply halving_end. change (1 / 2) with 0. lia.
    + apply halving_take; try lia. change (1 - 1) with 0. apply halving_end. change (1 / 2) with 0. lia.
  - intros k Hk IH B HB.
    assert (P : 2 ^ Z.succ k / 2 = 2 ^ k) by (rewrite Z.pow_succ_r, Z.mul_comm, Z.div_mul; lia).
    assert (0 < 2 ^ Z.succ k) by (apply Z.pow_pos_nonneg; lia).
    replace (k + 1) with (Z.succ k) in IH by lia.
    destruct (Z_le_dec (2 ^ Z.succ k) B).
    + apply halving_take; try lia. rewrite P. apply IH.
      replace (Z.succ k + 1) with (Z.succ (Z.succ k)) in HB by lia. rewrite (Z.pow_succ_r 2 (Z.succ k)) in HB by lia. lia.
    + apply halving_skip; try lia. rewrite P. apply IH. lia.
Qed.

(** The doubling search: the result is a power of two at which the condition fails; at its half the
    condition holds (unless it is the initial value). *)
Lemma expand_spec : forall fuel codes i d thr k, 1 <= k ->
  -1 <= thr -> (d = 1 \/ d = -1) -> inr codes i ->
  Z.of_nat (List.length codes) <= 2 ^ (k + Z.of_nat fuel - 1) -> (0 < fuel)%nat ->
  exists k', k <= k' /\ expand_range fuel codes i d thr (2 ^ k) = Some (2 ^ k')
    /\ longest_common_prefix codes i (i + 2 ^ k' * d) <= thr
    /\ (k < k' -> thr < longest_common_prefix codes i (i + 2 ^ (k' - 1) * d)).
Proof.
  induction fuel; intros codes i d thr k Hk Ht Hd Hi Hf Hp; [lia|]. simpl.
  destruct (Z.ltb_spec thr (longest_common_prefix codes i (i + 2 ^ k * d))) as [L|L].
  - assert (fuel <> 0)%nat.
    { intros ->. replace (k + Z.of_nat 1 - 1) with k in Hf by lia.
      rewrite lcp_out_of_range in L; [lia|]. unfold inr in Hi. destruct Hd as [-> | ->]; lia. }
    replace (2 ^ k * 2) with (2 ^ (k + 1)) by (rewrite Z.pow_add_r by lia; lia).
    destruct (IHfuel codes i d thr (k + 1)) as (k' & H1 & H2 & H3 & H4); auto; try lia.
    + replace (k + 1 + Z.of_nat fuel - 1) with (k + Z.of_nat (S fuel) - 1) by lia. auto.
    + exists k'. split; [lia|]. split; auto. split; auto. intros _.
      destruct (Z.eq_dec k' (k + 1)) as [->|N]; [replace (k + 1 - 1) with k by lia; auto|]. apply H4. lia.
  - exists k. split; [lia|]. split; auto. split; auto. lia.
Qed.

Lemma of_nat_lt_pow2 : forall n, Z.of_nat n < 2 ^ Z.of_nat n.
Proof. intros n. apply Z.pow_gt_lin_r; lia. Qed.

(** Every node analysis ends within the fuel. *)
Lemma analyse_some : forall codes i, thirty_bit codes -> inr codes i ->
  exists r, analyse_node (node_fuel codes) codes i = Some r.
Proof.
  intros codes i B Hi. unfold analyse_node.
  set (lr := if (Z.of_nat (List.length codes) <=? 1) then -1 else longest_common_prefix codes i (i + 1)).
  set (ll := if (Z.of_nat (List.length codes) <=? 1) then -1 else longest_common_prefix codes i (i - 1)).
  set (d := (if ll <? lr then 1 else 0) * 2 - 1).
  assert (Hd : d = 1 \/ d = -1) by (unfold d; destruct (ll <? lr); lia).
  assert (Ht : -1 <= Z.min ll lr).
  { assert (-1 <= lr) by (unfold lr; destruct (_ <=? 1); [lia|apply lcp_ge_m1; auto]).
    assert (-1 <= ll) by (unfold ll; destruct (_ <=? 1); [lia|apply lcp_ge_m1; auto]). lia. }
  pose proof (of_nat_lt_pow2 (List.length codes)) as PW.
  destruct (expand_spec (node_fuel codes) codes i d (Z.min ll lr) 1) as (k & K1 & K2 & K3 & K4); auto; try lia.
  { unfold node_fuel. apply Z.le_trans with (2 ^ Z.of_nat (List.length codes)); [lia|]. apply Z.pow_le_mono_r; lia. }
  { unfold node_fuel. lia. }
  change (2 ^ 1) with 2 in K2. rewrite K2.
  assert (PK : 2 ^ k / 2 = 2 ^ (k - 1)) by (replace k with (Z.succ (k - 1)) at 1 by lia; rewrite Z.pow_succ_r, Z.mul_comm, Z.div_mul; lia).
  assert (Kb : 2 ^ (k - 1) < 2 * Z.of_nat (List.length codes) + 2).
  { destruct (Z.eq_dec k 1) as [->|]; [change (2 ^ (1 - 1)) with 1; lia|]. specialize (K4 ltac:(lia)).
    destruct (Z_lt_dec (2 ^ (k - 1)) (2 * Z.of_nat (List.length codes) + 2)); auto.
    rewrite lcp_out_of_range in K4; [lia|]. unfold inr in Hi. destruct Hd as [-> | ->]; lia. }
  assert (FB : 2 * Z.of_nat (List.length codes) + 2 <= 2 ^ (Z.of_nat (node_fuel codes) - 1)).
  { unfold node_fuel. replace (Z.of_nat (List.length codes + 4) - 1) with (Z.of_nat (List.length codes) + 3) by lia.
    rewrite Z.pow_add_r by lia. change (2 ^ 3) with 8. lia. }
  rewrite PK.
  destruct (halving_some (node_fuel codes) codes i d (Z.min ll lr) (2 ^ (k - 1)) 0) as (l & El).
  { apply Z.pow_nonneg. lia. } { lia. } { unfold node_fuel. lia. }
  rewrite El.
  (* the range stays below twice the bound *)
  assert (Lb : 0 <= l).
  { apply halving_range in El; [lia|]. apply Z.pow_nonneg. lia. }
  assert (Lu : l <= 2 * Z.of_nat (List.length codes)).
  { (* accepted steps stay in range *)
    assert (G : forall fuel l0 t r, 0 <= t -> 0 <= l0 <= Z.of_nat (List.length codes) ->
       halving_search fuel codes i d (Z.min ll lr) l0 t = Some r -> r <= Z.of_nat (List.length codes)).
    { induction fuel as [|fuel IHf]; intros l0 t r T0 L0 H; simpl in H; [discriminate|].
      destruct (Z.ltb_spec t 1); [injection H as <-; lia|].
      apply IHf in H; auto; [apply Z.div_pos; lia|].
      destruct (Z.ltb_spec (Z.min ll lr) (longest_common_prefix codes i (i + (l0 + t) * d))) as [Q|Q]; [|lia].
      destruct (Z_le_dec (l0 + t) (Z.of_nat (List.length codes))); [lia|].
      rewrite lcp_out_of_range in Q; [lia|]. unfold inr in Hi. destruct Hd as [-> | ->]; lia. }
    apply G in El; [lia| |lia]. apply Z.pow_nonneg. lia. }
  destruct (halving_some (node_fuel codes) codes i d (longest_common_prefix codes i (i + l * d)) ((l + 1) / 2) 0) as (s & Es).
  { apply Z.div_pos; lia. } { apply Z.div_lt_upper_bound; lia. } { unfold node_fuel. lia. }
  rewrite Es. eauto.
Qed.

Lemma sequence_some : forall {A} (l : list (option A)), (forall x, In x l -> x <> None) ->
  exists r, sequence l = Some r /\ l = map Some r.
Proof.
  induction l as [|[x|] l IH]; simpl; intros H.
  - exists []. auto.
  - destruct IH as (r & -> & ->); auto. exists (x :: r). auto.
  - exfalso. apply (H None); auto.
Qed.

Lemma child_arrays_some : forall codes, thirty_bit codes ->
  exists lefts rights, child_arrays codes = Some (lefts, rights)
    /\ List.length lefts = total_nodes codes /\ List.length rights = total_nodes codes
    /\ forall k, (k < total_nodes codes)%nat ->
        children_of codes (Z.of_nat k) = Some (nth k lefts (-1), nth k rights (-1)).
Proof.
  intros codes B. unfold child_arrays.
  destruct (sequence_some (map (fun k => children_of codes (Z.of_nat k)) (seq 0 (total_nodes codes)))) as (r & E & M).
  - intros x Hx. apply in_map_iff in Hx. destruct Hx as (k & <- & Hk). unfold children_of.
    destruct (Z.ltb_spec (Z.of_nat k) (Z.of_nat (List.length codes) - 1)); [|discriminate].
    destruct (analyse_some codes (Z.of_nat k) B) as (a & ->); [unfold inr; lia|]. discriminate.
  - rewrite E. exists (map fst r), (map snd r). split; auto.
    assert (L : List.length r = total_nodes codes).
    { apply (f_equal (@List.length _)) in M. rewrite !map_length, seq_length in M. auto. }
    rewrite !map_length. split; auto. split; auto. intros k Hk.
    apply (f_equal (fun l => nth_error l k)) in M. rewrite nth_error_map in M.
    rewrite (nth_error_nth' (seq 0 (total_nodes codes)) 0%nat) in M by (rewrite seq_length; auto).
    rewrite seq_nth in M by auto. simpl in M. rewrite nth_error_map in M.
    rewrite (nth_error_nth' r (-1, -1)) in M by lia. simpl in M. injection M as M. rewrite M.
    rewrite (map_nth fst r (-1, -1) k : nth k (map fst r) (-1) = _).
    rewrite (map_nth snd r (-1, -1) k : nth k (map snd r) (-1) = _).
    destruct (nth k r (-1, -1)); auto.
Qed.

(** * Clusters *)
Definition lcp := longest_common_prefix.

(** A maximal interval of positions with a common prefix longer than with its neighbours. *)
Definition cluster (codes : list Z) (a b : Z) : Prop :=
  0 <= a < b /\ b < Z.of_nat (List.length codes)
  /\ lcp codes a (a - 1) < lcp codes a b /\ lcp codes b (b + 1) < lcp codes a b.

(** The position after which the first bit beyond the common prefix changes. *)
Definition split_at (codes : list Z) (a b g : Z) : Prop :=
  a <= g < b /\ (forall s, a < s <= b -> (lcp codes a b < lcp codes a s <-> s <= g))
  /\ (forall s, a <= s < b -> (lcp codes a b < lcp codes b s <-> g < s))
  /\ lcp codes g (g + 1) = lcp codes a b.

Lemma lcp_mono_right : forall codes i j k, thirty_bit codes -> ascending codes ->
  0 <= i <= j -> j <= k -> k < Z.of_nat (List.length codes) -> lcp codes i k <= lcp codes i j.
Proof. intros. unfold lcp. rewrite (lcp_min codes i j k) by (auto; unfold inr; lia). lia. Qed.
Lemma lcp_mono_left : forall codes i j k, thirty_bit codes -> ascending codes ->
  0 <= i <= j -> j <= k -> k < Z.of_nat (List.length codes) -> lcp codes i k <= lcp codes j k.
Proof. intros. unfold lcp. rewrite (lcp_min codes i j k) by (auto; unfold inr; lia). lia. Qed.

(** Largest position of an interval satisfying a decidable condition that holds at its start. *)
Lemma last_true : forall (P : Z -> Prop) (dec : forall x, {P x} + {~ P x}) a b, a <= b ->
  exists g, a <= g <= b /\ (g = a \/ P g) /\ forall s, g < s <= b -> ~ P s.
Proof.
  intros P dec a b H. replace b with (a + (b - a)) by lia.
  assert (H' : 0 <= b - a) by lia. revert H'. generalize (b - a). clear H b.
  apply (natlike_ind (fun z => exists g, a <= g <= a + z /\ (g = a \/ P g) /\ forall s, g < s <= a + z -> ~ P s)).
  - exists a. split; [lia|]. split; auto. intros; lia.
  - intros z Hz (g & G1 & G2 & G3). destruct (dec (a + Z.succ z)) as [Y|N].
    + exists (a + Z.succ z). split; [lia|]. split; auto. intros; lia.
    + exists g. split; [lia|]. split; auto. intros s Hs. destruct (Z.eq_dec s (a + Z.succ z)) as [->|]; auto. apply G3. lia.
Qed.

Lemma split_exists : forall codes a b, thirty_bit codes -> ascending codes -> no_triple codes ->
  0 <= a < b -> b < Z.of_nat (List.length codes) -> exists g, split_at codes a b g.
Proof.
  intros codes a b B A NT Hab Hb. set (m := lcp codes a b).
  destruct (last_true (fun s => m < lcp codes a s) (fun s => Z_lt_dec m (lcp codes a s)) a (b - 1)) as (g & G1 & G2 & G3); [lia|].
  exists g.
  assert (Pr : forall s, a < s <= b -> (m < lcp codes a s <-> s <= g)).
  { intros s Hs. split; intros H.
    - destruct (Z_le_dec s g); auto. exfalso. destruct (Z.eq_dec s b) as [->|]; [unfold m in H; lia|]. apply (G3 s); auto. lia.
    - destruct G2 as [->|G2]; [lia|]. apply Z.lt_le_trans with (lcp codes a g); auto. apply lcp_mono_right; auto; lia. }
  assert (Mg : lcp codes g (g + 1) = m).
  { assert (m <= lcp codes a (g + 1)) by (apply lcp_mono_right; auto; lia).
    assert (~ (m < lcp codes a (g + 1))) by (rewrite Pr; lia).
    assert (E : lcp codes a (g + 1) = Z.min (lcp codes a g) (lcp codes g (g + 1))).
    { apply lcp_min; auto; unfold inr; lia. }
    destruct G2 as [->|G2]; [|lia].
    lia. }
  assert (Hgb : g + 1 < b -> m < lcp codes (g + 1) b).
  { intros H. assert (m <= lcp codes (g + 1) b) by (apply lcp_mono_left; auto; lia).
    assert (lcp codes g (g + 1) <> lcp codes (g + 1) b) by (apply lcp_adjacent_differ; auto; lia). lia. }
  split; [lia|]. split; [exact Pr|]. split; [|exact Mg].
  intros s Hs. fold m. unfold lcp. rewrite (lcp_sym codes b s) by (auto; unfold inr; lia). fold lcp. split; intros H.
  - destruct (Z_lt_dec g s); auto. exfalso.
    assert (lcp codes s b <= lcp codes g (g + 1)).
    { apply Z.le_trans with (lcp codes s (g + 1)); [apply lcp_mono_right|apply lcp_mono_left]; auto; lia. } fold (lcp codes s b) in H. lia.
  - apply Z.lt_le_trans with (lcp codes (g + 1) b); [apply Hgb; lia|]. apply lcp_mono_left; auto; lia.
Qed.

(** The split search of a cluster of the given size finds the given part. *)
Definition search_exact (size part : Z) : Prop := halving_exact (size / 2) (part - 1).

(** Facts about node [a] or [b] of a cluster, whichever represents it. *)
Lemma range_search : forall codes i d thr m, thirty_bit codes -> inr codes i -> (d = 1 \/ d = -1) ->
  -1 <= thr -> 1 <= m <= Z.of_nat (List.length codes) ->
  (forall s, 1 <= s -> (thr < lcp codes i (i + s * d) <-> s <= m)) ->
  exists lmax, expand_range (node_fuel codes) codes i d thr 2 = Some lmax
    /\ halving_search (node_fuel codes) codes i d thr 0 (lmax / 2) = Some m.
Proof.
  intros codes i d thr m B Hi Hd Ht Hm P.
  pose proof (of_nat_lt_pow2 (List.length codes)) as PW.
  destruct (expand_spec (node_fuel codes) codes i d thr 1) as (k & K1 & K2 & K3 & K4); auto; try lia.
  { unfold node_fuel. apply Z.le_trans with (2 ^ Z.of_nat (List.length codes)); [lia|]. apply Z.pow_le_mono_r; lia. }
  { unfold node_fuel. lia. }
  exists (2 ^ k). split; auto.
  assert (PK : 2 ^ k / 2 = 2 ^ (k - 1)) by (replace k with (Z.succ (k - 1)) at 1 by lia; rewrite Z.pow_succ_r, Z.mul_comm, Z.div_mul; lia).
  rewrite PK.
  assert (0 < 2 ^ k) by (apply Z.pow_pos_nonneg; lia).
  assert (Mk : m < 2 ^ k).
  { destruct (Z_lt_dec m (2 ^ k)); auto. exfalso. assert (T : thr < lcp codes i (i + 2 ^ k * d)) by (apply P; lia). unfold lcp in T. lia. }
  assert (Kb : 2 ^ (k - 1) <= m).
  { destruct (Z.eq_dec k 1) as [->|]; [change (2 ^ (1 - 1)) with 1; lia|]. specialize (K4 ltac:(lia)).
    apply P; auto. assert (0 < 2 ^ (k - 1)) by (apply Z.pow_pos_nonneg; lia). lia. }
  apply halving_greedy; auto.
  - apply Z.pow_nonneg; lia.
  - unfold node_fuel. apply Z.le_lt_trans with (Z.of_nat (List.length codes)); [lia|].
    apply Z.lt_le_trans with (2 ^ Z.of_nat (List.length codes)); auto. apply Z.pow_le_mono_r; lia.
  - unfold node_fuel. lia.
  - lia.
  - apply halving_exact_pow2; [lia|]. replace (k - 1 + 1) with k by lia. lia.
Qed.

Lemma split_search : forall codes i d thr l m, (1 <= l <= Z.of_nat (List.length codes)) -> 0 <= m ->
  (forall s, 1 <= s -> s <= l -> (thr < lcp codes i (i + s * d) <-> s <= m)) ->
  (forall s, l < s -> lcp codes i (i + s * d) <= thr) -> m <= l ->
  halving_exact ((l + 1) / 2) m ->
  halving_search (node_fuel codes) codes i d thr 0 ((l + 1) / 2) = Some m.
Proof.
  intros codes i d thr l m Hl Hm P Q Hml HE. pose proof (of_nat_lt_pow2 (List.length codes)) as PW.
  apply halving_greedy; auto.
  - apply Z.div_pos; lia.
  - unfold node_fuel. apply Z.lt_le_trans with (2 ^ Z.of_nat (List.length codes)).
    + apply Z.le_lt_trans with (Z.of_nat (List.length codes)); auto. apply Z.div_le_upper_bound; lia.
    + apply Z.pow_le_mono_r; lia.
  - unfold node_fuel. lia.
  - lia.
  - intros s Hs. destruct (Z_le_dec s l); [apply P; auto|]. specialize (Q s ltac:(lia)). unfold lcp in Q. lia.
  - rewrite Z.sub_0_r. auto.
Qed.

(** The node representing cluster [a,b]: the end whose outer neighbour is closer. *)
Definition owner (codes : list Z) (a b o : Z) : Prop :=
  (o = a /\ lcp codes b (b + 1) <= lcp codes a (a - 1)) \/ (o = b /\ lcp codes a (a - 1) < lcp codes b (b + 1)).

Lemma analyse_owner : forall codes a b o g, thirty_bit codes -> ascending codes -> no_triple codes ->
  cluster codes a b -> owner codes a b o -> split_at codes a b g ->
  search_exact (b - a + 1) (g - a + 1) -> search_exact (b - a + 1) (b - g) ->
  exists r, analyse_node (node_fuel codes) codes o = Some r
    /\ Z.min o (nr_farthest r) = a /\ Z.max o (nr_farthest r) = b /\ nr_gamma r = g.
Proof.
  intros codes a b o g B A NT (Hab & Hb & Cl & Cr) O (G1 & G2 & G3 & G4) E1 E2.
  unfold search_exact in *. set (n := Z.of_nat (List.length codes)) in *.
  assert (Ia : inr codes a) by (unfold inr; lia). assert (Ib : inr codes b) by (unfold inr; lia).
  pose proof (lcp_ge_m1 codes a (a - 1) B Ia) as M1. pose proof (lcp_ge_m1 codes b (b + 1) B Ib) as M2.
  assert (Hs : (Z.of_nat (List.length codes) <=? 1) = false) by (apply Z.leb_gt; fold n; lia).
  assert (RB : forall s, b < s -> lcp codes a s <= lcp codes b (b + 1)).
  { intros s Hsb. destruct (Z_lt_dec s n).
    - apply Z.le_trans with (lcp codes a (b + 1)); [apply lcp_mono_right; auto; lia|apply lcp_mono_left; auto; lia].
    - unfold lcp at 1. rewrite lcp_out_of_range by (fold n; lia). unfold lcp. lia. }
  assert (LA : forall s, s < a -> lcp codes b s <= lcp codes a (a - 1)).
  { intros s Hsa. destruct (Z_le_dec 0 s).
    - assert (Is : inr codes s) by (unfold inr; fold n; lia). unfold lcp. rewrite (lcp_sym codes b s), (lcp_sym codes a (a - 1)) by (auto; unfold inr; lia).
      apply Z.le_trans with (lcp codes s a); [apply lcp_mono_right; auto; lia|apply lcp_mono_left; auto; lia].
    - unfold lcp at 1. rewrite lcp_out_of_range by (fold n; lia). unfold lcp. lia. }
  destruct O as [[-> O]|[-> O]]; unfold analyse_node; rewrite Hs; unfold lcp in *.
  - assert (D : longest_common_prefix codes a (a - 1) < longest_common_prefix codes a (a + 1)).
    { apply Z.lt_le_trans with (longest_common_prefix codes a b); auto. apply lcp_mono_right; auto; lia. }
    destruct (Z.ltb_spec (longest_common_prefix codes a (a - 1)) (longest_common_prefix codes a (a + 1))); [|lia].
    change (1 * 2 - 1) with 1. rewrite Z.min_l by lia.
    destruct (range_search codes a 1 (longest_common_prefix codes a (a - 1)) (b - a)) as (lmax & L1 & L2); auto; try (fold n; lia).
    { intros s Hs1. unfold lcp. rewrite Z.mul_1_r. split; intros H1.
      - destruct (Z_le_dec s (b - a)); auto. specialize (RB (a + s) ltac:(lia)). lia.
      - apply Z.lt_le_trans with (longest_common_prefix codes a b); auto. apply lcp_mono_right; auto; lia. }
    rewrite L1, L2. replace (a + (b - a) * 1) with b by lia.
    rewrite (split_search codes a 1 _ (b - a) (g - a)); auto; try (fold n; lia).
    + eexists. split; [reflexivity|]. simpl. rewrite Z.min_l, Z.max_r by lia. split; auto. split; auto. lia.
    + intros s Hs1 Hs2. rewrite Z.mul_1_r. unfold lcp. rewrite G2 by lia. lia.
    + intros s Hs1. rewrite Z.mul_1_r. unfold lcp. specialize (RB (a + s) ltac:(lia)). lia.
    + replace (g - a) with (g - a + 1 - 1) by lia. auto.
  - assert (D : longest_common_prefix codes b (b + 1) < longest_common_prefix codes b (b - 1)).
    { apply Z.lt_le_trans with (longest_common_prefix codes a b); auto. rewrite (lcp_sym codes b (b - 1)) by (auto; unfold inr; lia).
      apply lcp_mono_left; auto; lia. }
    destruct (Z.ltb_spec (longest_common_prefix codes b (b - 1)) (longest_common_prefix codes b (b + 1))); [lia|].
    change (0 * 2 - 1) with (-1). rewrite Z.min_r by lia.
    destruct (range_search codes b (-1) (longest_common_prefix codes b (b + 1)) (b - a)) as (lmax & L1 & L2); auto; try (fold n; lia).
    { intros s Hs1. unfold lcp. replace (b + s * -1) with (b - s) by lia. split; intros H1.
      - destruct (Z_le_dec s (b - a)); auto. specialize (LA (b - s) ltac:(lia)). lia.
      - apply Z.lt_le_trans with (longest_common_prefix codes a b); auto. rewrite (lcp_sym codes b (b - s)) by (auto; unfold inr; lia).
        apply lcp_mono_left; auto; lia. }
    rewrite L1, L2. replace (b + (b - a) * -1) with a by lia.
    rewrite (lcp_sym codes b a) by auto.
    rewrite (split_search codes b (-1) _ (b - a) (b - g - 1)); auto; try (fold n; lia).
    + eexists. split; [reflexivity|]. simpl. rewrite Z.min_r, Z.max_l by lia. split; auto. split; auto. lia.
    + intros s Hs1 Hs2. replace (b + s * -1) with (b - s) by lia. unfold lcp.
      destruct (Z.eq_dec s (b - a)) as [->|]; [|rewrite G3 by lia; lia].
      replace (b - (b - a)) with a by lia. rewrite G3 by lia. lia.
    + intros s Hs1. replace (b + s * -1) with (b - s) by lia. unfold lcp. specialize (LA (b - s) ltac:(lia)). lia.
Qed.

(** * The tree *)
Definition splits_exactly (codes : list Z) : Prop :=
  forall a b g, cluster codes a b -> split_at codes a b g ->
    search_exact (b - a + 1) (g - a + 1) /\ search_exact (b - a + 1) (b - g).

Lemma seq_split_at : forall s i j, seq s (i + j) = seq s i ++ seq (s + i) j.
Proof. intros. apply seq_app. Qed.

Lemma cluster_subtree : forall codes left right, thirty_bit codes -> ascending codes -> no_triple codes ->
  splits_exactly codes ->
  (forall k, (k < List.length codes - 1)%nat -> children_of codes (Z.of_nat k) = Some (left k, right k)) ->
  forall w a b o, b - a <= Z.of_nat w -> cluster codes a b -> owner codes a b o -> o < Z.of_nat (List.length codes) - 1 ->
  subtree (List.length codes - 1) left right (Z.to_nat o) (seq (List.length codes - 1 + Z.to_nat a) (Z.to_nat (b - a + 1))).
Proof.
  intros codes left right B A NT SE CH. set (N := List.length codes) in *.
  induction w; intros a b o Hw C O Ho; [destruct C as ((? & ?) & _); lia|].
  destruct (split_exists codes a b) as (g & G); auto; try (destruct C as ((? & ?) & ? & _); lia).
  destruct (SE a b g C G) as [E1 E2].
  destruct (analyse_owner codes a b o g) as (r & R1 & R2 & R3 & R4); auto.
  pose proof C as ((Ha & Hab) & Hb & Cl & Cr). destruct G as (G1 & G2 & G3 & G4).
  assert (Oo : 0 <= o) by (destruct O as [[-> _]|[-> _]]; lia).
  assert (CO : children_of codes o = Some (left (Z.to_nat o), right (Z.to_nat o))).
  { rewrite <- (CH (Z.to_nat o)) by lia. rewrite Z2Nat.id by lia. auto. }
  unfold children_of in CO. fold N in CO. destruct (Z.ltb_spec o (Z.of_nat N - 1)); [|lia].
  rewrite R1 in CO. simpl in CO. injection CO as CL CR. rewrite R2, R4 in CL. rewrite R3, R4 in CR. fold N in CL, CR.
  replace (seq (N - 1 + Z.to_nat a) (Z.to_nat (b - a + 1))) with
    (seq (N - 1 + Z.to_nat a) (Z.to_nat (g - a + 1)) ++ seq (N - 1 + Z.to_nat (g + 1)) (Z.to_nat (b - (g + 1) + 1))).
  2: { replace (Z.to_nat (b - a + 1)) with (Z.to_nat (g - a + 1) + Z.to_nat (b - (g + 1) + 1))%nat by lia.
       rewrite seq_app. f_equal. f_equal. lia. }
  apply subtree_node with
    (a := if Z.eqb a g then (N - 1 + Z.to_nat g)%nat else Z.to_nat g)
    (b := if Z.eqb b (g + 1) then (N - 1 + Z.to_nat (g + 1))%nat else Z.to_nat (g + 1)).
  - lia.
  - rewrite <- CL. destruct (Z.eqb_spec a g); lia.
  - rewrite <- CR. destruct (Z.eqb_spec b (g + 1)); lia.
  - destruct (Z.eqb_spec a g) as [->|N1].
    + replace (Z.to_nat (g - g + 1)) with 1%nat by lia. simpl. apply subtree_leaf. lia.
    + apply IHw; try lia.
      * split; [lia|]. split; [lia|]. unfold lcp in *.
        assert (longest_common_prefix codes a b < longest_common_prefix codes a g) by (apply G2; lia).
        split; [lia|]. rewrite G4. lia.
      * right. split; auto. unfold lcp in *. lia.
  - destruct (Z.eqb_spec b (g + 1)) as [->|N1].
    + replace (Z.to_nat (g + 1 - (g + 1) + 1)) with 1%nat by lia. simpl. apply subtree_leaf. lia.
    + assert (M : lcp codes a b < lcp codes (g + 1) b).
      { unfold lcp. rewrite (lcp_sym codes (g + 1) b) by (auto; unfold inr; lia). apply G3; lia. }
      assert (S : lcp codes (g + 1) (g + 1 - 1) = lcp codes a b).
      { unfold lcp in *. rewrite (lcp_sym codes (g + 1) (g + 1 - 1)) by (auto; unfold inr; lia).
        replace (g + 1 - 1) with g by lia. auto. }
      apply IHw; try lia.
      * split; [lia|]. split; [lia|]. rewrite S. lia.
      * left. split; auto. rewrite S. lia.
Qed.

Lemma whole_cluster : forall codes, thirty_bit codes -> (2 <= List.length codes)%nat ->
  cluster codes 0 (Z.of_nat (List.length codes) - 1) /\ owner codes 0 (Z.of_nat (List.length codes) - 1) 0.
Proof.
  intros codes B H.
  assert (R : 0 <= lcp codes 0 (Z.of_nat (List.length codes) - 1) <= 30) by (apply lcp_range; auto; unfold inr; lia).
  assert (E1 : lcp codes 0 (0 - 1) = -1) by (apply lcp_out_of_range; lia).
  assert (E2 : lcp codes (Z.of_nat (List.length codes) - 1) (Z.of_nat (List.length codes) - 1 + 1) = -1) by (apply lcp_out_of_range; lia).
  split.
  - unfold cluster. split; [lia|]. split; [lia|]. lia.
  - left. split; auto. lia.
Qed.

Theorem radix_tree : forall codes, codes <> [] -> thirty_bit codes -> ascending codes -> no_triple codes ->
  splits_exactly codes ->
  exists lefts rights, child_arrays codes = Some (lefts, rights)
    /\ subtree (List.length codes - 1) (fun k => nth k lefts (-1)) (fun k => nth k rights (-1)) 0
         (seq (List.length codes - 1) (List.length codes)).
Proof.
  intros codes NE B A NT SE. destruct (child_arrays_some codes B) as (ls & rs & E & L1 & L2 & CH).
  exists ls, rs. split; auto.
  destruct (Nat.eq_dec (List.length codes) 1) as [E1|E1].
  - rewrite E1. simpl. apply subtree_leaf. auto.
  - assert (Hn : (2 <= List.length codes)%nat) by (destruct codes as [|x [|y l]]; cbn [List.length] in *; [congruence|lia|lia]).
    destruct (whole_cluster codes B Hn) as [C O].
    pose proof (cluster_subtree codes (fun k => nth k ls (-1)) (fun k => nth k rs (-1)) B A NT SE) as T.
    specialize (T ltac:(intros k Hk; apply CH; unfold total_nodes; lia) (List.length codes) 0 (Z.of_nat (List.length codes) - 1) 0 ltac:(lia) C O ltac:(lia)).
    change (Z.to_nat 0) with 0%nat in T. rewrite Nat.add_0_r in T.
    replace (Z.to_nat (Z.of_nat (List.length codes) - 1 - 0 + 1)) with (List.length codes) in T by lia. auto.
Qed.
