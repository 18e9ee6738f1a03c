(** Hierarchies whose root split cannot be found by halving (C19, C21). *)
From Coq Require Import List Arith ZArith Reals Bool Lia Lra Permutation.
From Verif Require Import ModelField ModelLBVH SpecLBVH ProofsMorton ProofsRadix ProofsRadixCounts ProofsTraversal ProofsLBVHRefuted.
Import ListNotations.
Local Open Scope Z_scope.
Local Arguments Z.div : simpl never.
Local Arguments Z.mul : simpl never.
Local Arguments Z.pow : simpl never.
Local Arguments longest_common_prefix : simpl never.

(** The result of the halving search is the start or was accepted. *)
Lemma halving_accepted : forall fuel codes i d thr l t r, 0 <= t -> halving_search fuel codes i d thr l t = Some r ->
  l <= r /\ (r = l \/ thr < longest_common_prefix codes i (i + r * d)).
Proof.
  induction fuel as [|fuel IH]; intros codes i d thr l t r T H; simpl in H; [discriminate|].
  destruct (Z.ltb_spec t 1) as [L|L]; [injection H as <-; split; [lia|left; auto]|].
  apply IH in H; [|apply Z.div_pos; lia].
  destruct (Z.ltb_spec thr (longest_common_prefix codes i (i + (l + t) * d))) as [Q|Q]; [|exact H].
  destruct H as (H1 & [H2|H2]); (split; [lia|]).
  - right. rewrite H2. exact Q.
  - right. exact H2.
Qed.

(** If it ends at the last position that satisfies the condition, greedy subtraction is exact. *)
Lemma halving_exact_of_search : forall fuel codes i d thr B t l, 0 <= t -> 0 <= l <= B ->
  (forall s, 1 <= s -> (thr < longest_common_prefix codes i (i + s * d) <-> s <= B)) ->
  halving_search fuel codes i d thr l t = Some B -> halving_exact t (B - l).
Proof.
  induction fuel as [|fuel IH]; intros codes i d thr B t l T HL P H; simpl in H; [discriminate|].
  destruct (Z.ltb_spec t 1) as [L|L]; [injection H as <-; rewrite Z.sub_diag; apply halving_end; lia|].
  assert (0 <= t / 2) by (apply Z.div_pos; lia).
  destruct (Z.ltb_spec thr (longest_common_prefix codes i (i + (l + t) * d))) as [Q|Q].
  - apply P in Q; [|lia]. apply halving_take; try lia. replace (B - l - t) with (B - (l + t)) by lia.
    apply (IH codes i d thr); auto. lia.
  - apply halving_skip; try lia.
    + destruct (Z_lt_dec (B - l) t); auto. exfalso. assert (thr < longest_common_prefix codes i (i + (l + t) * d)) by (apply P; lia). lia.
    + apply (IH codes i d thr); auto.
Qed.

(** [g] is the last position before the first differing bit of all codes changes. *)
Definition root_split (codes : list Z) (g : Z) : Prop :=
  0 <= g < Z.of_nat (List.length codes) - 1
  /\ forall s, 0 < s < Z.of_nat (List.length codes) ->
     (lcp codes 0 (Z.of_nat (List.length codes) - 1) < lcp codes 0 s <-> s <= g).

Section Broken.
Variables (codes : list Z) (g : Z).
Hypothesis B : thirty_bit codes.
Hypothesis A : ascending codes.
Hypothesis G : root_split codes g.
Let n := Z.of_nat (List.length codes).
Let L := lcp codes 0 (n - 1).

Lemma len2 : 2 <= n.
Proof. destruct G as (H & _). fold n in H. lia. Qed.

(** Positions up to [g] agree with others in more than [L] bits only up to [g]. *)
Lemma stays : forall j p, 1 <= j <= g -> L < lcp codes j p -> 0 <= p <= g.
Proof.
  intros j p Hj H. destruct G as (G1 & G2). fold n in G1, G2. fold L in G2.
  assert (Lr : 0 <= L <= 30) by (apply lcp_range; auto; unfold inr; fold n; lia).
  destruct (Z_lt_dec p 0) as [N|N]; [unfold lcp in H; rewrite lcp_out_of_range in H by lia; lia|].
  destruct (Z_le_dec n p) as [M|M]; [unfold lcp in H; rewrite lcp_out_of_range in H by (fold n; lia); lia|].
  split; [lia|]. destruct (Z_le_dec p g); auto. exfalso.
  assert (X : ~ L < lcp codes 0 p) by (rewrite G2 by lia; lia).
  assert (Y : L < lcp codes 0 j) by (apply G2; lia).
  apply X. unfold lcp in *. rewrite (lcp_min codes 0 j p) by (auto; unfold inr; fold n; lia). lia.
Qed.
Lemma left_neighbour : forall j, 1 <= j <= g -> L < lcp codes j (j - 1).
Proof.
  intros j Hj. destruct G as (G1 & G2). fold n in G1, G2. fold L in G2.
  assert (Y : L < lcp codes 0 j) by (apply G2; lia).
  assert (lcp codes 0 j <= lcp codes (j - 1) j) by (apply lcp_mono_left; auto; fold n; lia).
  unfold lcp in *. rewrite (lcp_sym codes j (j - 1)) by (auto; unfold inr; fold n; lia). lia.
Qed.
Lemma right_neighbour : forall j, 1 <= j < g -> L < lcp codes j (j + 1).
Proof.
  intros j Hj. pose proof (left_neighbour (j + 1) ltac:(lia)) as H. replace (j + 1 - 1) with j in H by lia.
  destruct G as (G1 & _). fold n in G1.
  unfold lcp in *. rewrite (lcp_sym codes j (j + 1)) by (auto; unfold inr; fold n; lia). exact H.
Qed.
Lemma self_prefix : forall j, 0 <= j < n -> lcp codes j j = 30.
Proof. intros j Hj. unfold lcp. rewrite lcp_in by (auto; unfold inr; fold n; lia). rewrite Z.eqb_refl. auto. Qed.
Lemma at_most_30 : forall j p, 0 <= j < n -> lcp codes j p <= 30.
Proof.
  intros j p Hj. destruct (Z_lt_dec p 0) as [N|N]; [unfold lcp; rewrite lcp_out_of_range by lia; lia|].
  destruct (Z_le_dec n p) as [M|M]; [unfold lcp; rewrite lcp_out_of_range by (fold n; lia); lia|].
  apply lcp_range; auto; unfold inr; fold n; lia.
Qed.

(** The split of every node between 1 and [g] stays in this range. *)
Lemma inner_gamma : forall j r, 1 <= j <= g -> analyse_node (node_fuel codes) codes j = Some r -> 0 <= nr_gamma r < g.
Proof.
  intros j r Hj H. pose proof len2 as N2. destruct G as (G1 & G2). fold n in G1, G2. fold L in G2.
  assert (Lr : 0 <= L <= 30) by (apply lcp_range; auto; unfold inr; fold n; lia).
  pose proof (left_neighbour j Hj) as LN. unfold analyse_node in H. fold n in H.
  destruct (Z.leb_spec n 1) as [|_]; [lia|].
  set (lr := longest_common_prefix codes j (j + 1)) in *. set (ll := longest_common_prefix codes j (j - 1)) in *.
  unfold lcp in LN. fold ll in LN.
  assert (RN : j = g -> lr = L).
  { intros ->. destruct (Z.eq_dec lr L); auto. exfalso.
    assert (X : ~ L < lcp codes 0 (g + 1)) by (rewrite G2 by lia; lia).
    assert (Y : L < lcp codes 0 g) by (apply G2; lia).
    assert (W : L <= lcp codes 0 (g + 1)) by (apply lcp_mono_right; auto; fold n; lia).
    unfold lcp in X, Y, W. rewrite (lcp_min codes 0 g (g + 1)) in X, W by (auto; unfold inr; fold n; lia). fold lr in X, W. lia. }
  assert (RN' : j < g -> L < lr) by (intros; apply right_neighbour; lia).
  set (d := (if ll <? lr then 1 else 0) * 2 - 1) in *.
  assert (Hd : (d = 1 /\ j < g) \/ d = -1).
  { unfold d. destruct (Z.ltb_spec ll lr); [|right; lia]. left. split; [lia|]. destruct (Z.eq_dec j g); [|lia]. rewrite RN in * by auto. lia. }
  assert (DM : L <= Z.min ll lr) by (destruct (Z.eq_dec j g) as [->|]; [rewrite RN by auto; lia|specialize (RN' ltac:(lia)); lia]).
  destruct (expand_range _ _ _ _ _ _) as [lmax|] eqn:E0; [|discriminate].
  assert (LM : 0 <= lmax).
  { assert (GE : forall f x y, 0 <= x -> expand_range f codes j d (Z.min ll lr) x = Some y -> 0 <= y).
    { induction f as [|f IHf]; intros x y Hx Q; simpl in Q; [discriminate|]. destruct (Z.min ll lr <? _); [apply IHf in Q; lia|injection Q as <-; lia]. }
    apply GE in E0; lia. }
  destruct (halving_search _ _ _ _ _ _ (lmax / 2)) as [l|] eqn:E1; [|discriminate].
  apply halving_accepted in E1; [|apply Z.div_pos; lia]. destruct E1 as (L0 & E1).
  assert (F : 0 <= j + l * d <= g).
  { destruct E1 as [->|E1]; [lia|]. apply (stays j); [lia|]. unfold lcp. lia. }
  destruct (halving_search _ _ _ _ _ _ ((l + 1) / 2)) as [s|] eqn:E2; [|discriminate].
  apply halving_accepted in E2; [|apply Z.div_pos; lia]. destruct E2 as (S0 & E2).
  injection H as <-. cbn [nr_gamma].
  destruct E2 as [->|E2].
  - destruct Hd as [[-> ?]| ->]; cbn; lia.
  - assert (SP : 0 <= j + s * d <= g).
    { apply (stays j); [lia|]. unfold lcp. apply Z.le_lt_trans with (longest_common_prefix codes j (j + l * d)); auto.
      destruct E1 as [->|E1]; [|lia]. replace (j + 0 * d) with j by lia. change (longest_common_prefix codes j j) with (lcp codes j j). rewrite self_prefix by lia. lia. }
    assert (SL : s < l).
    { destruct (Z_lt_dec s l); auto. exfalso.
      assert (longest_common_prefix codes j (j + s * d) <= longest_common_prefix codes j (j + l * d)); [|lia].
      destruct Hd as [[-> ?]| ->].
      - rewrite !Z.mul_1_r. rewrite !Z.mul_1_r in F, SP. apply lcp_mono_right; auto; fold n; lia.
      - replace (j + s * -1) with (j - s) in * by lia. replace (j + l * -1) with (j - l) in * by lia.
        rewrite (lcp_sym codes j (j - s)), (lcp_sym codes j (j - l)) by (auto; unfold inr; fold n; lia).
        apply lcp_mono_left; auto; fold n; lia. }
    destruct Hd as [[-> ?]| ->]; cbn; lia.
Qed.

(** The root takes the wrong split if halving cannot find the right one. *)
Lemma root_gamma : ~ halving_exact (n / 2) g ->
  exists r, analyse_node (node_fuel codes) codes 0 = Some r /\ nr_farthest r = n - 1 /\ 0 <= nr_gamma r < g.
Proof.
  intros NH. pose proof len2 as N2. destruct G as (G1 & G2). fold n in G1, G2. fold L in G2.
  destruct (analyse_some codes 0 B) as (r & R); [unfold inr; fold n; lia|]. exists r. split; auto.
  unfold analyse_node in R. fold n in R. destruct (Z.leb_spec n 1) as [|_]; [lia|].
  assert (LL : longest_common_prefix codes 0 (0 - 1) = -1) by (apply lcp_out_of_range; lia).
  assert (LR : 0 <= longest_common_prefix codes 0 (0 + 1)) by (apply lcp_range; auto; unfold inr; fold n; lia).
  rewrite LL in R. destruct (Z.ltb_spec (-1) (longest_common_prefix codes 0 (0 + 1))) as [_|]; [|lia].
  change (1 * 2 - 1) with 1 in R. rewrite Z.min_l in R by lia.
  destruct (range_search codes 0 1 (-1) (n - 1)) as (lmax & R1 & R2); auto; try (unfold inr; fold n; lia).
  { intros s Hs. unfold lcp. replace (0 + s * 1) with s by lia. split; intros H1.
    - destruct (Z_le_dec s (n - 1)); auto. rewrite lcp_out_of_range in H1 by (fold n; lia). lia.
    - assert (0 <= longest_common_prefix codes 0 s); [|lia]. apply lcp_range; auto; unfold inr; fold n; lia. }
  rewrite R1, R2 in R. replace (0 + (n - 1) * 1) with (n - 1) in R by lia. replace (n - 1 + 1) with n in R by lia.
  destruct (halving_search _ _ _ _ _ _ (n / 2)) as [s|] eqn:E; [|discriminate]. injection R as <-. cbn [nr_farthest nr_gamma].
  split; auto. replace (0 + s * 1 + Z.min 1 0) with s by lia.
  assert (P : forall x, 1 <= x -> (longest_common_prefix codes 0 (n - 1) < longest_common_prefix codes 0 (0 + x * 1) <-> x <= g)).
  { intros x Hx. replace (0 + x * 1) with x by lia. destruct (Z_lt_dec x n) as [I|I]; [apply G2; lia|].
    rewrite (lcp_out_of_range codes 0 x) by (fold n; lia). split; [|lia].
    assert (0 <= longest_common_prefix codes 0 (n - 1)) by (apply lcp_range; auto; unfold inr; fold n; lia). lia. }
  assert (H2 : 0 <= n / 2) by (apply Z.div_pos; lia). pose proof (halving_accepted _ _ _ _ _ _ _ _ H2 E) as (S0 & S1).
  assert (SG : s <= g) by (destruct S1 as [->|S1]; [lia|]; destruct (Z.eq_dec s 0) as [->|]; [lia|]; apply P; auto; lia).
  split; [lia|]. destruct (Z.eq_dec s g) as [->|]; [|lia]. exfalso. apply NH.
  apply (halving_exact_of_search _ codes 0 1 _ g (n / 2) 0) in E; auto; [rewrite Z.sub_0_r in E; auto|lia].
Qed.

(** Nodes and leaves up to position [g]. *)
Definition early (c : Z) : Prop := 0 <= c <= g \/ n - 1 <= c <= n - 1 + g.

Lemma early_children : ~ halving_exact (n / 2) g -> forall j a b, 0 <= j <= g -> children_of codes j = Some (a, b) -> early a /\ early b.
Proof.
  intros NH j a b Hj H. destruct G as (G1 & _). fold n in G1. unfold children_of in H. fold n in H.
  destruct (Z.ltb_spec j (n - 1)) as [_|]; [|lia].
  assert (X : exists r, analyse_node (node_fuel codes) codes j = Some r /\ 0 <= nr_gamma r < g).
  { destruct (Z.eq_dec j 0) as [->|N].
    - destruct (root_gamma NH) as (r & R1 & _ & R2). eauto.
    - destruct (analyse_some codes j B) as (r & R); [unfold inr; fold n; lia|]. exists r. split; auto. apply (inner_gamma j); auto. lia. }
  destruct X as (r & R & Gm). rewrite R in H. cbn [option_map] in H. unfold node_children in H. fold n in H. injection H as <- <-.
  unfold early. split; match goal with |- context [if ?c then _ else _] => destruct c end; lia.
Qed.

Lemma broken_subtree : ~ halving_exact (n / 2) g -> forall lefts rights, child_arrays codes = Some (lefts, rights) ->
  forall k leaves, subtree (List.length codes - 1) (fun k => nth k lefts (-1)) (fun k => nth k rights (-1)) k leaves ->
  early (Z.of_nat k) -> forall x, In x leaves -> Z.of_nat x <= n - 1 + g.
Proof.
  intros NH lefts rights CA. destruct (child_arrays_some codes B) as (ls & rs & E & L1 & L2 & CH). rewrite CA in E. injection E as <- <-.
  induction 1 as [k Hk|k a b la lb Hk Ea Eb S1 IH1 S2 IH2]; intros EK x I.
  - destruct I as [<-|[]]. destruct G as (G1 & _). fold n in G1. destruct EK; lia.
  - assert (KG : 0 <= Z.of_nat k <= g) by (destruct EK as [EK|EK]; [auto|exfalso; unfold n in EK; lia]).
    destruct (early_children NH (Z.of_nat k) _ _ KG (CH k ltac:(unfold total_nodes; lia))) as (Xa & Xb). rewrite Ea in Xa. rewrite Eb in Xb.
    apply in_app_or in I. destruct I as [I|I]; [apply IH1|apply IH2]; auto.
Qed.

Lemma broken_tree : ~ halving_exact (n / 2) g -> forall lefts rights, child_arrays codes = Some (lefts, rights) ->
  ~ reaches_all_once (List.length codes) (fun k => nth k lefts (-1)) (fun k => nth k rights (-1)).
Proof.
  intros NH lefts rights CA (leaves & S & P). pose proof len2 as N2. destruct G as (G1 & _). fold n in G1.
  assert (I : In (2 * List.length codes - 2)%nat leaves).
  { apply (Permutation_in _ (Permutation_sym P)). apply in_seq. unfold n in N2. lia. }
  pose proof (broken_subtree NH lefts rights CA 0%nat leaves S ltac:(left; lia) _ I). unfold n in *. lia.
Qed.

(** The traversal only marks primitives of leaves up to position [g]. *)
Lemma broken_traverse : ~ halving_exact (n / 2) g -> forall h order,
  (forall k, h_left h k = match child_arrays codes with Some (ls, _) => nth k ls (-1) | None => -1 end) ->
  (forall k, h_right h k = match child_arrays codes with Some (_, rs) => nth k rs (-1) | None => -1 end) ->
  (forall k, h_is_leaf h k = true <-> (List.length codes - 1 <= k)%nat) ->
  (forall k, h_primitive h k = nth (k - (List.length codes - 1)) order 0%nat) ->
  forall fuel capacity hit own stack marked m,
  (forall k, In k stack -> early (Z.of_nat k)) ->
  traverse fuel capacity h hit own stack marked = Visited m ->
  forall x, In x m -> In x marked \/ exists p, Z.of_nat p <= g /\ nth p order 0%nat = x.
Proof.
  intros NH h order HL HR Lf HP.
  destruct (child_arrays_some codes B) as (ls & rs & E & L1 & L2 & CH). destruct G as (G1 & _). fold n in G1.
  assert (KIDS : forall k, early (Z.of_nat k) -> h_is_leaf h k = false -> early (h_left h k) /\ early (h_right h k)).
  { intros k EK LK. assert (K : ~ (List.length codes - 1 <= k)%nat) by (intros Q; apply Lf in Q; congruence).
    rewrite HL, HR, E. apply (early_children NH (Z.of_nat k)).
    - destruct EK as [EK|EK]; [auto|exfalso; unfold n in EK; lia].
    - apply CH. unfold total_nodes. lia. }
  assert (NAT : forall z, early z -> early (Z.of_nat (Z.to_nat z))) by (intros z Hz; assert (0 <= z) by (destruct Hz; lia); rewrite Z2Nat.id; auto).
  induction fuel as [|fuel IH]; intros capacity hit own stack marked m ES T x I; destruct stack as [|k stack]; cbn [traverse] in T.
  - injection T as <-. auto.
  - discriminate.
  - injection T as <-. auto.
  - destruct (hit k).
    + destruct (h_is_leaf h k) eqn:LK.
      * destruct (IH _ _ _ _ _ _ (fun j Hj => ES j (or_intror Hj)) T x I) as [J|J]; auto.
        assert (Q : exists p, Z.of_nat p <= g /\ nth p order 0%nat = h_primitive h k).
        { exists (k - (List.length codes - 1))%nat. split; auto. apply Lf in LK. destruct (ES k (or_introl eq_refl)); unfold n in *; lia. }
        destruct (own =? h_primitive h k)%nat; auto. destruct J as [<-|J]; auto.
      * destruct (KIDS k (ES k (or_introl eq_refl)) LK) as (X1 & X2).
        match type of T with (if ?c then _ else _) = _ => destruct c end; [discriminate|].
        refine (IH _ _ _ _ _ _ _ T x I). intros j Hj.
        destruct (0 <=? h_right h k); destruct (0 <=? h_left h k); cbn [In] in Hj;
        repeat (destruct Hj as [<-|Hj]); auto; apply ES; right; auto.
    + refine (IH _ _ _ _ _ _ (fun j Hj => ES j (or_intror Hj)) T x I).
Qed.

Lemma broken_filter : ~ halving_exact (n / 2) g -> forall fuel order pb rays found,
  lbvh_filter fuel codes order pb rays = Filtered found ->
  forall x, In x found -> exists p, Z.of_nat p <= g /\ nth p order 0%nat = x.
Proof.
  intros NH fuel order pb rays found F x I. destruct G as (G1 & _). fold n in G1.
  destruct (child_arrays_some codes B) as (ls & rs & CA & _).
  unfold lbvh_filter in F. destruct (List.length codes =? 0)%nat; [discriminate|].
  destruct (build_spec codes ls rs order pb CA) as (h & E & HL & HR & Lf & HP & _). rewrite E in F.
  destruct (max_depth fuel h) as [depth|]; [|discriminate].
  destruct (traverse_all fuel depth h rays []) as [m| |] eqn:T; try discriminate. injection F as <-.
  apply filter_In in I. destruct I as (_ & I). apply existsb_exists in I. destruct I as (y & I & Q). apply Nat.eqb_eq in Q. subst y.
  assert (GEN : forall rs' marked m', traverse_all fuel depth h rs' marked = Filtered m' ->
    forall y, In y m' -> In y marked \/ exists p, Z.of_nat p <= g /\ nth p order 0%nat = y).
  { induction rs' as [|r rs' IH]; intros marked m' T' y J; cbn [traverse_all] in T'; [injection T' as <-; auto|].
    destruct (traverse fuel depth h _ _ [0%nat] []) as [q| |] eqn:TR; try discriminate.
    destruct (IH _ _ T' y J) as [K|K]; auto. apply in_app_or in K. destruct K as [K|K]; auto.
    assert (ES : forall k, In k [0%nat] -> early (Z.of_nat k)) by (intros k [<-|[]]; left; lia).
    assert (HL' : forall k, h_left h k = match child_arrays codes with Some (ls, _) => nth k ls (-1) | None => -1 end) by (rewrite CA; auto).
    assert (HR' : forall k, h_right h k = match child_arrays codes with Some (_, rs) => nth k rs (-1) | None => -1 end) by (rewrite CA; auto).
    destruct (broken_traverse NH h order HL' HR' Lf HP _ _ _ _ _ _ _ ES TR y K) as [[]|Z]; auto. }
  destruct (GEN rays [] m T x I) as [[]|Z]. exact Z.
Qed.
End Broken.

(** * Counting *)
Lemma filter_two_all : forall (f1 f2 : Z -> bool) l, (forall x, f1 x = true -> f2 x = true -> False) ->
  (List.length (filter f1 l) + List.length (filter f2 l) = List.length l)%nat -> forall x, In x l -> f1 x = true \/ f2 x = true.
Proof.
  intros f1 f2 l D. assert (LE : forall l, (List.length (filter f1 l) + List.length (filter f2 l) <= List.length l)%nat).
  { clear l. induction l as [|y l IH]; cbn [filter List.length]; [lia|]. specialize (D y).
    destruct (f1 y); destruct (f2 y); cbn [List.length]; try lia. }
  induction l as [|y l IH]; intros E x I; [contradiction|]. cbn [filter List.length] in E. specialize (LE l). pose proof (D y) as Dy.
  destruct (f1 y) eqn:E1; destruct (f2 y) eqn:E2; cbn [List.length] in E; try (exfalso; auto; fail); try lia;
  (destruct I as [<-|I]; [auto|apply IH; auto; lia]).
Qed.

Lemma counted_split : forall codes L p, thirty_bit codes -> ascending codes -> 0 <= L < 30 ->
  let zeros := prefix_count codes (L + 1) (2 * p) in
  let ones := prefix_count codes (L + 1) (2 * p + 1) in
  0 < zeros -> 0 < ones -> zeros + ones = Z.of_nat (List.length codes) ->
  root_split codes (zeros - 1)
  /\ forall i, inr codes i -> (Z.shiftr (code codes i) (30 - (L + 1)) = 2 * p + 1 <-> zeros <= i).
Proof.
  intros codes L p B A HL zeros ones Z0 O0 SUM. set (n := Z.of_nat (List.length codes)) in *.
  assert (N2 : 2 <= n) by lia.
  set (f := fun i => Z.shiftr (code codes i) (30 - (L + 1))).
  assert (ALL : forall i, inr codes i -> f i = 2 * p \/ f i = 2 * p + 1).
  { intros i Hi. unfold f. destruct (filter_two_all (fun c => Z.shiftr c (30 - (L + 1)) =? 2 * p) (fun c => Z.shiftr c (30 - (L + 1)) =? 2 * p + 1) codes) with (x := code codes i) as [E|E].
    - intros x X1 X2. apply Z.eqb_eq in X1, X2. lia.
    - unfold zeros, ones, prefix_count, n in SUM. lia.
    - apply nth_In. unfold inr in Hi. lia.
    - left. apply Z.eqb_eq. exact E.
    - right. apply Z.eqb_eq. exact E. }
  assert (MONO : forall i j, 0 <= i <= j -> j < n -> f i <= f j) by (intros i j Hi Hj; apply shiftr_mono; [lia|apply ascending_code; auto]).
  assert (SOME : forall q, 0 < prefix_count codes (L + 1) q -> exists i, inr codes i /\ f i = q).
  { intros q Q. unfold prefix_count in Q. destruct (filter _ codes) as [|c r] eqn:F; [cbn in Q; lia|].
    assert (I : In c (c :: r)) by (left; auto). rewrite <- F in I. apply filter_In in I. destruct I as (I & E). apply Z.eqb_eq in E.
    destruct (In_nth codes c 0 I) as (k & K1 & K2). exists (Z.of_nat k). split; [unfold inr; lia|]. unfold f, code. rewrite Nat2Z.id, K2. exact E. }
  destruct (SOME (2 * p) Z0) as (i0 & I0 & F0). destruct (SOME (2 * p + 1) O0) as (i1 & I1 & F1).
  assert (Fs : f 0 = 2 * p).
  { pose proof (MONO 0 i0 ltac:(unfold inr in I0; lia) ltac:(unfold inr in I0; fold n in I0; lia)). destruct (ALL 0) as [Q|Q]; [unfold inr; fold n; lia|auto|lia]. }
  assert (Fe : f (n - 1) = 2 * p + 1).
  { pose proof (MONO i1 (n - 1) ltac:(unfold inr in I1; fold n in I1; lia) ltac:(lia)). destruct (ALL (n - 1)) as [Q|Q]; [unfold inr; fold n; lia|lia|auto]. }
  destruct (last_true (fun s => f s = 2 * p) (fun s => Z.eq_dec (f s) (2 * p)) 0 (n - 1)) as (g & G1 & G2 & G3); [lia|].
  assert (G2' : f g = 2 * p) by (destruct G2 as [->|G2]; auto).
  assert (GN : g < n - 1) by (destruct (Z.eq_dec g (n - 1)) as [->|]; lia).
  assert (CH : forall i, inr codes i -> (f i = 2 * p <-> 0 <= i <= g)).
  { intros i Hi. unfold inr in Hi. fold n in Hi. split; intros H.
    - split; [lia|]. destruct (Z_le_dec i g); auto. exfalso. apply (G3 i); auto. lia.
    - destruct (ALL i) as [Q|Q]; [unfold inr; fold n; lia|auto|]. pose proof (MONO i g ltac:(lia) ltac:(lia)). lia. }
  assert (ZG : zeros = g + 1).
  { unfold zeros. rewrite (prefix_count_interval codes (L + 1) (2 * p) 0 g); [lia|lia|fold n; lia|]. intros i Hi. rewrite <- (CH i Hi). reflexivity. }
  rewrite ZG. replace (g + 1 - 1) with g by lia. split.
  - split; [fold n; lia|]. fold n. unfold lcp.
    assert (Ln : longest_common_prefix codes 0 (n - 1) = L).
    { assert (L <= longest_common_prefix codes 0 (n - 1)).
      { apply lcp_ge_iff; auto; try (unfold inr; fold n; lia). rewrite (shiftr_succ (code codes 0) L HL), (shiftr_succ (code codes (n - 1)) L HL). change (f 0 / 2 = f (n - 1) / 2). rewrite Fs, Fe.
        rewrite (Z.mul_comm 2 p). rewrite Z.div_mul, Z.div_add_l by lia. change (1 / 2) with 0. lia. }
      assert (~ L + 1 <= longest_common_prefix codes 0 (n - 1)).
      { rewrite lcp_ge_iff; auto; try (unfold inr; fold n; lia). change (f 0 <> f (n - 1)). lia. }
      lia. }
    rewrite Ln. intros s Hs. assert (Is : inr codes s) by (unfold inr; fold n; lia).
    assert (E : L < longest_common_prefix codes 0 s <-> L + 1 <= longest_common_prefix codes 0 s) by lia.
    rewrite E, lcp_ge_iff; auto; try (unfold inr; fold n; lia). change (f 0 = f s <-> s <= g). rewrite Fs.
    specialize (CH s Is). split; intros Q.
    + apply CH; auto.
    + symmetry. apply CH. lia.
  - intros i Hi. change (f i = 2 * p + 1 <-> g + 1 <= i). specialize (CH i Hi). specialize (ALL i Hi). unfold inr in Hi. lia.
Qed.

Lemma prefix_count_perm : forall l l' L p, Permutation l l' -> prefix_count l L p = prefix_count l' L p.
Proof.
  intros l l' L p P. unfold prefix_count. f_equal. induction P; cbn [filter]; auto.
  - destruct (_ =? p); cbn [List.length]; auto.
  - destruct (Z.shiftr x (30 - L) =? p); destruct (Z.shiftr y (30 - L) =? p); cbn [List.length]; auto.
  - congruence.
Qed.

(** * Results *)
Theorem unbalanced_root : forall codes L p, thirty_bit codes -> ascending codes -> 0 <= L < 30 ->
  let zeros := prefix_count codes (L + 1) (2 * p) in
  let ones := prefix_count codes (L + 1) (2 * p + 1) in
  0 < zeros -> 0 < ones -> zeros + ones = Z.of_nat (List.length codes) ->
  ~ halving_exact ((zeros + ones) / 2) (zeros - 1) ->
  exists lefts rights, child_arrays codes = Some (lefts, rights)
    /\ ~ reaches_all_once (List.length codes) (fun k => nth k lefts (-1)) (fun k => nth k rights (-1)).
Proof.
  intros codes L p B A HL zeros ones Z0 O0 SUM NH. rewrite SUM in NH.
  destruct (counted_split codes L p B A HL Z0 O0 SUM) as (G & _).
  destruct (child_arrays_some codes B) as (ls & rs & CA & _). exists ls, rs. split; auto.
  apply (broken_tree codes _ B A G NH ls rs CA).
Qed.

Theorem unbalanced_filter : forall sort corners rays fuel codes L p found, sorts sort ->
  morton_codes (/ 10 ^ 6)%R (map centroid corners) = Ok codes -> 0 <= L < 30 ->
  let zeros := prefix_count codes (L + 1) (2 * p) in
  let ones := prefix_count codes (L + 1) (2 * p + 1) in
  0 < zeros -> 0 < ones -> zeros + ones = Z.of_nat (List.length codes) ->
  ~ halving_exact ((zeros + ones) / 2) (zeros - 1) ->
  filter_primitives sort fuel corners rays = Filtered found ->
  forall m, In m found -> Z.shiftr (nth m codes 0) (30 - (L + 1)) <> 2 * p + 1.
Proof.
  intros sort corners rays fuel codes L p found HS M HL zeros ones Z0 O0 SUM NH F m I.
  unfold filter_primitives in F. rewrite M in F. specialize (HS codes). destruct (sort codes) as (sorted & order). destruct HS as (P & E & A).
  assert (PM : Permutation sorted codes).
  { rewrite E. transitivity (map (fun i => nth i codes 0) (seq 0 (List.length codes))); [apply Permutation_map; auto|].
    clear. assert (Q : map (fun i => nth i codes 0) (seq 0 (List.length codes)) = codes); [|rewrite Q; auto].
    apply (nth_ext _ _ 0 0); [rewrite map_length, seq_length; auto|]. intros k Hk. rewrite map_length, seq_length in Hk.
    rewrite (nth_indep _ 0 (nth 0 codes 0)) by (rewrite map_length, seq_length; auto).
    rewrite (map_nth (fun i => nth i codes 0) _ 0%nat), seq_nth by auto. auto. }
  assert (B : thirty_bit sorted).
  { destruct (morton_codes_spec (/ 10 ^ 6)%R (map centroid corners)) as (codes' & E' & _ & Bd & _).
    { apply Rinv_0_lt_compat. apply pow_lt. lra. }
    rewrite M in E'. injection E' as <-. intros c C. apply Bd. apply (Permutation_in _ PM). auto. }
  unfold zeros, ones in *. rewrite <- !(prefix_count_perm _ _ _ _ PM) in *. rewrite <- (Permutation_length PM) in SUM.
  destruct (counted_split sorted L p B A HL Z0 O0 SUM) as (G & CH). rewrite SUM in NH.
  destruct (broken_filter sorted _ B A G NH fuel order _ rays found F m I) as (q & Q1 & Q2).
  destruct G as (G1 & _).
  assert (Iq : inr sorted (Z.of_nat q)) by (unfold inr; lia).
  assert (LO : List.length order = List.length sorted) by (rewrite E, map_length; auto).
  intros X. assert (C : code sorted (Z.of_nat q) = nth m codes 0).
  { unfold code. rewrite Nat2Z.id, E. rewrite (nth_indep _ 0 (nth 0 codes 0)) by (rewrite map_length; unfold inr in Iq; lia).
    rewrite (map_nth (fun i => nth i codes 0) _ 0%nat), Q2. auto. }
  rewrite <- C in X. apply (CH _ Iq) in X. lia.
Qed.
