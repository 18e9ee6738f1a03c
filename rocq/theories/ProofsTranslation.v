(** Proofs about moved scenes: hierarchy and blocking. *)
From Coq Require Import List Arith ZArith Reals Bool Lia Lra Permutation.
From Verif Require Import RealSums ModelField ModelLBVH SpecLBVH ProofsMorton ProofsRadix ProofsRadixCounts ProofsTraversal ModelBlocking
  ModelTransforms ModelSplatting ModelIntersections ModelTrace ModelKinematics SpecTranslation.
Import ListNotations.
Local Open Scope R_scope.

Lemma point_eq : forall p q, pe p = pe q -> pn p = pn q -> pu p = pu q -> p = q.
Proof. intros [a b c] [a' b' c']. cbn. intros -> -> ->. auto. Qed.
Lemma vsub_moved : forall v p q, vsub (moved v p) (moved v q) = vsub p q.
Proof. intros. apply point_eq; cbn; ring. Qed.

Lemma fold_min_shift : forall l x c, fold_left Rmin (map (fun y => y + c) l) (x + c) = fold_left Rmin l x + c.
Proof.
  induction l as [|y l IH]; intros x c; cbn; auto. rewrite <- IH. f_equal. unfold Rmin. do 2 destruct Rle_dec; lra.
Qed.
Lemma fold_max_shift : forall l x c, fold_left Rmax (map (fun y => y + c) l) (x + c) = fold_left Rmax l x + c.
Proof.
  induction l as [|y l IH]; intros x c; cbn; auto. rewrite <- IH. f_equal. unfold Rmax. do 2 destruct Rle_dec; lra.
Qed.
Lemma min_shift : forall l c, l <> [] -> Rmin_list (map (fun y => y + c) l) = Rmin_list l + c.
Proof. intros [|x l] c H; [congruence|]. apply fold_min_shift. Qed.
Lemma max_shift : forall l c, l <> [] -> Rmax_list (map (fun y => y + c) l) = Rmax_list l + c.
Proof. intros [|x l] c H; [congruence|]. apply fold_max_shift. Qed.

Lemma axis_moved : forall f, In f axes -> forall v p, f (moved v p) = f p + f v.
Proof. intros f [<-|[<-|[<-|[]]]] v p; reflexivity. Qed.
Lemma map_axis_moved : forall f, In f axes -> forall v l, map f (map (moved v) l) = map (fun y => y + f v) (map f l).
Proof. intros f F v l. rewrite !map_map. apply map_ext. intros p. apply axis_moved. auto. Qed.
Lemma min_moved : forall f, In f axes -> forall v l, l <> [] -> Rmin_list (map f (map (moved v) l)) = Rmin_list (map f l) + f v.
Proof. intros f F v l L. rewrite map_axis_moved by auto. apply min_shift. destruct l; cbn; congruence. Qed.
Lemma max_moved : forall f, In f axes -> forall v l, l <> [] -> Rmax_list (map f (map (moved v) l)) = Rmax_list (map f l) + f v.
Proof. intros f F v l L. rewrite map_axis_moved by auto. apply max_shift. destruct l; cbn; congruence. Qed.
Lemma in_pe : In pe axes. Proof. left. auto. Qed.
Lemma in_pn : In pn axes. Proof. right. left. auto. Qed.
Lemma in_pu : In pu axes. Proof. right. right. left. auto. Qed.
Global Hint Resolve in_pe in_pn in_pu : core.

Lemma sum_shift : forall f, In f axes -> forall v l, fold_right Rplus 0 (map f (map (moved v) l)) = fold_right Rplus 0 (map f l) + INR (List.length l) * f v.
Proof.
  intros f F v l. induction l as [|p l IH]; [cbn; lra|]. cbn [map fold_right]. rewrite IH, axis_moved by auto. cbn [List.length]. rewrite S_INR. lra.
Qed.
Lemma centroid_moved : forall v c, c <> [] -> centroid (map (moved v) c) = moved v (centroid c).
Proof.
  intros v c C. assert (INR (List.length c) <> 0) by (apply not_0_INR; destruct c; cbn; congruence).
  unfold centroid. rewrite map_length. apply point_eq; cbn [pe pn pu moved vadd vec]; rewrite sum_shift by auto; field; auto.
Qed.
Definition moved_box (v : point) (b : box) : box := {| box_min := moved v (box_min b); box_max := moved v (box_max b) |}.
Lemma corners_box_moved : forall v c, c <> [] -> corners_box (map (moved v) c) = moved_box v (corners_box c).
Proof.
  intros v c C. unfold corners_box, moved_box. cbn [box_min box_max].
  f_equal; apply point_eq; cbn [pe pn pu moved vadd vec]; rewrite ?min_moved, ?max_moved by auto; auto.
Qed.

Lemma grid_cell_moved : forall eps v l p, l <> [] -> grid_cell eps (map (moved v) l) (moved v p) = grid_cell eps l p.
Proof.
  intros eps v l p L. assert (X : forall a b c : R, a + c - (b + c) = a - b) by (intros; lra). unfold grid_cell. assert (S : grid_scale eps (map (moved v) l) = grid_scale eps l).
  { unfold grid_scale. rewrite !max_moved, !min_moved by auto. rewrite !X. auto. }
  rewrite S, !min_moved, !axis_moved by auto. rewrite !X. auto.
Qed.
Lemma map_res_map : forall {A B C} (g : A -> B) (f : B -> res C) l, map_res f (map g l) = map_res (fun x => f (g x)) l.
Proof. intros. induction l; cbn; auto. rewrite IHl. auto. Qed.
Lemma map_res_ext : forall {A B} (f g : A -> res B) l, (forall x, In x l -> f x = g x) -> map_res f l = map_res g l.
Proof. intros A B f g l H. induction l; cbn; auto. rewrite (H a) by (left; auto). rewrite IHl by (intros; apply H; right; auto). auto. Qed.
Lemma morton_moved : forall eps v l, morton_codes eps (map (moved v) l) = morton_codes eps l.
Proof.
  intros eps v l. unfold morton_codes. rewrite map_res_map. apply map_res_ext. intros p P. rewrite grid_cell_moved; auto. destruct l; [destruct P|congruence].
Qed.

Definition moved_ray (v : point) (r : ray) : ray :=
  {| r_origin := moved v (r_origin r); r_direction := r_direction r; r_target_distance := r_target_distance r; r_owner := r_owner r |}.
Lemma slab_moved : forall o i lo hi c, slab (o + c) i (lo + c) (hi + c) = slab o i lo hi.
Proof. intros. assert (X : forall a b c : R, a + c - (b + c) = a - b) by (intros; lra). unfold slab. rewrite !X. auto. Qed.
Lemma box_hit_moved : forall v r b, box_hit (moved_ray v r) (moved_box v b) = box_hit r b.
Proof.
  intros v r b. unfold box_hit, ray_box. cbn [moved_ray r_origin r_direction r_target_distance moved_box box_min box_max].
  rewrite !axis_moved by auto. rewrite !slab_moved. reflexivity.
Qed.
Lemma hull_moved : forall v b bs b', bs <> [] -> hull b bs -> hull b' (map (moved_box v) bs) -> b' = moved_box v b.
Proof.
  intros v b bs b' NE [I E] [I' E'].
  assert (M : forall f, In f axes -> f (box_min b') = f (box_min b) + f v /\ f (box_max b') = f (box_max b) + f v).
  { intros f F. destruct (E f F) as ((x & X & XE) & (y & Y & YE)). destruct (E' f F) as ((x' & X' & XE') & (y' & Y' & YE')).
    apply in_map_iff in X' as (x0 & <- & X0). apply in_map_iff in Y' as (y0 & <- & Y0).
    pose proof (I x0 X0 f F). pose proof (I y0 Y0 f F).
    pose proof (I' (moved_box v x) (in_map _ _ _ X) f F) as A. pose proof (I' (moved_box v y) (in_map _ _ _ Y) f F) as B.
    cbn [moved_box box_min box_max] in *. rewrite !axis_moved in A, B by auto. rewrite axis_moved in XE', YE' by auto. lra. }
  destruct b' as [lo hi], b as [lo0 hi0]. unfold moved_box. cbn [box_min box_max] in *.
  f_equal; apply point_eq; cbn [pe pn pu moved vadd vec]; apply M; auto.
Qed.

(** ** Children of inner nodes are never negative *)
Section Children.
Local Open Scope Z_scope.
Lemma halving_accepted : forall fuel codes i d thr t l r, halving_search fuel codes i d thr l t = Some r -> r = l \/ thr < longest_common_prefix codes i (i + r * d).
Proof.
  induction fuel; intros codes i d thr t l r H; simpl in H; [discriminate|]. destruct (Z.ltb_spec t 1); [injection H as <-; auto|].
  destruct (Z.ltb_spec thr (longest_common_prefix codes i (i + (l + t) * d))).
  - apply IHfuel in H. destruct H as [->|H]; auto.
  - apply IHfuel in H. auto.
Qed.
Lemma expand_nonneg : forall fuel codes i d thr l r, 0 <= l -> expand_range fuel codes i d thr l = Some r -> 0 <= r.
Proof. induction fuel; intros codes i d thr l r L H; simpl in H; [discriminate|]. destruct (_ <? _); [apply IHfuel in H; lia|injection H as <-; auto]. Qed.
Lemma children_nonneg : forall codes k, thirty_bit codes -> ascending codes -> (k < List.length codes - 1)%nat ->
  forall a b, children_of codes (Z.of_nat k) = Some (a, b) -> 0 <= a /\ 0 <= b.
Proof.
  intros codes k B A K a b. unfold children_of. destruct (Z.ltb_spec (Z.of_nat k) (Z.of_nat (List.length codes) - 1)) as [L|L]; [|lia].
  set (i := Z.of_nat k) in *. destruct (analyse_node (node_fuel codes) codes i) as [r|] eqn:E; [|discriminate]. cbn [option_map]. intros H. injection H as HA HB.
  assert (G : 0 <= nr_gamma r).
  { unfold analyse_node in E. assert (I : inr codes i) by (unfold inr; lia).
    destruct (Z.leb_spec (Z.of_nat (List.length codes)) 1); [lia|].
    set (ll := longest_common_prefix codes i (i - 1)) in *. set (lr := longest_common_prefix codes i (i + 1)) in *.
    assert (R : 0 <= lr <= 30) by (apply lcp_range; auto; unfold inr; lia).
    assert (LL : -1 <= ll) by (apply lcp_ge_m1; auto).
    destruct (expand_range _ _ _ _ _ _) as [m|] eqn:EM; [|discriminate]. apply expand_nonneg in EM; [|lia].
    destruct (halving_search _ _ _ _ _ 0 (m / 2)) as [len|] eqn:EL; [|discriminate].
    destruct (halving_search _ _ _ _ _ 0 ((len + 1) / 2)) as [s|] eqn:ES; [|discriminate].
    injection E as <-. cbn [nr_gamma].
    pose proof (halving_range _ _ _ _ _ _ _ _ (Z.div_pos m 2 ltac:(lia) ltac:(lia)) EL) as RL.
    pose proof (halving_range _ _ _ _ _ _ _ _ (Z.div_pos (len + 1) 2 ltac:(lia) ltac:(lia)) ES) as RS.
    apply halving_accepted in EL, ES.
    destruct (Z.ltb_spec ll lr) as [D|D]; [change (1 * 2 - 1) with 1; lia|]. change (0 * 2 - 1) with (-1) in *.
    assert (I1 : 1 <= i). { destruct (Z.eq_dec i 0) as [Z0|]; [|lia]. assert (ll = -1) by (apply lcp_out_of_range; lia). lia. }
    assert (OUT : forall j, -1 < longest_common_prefix codes i j -> 0 <= j).
    { intros j J. destruct (Z_lt_le_dec j 0) as [N|]; auto. assert (longest_common_prefix codes i j = -1) by (apply lcp_out_of_range; lia). lia. }
    destruct ES as [->|ES]; [lia|].
    assert (LF : 0 <= i + len * -1).
    { destruct EL as [->|EL]; [lia|]. apply OUT. assert (-1 <= Z.min ll lr) by lia. lia. }
    assert (-1 <= longest_common_prefix codes i (i + len * -1)) by (apply lcp_ge_m1; auto).
    assert (SF : 0 <= i + s * -1) by (apply OUT; lia).
    destruct (Z_lt_le_dec len s) as [LS|LS]; [|].
    - pose proof (lcp_mono_left codes (i + s * -1) (i + len * -1) i B A ltac:(lia) ltac:(lia) ltac:(lia)) as M. unfold lcp in M.
      rewrite (lcp_sym codes i (i + s * -1)), (lcp_sym codes i (i + len * -1)) in ES by (auto; unfold inr; lia). lia.
    - destruct (Z.eq_dec s len) as [->|]; lia. }
  cbv zeta in HA, HB. split; [subst a|subst b]; match goal with |- context [if ?c then _ else _] => destruct c end; lia.
Qed.
End Children.

(** ** A depth computation that ends has seen a finite tree *)
Lemma depth_finite : forall internal l r, (forall k, (k < internal)%nat -> (0 <= l k /\ 0 <= r k)%Z) ->
  forall fuel stack md d, max_depth_loop fuel l r stack md = Some d -> forall node e, In (node, e) stack -> exists ls, subtree internal l r node ls.
Proof.
  intros internal l r NN. induction fuel as [|fuel IH]; intros [|[node e] stack] md d H x ex X; try (destruct X; fail); cbn [max_depth_loop] in H; [discriminate|].
  specialize (IH _ _ _ H). assert (T : forall x ex, In (x, ex) stack -> exists ls, subtree internal l r x ls).
  { intros y ey Y. apply (IH y ey). destruct (0 <=? r node)%Z, (0 <=? l node)%Z; cbn; auto. }
  destruct X as [E|X]; [|apply (T x ex X)]. injection E as <- <-.
  destruct (Nat.lt_ge_cases node internal) as [K|K]; [|exists [node]; constructor; auto].
  destruct (NN node K) as (NL & NR).
  destruct (Z.leb_spec 0 (l node)) as [ZL|ZL]; [|lia]. destruct (Z.leb_spec 0 (r node)) as [ZR|ZR]; [|lia].
  destruct (IH (Z.to_nat (l node)) (S e)) as (la & SA); [right; left; auto|]. destruct (IH (Z.to_nat (r node)) (S e)) as (lb & SB); [left; auto|].
  exists (la ++ lb). apply (subtree_node _ _ _ node (Z.to_nat (l node)) (Z.to_nat (r node))); auto; lia.
Qed.
Lemma traverse_same : forall internal h h', h_left h' = h_left h -> h_right h' = h_right h -> h_is_leaf h' = h_is_leaf h -> h_primitive h' = h_primitive h ->
  (forall k, h_is_leaf h k = true <-> (internal <= k)%nat) ->
  forall hit hit' own, (forall k ls, subtree internal (h_left h) (h_right h) k ls -> hit' k = hit k) ->
  forall fuel capacity stack marked, (forall k, In k stack -> exists ls, subtree internal (h_left h) (h_right h) k ls) ->
  traverse fuel capacity h' hit' own stack marked = traverse fuel capacity h hit own stack marked.
Proof.
  intros internal h h' EL ER EF EP LF hit hit' own HH. induction fuel as [|fuel IH]; intros capacity [|node stack] marked T; cbn [traverse]; auto.
  rewrite EL, ER, EF, EP. destruct (T node (or_introl eq_refl)) as (ls & S). rewrite (HH node ls S).
  assert (T' : forall k, In k stack -> exists ls, subtree internal (h_left h) (h_right h) k ls) by (intros; apply T; right; auto).
  destruct (hit node); [|apply IH; auto]. destruct (h_is_leaf h node) eqn:F; [apply IH; auto|].
  destruct (_ || _)%bool; auto. apply IH. intros k K.
  assert (NI : ~ (internal <= node)%nat) by (intros L; apply LF in L; congruence).
  inversion S as [|k0 a b la lb K0 EA EB SA SB]; subst; [contradiction|]. rewrite EA, EB in K.
  destruct (Z.leb_spec 0 (Z.of_nat a)) as [ZA|ZA]; [|lia]. destruct (Z.leb_spec 0 (Z.of_nat b)) as [ZB|ZB]; [|lia].
  rewrite !Nat2Z.id in K. destruct K as [<-|[<-|K]]; eauto.
Qed.
Lemma traverse_all_same : forall internal h h', h_left h' = h_left h -> h_right h' = h_right h -> h_is_leaf h' = h_is_leaf h -> h_primitive h' = h_primitive h ->
  (forall k, h_is_leaf h k = true <-> (internal <= k)%nat) ->
  forall v, (forall k ls, subtree internal (h_left h) (h_right h) k ls -> h_boxes h' k = moved_box v (h_boxes h k)) ->
  (exists ls, subtree internal (h_left h) (h_right h) 0%nat ls) ->
  forall fuel capacity rays marked, traverse_all fuel capacity h' (map (moved_ray v) rays) marked = traverse_all fuel capacity h rays marked.
Proof.
  intros internal h h' EL ER EF EP LF v HB ROOT fuel capacity. induction rays as [|r rays IH]; intros marked; auto. cbn [map traverse_all].
  rewrite (traverse_same internal h h' EL ER EF EP LF (fun node => box_hit r (h_boxes h node))).
  - change (r_owner (moved_ray v r)) with (r_owner r). destruct (traverse _ _ _ _ _ _ _); auto.
  - intros k ls S. rewrite (HB k ls S). apply box_hit_moved.
  - intros k [<-|[]]. auto.
Qed.

Theorem filter_moved : forall sort fuel corners rays v, sorts sort -> (forall c, In c corners -> c <> []) ->
  filter_primitives sort fuel (map (map (moved v)) corners) (map (moved_ray v) rays) = filter_primitives sort fuel corners rays.
Proof.
  intros sort fuel corners rays v ST NE. unfold filter_primitives.
  assert (CE : map centroid (map (map (moved v)) corners) = map (moved v) (map centroid corners)).
  { rewrite !map_map. apply map_ext_in. intros c C. apply centroid_moved. auto. }
  rewrite CE, morton_moved. destruct (morton_codes (/ 10 ^ 6) (map centroid corners)) as [codes|e] eqn:MC; auto.
  pose proof (ST codes) as SC. destruct (sort codes) as [sorted order]. destruct SC as (PO & ES & AS).
  unfold lbvh_filter. destruct (List.length sorted =? 0)%nat eqn:L0; auto. apply Nat.eqb_neq in L0.
  assert (LS : List.length sorted = List.length codes) by (rewrite ES, map_length; rewrite (Permutation_length PO), seq_length; auto).
  assert (NC : corners <> []). { intros ->. cbn in MC. injection MC as <-. cbn in LS. lia. }
  destruct (morton_codes_spec (/ 10 ^ 6) (map centroid corners) ltac:(lra)) as (codes' & MC' & LC & TB & _).
  rewrite MC in MC'. injection MC' as <-. rewrite map_length in LC.
  assert (TS : thirty_bit sorted).
  { intros c C. rewrite ES in C. apply in_map_iff in C as (i & <- & I). apply TB. apply nth_In. apply (Permutation_in _ PO) in I. apply in_seq in I. lia. }
  destruct (child_arrays_some sorted TS) as (ls & rs & CA & LL & LR & CH).
  set (pb := fun p => corners_box (nth p corners [])). set (pb' := fun p => corners_box (nth p (map (map (moved v)) corners) [])).
  destruct (build_spec sorted ls rs order pb CA) as (h & BH & HL & HR & HF & HP & HX & HU).
  destruct (build_spec sorted ls rs order pb' CA) as (h' & BH' & HL' & HR' & HF' & HP' & HX' & HU').
  rewrite BH, BH'.
  assert (EQ : h_left h' = h_left h /\ h_right h' = h_right h /\ h_is_leaf h' = h_is_leaf h /\ h_primitive h' = h_primitive h).
  { clear - BH BH' CA. unfold build_hierarchy in *. rewrite CA in *.
    destruct (propagate _ _ _ _ _ _ _) as [c1 b1] in BH. destruct (propagate _ _ _ _ _ _ _) as [c2 b2] in BH'.
    injection BH as <-. injection BH' as <-. auto. }
  destruct EQ as (EL & ER & EF & EP).
  assert (MD : max_depth fuel h' = max_depth fuel h) by (unfold max_depth; rewrite EL, ER; auto).
  rewrite MD. destruct (max_depth fuel h) as [depth|] eqn:D; auto.
  assert (NN : forall k, (k < List.length sorted - 1)%nat -> (0 <= h_left h k /\ 0 <= h_right h k)%Z).
  { intros k K. rewrite HL, HR. apply (children_nonneg sorted k TS AS K). apply CH. unfold total_nodes. lia. }
  assert (PR : forall x, (h_primitive h x < List.length corners)%nat).
  { intros x. rewrite HP. destruct (Nat.lt_ge_cases (x - (List.length sorted - 1)) (List.length order)) as [X|X].
    - assert (I : In (nth (x - (List.length sorted - 1)) order 0%nat) order) by (apply nth_In; auto). apply (Permutation_in _ PO) in I. apply in_seq in I. lia.
    - rewrite nth_overflow by auto. lia. }
  rewrite (traverse_all_same (List.length sorted - 1) h h' EL ER EF EP HF v); auto.
  - intros k kl S. assert (S' := S). rewrite <- EL, <- ER in S'.
    apply (hull_moved v (h_boxes h k) (map (fun x => pb (h_primitive h x)) kl)).
    + destruct S; cbn; try congruence. intros E. apply map_eq_nil in E. apply app_eq_nil in E as (E & _). subst.
      match goal with X : subtree _ _ _ a [] |- _ => clear - X; remember [] as l eqn:EL in X; induction X; try discriminate; apply eq_sym in EL; symmetry in EL; apply app_eq_nil in EL as (E1 & E2); auto end.
    + apply HU. auto.
    + replace (map (moved_box v) (map (fun x => pb (h_primitive h x)) kl)) with (map (fun x => pb' (h_primitive h' x)) kl); [apply HU'; auto|].
      rewrite map_map, EP. apply map_ext. intros x. unfold pb', pb.
      change (@nil point) with (map (moved v) (@nil point)) at 1. rewrite map_nth. apply corners_box_moved. apply NE. apply nth_In. apply PR.
  - apply (depth_finite _ _ _ NN _ _ _ _ D 0%nat 1%nat). left. auto.
Qed.
