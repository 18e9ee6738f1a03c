(** Boxes, depth and traversal of well-formed hierarchies (C20-C22). *)
From Coq Require Import List Arith ZArith Reals Bool Lia Lra Permutation.
From Verif Require Import ModelField ModelLBVH SpecLBVH ProofsMorton ProofsRadix ProofsRadixCounts.
Import ListNotations.
Local Open Scope nat_scope.

(** * Trees with depth *)
Inductive dtree (internal : nat) (left right : nat -> Z) : nat -> list nat -> nat -> Prop :=
| dtree_leaf : forall k, internal <= k -> dtree internal left right k [k] 1
| dtree_node : forall k a b la lb da db, k < internal ->
    left k = Z.of_nat a -> right k = Z.of_nat b ->
    dtree internal left right a la da -> dtree internal left right b lb db ->
    dtree internal left right k (la ++ lb) (S (Nat.max da db)).

Lemma subtree_dtree : forall internal l r k ls, subtree internal l r k ls -> exists d, dtree internal l r k ls d.
Proof.
  intros internal l r k ls H. induction H.
  - exists 1. constructor. auto.
  - destruct IHsubtree1 as (da & Da). destruct IHsubtree2 as (db & Db). eexists. eapply dtree_node; eauto.
Qed.
Lemma dtree_subtree : forall internal l r k ls d, dtree internal l r k ls d -> subtree internal l r k ls.
Proof. intros internal l r k ls d H. induction H; econstructor; eauto. Qed.
Lemma dtree_depth : forall internal l r k ls d, dtree internal l r k ls d -> 1 <= d <= List.length ls.
Proof. intros internal l r k ls d H. induction H; simpl; try rewrite app_length; lia. Qed.
Lemma subtree_leaves : forall internal l r k ls, subtree internal l r k ls -> forall x, In x ls -> internal <= x.
Proof.
  intros internal l r k ls H. induction H; intros x Hx.
  - destruct Hx as [<-|[]]; auto.
  - apply in_app_or in Hx. destruct Hx; auto.
Qed.

Lemma dtree_fun : forall internal l r k ls d, dtree internal l r k ls d ->
  forall ls' d', dtree internal l r k ls' d' -> ls = ls' /\ d = d'.
Proof.
  intros internal l r k ls d H. induction H as [k Hk|k a b la lb da db Hk Ea Eb D1 IH1 D2 IH2]; intros ls' d' D'; inversion D'; subst; try lia; auto.
  match goal with X : l k = Z.of_nat ?x, Y : r k = Z.of_nat ?y |- _ => assert (a = x) by lia; assert (b = y) by lia; subst x y end.
  match goal with X : dtree _ _ _ a ?x ?y |- _ => destruct (IH1 _ _ X) as [<- <-] end.
  match goal with X : dtree _ _ _ b ?x ?y |- _ => destruct (IH2 _ _ X) as [<- <-] end. auto.
Qed.
Lemma dtree_path : forall internal l r k ls d, dtree internal l r k ls d ->
  exists path, List.length path = d - 1 /\ NoDup path
    /\ forall x, In x path -> x < internal /\ exists ls' d', dtree internal l r x ls' d' /\ d' <= d.
Proof.
  intros internal l r k ls d H. induction H as [k Hk|k a b la lb da db Hk Ea Eb D1 IH1 D2 IH2].
  - exists []. split; auto. split; [constructor|]. intros x [].
  - assert (G : exists path, List.length path = Nat.max da db - 1 /\ NoDup path
       /\ forall x, In x path -> x < internal /\ exists ls' d', dtree internal l r x ls' d' /\ d' <= Nat.max da db).
    { destruct (Nat.max_spec da db) as [[M ->]|[M ->]]; auto. }
    destruct G as (path & L & ND & P). exists (k :: path). split; [|split].
    + pose proof (dtree_depth _ _ _ _ _ _ D1). simpl. lia.
    + constructor; auto. intros I. destruct (P k I) as (_ & ls' & d' & D' & Hd).
      destruct (dtree_fun _ _ _ _ _ _ D' _ _ (dtree_node _ _ _ _ _ _ _ _ _ _ Hk Ea Eb D1 D2)). lia.
    + intros x [<-|I].
      * split; auto. exists (la ++ lb), (S (Nat.max da db)). split; auto. eapply dtree_node; eauto.
      * destruct (P x I) as (Hx & ls' & d' & D' & Hd). split; auto. exists ls', d'. split; auto.
Qed.
Lemma dtree_depth_internal : forall internal l r k ls d, dtree internal l r k ls d -> d <= S internal.
Proof.
  intros internal l r k ls d H. destruct (dtree_path _ _ _ _ _ _ H) as (path & L & ND & P).
  assert (List.length path <= List.length (seq 0 internal)).
  { apply NoDup_incl_length; auto. intros x Hx. apply in_seq. destruct (P x Hx). lia. }
  rewrite seq_length in H0. lia.
Qed.

(** * Boxes *)
Local Open Scope R_scope.
Lemma axes_map2 : forall f g p q, In f axes -> f (point_map2 g p q) = g (f p) (f q).
Proof. intros f g p q [<-|[<-|[<-|[]]]]; auto. Qed.

Lemma hull_single : forall b, hull b [b].
Proof.
  intros b. split.
  - intros b' [<-|[]] f Hf. lra.
  - intros f Hf. split; exists b; simpl; auto.
Qed.
Lemma hull_union : forall a b la lb, hull a la -> hull b lb -> hull (box_union a b) (la ++ lb).
Proof.
  intros a b la lb [A1 A2] [B1 B2]. split.
  - intros b' Hb f Hf. unfold box_union. simpl. rewrite !axes_map2 by auto.
    pose proof (Rmin_l (f (box_min a)) (f (box_min b))). pose proof (Rmin_r (f (box_min a)) (f (box_min b))).
    pose proof (Rmax_l (f (box_max a)) (f (box_max b))). pose proof (Rmax_r (f (box_max a)) (f (box_max b))).
    apply in_app_or in Hb. destruct Hb as [Hb|Hb]; [specialize (A1 b' Hb f Hf)|specialize (B1 b' Hb f Hf)]; lra.
  - intros f Hf. unfold box_union. simpl. rewrite !axes_map2 by auto.
    destruct (A2 f Hf) as ((x & X1 & X2) & (x' & X3 & X4)). destruct (B2 f Hf) as ((y & Y1 & Y2) & (y' & Y3 & Y4)).
    split.
    + unfold Rmin. destruct Rle_dec; [exists x|exists y]; split; auto; apply in_or_app; auto.
    + unfold Rmax. destruct Rle_dec; [exists y'|exists x']; split; auto; apply in_or_app; auto.
Qed.
Local Open Scope nat_scope.

Definition box_inv (internal : nat) (left right : nat -> Z) (init : nat -> box) (complete : nat -> bool) (boxes : nat -> box) : Prop :=
  (forall k, internal <= k -> boxes k = init k)
  /\ forall k ls, subtree internal left right k ls -> complete k = true -> k < internal -> hull (boxes k) (map init ls).

Lemma box_inv_child : forall internal l r init c bx k ls,
  box_inv internal l r init c bx -> subtree internal l r k ls -> (k < internal -> c k = true) -> hull (bx k) (map init ls).
Proof.
  intros internal l r init c bx k ls [I1 I2] S C.
  destruct (Nat.lt_ge_cases k internal) as [L|L]; [apply I2; auto|].
  inversion S; subst; [|lia]. rewrite I1 by auto. apply hull_single.
Qed.

Lemma ready_iff : forall internal left right complete k a b,
  left k = Z.of_nat a -> right k = Z.of_nat b ->
  ready internal left right complete k = true <->
  complete k = false /\ (a < internal -> complete a = true) /\ (b < internal -> complete b = true).
Proof.
  intros internal left right complete k a b Ha Hb. unfold ready. rewrite Ha, Hb, !Nat2Z.id.
  rewrite !andb_true_iff, negb_true_iff.
  assert (G : forall x, (if ((0 <=? Z.of_nat x) && (Z.of_nat x <? Z.of_nat internal))%Z then complete x else true) = true
     <-> (x < internal -> complete x = true)).
  { intros x. destruct (Z.leb_spec 0 (Z.of_nat x)); [|lia]. simpl.
    destruct (Z.ltb_spec (Z.of_nat x) (Z.of_nat internal)); split; auto; intros; try lia. apply H1. lia. }
  rewrite !G. tauto.
Qed.

Lemma wrap_index_nat : forall total a, wrap_index total (Z.of_nat a) = a.
Proof. intros. unfold wrap_index. destruct (Z.ltb_spec (Z.of_nat a) 0); lia. Qed.

Lemma propagate_inv : forall rounds internal total l r init c bx,
  box_inv internal l r init c bx ->
  let '(c', bx') := propagate rounds internal total l r c bx in
  box_inv internal l r init c' bx'.
Proof.
  induction rounds; intros internal total l r init c bx I; simpl; auto.
  destruct (forallb c (seq 0 internal)); auto.
  destruct (existsb (ready internal l r c) (seq 0 internal)); auto.
  apply IHrounds. split.
  - intros k Hk. destruct (Nat.ltb_spec k internal); [lia|]. simpl. apply I. auto.
  - intros k ls S C Hk. destruct (Nat.ltb_spec k internal); [|lia]. simpl in *.
    destruct (ready internal l r c k) eqn:RD.
    + inversion S; subst; [lia|].
      match goal with Ha : l k = _, Hb : r k = _ |- _ => rewrite Ha, Hb, !wrap_index_nat end.
      rewrite map_app. apply (ready_iff _ _ _ _ k a b) in RD; auto.
      destruct RD as (_ & R1 & R2). apply hull_union; apply box_inv_child with internal l r c; auto.
    + rewrite orb_false_r in C. apply I; auto.
Qed.

Lemma propagate_complete : forall rounds internal total l r c bx m,
  (forall k ls d, dtree internal l r k ls d -> k < internal -> d <= S m -> c k = true) ->
  forall k ls d, dtree internal l r k ls d -> k < internal -> d <= S m + rounds ->
  fst (propagate rounds internal total l r c bx) k = true.
Proof.
  induction rounds; intros internal total l r c bx m H k ls d D Hk Hd; simpl.
  - apply (H k ls d); auto. lia.
  - destruct (forallb c (seq 0 internal)) eqn:FA; simpl.
    + rewrite forallb_forall in FA. apply FA. apply in_seq. lia.
    + destruct (existsb (ready internal l r c) (seq 0 internal)) eqn:EX; simpl.
      * apply (IHrounds _ _ _ _ _ _ (S m)) with ls d; auto; [|lia].
        intros k' ls' d' D' Hk' Hd'. destruct (Nat.ltb_spec k' internal); [|lia]. simpl.
        destruct (c k') eqn:Ck; auto. simpl. inversion D'; subst; [lia|].
        apply (ready_iff internal l r c k' a b); auto. split; auto.
        split; intros; [apply (H a la da)|apply (H b lb db)]; auto; lia.
      * (* nothing is ready: everything in the tree is complete *)
        assert (G : forall k ls d, dtree internal l r k ls d -> k < internal -> c k = true).
        { clear k ls d D Hk Hd. intros k ls d D. induction D; intros Hk; [lia|].
          destruct (c k) eqn:Ck; auto. exfalso.
          assert (R : ready internal l r c k = true) by (apply (ready_iff internal l r c k a b); auto).
          assert (existsb (ready internal l r c) (seq 0 internal) = true); [|congruence].
          apply existsb_exists. exists k. split; auto. apply in_seq. lia. }
        apply (G k ls d); auto.
Qed.

(** * Depth *)
Lemma max_depth_tree : forall internal l r k ls d, dtree internal l r k ls d ->
  (forall j, internal <= j -> (l j < 0 /\ r j < 0)%Z) ->
  forall fuel e stack md,
  max_depth_loop (fuel + (2 * List.length ls - 1)) l r ((k, e) :: stack) md
  = max_depth_loop fuel l r stack (Nat.max md (e + d - 1)).
Proof.
  intros internal l r k ls d D Lf. induction D; intros fuel e stack md.
  - simpl List.length. replace (fuel + (2 * 1 - 1)) with (S fuel) by lia. simpl.
    destruct (Lf k H). destruct (Z.leb_spec 0 (l k)); [lia|]. destruct (Z.leb_spec 0 (r k)); [lia|].
    f_equal. lia.
  - pose proof (dtree_depth _ _ _ _ _ _ D1). pose proof (dtree_depth _ _ _ _ _ _ D2).
    rewrite app_length.
    replace (fuel + (2 * (List.length la + List.length lb) - 1)) with
      (S (fuel + (2 * List.length la - 1) + (2 * List.length lb - 1))) by lia.
    cbn [max_depth_loop]. rewrite H0, H1.
    destruct (Z.leb_spec 0 (Z.of_nat a)); [|lia]. destruct (Z.leb_spec 0 (Z.of_nat b)); [|lia].
    rewrite !Nat2Z.id. rewrite IHD2, IHD1. f_equal. lia.
Qed.

(** * Traversal *)
Lemma traverse_tree : forall h internal hit own capacity k ls d,
  dtree internal (h_left h) (h_right h) k ls d ->
  (forall j, internal <= j <-> h_is_leaf h j = true) ->
  (forall j ls x, subtree internal (h_left h) (h_right h) j ls -> In x ls -> hit x = true -> hit j = true) ->
  forall fuel stack marked, List.length stack + d <= capacity ->
  exists fuel' found, fuel <= fuel' /\
    traverse (fuel + (2 * List.length ls - 1)) capacity h hit own (k :: stack) marked
    = traverse fuel' capacity h hit own stack (found ++ marked)
    /\ forall p, In p found <-> exists x, In x ls /\ hit x = true /\ h_primitive h x = p /\ own <> p.
Proof.
  intros h internal hit own capacity k ls d D Lf Mono. induction D; intros fuel stack marked Hc.
  - simpl List.length. replace (fuel + (2 * 1 - 1)) with (S fuel) by lia. cbn [traverse].
    destruct (hit k) eqn:Hk.
    + rewrite (proj1 (Lf k) H).
      exists fuel, (if own =? h_primitive h k then [] else [h_primitive h k]). split; [lia|]. split.
      * destruct (own =? h_primitive h k); auto.
      * intros p. destruct (Nat.eqb_spec own (h_primitive h k)) as [E|E]; split.
        -- intros [].
        -- intros (x & [<-|[]] & _ & <- & N). congruence.
        -- intros [<-|[]]. exists k. simpl. auto.
        -- intros (x & [<-|[]] & _ & <- & N). simpl. auto.
    + exists fuel, []. split; [lia|]. split; auto. intros p. split; [intros []|].
      intros (x & [<-|[]] & E & _). congruence.
  - pose proof (dtree_depth _ _ _ _ _ _ D1). pose proof (dtree_depth _ _ _ _ _ _ D2).
    rewrite app_length.
    replace (fuel + (2 * (List.length la + List.length lb) - 1)) with
      (S (fuel + (2 * List.length la - 1) + (2 * List.length lb - 1))) by lia.
    cbn [traverse]. destruct (hit k) eqn:Hk.
    + assert (NL : h_is_leaf h k = false) by (destruct (h_is_leaf h k) eqn:E; auto; apply Lf in E; lia).
      rewrite NL, H0, H1.
      destruct (Z.leb_spec 0 (Z.of_nat a)); [|lia]. destruct (Z.leb_spec 0 (Z.of_nat b)); [|lia].
      rewrite !Nat2Z.id. cbn [andb].
      destruct (Nat.leb_spec capacity (List.length stack)); [lia|].
      destruct (Nat.leb_spec capacity (List.length stack + 1)); [lia|]. cbn [orb].
      destruct (IHD2 (fuel + (2 * List.length la - 1)) (a :: stack) marked) as (f1 & m1 & F1 & E1 & M1); [simpl; lia|].
      rewrite E1.
      destruct (IHD1 (f1 - (2 * List.length la - 1)) stack (m1 ++ marked)) as (f2 & m2 & F2 & E2 & M2); [lia|].
      replace (f1 - (2 * List.length la - 1) + (2 * List.length la - 1)) with f1 in E2 by lia.
      rewrite E2. exists f2, (m2 ++ m1). split; [lia|]. split; [rewrite app_assoc; auto|].
      intros p. rewrite in_app_iff, M1, M2. split.
      * intros [(x & X & Y)|(x & X & Y)]; exists x; split; auto; apply in_or_app; auto.
      * intros (x & X & Y). apply in_app_or in X. destruct X; [left|right]; eauto.
    + exists (fuel + (2 * List.length la - 1) + (2 * List.length lb - 1)), []. split; [lia|]. split; auto.
      intros p. split; [intros []|]. intros (x & X & Y & _). exfalso.
      rewrite (Mono k (la ++ lb) x) in Hk; auto; [discriminate|]. eapply dtree_subtree. eapply dtree_node; eauto.
Qed.

(** * The box test *)
Local Open Scope R_scope.
Lemma slab_mono : forall o i low high low' high', low' <= low -> low <= high -> high <= high' ->
  fst (slab o i low' high') <= fst (slab o i low high) /\ snd (slab o i low high) <= snd (slab o i low' high').
Proof.
  intros o i low high low' high' H1 H2 H3. unfold slab. simpl.
  destruct (Rle_dec 0 i) as [P|N].
  - assert ((low' - o) * i <= (low - o) * i) by (apply Rmult_le_compat_r; lra).
    assert ((low - o) * i <= (high - o) * i) by (apply Rmult_le_compat_r; lra).
    assert ((high - o) * i <= (high' - o) * i) by (apply Rmult_le_compat_r; lra).
    rewrite !Rmin_left, !Rmax_right by lra. lra.
  - assert ((low - o) * i <= (low' - o) * i) by (apply Rmult_le_compat_neg_l with (r := i) in H1; lra).
    assert ((high - o) * i <= (low - o) * i) by (apply Rmult_le_compat_neg_l with (r := i) in H2; lra).
    assert ((high' - o) * i <= (high - o) * i) by (apply Rmult_le_compat_neg_l with (r := i) in H3; lra).
    rewrite !Rmin_right, !Rmax_left by lra. lra.
Qed.

Lemma Rleb_true : forall a b, Rleb a b = true <-> a <= b.
Proof. intros. unfold Rleb. destruct Rle_dec; split; auto; try lra; discriminate. Qed.
Lemma Rltb_true : forall a b, Rltb a b = true <-> a < b.
Proof. intros. unfold Rltb. destruct Rlt_dec; split; auto; try lra; discriminate. Qed.

Lemma ray_box_eq : forall o i b, ray_box o i b =
  (Rmax (Rmax (fst (slab (pe o) (pe i) (pe (box_min b)) (pe (box_max b))))
              (fst (slab (pn o) (pn i) (pn (box_min b)) (pn (box_max b)))))
        (fst (slab (pu o) (pu i) (pu (box_min b)) (pu (box_max b)))),
   Rmin (Rmin (snd (slab (pe o) (pe i) (pe (box_min b)) (pe (box_max b))))
              (snd (slab (pn o) (pn i) (pn (box_min b)) (pn (box_max b)))))
        (snd (slab (pu o) (pu i) (pu (box_min b)) (pu (box_max b))))).
Proof. reflexivity. Qed.

Lemma box_hit_monotone : forall r b b', proper_box b -> box_inside b b' -> box_hit r b = true -> box_hit r b' = true.
Proof.
  intros r b b' PB IN. unfold box_hit. rewrite !ray_box_eq.
  assert (G : forall f, In f axes -> forall o i,
     fst (slab o i (f (box_min b')) (f (box_max b'))) <= fst (slab o i (f (box_min b)) (f (box_max b)))
     /\ snd (slab o i (f (box_min b)) (f (box_max b))) <= snd (slab o i (f (box_min b')) (f (box_max b')))).
  { intros f Hf o i. destruct (IN f Hf). apply slab_mono; auto. }
  pose proof (G pe ltac:(simpl; auto) (pe (r_origin r)) (pe (inverse_direction (r_direction r)))) as [E1 E2].
  pose proof (G pn ltac:(simpl; auto) (pn (r_origin r)) (pn (inverse_direction (r_direction r)))) as [N1 N2].
  pose proof (G pu ltac:(simpl; auto) (pu (r_origin r)) (pu (inverse_direction (r_direction r)))) as [U1 U2].
  set (a1 := fst (slab (pe _) _ (pe (box_min b)) _)) in *. set (a2 := fst (slab (pn _) _ (pn (box_min b)) _)) in *.
  set (a3 := fst (slab (pu _) _ (pu (box_min b)) _)) in *.
  set (a1' := fst (slab (pe _) _ (pe (box_min b')) _)) in *. set (a2' := fst (slab (pn _) _ (pn (box_min b')) _)) in *.
  set (a3' := fst (slab (pu _) _ (pu (box_min b')) _)) in *.
  set (z1 := snd (slab (pe _) _ (pe (box_min b)) _)) in *. set (z2 := snd (slab (pn _) _ (pn (box_min b)) _)) in *.
  set (z3 := snd (slab (pu _) _ (pu (box_min b)) _)) in *.
  set (z1' := snd (slab (pe _) _ (pe (box_min b')) _)) in *. set (z2' := snd (slab (pn _) _ (pn (box_min b')) _)) in *.
  set (z3' := snd (slab (pu _) _ (pu (box_min b')) _)) in *.
  assert (A : Rmax (Rmax a1' a2') a3' <= Rmax (Rmax a1 a2) a3).
  { repeat apply Rle_max_compat_l || idtac. apply Rmax_lub; [apply Rmax_lub|].
    - eapply Rle_trans; [exact E1|]. eapply Rle_trans; [apply Rmax_l|apply Rmax_l].
    - eapply Rle_trans; [exact N1|]. eapply Rle_trans; [apply Rmax_r|apply Rmax_l].
    - eapply Rle_trans; [exact U1|]. apply Rmax_r. }
  assert (Z : Rmin (Rmin z1 z2) z3 <= Rmin (Rmin z1' z2') z3').
  { apply Rmin_glb; [apply Rmin_glb|].
    - eapply Rle_trans; [|exact E2]. eapply Rle_trans; [apply Rmin_l|apply Rmin_l].
    - eapply Rle_trans; [|exact N2]. eapply Rle_trans; [apply Rmin_l|apply Rmin_r].
    - eapply Rle_trans; [|exact U2]. apply Rmin_r. }
  rewrite !andb_true_iff, !Rleb_true, !Rltb_true. intros [[H1 H2] H3]. repeat split; lra.
Qed.

Lemma slab_interval : forall o d low high t, d <> 0 -> low <= high ->
  (fst (slab o (1 / d) low high) <= t <= snd (slab o (1 / d) low high) <-> low <= o + t * d <= high).
Proof.
  intros o d low high t Hd H. unfold slab. simpl.
  assert (E1 : (low - o) * (1 / d) * d = low - o) by (field; auto).
  assert (E2 : (high - o) * (1 / d) * d = high - o) by (field; auto).
  set (x := (low - o) * (1 / d)) in *. set (y := (high - o) * (1 / d)) in *.
  destruct (Rlt_dec 0 d) as [P|N].
  - assert (x <= y) by (apply Rmult_le_reg_r with d; lra). rewrite Rmin_left, Rmax_right by lra.
    split; intros [A C]; split.
    + apply Rmult_le_compat_r with (r := d) in A; lra.
    + apply Rmult_le_compat_r with (r := d) in C; lra.
    + apply Rmult_le_reg_r with d; lra.
    + apply Rmult_le_reg_r with d; lra.
  - assert (P : 0 < - d) by lra.
    assert (y <= x) by (apply Rmult_le_reg_r with (- d); lra). rewrite Rmin_right, Rmax_left by lra.
    split; intros [A C]; split.
    + apply Rmult_le_compat_r with (r := - d) in C; lra.
    + apply Rmult_le_compat_r with (r := - d) in A; lra.
    + apply Rmult_le_reg_r with (- d); lra.
    + apply Rmult_le_reg_r with (- d); lra.
Qed.

Lemma Rmax3_le : forall a b c t, Rmax (Rmax a b) c <= t <-> a <= t /\ b <= t /\ c <= t.
Proof.
  intros. pose proof (Rmax_l (Rmax a b) c). pose proof (Rmax_r (Rmax a b) c). pose proof (Rmax_l a b). pose proof (Rmax_r a b).
  split; [lra|]. intros (A & B & C). repeat apply Rmax_lub; auto.
Qed.
Lemma Rmin3_ge : forall a b c t, t <= Rmin (Rmin a b) c <-> t <= a /\ t <= b /\ t <= c.
Proof.
  intros. pose proof (Rmin_l (Rmin a b) c). pose proof (Rmin_r (Rmin a b) c). pose proof (Rmin_l a b). pose proof (Rmin_r a b).
  split; [lra|]. intros (A & B & C). repeat apply Rmin_glb; auto.
Qed.

(** The parameter interval computed by the slab test is the set of parameters inside the box. *)
Lemma ray_box_interval : forall r b t, sane_ray r -> proper_box b ->
  let '(entry, exit) := ray_box (r_origin r) (inverse_direction (r_direction r)) b in
  entry <= t <= exit <-> in_box (ray_at r t) b.
Proof.
  intros r b t S P. rewrite ray_box_eq. rewrite Rmax3_le, Rmin3_ge. unfold inverse_direction. cbn [pe pn pu].
  pose proof (slab_interval (pe (r_origin r)) (pe (r_direction r) + / 10 ^ 12) (pe (box_min b)) (pe (box_max b)) t (S pe ltac:(simpl; auto)) (P pe ltac:(simpl; auto))) as E.
  pose proof (slab_interval (pn (r_origin r)) (pn (r_direction r) + / 10 ^ 12) (pn (box_min b)) (pn (box_max b)) t (S pn ltac:(simpl; auto)) (P pn ltac:(simpl; auto))) as N.
  pose proof (slab_interval (pu (r_origin r)) (pu (r_direction r) + / 10 ^ 12) (pu (box_min b)) (pu (box_max b)) t (S pu ltac:(simpl; auto)) (P pu ltac:(simpl; auto))) as U.
  unfold in_box, ray_at. split.
  - intros (A & B) f [<-|[<-|[<-|[]]]]; cbn [pe pn pu]; tauto.
  - intros H. pose proof (H pe ltac:(simpl; auto)) as H1. pose proof (H pn ltac:(simpl; auto)) as H2. pose proof (H pu ltac:(simpl; auto)) as H3.
    cbn [pe pn pu] in H1, H2, H3. tauto.
Qed.

Lemma box_hit_meets : forall r b, sane_ray r -> proper_box b -> (box_hit r b = true <-> meets r b).
Proof.
  intros r b S P. unfold box_hit, meets. pose proof (fun t => ray_box_interval r b t S P) as I.
  destruct (ray_box (r_origin r) (inverse_direction (r_direction r)) b) as [entry exit].
  rewrite !andb_true_iff, !Rleb_true, !Rltb_true. split.
  - intros [[H1 H2] H3]. split.
    + exists entry. split; auto. apply I. lra.
    + exists exit. split; auto. apply I. lra.
  - intros [(t & T1 & T2) (s & S1 & S2)]. apply I in T2. apply I in S2. lra.
Qed.

Lemma meets_segment : forall r b, sane_ray r -> proper_box b -> / 10 ^ 6 < r_target_distance r ->
  (meets r b <-> exists t, / 10 ^ 6 < t <= r_target_distance r /\ in_box (ray_at r t) b).
Proof.
  intros r b S P HT. pose proof (fun t => ray_box_interval r b t S P) as I.
  destruct (ray_box (r_origin r) (inverse_direction (r_direction r)) b) as [entry exit]. split.
  - intros [(t & T1 & T2) (s & S1 & S2)]. apply I in T2. apply I in S2.
    exists (Rmin exit (r_target_distance r)).
    unfold Rmin. destruct Rle_dec; split; try lra; apply I; lra.
  - intros (t & T & B). split; exists t; split; auto; lra.
Qed.

(** * Filtering *)
Lemma traverse_all_spec : forall rays capacity h internal n d fuel marked ls,
  dtree internal (h_left h) (h_right h) 0 ls d -> List.length ls = n -> d = capacity ->
  (forall j, (internal <= j)%nat <-> h_is_leaf h j = true) ->
  (forall r j ls x, subtree internal (h_left h) (h_right h) j ls -> In x ls ->
     box_hit r (h_boxes h x) = true -> box_hit r (h_boxes h j) = true) ->
  (2 * n - 1 <= fuel)%nat ->
  exists m, traverse_all fuel capacity h rays marked = Filtered m
    /\ forall p, In p m <-> In p marked \/ exists r x, In r rays /\ In x ls /\ box_hit r (h_boxes h x) = true
                                       /\ h_primitive h x = p /\ r_owner r <> p.
Proof.
  induction rays as [|r rays IH]; intros capacity h internal n d fuel marked ls D L Dc Lf Mono Hf; cbn [traverse_all].
  - exists marked. split; auto. intros p. split; auto. intros [H|(r & x & [] & _)]; auto.
  - destruct (traverse_tree h internal (fun node => box_hit r (h_boxes h node)) (r_owner r) capacity 0%nat ls d D Lf (Mono r) (fuel - (2 * n - 1))%nat [] []) as (f' & found & F1 & E & M).
    { cbn [List.length]. lia. }
    rewrite L in E. replace (fuel - (2 * n - 1) + (2 * n - 1))%nat with fuel in E by lia. rewrite E.
    rewrite app_nil_r. assert (EV : traverse f' capacity h (fun node => box_hit r (h_boxes h node)) (r_owner r) [] found = Visited found) by (destruct f'; auto).
    rewrite EV.
    destruct (IH capacity h internal n d fuel (found ++ marked) ls D L Dc Lf Mono Hf) as (m & Em & Mm).
    exists m. split; auto. intros p. rewrite Mm, in_app_iff, M. split.
    + intros [[(x & X1 & X2 & X3 & X4)|H]|(r' & x & X0 & X)]; auto.
      * right. exists r, x. simpl. auto 10.
      * right. exists r', x. simpl. auto 10.
    + intros [H|(r' & x & [<-|X0] & X1 & X2 & X3 & X4)]; auto.
      * left. left. exists x. auto.
      * right. exists r', x. auto.
Qed.

Lemma hull_monotone_hit : forall r b bs b', hull b bs -> In b' bs -> proper_box b' -> box_hit r b' = true -> box_hit r b = true.
Proof. intros r b bs b' [H _] I P. apply box_hit_monotone; auto. Qed.

(** The hierarchy of a well-formed tree: every node's box is the hull of the boxes of its primitives. *)
Lemma build_spec : forall codes lefts rights order pb,
  child_arrays codes = Some (lefts, rights) ->
  exists h, build_hierarchy codes order pb = Some h
    /\ (forall k, h_left h k = nth k lefts (-1)%Z) /\ (forall k, h_right h k = nth k rights (-1)%Z)
    /\ (forall k, h_is_leaf h k = true <-> (List.length codes - 1 <= k)%nat)
    /\ (forall k, h_primitive h k = nth (k - (List.length codes - 1)) order 0%nat)
    /\ (forall k, (List.length codes - 1 <= k)%nat -> h_boxes h k = pb (h_primitive h k))
    /\ forall k ls, subtree (List.length codes - 1) (h_left h) (h_right h) k ls ->
         hull (h_boxes h k) (map (fun x => pb (h_primitive h x)) ls).
Proof.
  intros codes ls rs order pb CA. unfold build_hierarchy. rewrite CA.
  set (internal := (List.length codes - 1)%nat).
  set (init := fun k => if (internal <=? k)%nat then pb (nth (k - internal) order 0%nat) else zero_box).
  set (l := fun k => nth k ls (-1)%Z). set (r := fun k => nth k rs (-1)%Z).
  assert (I0 : box_inv internal l r init (fun _ => false) init) by (split; [auto|intros; discriminate]).
  pose proof (propagate_inv (internal * 2) internal (total_nodes codes) l r init (fun _ => false) init I0) as I.
  pose proof (propagate_complete (internal * 2) internal (total_nodes codes) l r (fun _ => false) init 0) as C.
  destruct (propagate (internal * 2) internal (total_nodes codes) l r (fun _ => false) init) as [c bx] eqn:E.
  eexists. split; [reflexivity|]. cbn [h_left h_right h_is_leaf h_primitive h_boxes].
  split; auto. split; auto. split; [intros k; apply Nat.leb_le|]. split; auto. split.
  - intros k Hk. destruct I as [I1 _]. rewrite I1 by auto. unfold init. destruct (Nat.leb_spec internal k); [auto|lia].
  - intros k kl Sk. assert (H : hull (bx k) (map init kl)).
    { apply box_inv_child with internal l r c; auto. intros Hk. simpl in C.
      destruct (subtree_dtree _ _ _ _ _ Sk) as (d & D). apply dtree_depth_internal in D as Hd.
      apply (C ltac:(intros k' ls' d' D' Hk' Hd'; inversion D'; subst; [lia|]; match goal with X : dtree _ _ _ _ _ ?d |- _ => pose proof (dtree_depth _ _ _ _ _ _ X) end; lia) k kl d D Hk).
      lia. }
    replace (map (fun x => pb (nth (x - internal) order 0%nat)) kl) with (map init kl); auto.
    apply map_ext_in. intros x Hx. unfold init. pose proof (subtree_leaves _ _ _ _ _ Sk x Hx).
    destruct (Nat.leb_spec internal x); [auto|lia].
Qed.

Lemma subtree_ext : forall internal l r l' r' k ls, (forall j, l' j = l j) -> (forall j, r' j = r j) ->
  subtree internal l r k ls -> subtree internal l' r' k ls.
Proof.
  intros internal l r l' r' k ls Hl Hr S. induction S as [k Hk|k a b la lb Hk Ea Eb S1 IH1 S2 IH2]; [constructor; auto|].
  apply subtree_node with a b; auto; [rewrite Hl|rewrite Hr]; auto.
Qed.

Lemma leaf_children : forall codes lefts rights, thirty_bit codes -> child_arrays codes = Some (lefts, rights) ->
  forall j, (List.length codes - 1 <= j)%nat -> (nth j lefts (-1) = -1 /\ nth j rights (-1) = -1)%Z.
Proof.
  intros codes ls rs B E j Hj. destruct (child_arrays_some codes B) as (ls' & rs' & E' & L1 & L2 & CH).
  rewrite E in E'. injection E' as <- <-.
  destruct (Nat.lt_ge_cases j (total_nodes codes)) as [L|L].
  - specialize (CH j L). unfold children_of in CH. destruct (Z.ltb_spec (Z.of_nat j) (Z.of_nat (List.length codes) - 1)); [lia|].
    injection CH as <- <-. auto.
  - rewrite !nth_overflow by lia. auto.
Qed.

Lemma filter_exact : forall codes lefts rights order pb rays fuel,
  thirty_bit codes -> codes <> [] -> child_arrays codes = Some (lefts, rights) ->
  reaches_all_once (List.length codes) (fun k => nth k lefts (-1)%Z) (fun k => nth k rights (-1)%Z) ->
  Permutation order (seq 0 (List.length codes)) ->
  (forall p, proper_box (pb p)) -> (2 * List.length codes - 1 <= fuel)%nat ->
  exists found, lbvh_filter fuel codes order pb rays
    = Filtered (filter (fun p => existsb (Nat.eqb p) found) (seq 0 (List.length codes)))
    /\ forall p, In p found <-> (p < List.length codes)%nat /\ exists r, In r rays /\ box_hit r (pb p) = true /\ r_owner r <> p.
Proof.
  intros codes ls rs order pb rays fuel B NE CA RA PO PB HF. set (n := List.length codes) in *.
  assert (n <> 0)%nat by (unfold n; destruct codes; simpl; congruence).
  unfold lbvh_filter. fold n. destruct (Nat.eqb_spec n 0); [lia|].
  destruct (build_spec codes ls rs order pb CA) as (h & E & HL & HR & Lf & HP & HB & Hull). rewrite E. fold n in Lf, HP, HB, Hull.
  destruct RA as (leaves & S & PL).
  assert (S' : subtree (n - 1) (h_left h) (h_right h) 0 leaves).
  { revert S. apply subtree_ext; auto. }
  destruct (subtree_dtree _ _ _ _ _ S') as (d & D).
  assert (LL : List.length leaves = n) by (apply Permutation_length in PL; rewrite seq_length in PL; auto).
  pose proof (dtree_depth _ _ _ _ _ _ D) as Dd.
  assert (EM : forall f md, max_depth_loop f (h_left h) (h_right h) [] md = Some md) by (intros []; auto).
  assert (MD : max_depth fuel h = Some d).
  { unfold max_depth. replace fuel with (fuel - (2 * n - 1) + (2 * List.length leaves - 1))%nat by lia.
    rewrite (max_depth_tree (n - 1) (h_left h) (h_right h) 0%nat leaves d D).
    - rewrite EM. f_equal. lia.
    - intros j Hj. rewrite HL, HR. destruct (leaf_children codes ls rs B CA j Hj) as [-> ->]. lia. }
  rewrite MD.
  destruct (traverse_all_spec rays d h (n - 1) n d fuel [] leaves D LL eq_refl) as (m & Em & Mm); auto.
  - intros j. symmetry. apply Lf.
  - intros r j jl x Sj Hx Hit. apply (hull_monotone_hit r (h_boxes h j) _ (h_boxes h x) (Hull j jl Sj)); auto.
    + rewrite HB by (eapply subtree_leaves; eauto). apply in_map_iff. exists x. auto.
    + rewrite HB by (eapply subtree_leaves; eauto). apply PB.
  - rewrite Em. exists m. split; auto. intros p. rewrite Mm. split.
    + intros [[]|(r & x & X1 & X2 & X3 & X4 & X5)].
      assert (Hx : In x (seq (n - 1) n)) by (eapply Permutation_in; [apply PL|auto]). apply in_seq in Hx.
      rewrite HB in X3 by lia. rewrite X4 in X3. split; [|eauto].
      rewrite HP in X4. assert (In p (seq 0 n)); [|apply in_seq in H0; lia].
      apply (Permutation_in _ PO). rewrite <- X4. apply nth_In. apply Permutation_length in PO. rewrite seq_length in PO. lia.
    + intros (Hp & r & X1 & X2 & X3). right.
      assert (I : In p order) by (apply (Permutation_in _ (Permutation_sym PO)); apply in_seq; lia).
      apply (In_nth _ _ 0%nat) in I. destruct I as (i & Hi & Ei).
      assert (Hin : (i < n)%nat) by (apply Permutation_length in PO; rewrite seq_length in PO; lia).
      exists r, (n - 1 + i)%nat. split; auto. split; [apply (Permutation_in _ (Permutation_sym PL)); apply in_seq; lia|].
      assert (EP : h_primitive h (n - 1 + i) = p) by (rewrite HP; replace (n - 1 + i - (n - 1))%nat with i by lia; auto).
      rewrite HB by lia. rewrite EP. auto.
Qed.

Lemma corners_box_proper : forall c, proper_box (corners_box c).
Proof.
  assert (G : forall l, Rmin_list l <= Rmax_list l).
  { intros [|x l]; simpl; [lra|]. destruct (fold_min_le l x) as [A _]. destruct (fold_max_ge l x) as [C _]. lra. }
  intros c f [<-|[<-|[<-|[]]]]; apply G.
Qed.

Lemma filter_primitives_exact : forall sort corners rays fuel codes lefts rights,
  sorts sort -> corners <> [] ->
  morton_codes (/ 10 ^ 6) (map centroid corners) = Ok codes ->
  child_arrays (fst (sort codes)) = Some (lefts, rights) ->
  reaches_all_once (List.length corners) (fun k => nth k lefts (-1)%Z) (fun k => nth k rights (-1)%Z) ->
  (forall r, In r rays -> sane_ray r) -> (2 * List.length corners - 1 <= fuel)%nat ->
  exists found, filter_primitives sort fuel corners rays = Filtered found /\ NoDup found
    /\ forall p, In p found <-> (p < List.length corners)%nat /\ exists r, In r rays /\ r_owner r <> p
                                 /\ meets r (corners_box (nth p corners [])).
Proof.
  intros sort corners rays fuel codes ls rs HS NE HM HC HR HSR HF. unfold filter_primitives. rewrite HM.
  destruct (morton_codes_spec (/ 10 ^ 6) (map centroid corners)) as (codes' & E' & L & Bd & _).
  { apply Rinv_0_lt_compat. apply pow_lt. lra. }
  rewrite HM in E'. injection E' as <-. rewrite map_length in L.
  specialize (HS codes). destruct (sort codes) as [sorted order]. destruct HS as (PO & ES & AS). simpl in HC.
  assert (LS : List.length sorted = List.length corners).
  { rewrite ES, map_length. apply Permutation_length in PO. rewrite seq_length in PO. lia. }
  assert (BS : thirty_bit sorted).
  { intros c Hc. rewrite ES in Hc. apply in_map_iff in Hc. destruct Hc as (i & <- & Hi). apply Bd. apply nth_In.
    apply (Permutation_in _ PO) in Hi. apply in_seq in Hi. lia. }
  destruct (filter_exact sorted ls rs order (fun p => corners_box (nth p corners [])) rays fuel) as (m & E & M); auto.
  - destruct sorted; [destruct corners; simpl in *; congruence|congruence].
  - rewrite LS. auto.
  - rewrite LS, <- L. auto.
  - intros p. apply corners_box_proper.
  - rewrite LS. auto.
  - rewrite E. eexists. split; [reflexivity|]. split; [apply NoDup_filter, seq_NoDup|].
    intros p. rewrite filter_In, in_seq, existsb_exists, LS. split.
    + intros (Hp & q & Hq & Eq). apply Nat.eqb_eq in Eq. subst q. apply M in Hq. destruct Hq as (_ & r & R1 & R2 & R3).
      split; [lia|]. exists r. split; auto. split; auto. apply box_hit_meets; auto. apply corners_box_proper.
    + intros (Hp & r & R1 & R2 & R3). split; [lia|]. exists p. split; [|apply Nat.eqb_refl]. apply M. rewrite LS. split; auto.
      exists r. split; auto. split; auto. apply box_hit_meets; auto. apply corners_box_proper.
Qed.

Lemma dtree_ext : forall internal l r l' r' k ls d, (forall j, l' j = l j) -> (forall j, r' j = r j) ->
  dtree internal l r k ls d -> dtree internal l' r' k ls d.
Proof.
  intros internal l r l' r' k ls d Hl Hr D. induction D as [k Hk|k a b la lb da db Hk Ea Eb D1 IH1 D2 IH2]; [constructor; auto|].
  apply dtree_node with a b; auto; [rewrite Hl|rewrite Hr]; auto.
Qed.

Lemma dtree_levels : forall internal l r k ls d, dtree internal l r k ls d -> levels internal l r k d.
Proof. intros internal l r k ls d H. induction H; [constructor; auto|]. eapply (levels_node _ _ _ k); eauto. Qed.

Lemma depth_terminates : forall codes lefts rights order boxes fuel,
  thirty_bit codes -> codes <> [] -> child_arrays codes = Some (lefts, rights) ->
  reaches_all_once (List.length codes) (fun k => nth k lefts (-1)%Z) (fun k => nth k rights (-1)%Z) ->
  (2 * List.length codes - 1 <= fuel)%nat ->
  exists h depth, build_hierarchy codes order boxes = Some h /\ max_depth fuel h = Some depth
    /\ levels (List.length codes - 1) (fun k => nth k lefts (-1)%Z) (fun k => nth k rights (-1)%Z) 0 depth.
Proof.
  intros codes ls rs order pb fuel B NE CA (leaves & S & PL) HF.
  destruct (build_spec codes ls rs order pb CA) as (h & E & HL & HR & _).
  destruct (subtree_dtree _ _ _ _ _ S) as (d & D).
  assert (S' : subtree (List.length codes - 1) (h_left h) (h_right h) 0 leaves) by (revert S; apply subtree_ext; auto).
  destruct (subtree_dtree _ _ _ _ _ S') as (d' & D').
  pose proof (dtree_depth _ _ _ _ _ _ D') as Dd.
  assert (LL : List.length leaves = List.length codes) by (apply Permutation_length in PL; rewrite seq_length in PL; auto).
  exists h, d'. split; auto. split.
  - unfold max_depth. replace fuel with (fuel - (2 * List.length leaves - 1) + (2 * List.length leaves - 1))%nat by lia.
    rewrite (max_depth_tree (List.length codes - 1) (h_left h) (h_right h) 0%nat leaves d' D').
    + assert (EM : forall f md, max_depth_loop f (h_left h) (h_right h) [] md = Some md) by (intros []; auto).
      rewrite EM. f_equal. lia.
    + intros j Hj. rewrite HL, HR. destruct (leaf_children codes ls rs B CA j Hj) as [-> ->]. lia.
  - apply dtree_levels with leaves. revert D'. apply dtree_ext; auto.
Qed.

Lemma boxes_tight : forall codes lefts rights order boxes,
  thirty_bit codes -> codes <> [] -> child_arrays codes = Some (lefts, rights) ->
  exists h, build_hierarchy codes order boxes = Some h
    /\ forall k leaves, subtree (List.length codes - 1) (fun k => nth k lefts (-1)%Z) (fun k => nth k rights (-1)%Z) k leaves ->
       hull (h_boxes h k) (map (fun x => boxes (nth (x - (List.length codes - 1)) order 0%nat)) leaves).
Proof.
  intros codes ls rs order pb B NE CA. destruct (build_spec codes ls rs order pb CA) as (h & E & HL & HR & _ & HP & _ & Hull).
  exists h. split; auto. intros k leaves S.
  assert (S' : subtree (List.length codes - 1) (h_left h) (h_right h) k leaves) by (revert S; apply subtree_ext; auto).
  specialize (Hull k leaves S').
  replace (map (fun x => pb (nth (x - (List.length codes - 1)) order 0%nat)) leaves) with (map (fun x => pb (h_primitive h x)) leaves); auto.
  apply map_ext. intros x. rewrite HP. auto.
Qed.

Lemma box_test_exact : forall r b, sane_ray r -> proper_box b ->
  (box_hit r b = true <-> meets r b)
  /\ (/ 10 ^ 6 < r_target_distance r ->
      (box_hit r b = true <-> exists t, / 10 ^ 6 < t <= r_target_distance r /\ in_box (ray_at r t) b)).
Proof.
  intros r b S P. split; [apply box_hit_meets; auto|]. intros HT. rewrite box_hit_meets by auto. apply meets_segment; auto.
Qed.

Lemma prefix_count_perm : forall l l' L p, Permutation l l' -> prefix_count l L p = prefix_count l' L p.
Proof.
  intros l l' L p H. unfold prefix_count. f_equal. induction H; cbn [filter]; auto.
  - destruct (_ =? _)%Z; cbn [List.length]; auto.
  - destruct (Z.shiftr y _ =? _)%Z; destruct (Z.shiftr x _ =? _)%Z; auto.
  - congruence.
Qed.

Lemma sort_permutes : forall sort l, sorts sort -> Permutation (fst (sort l)) l.
Proof.
  intros sort l H. specialize (H l). destruct (sort l) as [s o]. destruct H as (P & E & _). simpl. rewrite E.
  apply Permutation_trans with (map (fun i => nth i l 0%Z) (seq 0 (List.length l))); [apply Permutation_map; auto|].
  replace (map (fun i => nth i l 0%Z) (seq 0 (List.length l))) with l; auto.
  apply (nth_ext _ _ 0%Z 0%Z); [rewrite map_length, seq_length; auto|]. intros n Hn.
  rewrite (nth_indep (map (fun i => nth i l 0%Z) (seq 0 (List.length l))) 0%Z (nth (List.length l) l 0%Z)) by (rewrite map_length, seq_length; auto).
  rewrite (map_nth (fun i => nth i l 0%Z)), seq_nth by auto. auto.
Qed.

Lemma five_mirrors_exact : forall sort corners rays fuel codes,
  sorts sort -> corners <> [] -> (List.length corners <= 5)%nat ->
  morton_codes (/ 10 ^ 6) (map centroid corners) = Ok codes -> at_most_twice codes ->
  (forall r, In r rays -> sane_ray r) -> (9 <= fuel)%nat ->
  exists found, filter_primitives sort fuel corners rays = Filtered found /\ NoDup found
    /\ forall p, In p found <-> (p < List.length corners)%nat /\ exists r, In r rays /\ r_owner r <> p
                                 /\ meets r (corners_box (nth p corners [])).
Proof.
  intros sort corners rays fuel codes HS NE L5 HM T HR HF.
  destruct (morton_codes_spec (/ 10 ^ 6) (map centroid corners)) as (codes' & E' & L & Bd & _).
  { apply Rinv_0_lt_compat. apply pow_lt. lra. }
  rewrite HM in E'. injection E' as <-. rewrite map_length in L.
  pose proof (sort_permutes sort codes HS) as P.
  pose proof (Permutation_length P) as LP.
  destruct (radix_tree_small (fst (sort codes))) as (ls & rs & CA & RA).
  - intros E. rewrite E in LP. destruct corners; [congruence|]. simpl in *. lia.
  - lia.
  - intros c Hc. apply Bd. apply (Permutation_in _ P). auto.
  - specialize (HS codes). destruct (sort codes). apply HS.
  - intros c. rewrite (prefix_count_perm _ _ _ _ P). apply T.
  - apply (filter_primitives_exact sort corners rays fuel codes ls rs); auto.
    + rewrite <- L, <- LP. auto.
    + lia.
Qed.
