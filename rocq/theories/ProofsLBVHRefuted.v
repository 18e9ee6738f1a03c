(** Counterexamples for the hierarchy (C19-C21). *)
From Coq Require Import List Arith ZArith Reals Bool Lia Lra Permutation.
From Verif Require Import RealSums ModelField ModelSplatting ModelLBVH SpecLBVH ProofsSplatting ProofsMorton ProofsRadix ProofsRadixCounts ProofsTraversal.
Import ListNotations.

(** * Sorting strictly ascending lists *)
Local Open Scope Z_scope.
Lemma ascending_tail : forall x l, ascending (x :: l) -> ascending l /\ forall y, In y l -> x <= y.
Proof.
  intros x l H. split.
  - intros i j Hij. apply (H (S i) (S j)). simpl. lia.
  - intros y Hy. apply (In_nth _ _ 0) in Hy. destruct Hy as (i & Hi & <-). apply (H 0%nat (S i)). simpl. lia.
Qed.
Lemma ascending_unique : forall l l', ascending l -> ascending l' -> Permutation l l' -> l = l'.
Proof.
  induction l as [|x l IH]; intros l' A A' P.
  - apply Permutation_nil in P. auto.
  - destruct l' as [|y l']; [apply Permutation_sym, Permutation_nil in P; discriminate|].
    destruct (ascending_tail _ _ A) as [A1 A2]. destruct (ascending_tail _ _ A') as [A1' A2'].
    assert (x = y).
    { assert (Hx : In x (y :: l')) by (apply (Permutation_in _ P); simpl; auto).
      assert (Hy : In y (x :: l)) by (apply (Permutation_in _ (Permutation_sym P)); simpl; auto).
      simpl in Hx, Hy. destruct Hx as [->|Hx]; auto. destruct Hy as [->|Hy]; auto.
      specialize (A2 y Hy). specialize (A2' x Hx). lia. }
    subst y. f_equal. apply IH; auto. apply Permutation_cons_inv with x. auto.
Qed.
Lemma sorts_identity : forall sort l, sorts sort -> ascending l -> NoDup l -> sort l = (l, seq 0 (List.length l)).
Proof.
  intros sort l H A ND. specialize (H l). destruct (sort l) as [sorted order]. destruct H as (P & E & AS).
  assert (LO : List.length order = List.length l) by (apply Permutation_length in P; rewrite seq_length in P; auto).
  assert (M : map (fun i => nth i l 0) (seq 0 (List.length l)) = l).
  { apply (nth_ext _ _ 0 0); rewrite map_length, seq_length; auto. intros n Hn.
    rewrite (nth_indep _ 0 (nth (List.length l) l 0)) by (rewrite map_length, seq_length; auto).
    rewrite (map_nth (fun i => nth i l 0)), seq_nth by auto. auto. }
  assert (SL : sorted = l).
  { apply ascending_unique; auto. rewrite E. apply Permutation_trans with (map (fun i => nth i l 0) (seq 0 (List.length l))); [apply Permutation_map; auto|rewrite M; auto]. }
  rewrite SL in E |- *. f_equal. apply (nth_ext _ _ 0%nat 0%nat); [rewrite seq_length; auto|].
  intros i Hi. rewrite seq_nth by lia. simpl. apply (NoDup_nth l 0); auto.
  - assert (I : In (nth i order 0%nat) order) by (apply nth_In; auto). apply (Permutation_in _ P) in I. apply in_seq in I. lia.
  - lia.
  - transitivity (nth i (map (fun i => nth i l 0) order) 0); [|rewrite <- E; auto]. rewrite (nth_indep (map (fun i => nth i l 0) order) 0 (nth 0%nat l 0)) by (rewrite map_length; auto).
    symmetry. apply (map_nth (fun i => nth i l 0)).
Qed.

(** * Unfolding child arrays *)
Fixpoint unfold_tree (fuel internal : nat) (l r : nat -> Z) (k : nat) : option (list nat) :=
  match fuel with
  | O => None
  | S fuel =>
    if (internal <=? k)%nat then Some [k]
    else if (0 <=? l k) && (0 <=? r k) then
      match unfold_tree fuel internal l r (Z.to_nat (l k)), unfold_tree fuel internal l r (Z.to_nat (r k)) with
      | Some a, Some b => Some (a ++ b)
      | _, _ => None
      end
    else None
  end.
Lemma unfold_subtree : forall fuel internal l r k ls, unfold_tree fuel internal l r k = Some ls -> subtree internal l r k ls.
Proof.
  induction fuel; intros internal l r k ls H; simpl in H; [discriminate|].
  destruct (Nat.leb_spec internal k); [injection H as <-; constructor; auto|].
  destruct (Z.leb_spec 0 (l k)); simpl in H; [|discriminate]. destruct (Z.leb_spec 0 (r k)); simpl in H; [|discriminate].
  destruct (unfold_tree fuel internal l r (Z.to_nat (l k))) eqn:E1; [|discriminate].
  destruct (unfold_tree fuel internal l r (Z.to_nat (r k))) eqn:E2; [|discriminate]. injection H as <-.
  apply subtree_node with (Z.to_nat (l k)) (Z.to_nat (r k)); auto; lia.
Qed.
Lemma subtree_fun : forall internal l r k ls ls', subtree internal l r k ls -> subtree internal l r k ls' -> ls = ls'.
Proof.
  intros internal l r k ls ls' H H'. destruct (subtree_dtree _ _ _ _ _ H) as (d & D). destruct (subtree_dtree _ _ _ _ _ H') as (d' & D').
  destruct (dtree_fun _ _ _ _ _ _ D _ _ D'). auto.
Qed.

(** Traversal of any finite unfolding: it ends within the stack and marks only primitives below the node. *)
Lemma traverse_bounded : forall h internal hit own capacity k ls d,
  dtree internal (h_left h) (h_right h) k ls d ->
  (forall j, (internal <= j)%nat <-> h_is_leaf h j = true) ->
  forall fuel stack marked, (List.length stack + d <= capacity)%nat ->
  exists fuel' found, (fuel <= fuel')%nat /\
    traverse (fuel + (2 * List.length ls - 1)) capacity h hit own (k :: stack) marked
    = traverse fuel' capacity h hit own stack (found ++ marked)
    /\ forall p, In p found -> exists x, In x ls /\ h_primitive h x = p.
Proof.
  intros h internal hit own capacity k ls d D Lf.
  induction D as [k Hk|k a b la lb da db Hk Ea Eb D1 IH1 D2 IH2]; intros fuel stack marked Hc.
  - simpl List.length. replace (fuel + (2 * 1 - 1))%nat with (S fuel) by lia. cbn [traverse].
    destruct (hit k).
    + rewrite (proj1 (Lf k) Hk). exists fuel, (if (own =? h_primitive h k)%nat then [] else [h_primitive h k]).
      split; [lia|]. split; [destruct (own =? h_primitive h k)%nat; auto|].
      intros p Hp. exists k. destruct (own =? h_primitive h k)%nat; simpl in *; [tauto|]. destruct Hp as [<-|[]]. auto.
    + exists fuel, []. split; [lia|]. split; auto. intros p [].
  - pose proof (dtree_depth _ _ _ _ _ _ D1). pose proof (dtree_depth _ _ _ _ _ _ D2).
    rewrite app_length.
    replace (fuel + (2 * (List.length la + List.length lb) - 1))%nat with
      (S (fuel + (2 * List.length la - 1) + (2 * List.length lb - 1))) by lia.
    cbn [traverse]. destruct (hit k).
    + assert (NL : h_is_leaf h k = false) by (destruct (h_is_leaf h k) eqn:E; auto; apply Lf in E; lia).
      rewrite NL, Ea, Eb.
      destruct (Z.leb_spec 0 (Z.of_nat a)); [|lia]. destruct (Z.leb_spec 0 (Z.of_nat b)); [|lia].
      rewrite !Nat2Z.id. cbn [andb].
      destruct (Nat.leb_spec capacity (List.length stack)); [lia|].
      destruct (Nat.leb_spec capacity (List.length stack + 1)); [lia|]. cbn [orb].
      destruct (IH2 (fuel + (2 * List.length la - 1))%nat (a :: stack) marked) as (f1 & m1 & F1 & E1 & M1); [simpl; lia|].
      rewrite E1.
      destruct (IH1 (f1 - (2 * List.length la - 1))%nat stack (m1 ++ marked)) as (f2 & m2 & F2 & E2 & M2); [lia|].
      replace (f1 - (2 * List.length la - 1) + (2 * List.length la - 1))%nat with f1 in E2 by lia.
      rewrite E2. exists f2, (m2 ++ m1). split; [lia|]. split; [rewrite app_assoc; auto|].
      intros p Hp. apply in_app_or in Hp. destruct Hp as [Hp|Hp]; [apply M2 in Hp|apply M1 in Hp];
      destruct Hp as (x & X & Y); exists x; split; auto; apply in_or_app; auto.
    + exists (fuel + (2 * List.length la - 1) + (2 * List.length lb - 1))%nat, []. split; [lia|]. split; auto. intros p [].
Qed.

Lemma traverse_all_bounded : forall rays h internal ls d fuel marked,
  dtree internal (h_left h) (h_right h) 0 ls d ->
  (forall j, (internal <= j)%nat <-> h_is_leaf h j = true) ->
  (2 * List.length ls - 1 <= fuel)%nat ->
  exists m, traverse_all fuel d h rays marked = Filtered m
    /\ forall p, In p m -> In p marked \/ exists x, In x ls /\ h_primitive h x = p.
Proof.
  induction rays as [|r rays IH]; intros h internal ls d fuel marked D Lf Hf; cbn [traverse_all]; [eauto|].
  destruct (traverse_bounded h internal (fun node => box_hit r (h_boxes h node)) (r_owner r) d 0%nat ls d D Lf (fuel - (2 * List.length ls - 1))%nat [] []) as (f' & found & F1 & E & M).
  { simpl. lia. }
  replace (fuel - (2 * List.length ls - 1) + (2 * List.length ls - 1))%nat with fuel in E by lia. rewrite E, app_nil_r.
  assert (EV : traverse f' d h (fun node => box_hit r (h_boxes h node)) (r_owner r) [] found = Visited found) by (destruct f'; auto).
  rewrite EV. destruct (IH h internal ls d fuel (found ++ marked) D Lf Hf) as (m & Em & Mm). exists m. split; auto.
  intros p Hp. destruct (Mm p Hp) as [I|I]; auto. apply in_app_or in I. destruct I as [I|I]; auto.
Qed.

(** Filtering with any finite unfolding only returns primitives that the root reaches. *)
Lemma filter_bounded : forall codes lefts rights order pb rays fuel leaves,
  thirty_bit codes -> codes <> [] -> child_arrays codes = Some (lefts, rights) ->
  subtree (List.length codes - 1) (fun k => nth k lefts (-1)) (fun k => nth k rights (-1)) 0 leaves ->
  (2 * List.length leaves - 1 <= fuel)%nat ->
  exists found, lbvh_filter fuel codes order pb rays = Filtered found
    /\ forall p, In p found -> exists x, In x leaves /\ nth (x - (List.length codes - 1)) order 0%nat = p.
Proof.
  intros codes ls rs order pb rays fuel leaves B NE CA S HF. set (n := List.length codes) in *.
  assert (n <> 0)%nat by (unfold n; destruct codes; simpl; congruence).
  unfold lbvh_filter. fold n. destruct (Nat.eqb_spec n 0); [lia|].
  destruct (build_spec codes ls rs order pb CA) as (h & E & HL & HR & Lf & HP & HB & _). rewrite E. fold n in Lf, HP, HB.
  assert (S' : subtree (n - 1) (h_left h) (h_right h) 0 leaves) by (revert S; apply subtree_ext; auto).
  destruct (subtree_dtree _ _ _ _ _ S') as (d & D).
  pose proof (dtree_depth _ _ _ _ _ _ D) as Dd.
  assert (EM : forall f md, max_depth_loop f (h_left h) (h_right h) [] md = Some md) by (intros []; auto).
  assert (MD : max_depth fuel h = Some d).
  { unfold max_depth. replace fuel with (fuel - (2 * List.length leaves - 1) + (2 * List.length leaves - 1))%nat by lia.
    rewrite (max_depth_tree (n - 1) (h_left h) (h_right h) 0%nat leaves d D).
    - rewrite EM. f_equal. lia.
    - intros j Hj. rewrite HL, HR. destruct (leaf_children codes ls rs B CA j Hj) as [-> ->]. lia. }
  rewrite MD.
  destruct (traverse_all_bounded rays h (n - 1) leaves d fuel [] D) as (m & Em & Mm); auto.
  { intros j. symmetry. apply Lf. }
  rewrite Em. eexists. split; [reflexivity|]. intros p Hp. apply filter_In in Hp. destruct Hp as [_ Hp].
  apply existsb_exists in Hp. destruct Hp as (q & Hq & Eq). apply Nat.eqb_eq in Eq. subst q.
  destruct (Mm p Hq) as [[]|(x & X & Y)]. exists x. rewrite <- HP. auto.
Qed.

(** * Seven mirrors *)
Local Open Scope R_scope.
Definition square (e u : R) : list point :=
  [ {| pe := e - 1/4; pn := -1/4; pu := u |}; {| pe := e + 1/4; pn := -1/4; pu := u |};
    {| pe := e + 1/4; pn := 1/4; pu := u |}; {| pe := e - 1/4; pn := 1/4; pu := u |} ].
Definition seven : list (list point) :=
  [ square 0 0; square 0 (3/2); square (3/2) 0; square 0 (5/2); square 0 (7/2); square (3/2) (5/2); square 1023 0 ].
Definition seven_codes : list Z := [0; 1; 2; 8; 9; 10; 306783376]%Z.

Lemma centroid_square : forall e u, centroid (square e u) = {| pe := e; pn := 0; pu := u |}.
Proof.
  intros e u. unfold centroid, square. cbn [map fold_right List.length pe pn pu].
  replace (INR 4) with 4 by (simpl; lra). f_equal; field.
Qed.
Lemma to_long_eq : forall x c, (0 <= c)%Z -> IZR c <= x < IZR c + 1 -> to_long x = c.
Proof.
  intros x c Hc H. assert (0 <= x) by (apply IZR_le in Hc; lra). destruct (to_long_nonneg x H0) as [B _].
  assert (c < to_long x + 1)%Z by (apply lt_IZR; rewrite plus_IZR; lra).
  assert (to_long x < c + 1)%Z by (apply lt_IZR; rewrite plus_IZR; lra). lia.
Qed.

Ltac eval_minmax := repeat match goal with
  | |- context [Rmin ?a ?b] => rewrite (Rmin_left a b) by lra
  | |- context [Rmin ?a ?b] => rewrite (Rmin_right a b) by lra
  | |- context [Rmax ?a ?b] => rewrite (Rmax_left a b) by lra
  | |- context [Rmax ?a ?b] => rewrite (Rmax_right a b) by lra
  end.

Definition axis_points (l : list (R * R)) : list point := map (fun '(e, u) => {| pe := e; pn := 0; pu := u |}) l.

Lemma grid_cell_1023 : forall ps p ce cu, 
  Rmin_list (map pe ps) = 0 -> Rmax_list (map pe ps) = 1023 -> Rmin_list (map pn ps) = 0 -> Rmax_list (map pn ps) = 0 ->
  Rmin_list (map pu ps) = 0 -> Rmax_list (map pu ps) <= 1023 -> pn p = 0 ->
  (0 <= ce <= 1023)%Z -> (0 <= cu <= 1023)%Z ->
  IZR ce * (1 + / 10 ^ 8) <= pe p < IZR ce + 1 -> IZR cu * (1 + / 10 ^ 8) <= pu p < IZR cu + 1 ->
  grid_cell (/ 10 ^ 6) ps p = (ce, 0%Z, cu).
Proof.
  intros ps p ce cu E1 E2 N1 N2 U1 U2 Hn Rce Rcu He Hu. unfold grid_cell, grid_scale. rewrite E1, E2, N1, N2, U1, Hn.
  assert (S : Rmax (Rmax (1023 - 0) (0 - 0)) (Rmax_list (map pu ps) - 0) = 1023) by (eval_minmax; lra).
  rewrite S.
  assert (HS : 1 - / 10 ^ 9 <= 1023 / (1023 + / 10 ^ 6) <= 1).
  { assert (P : 0 < 1023 + / 10 ^ 6) by (assert (0 < / 10 ^ 6) by (apply Rinv_0_lt_compat, pow_lt; lra); lra).
    split; apply Rmult_le_reg_r with (1023 + / 10 ^ 6); auto; unfold Rdiv; rewrite ?Rmult_assoc, ?Rinv_l by lra; lra. }
  set (s := 1023 / (1023 + / 10 ^ 6)) in *.
  assert (G : forall x c, (0 <= c <= 1023)%Z -> IZR c * (1 + / 10 ^ 8) <= x < IZR c + 1 -> to_long ((x - 0) * s) = c).
  { intros x c Hc Hx. apply to_long_eq; [lia|]. rewrite Rminus_0_r. destruct Hc as [Hc1 Hc2]. apply IZR_le in Hc1. apply IZR_le in Hc2.
    assert (0 <= x) by (assert (0 <= IZR c * (1 + / 10 ^ 8)); [apply Rmult_le_pos; [lra|]; lra|lra]).
    split.
    - apply Rle_trans with (IZR c * (1 + / 10 ^ 8) * s).
      + rewrite Rmult_assoc. rewrite <- (Rmult_1_r (IZR c)) at 1. apply Rmult_le_compat_l; [lra|].
        apply Rle_trans with ((1 + / 10 ^ 8) * (1 - / 10 ^ 9)); [lra|]. apply Rmult_le_compat_l; [lra|lra].
      + apply Rmult_le_compat_r; lra.
    - apply Rle_lt_trans with (x * 1); [apply Rmult_le_compat_l; lra|lra]. }
  rewrite (G (pe p) ce), (G (pu p) cu); auto. f_equal. f_equal. apply to_long_eq; [lia|]. lra.
Qed.

Lemma seven_centroids : map centroid seven =
  axis_points [(0, 0); (0, 3/2); (3/2, 0); (0, 5/2); (0, 7/2); (3/2, 5/2); (1023, 0)].
Proof. unfold seven, axis_points. cbn [map]. rewrite !centroid_square. auto. Qed.

Lemma seven_morton : morton_codes (/ 10 ^ 6) (map centroid seven) = Ok seven_codes.
Proof.
  rewrite seven_centroids. set (ps := axis_points _).
  assert (E1 : Rmin_list (map pe ps) = 0) by (unfold ps; cbn [axis_points map Rmin_list fold_left pe]; eval_minmax; auto).
  assert (E2 : Rmax_list (map pe ps) = 1023) by (unfold ps; cbn [axis_points map Rmax_list fold_left pe]; eval_minmax; auto).
  assert (N1 : Rmin_list (map pn ps) = 0) by (unfold ps; cbn [axis_points map Rmin_list fold_left pn]; eval_minmax; auto).
  assert (N2 : Rmax_list (map pn ps) = 0) by (unfold ps; cbn [axis_points map Rmax_list fold_left pn]; eval_minmax; auto).
  assert (U1 : Rmin_list (map pu ps) = 0) by (unfold ps; cbn [axis_points map Rmin_list fold_left pu]; eval_minmax; auto).
  assert (U2 : Rmax_list (map pu ps) <= 1023) by (unfold ps; cbn [axis_points map Rmax_list fold_left pu]; eval_minmax; lra).
  pose proof (fun p ce cu => grid_cell_1023 ps p ce cu E1 E2 N1 N2 U1 U2) as G.
  unfold morton_codes. unfold ps at 2. unfold axis_points. cbn [map map_res].
  assert (M : forall c, 0 <= c -> 0 * (1 + / 10 ^ 8) <= c) by (intros; lra).
  rewrite (G _ 0%Z 0%Z) by (cbn [pe pn pu]; lia || lra).
  rewrite (G _ 0%Z 1%Z) by (cbn [pe pn pu]; lia || (lra)).
  rewrite (G _ 1%Z 0%Z) by (cbn [pe pn pu]; lia || (lra)).
  rewrite (G _ 0%Z 2%Z) by (cbn [pe pn pu]; lia || (lra)).
  rewrite (G _ 0%Z 3%Z) by (cbn [pe pn pu]; lia || (lra)).
  rewrite (G _ 1%Z 2%Z) by (cbn [pe pn pu]; lia || (lra)).
  assert (L : grid_cell (/ 10 ^ 6) ps {| pe := 1023; pn := 0; pu := 0 |} = (1022, 0, 0)%Z).
  { unfold grid_cell, grid_scale. rewrite E1, E2, N1, N2, U1. cbn [pe pn pu].
    assert (S : Rmax (Rmax (1023 - 0) (0 - 0)) (Rmax_list (map pu ps) - 0) = 1023) by (eval_minmax; lra).
    rewrite S. f_equal; [f_equal|]; apply to_long_eq; try lia; try lra. }
  rewrite L. vm_compute. reflexivity.
Qed.

Lemma seven_arrays : child_arrays seven_codes =
  Some ([4; 6; 1; 4; 9; 3; -1; -1; -1; -1; -1; -1; -1], [5; 7; 8; 11; 10; 4; -1; -1; -1; -1; -1; -1; -1])%Z.
Proof. vm_compute. reflexivity. Qed.

Lemma seven_ascending : ascending seven_codes.
Proof.
  intros i j H. unfold seven_codes in *. cbn [List.length] in H.
  do 7 (destruct i as [|i]; [do 7 (destruct j as [|j]; [cbn [nth]; lia || (exfalso; lia)|]); exfalso; lia|]). exfalso; lia.
Qed.
Lemma seven_nodup : NoDup seven_codes.
Proof. unfold seven_codes. repeat constructor; simpl; lia. Qed.
Lemma seven_thirty : thirty_bit seven_codes.
Proof. intros c H. unfold seven_codes in H. simpl in H. change (2 ^ 30)%Z with 1073741824%Z. lia. Qed.

Definition seven_leaves : list nat := [9; 10; 9; 10; 11; 9; 10]%nat.
Lemma seven_unfold : subtree 6 (fun k => nth k [4; 6; 1; 4; 9; 3; -1; -1; -1; -1; -1; -1; -1]%Z (-1)%Z)
   (fun k => nth k [5; 7; 8; 11; 10; 4; -1; -1; -1; -1; -1; -1; -1]%Z (-1)%Z) 0 seven_leaves.
Proof. apply (unfold_subtree 10). vm_compute. reflexivity. Qed.

Theorem seven_not_a_tree : exists corners codes lefts rights,
  morton_codes (/ 10 ^ 6) (map centroid corners) = Ok codes /\ ascending codes /\ NoDup codes
  /\ child_arrays codes = Some (lefts, rights)
  /\ ~ reaches_all_once (List.length codes) (fun k => nth k lefts (-1)%Z) (fun k => nth k rights (-1)%Z).
Proof.
  exists seven, seven_codes. eexists. eexists. split; [apply seven_morton|]. split; [apply seven_ascending|].
  split; [apply seven_nodup|]. split; [apply seven_arrays|].
  intros (leaves & S & P). cbn [List.length seven_codes] in *.
  rewrite (subtree_fun _ _ _ _ _ _ S seven_unfold) in P.
  assert (I : In 6%nat seven_leaves) by (apply (Permutation_in _ (Permutation_sym P)); simpl; auto).
  simpl in I. lia.
Qed.

Theorem seven_filter_drops : exists corners ray, 
  sane_ray ray /\ (0 < List.length corners)%nat /\ r_owner ray <> 0%nat /\ meets ray (corners_box (nth 0 corners []))
  /\ forall sort, sorts sort -> forall fuel, (13 <= fuel)%nat ->
     exists found, filter_primitives sort fuel corners [ray] = Filtered found /\ ~ In 0%nat found.
Proof.
  exists seven. exists {| r_origin := {| pe := 0; pn := 0; pu := -5 |}; r_direction := {| pe := 0; pn := 0; pu := 1 |};
                         r_target_distance := 100; r_owner := 6%nat |}.
  split. { intros f [<-|[<-|[<-|[]]]]; cbn [r_direction pe pn pu]; lra. }
  split. { simpl. lia. } split. { simpl. lia. } split.
  - set (r := {| r_origin := _ |}).
    assert (B : in_box (ray_at r (5 / (1 + / 10 ^ 12))) (corners_box (nth 0 seven []))).
    { assert (K : 0 <= 5 / (1 + / 10 ^ 12) <= 5).
      { split.
        - apply Rmult_le_pos; [lra|]. left. apply Rinv_0_lt_compat. lra.
        - apply Rmult_le_reg_r with (1 + / 10 ^ 12); [lra|]. unfold Rdiv. rewrite Rmult_assoc, Rinv_l by (lra). lra. }
      assert (K2 : 5 / (1 + / 10 ^ 12) * (1 + / 10 ^ 12) = 5) by (field; lra).
      set (k := 5 / (1 + / 10 ^ 12)) in *.
      intros f [<-|[<-|[<-|[]]]]; unfold ray_at, r, seven, square; cbn [nth corners_box map Rmin_list Rmax_list fold_left box_min box_max pe pn pu r_origin r_direction];
      eval_minmax; split; lra. }
    assert (K3 : / 10 ^ 6 < 5 / (1 + / 10 ^ 12) <= 100).
    { split; [apply Rmult_lt_reg_r with (1 + / 10 ^ 12)|apply Rmult_le_reg_r with (1 + / 10 ^ 12)];
      try (unfold Rdiv; rewrite Rmult_assoc, Rinv_l); lra. }
    split; exists (5 / (1 + / 10 ^ 12)); split; auto; simpl r_target_distance; apply K3.
  - intros sort HS fuel HF. unfold filter_primitives. rewrite seven_morton.
    rewrite (sorts_identity sort seven_codes HS seven_ascending seven_nodup).
    destruct (filter_bounded seven_codes _ _ (seq 0 (List.length seven_codes)) (fun p => corners_box (nth p seven []))
       [ {| r_origin := {| pe := 0; pn := 0; pu := -5 |}; r_direction := {| pe := 0; pn := 0; pu := 1 |};
                         r_target_distance := 100; r_owner := 6%nat |} ] fuel seven_leaves seven_thirty ltac:(discriminate) seven_arrays seven_unfold) as (found & E & M).
    { cbn [seven_leaves List.length]. lia. }
    exists found. split; auto. intros I. apply M in I. destruct I as (x & X & Y).
    simpl in X. destruct X as [<-|[<-|[<-|[<-|[<-|[<-|[<-|[]]]]]]]]; cbn in Y; discriminate.
Qed.

(** * Three mirrors in one cell *)
Definition four : list (list point) := [square 0 0; square (1/2) 0; square 0 (1/2); square 1023 0].
Definition four_codes : list Z := [0; 0; 0; 306783376]%Z.
Lemma four_morton : morton_codes (/ 10 ^ 6) (map centroid four) = Ok four_codes.
Proof.
  unfold four. cbn [map]. rewrite !centroid_square.
  set (ps := [_; _; _; _]).
  assert (E1 : Rmin_list (map pe ps) = 0) by (unfold ps; cbn [map Rmin_list fold_left pe]; eval_minmax; auto).
  assert (E2 : Rmax_list (map pe ps) = 1023) by (unfold ps; cbn [map Rmax_list fold_left pe]; eval_minmax; auto).
  assert (N1 : Rmin_list (map pn ps) = 0) by (unfold ps; cbn [map Rmin_list fold_left pn]; eval_minmax; auto).
  assert (N2 : Rmax_list (map pn ps) = 0) by (unfold ps; cbn [map Rmax_list fold_left pn]; eval_minmax; auto).
  assert (U1 : Rmin_list (map pu ps) = 0) by (unfold ps; cbn [map Rmin_list fold_left pu]; eval_minmax; auto).
  assert (U2 : Rmax_list (map pu ps) <= 1023) by (unfold ps; cbn [map Rmax_list fold_left pu]; eval_minmax; lra).
  pose proof (fun p ce cu => grid_cell_1023 ps p ce cu E1 E2 N1 N2 U1 U2) as G.
  unfold morton_codes. unfold ps at 2. cbn [map_res].
  rewrite !(G _ 0%Z 0%Z) by (cbn [pe pn pu]; lia || lra).
  assert (L : grid_cell (/ 10 ^ 6) ps {| pe := 1023; pn := 0; pu := 0 |} = (1022, 0, 0)%Z).
  { unfold grid_cell, grid_scale. rewrite E1, E2, N1, N2, U1. cbn [pe pn pu].
    assert (S : Rmax (Rmax (1023 - 0) (0 - 0)) (Rmax_list (map pu ps) - 0) = 1023) by (eval_minmax; lra).
    rewrite S. f_equal; [f_equal|]; apply to_long_eq; try lia; try lra. }
  rewrite L. vm_compute. reflexivity.
Qed.
Lemma four_arrays : child_arrays four_codes = Some ([2; 0; 1; -1; -1; -1; -1], [6; 4; 5; -1; -1; -1; -1])%Z.
Proof. vm_compute. reflexivity. Qed.

(** As long as a node of a cycle is on the stack, the depth computation goes on. *)
Lemma cycle_depth : forall (cyc : nat -> Prop) l r,
  (forall k, cyc k -> exists c, cyc c /\ (l k = Z.of_nat c \/ r k = Z.of_nat c)) ->
  forall fuel stack md, (exists k e, In (k, e) stack /\ cyc k) -> max_depth_loop fuel l r stack md = None.
Proof.
  intros cyc l r H. induction fuel; intros stack md (k & e & I & C).
  - destruct stack as [|[x d] stack]; [destruct I|auto].
  - destruct stack as [|[x d] stack]; [destruct I|]. cbn [max_depth_loop]. apply IHfuel.
    destruct I as [I|I].
    + injection I as -> ->. destruct (H k C) as (c & Cc & [E|E]); rewrite E.
      * exists c, (S e). split; auto. destruct (Z.leb_spec 0 (Z.of_nat c)); [|lia]. rewrite Nat2Z.id.
        destruct (0 <=? r k)%Z; simpl; auto.
      * exists c, (S e). split; auto. destruct (Z.leb_spec 0 (Z.of_nat c)); [|lia]. rewrite Nat2Z.id. simpl. auto.
    + exists k, e. split; auto. destruct (0 <=? r x)%Z; destruct (0 <=? l x)%Z; simpl; auto.
Qed.

Lemma four_sorted : forall sort, sorts sort -> fst (sort four_codes) = four_codes.
Proof.
  intros sort H. specialize (H four_codes). destruct (sort four_codes) as [s o]. destruct H as (P & E & A). simpl.
  assert (A4 : ascending four_codes).
  { intros i j Hij. unfold four_codes in *. cbn [List.length] in Hij.
    do 4 (destruct i as [|i]; [do 4 (destruct j as [|j]; [cbn [nth]; lia || (exfalso; lia)|]); exfalso; lia|]). exfalso; lia. }
  apply ascending_unique; auto. rewrite E.
  change four_codes with (map (fun i => nth i four_codes 0%Z) (seq 0 4)) at 2. apply Permutation_map. auto.
Qed.

Theorem four_never_ends : exists corners rays, forall sort, sorts sort ->
  forall fuel, filter_primitives sort fuel corners rays = FilterNoFuel.
Proof.
  exists four, []. intros sort HS fuel. unfold filter_primitives. rewrite four_morton.
  pose proof (four_sorted sort HS) as FS. destruct (sort four_codes) as [s o]. simpl in FS. subst s.
  unfold lbvh_filter. cbn [List.length four_codes Nat.eqb]. fold four_codes.
  destruct (build_spec four_codes _ _ o (fun p => corners_box (nth p four [])) four_arrays) as (h & E & HL & HR & _).
  rewrite E. unfold max_depth. rewrite (cycle_depth (fun k => (k < 3)%nat)); auto.
  - intros k Hk. rewrite HL, HR. destruct k as [|[|[|k]]]; simpl; [exists 2%nat|exists 0%nat|exists 1%nat|lia]; split; auto; lia.
  - exists 0%nat, 1%nat. simpl. split; [auto|lia].
Qed.

(** * Example with two mirrors *)
Definition example_ray : ray :=
  {| r_origin := {| pe := 0; pn := 0; pu := -5 |}; r_direction := {| pe := 0; pn := 0; pu := 1 |};
     r_target_distance := 100; r_owner := 1%nat |}.
Lemma example_sane : sane_ray example_ray.
Proof. intros f [<-|[<-|[<-|[]]]]; cbn [example_ray r_direction pe pn pu]; lra. Qed.
Lemma example_meets : meets example_ray (corners_box (square 0 0)).
Proof.
  assert (B : in_box (ray_at example_ray (5 / (1 + / 10 ^ 12))) (corners_box (square 0 0))).
  { assert (K : 0 <= 5 / (1 + / 10 ^ 12) <= 5) by lra.
    assert (K2 : 5 / (1 + / 10 ^ 12) * (1 + / 10 ^ 12) = 5) by (field; lra).
    set (k := 5 / (1 + / 10 ^ 12)) in *.
    intros f [<-|[<-|[<-|[]]]]; unfold ray_at, example_ray, square; cbn [nth corners_box map Rmin_list Rmax_list fold_left box_min box_max pe pn pu r_origin r_direction];
    eval_minmax; split; lra. }
  split; exists (5 / (1 + / 10 ^ 12)); split; auto; simpl r_target_distance; lra.
Qed.
Lemma box_hit_case :
  let r := {| r_origin := {| pe := 0; pn := 0; pu := -5 |}; r_direction := {| pe := 0; pn := 0; pu := 1 |};
              r_target_distance := 100; r_owner := 1%nat |} in
  sane_ray r /\ proper_box (corners_box (square 0 0)) /\ box_hit r (corners_box (square 0 0)) = true.
Proof.
  intros r. split; [apply example_sane|]. split; [apply corners_box_proper|].
  apply box_hit_meets; [apply example_sane|apply corners_box_proper|apply example_meets].
Qed.
Lemma two_mirrors_case : forall sort, sorts sort ->
  let corners := [square 0 0; square 1023 0] in
  let ray := {| r_origin := {| pe := 0; pn := 0; pu := -5 |}; r_direction := {| pe := 0; pn := 0; pu := 1 |};
                r_target_distance := 100; r_owner := 1%nat |} in
  exists found, filter_primitives sort 9 corners [ray] = Filtered found /\ In 0%nat found /\ ~ In 1%nat found.
Proof.
  intros sort HS corners ray.
  destruct (morton_codes_spec (/ 10 ^ 6) (map centroid corners)) as (codes & E & L & _).
  { lra. }
  destruct (five_mirrors_exact sort corners [ray] 9 codes HS) as (found & F & _ & M); auto.
  - discriminate.
  - intros c. unfold prefix_count. assert (G : (List.length (filter (fun c0 => Z.eqb (Z.shiftr c0 (30 - 30)) c) codes) <= List.length codes)%nat).
    { generalize (fun c0 => Z.eqb (Z.shiftr c0 (30 - 30)) c). intros f. clear. induction codes; simpl; auto. destruct (f a); simpl; lia. }
    rewrite L in G. change (List.length (map centroid corners)) with 2%nat in G. lia.
  - intros r [<-|[]]. apply example_sane.
  - exists found. split; auto. split.
    + apply M. split; [cbn; lia|]. exists ray. split; [left; auto|]. split; [discriminate|]. apply example_meets.
    + intros I. apply M in I. destruct I as (_ & r & [<-|[]] & N & _). apply N. reflexivity.
Qed.
