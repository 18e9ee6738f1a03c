(** Proofs for C133: three mirrors in one Morton cell. *)
From Coq Require Import List Arith ZArith Reals Bool Lia Lra Permutation.
From Verif Require Import RealSums ModelField SpecField ModelVectors ProofsVectors ModelLBVH SpecLBVH ProofsMorton ProofsRadix ProofsTraversal ProofsLBVHRefuted ModelBlocking SpecBlocking ProofsBlocking
  ProofsBlockingTracer ModelTrace SpecOrder.
Import ListNotations.
Local Open Scope R_scope.

(** Filtering with any finite unfolding of the child arrays finds exactly the met mirrors that the root reaches. *)
Lemma filter_reached : forall codes lefts rights order pb rays fuel leaves,
  thirty_bit codes -> codes <> [] -> child_arrays codes = Some (lefts, rights) ->
  subtree (List.length codes - 1) (fun k => nth k lefts (-1)%Z) (fun k => nth k rights (-1)%Z) 0 leaves ->
  (forall p, proper_box (pb p)) -> (2 * List.length leaves - 1 <= fuel)%nat ->
  exists found, lbvh_filter fuel codes order pb rays = Filtered (filter (fun p => existsb (Nat.eqb p) found) (seq 0 (List.length codes)))
    /\ forall p, In p found <-> exists r x, In r rays /\ In x leaves /\ nth (x - (List.length codes - 1)) order 0%nat = p /\ box_hit r (pb p) = true /\ r_owner r <> p.
Proof.
  intros codes ls rs order pb rays fuel leaves B NE CA SB PB HF. set (n := List.length codes) in *.
  assert (n <> 0)%nat by (unfold n; destruct codes; simpl; congruence).
  unfold lbvh_filter. fold n. destruct (Nat.eqb_spec n 0); [lia|].
  destruct (build_spec codes ls rs order pb CA) as (h & E & HL & HR & Lf & HP & HB & Hull). rewrite E. fold n in Lf, HP, HB, Hull.
  assert (S' : subtree (n - 1) (h_left h) (h_right h) 0 leaves) by (revert SB; apply subtree_ext; auto).
  destruct (subtree_dtree _ _ _ _ _ S') as (d & D).
  pose proof (dtree_depth _ _ _ _ _ _ D) as Dd.
  assert (EM : forall f md, max_depth_loop f (h_left h) (h_right h) [] md = Some md) by (intros []; auto).
  assert (MD : max_depth fuel h = Some d).
  { unfold max_depth. replace fuel with (fuel - (2 * List.length leaves - 1) + (2 * List.length leaves - 1))%nat by lia.
    rewrite (max_depth_tree (n - 1) (h_left h) (h_right h) 0%nat leaves d D).
    - rewrite EM. f_equal. lia.
    - intros j Hj. rewrite HL, HR. destruct (leaf_children codes ls rs B CA j Hj) as [-> ->]. lia. }
  rewrite MD.
  destruct (traverse_all_spec rays d h (n - 1) (List.length leaves) d fuel [] leaves D eq_refl eq_refl) as (m & Em & Mm); auto.
  - intros j. symmetry. apply Lf.
  - intros r j jl x Sj Hx Hit. apply (hull_monotone_hit r (h_boxes h j) _ (h_boxes h x) (Hull j jl Sj)); auto.
    + rewrite HB by (eapply subtree_leaves; eauto). apply in_map_iff. exists x. auto.
    + rewrite HB by (eapply subtree_leaves; eauto). apply PB.
  - rewrite Em. exists m. split; auto. intros p. rewrite Mm. split.
    + intros [[]|(r & x & X1 & X2 & X3 & X4 & X5)]. exists r, x. rewrite <- HP.
      rewrite HB in X3 by (eapply subtree_leaves; eauto). rewrite X4 in X3. auto.
    + intros (r & x & X1 & X2 & X3 & X4 & X5). right. exists r, x. rewrite <- HP in X3.
      rewrite HB by (eapply subtree_leaves; eauto). rewrite X3. auto.
Qed.

(** ** Twelve mirrors, three of them in one cell *)
Definition twelve (x y z : list point) : list (list point) :=
  [ square (7/2) (13/2); x; y; z; square (5/2) (19/2); square (13/4) (37/4); square (15/4) (39/4); square 0 (49/4); square (1/2) (51/4);
    square (1/2) (27/2); square (7/4) (31/2); square 1023 0 ].
Definition twelve_codes : list Z := [90; 515; 515; 515; 529; 531; 531; 576; 576; 577; 587; 306783376]%Z.
(** Three mirrors of one cell; a vertical ray at e = 6/5 meets the first only. *)
Definition mirror_x : list point := square (13/10) (19/2).
Definition mirror_y : list point := square (17/10) (46/5).
Definition mirror_z : list point := square (17/10) (49/5).
Definition side_ray : ray :=
  {| r_origin := {| pe := 6/5; pn := 0; pu := 5 |}; r_direction := {| pe := 0; pn := 0; pu := 1 |}; r_target_distance := 100; r_owner := 11%nat |}.

Lemma min_is : forall l m, In m l -> (forall x, In x l -> m <= x) -> Rmin_list l = m.
Proof. intros l m I H. apply Rle_antisym; [apply Rmin_list_le; auto|]. apply H, Rmin_list_in. intros ->. destruct I. Qed.
Lemma max_is : forall l m, In m l -> (forall x, In x l -> x <= m) -> Rmax_list l = m.
Proof. intros l m I H. apply Rle_antisym; [|apply Rmax_list_ge; auto]. apply H, Rmax_list_in. intros ->. destruct I. Qed.
Lemma twelve_morton : forall e1 u1 e2 u2 e3 u3, 11/10 <= e1 <= 19/10 -> 91/10 <= u1 <= 99/10 -> 11/10 <= e2 <= 19/10 -> 91/10 <= u2 <= 99/10 ->
  11/10 <= e3 <= 19/10 -> 91/10 <= u3 <= 99/10 ->
  morton_codes (/ 10 ^ 6) (map centroid (twelve (square e1 u1) (square e2 u2) (square e3 u3))) = Ok twelve_codes.
Proof.
  intros e1 u1 e2 u2 e3 u3 H1 H2 H3 H4 H5 H6. unfold twelve. cbn [map]. rewrite !centroid_square. set (ps := _ :: _).
  assert (E1 : Rmin_list (map pe ps) = 0) by (apply min_is; [simpl; tauto|intros x I; simpl in I; repeat (destruct I as [<-|I]; [lra|]); destruct I]).
  assert (E2 : Rmax_list (map pe ps) = 1023) by (apply max_is; [simpl; tauto|intros x I; simpl in I; repeat (destruct I as [<-|I]; [lra|]); destruct I]).
  assert (N1 : Rmin_list (map pn ps) = 0) by (apply min_is; [simpl; tauto|intros x I; simpl in I; repeat (destruct I as [<-|I]; [lra|]); destruct I]).
  assert (N2 : Rmax_list (map pn ps) = 0) by (apply max_is; [simpl; tauto|intros x I; simpl in I; repeat (destruct I as [<-|I]; [lra|]); destruct I]).
  assert (U1 : Rmin_list (map pu ps) = 0) by (apply min_is; [simpl; tauto|intros x I; simpl in I; repeat (destruct I as [<-|I]; [lra|]); destruct I]).
  assert (U2 : Rmax_list (map pu ps) <= 1023).
  { assert (I : In (Rmax_list (map pu ps)) (map pu ps)) by (apply Rmax_list_in; discriminate). generalize dependent (Rmax_list (map pu ps)). intros x I. simpl in I. repeat (destruct I as [<-|I]; [lra|]); destruct I. }
  pose proof (fun p ce cu => grid_cell_1023 ps p ce cu E1 E2 N1 N2 U1 U2) as G.
  unfold morton_codes. unfold ps at 2. cbn [map_res].
  rewrite (G {| pe := 7/2; pn := 0; pu := 13/2 |} 3%Z 6%Z) by (cbn [pe pn pu]; lia || lra).
  rewrite (G {| pe := e1; pn := 0; pu := u1 |} 1%Z 9%Z) by (cbn [pe pn pu]; lia || lra).
  rewrite (G {| pe := e2; pn := 0; pu := u2 |} 1%Z 9%Z) by (cbn [pe pn pu]; lia || lra).
  rewrite (G {| pe := e3; pn := 0; pu := u3 |} 1%Z 9%Z) by (cbn [pe pn pu]; lia || lra).
  rewrite (G {| pe := 5/2; pn := 0; pu := 19/2 |} 2%Z 9%Z) by (cbn [pe pn pu]; lia || lra).
  rewrite (G {| pe := 13/4; pn := 0; pu := 37/4 |} 3%Z 9%Z) by (cbn [pe pn pu]; lia || lra).
  rewrite (G {| pe := 15/4; pn := 0; pu := 39/4 |} 3%Z 9%Z) by (cbn [pe pn pu]; lia || lra).
  rewrite (G {| pe := 0; pn := 0; pu := 49/4 |} 0%Z 12%Z) by (cbn [pe pn pu]; lia || lra).
  rewrite (G {| pe := 1/2; pn := 0; pu := 51/4 |} 0%Z 12%Z) by (cbn [pe pn pu]; lia || lra).
  rewrite (G {| pe := 1/2; pn := 0; pu := 27/2 |} 0%Z 13%Z) by (cbn [pe pn pu]; lia || lra).
  rewrite (G {| pe := 7/4; pn := 0; pu := 31/2 |} 1%Z 15%Z) by (cbn [pe pn pu]; lia || lra).
  assert (L : grid_cell (/ 10 ^ 6) ps {| pe := 1023; pn := 0; pu := 0 |} = (1022, 0, 0)%Z).
  { unfold grid_cell, grid_scale. rewrite E1, E2, N1, N2, U1. cbn [pe pn pu].
    assert (S : Rmax (Rmax (1023 - 0) (0 - 0)) (Rmax_list (map pu ps) - 0) = 1023) by (eval_minmax; lra).
    rewrite S. f_equal; [f_equal|]; apply to_long_eq; try lia; try lra. }
  rewrite L. clear. vm_compute. reflexivity.
Qed.
Definition twelve_lefts : list Z := ([10; 6; 1; 2; 15; 16; 4; 9; 18; 8; 1] ++ repeat (-1) 12)%Z.
Definition twelve_rights : list Z := ([22; 7; 13; 14; 5; 17; 5; 21; 19; 20; 2] ++ repeat (-1) 12)%Z.
Lemma twelve_arrays : child_arrays twelve_codes = Some (twelve_lefts, twelve_rights).
Proof. vm_compute. reflexivity. Qed.
Lemma twelve_ascending : ascending twelve_codes.
Proof.
  intros i j H. unfold twelve_codes in *. cbn [List.length] in H.
  do 12 (destruct i as [|i]; [do 12 (destruct j as [|j]; [cbn [nth]; lia || (exfalso; lia)|]); exfalso; lia|]). exfalso; lia.
Qed.
Lemma twelve_thirty : thirty_bit twelve_codes.
Proof. intros c H. unfold twelve_codes in H. simpl in H. change (2 ^ 30)%Z with 1073741824%Z. lia. Qed.
Lemma twelve_leaves : exists leaves, subtree 11 (fun k => nth k twelve_lefts (-1)%Z) (fun k => nth k twelve_rights (-1)%Z) 0 leaves
  /\ List.length leaves = 20%nat /\ In 13%nat leaves /\ forall x, In x leaves -> x = 13%nat \/ (15 <= x <= 22)%nat.
Proof.
  eexists. split; [apply (unfold_subtree 20); vm_compute; reflexivity|]. split; [reflexivity|]. split; [simpl; tauto|].
  intros x I. simpl in I. lia.
Qed.
(** Sorting keeps the codes; the mirror it puts at place 2 is one of the three. *)
Lemma twelve_sorted : forall sort, sorts sort -> exists order q, sort twelve_codes = (twelve_codes, order) /\ nth 2 order 0%nat = q /\ (1 <= q <= 3)%nat
  /\ forall i, (i = 2 \/ 4 <= i <= 11)%nat -> (1 <= nth i order 0%nat <= 3)%nat -> nth i order 0%nat = q.
Proof.
  intros sort HS. specialize (HS twelve_codes). destruct (sort twelve_codes) as [s o]. destruct HS as (P & E & A).
  assert (ES : s = twelve_codes).
  { apply ascending_unique; auto using twelve_ascending. rewrite E.
    change twelve_codes with (map (fun i => nth i twelve_codes 0%Z) (seq 0 12)) at 2. apply Permutation_map. auto. }
  rewrite ES in E |- *. clear ES A s. exists o, (nth 2 o 0%nat). split; [auto|]. split; [auto|].
  assert (LO : List.length o = 12%nat) by (apply Permutation_length in P; rewrite seq_length in P; auto).
  assert (N : forall i, (i < 12)%nat -> nth (nth i o 0%nat) twelve_codes 0%Z = nth i twelve_codes 0%Z /\ (nth i o 0 < 12)%nat).
  { intros i I. split.
    - transitivity (nth i (map (fun j => nth j twelve_codes 0%Z) o) 0%Z); [|rewrite <- E; auto]. rewrite (nth_indep (map _ o) 0%Z (nth 0%nat twelve_codes 0%Z)) by (rewrite map_length; lia). symmetry. apply (map_nth (fun i => nth i twelve_codes 0%Z)).
    - assert (J : In (nth i o 0%nat) o) by (apply nth_In; lia). apply (Permutation_in _ P) in J. apply in_seq in J. cbn in J. lia. }
  split.
  - destruct (N 2%nat) as (N1 & N2); [lia|]. cbn [nth twelve_codes] in N1. revert N1 N2. generalize (nth 2 o 0%nat). intros q N1 N2.
    do 12 (destruct q as [|q]; [cbn in N1; try discriminate; lia|]). lia.
  - intros i [->|I] B; auto. destruct (N i) as (N1 & N2); [lia|]. exfalso. revert N1 B. generalize (nth i o 0%nat). intros q N1 B. clear - N1 B I.
    assert (Q : nth q twelve_codes 0%Z = 515%Z) by (destruct q as [|[|[|[|q]]]]; try lia; reflexivity). rewrite Q in N1.
    do 4 (destruct i as [|i]; [lia|]). do 8 (destruct i as [|i]; [cbn in N1; discriminate|]). lia.
Qed.

(** The vertical ray meets the box of the first mirror only. *)
Lemma side_sane : sane_ray side_ray.
Proof. intros f [<-|[<-|[<-|[]]]]; cbn [side_ray r_direction pe pn pu]; lra. Qed.
Lemma side_meets : meets side_ray (corners_box mirror_x).
Proof.
  assert (B : in_box (ray_at side_ray ((9/2) / (1 + / 10 ^ 12))) (corners_box mirror_x)).
  { assert (K : 0 <= (9/2) / (1 + / 10 ^ 12) <= 9/2) by lra.
    assert (K2 : (9/2) / (1 + / 10 ^ 12) * (1 + / 10 ^ 12) = 9/2) by (field; lra).
    set (k := (9/2) / (1 + / 10 ^ 12)) in *.
    intros f [<-|[<-|[<-|[]]]]; unfold ray_at, side_ray, mirror_x, square; cbn [nth corners_box map Rmin_list Rmax_list fold_left box_min box_max pe pn pu r_origin r_direction];
    eval_minmax; split; lra. }
  split; exists ((9/2) / (1 + / 10 ^ 12)); split; auto; simpl r_target_distance; lra.
Qed.
Lemma side_misses : forall e u, e <= 9/10 \/ 3/2 <= e -> 0 <= u <= 100 -> ~ meets side_ray (corners_box (square e u)).
Proof.
  intros e u HE HU ((t & T & IB) & _).
  specialize (IB pe (or_introl eq_refl)) as Q1. specialize (IB pu (or_intror (or_intror (or_introl eq_refl)))) as Q2.
  revert Q1 Q2. unfold ray_at, side_ray, square; cbn [nth corners_box map Rmin_list Rmax_list fold_left box_min box_max pe pn pu r_origin r_direction].
  eval_minmax. intros Q1 Q2. assert (-100 <= t <= 100) by (split; nra). lra.
Qed.
Lemma side_regular : forall e u, regular_for (/ 10 ^ 12) (r_direction side_ray) (primitive_of_corners (square e u)).
Proof. intros. apply up_regular. Qed.
Lemma side_crosses : crosses_at (r_origin side_ray) (r_direction side_ray) (primitive_of_corners mirror_x) (9/2) (3/10) (1/2).
Proof.
  unfold mirror_x. rewrite square_primitive. unfold crosses_at, side_ray. cbn [r_origin r_direction corner0 span_u span_v].
  vunfold. apply point_eq; cbn [pe pn pu]; lra.
Qed.

(** The place of the first mirror among the three decides. *)
Definition listing (p : nat) : list (list point) :=
  match p with
  | 1%nat => twelve mirror_x mirror_y mirror_z
  | 2%nat => twelve mirror_y mirror_x mirror_z
  | _ => twelve mirror_y mirror_z mirror_x
  end.
Lemma listing_place : forall p k, (1 <= p <= 3)%nat -> (k < 12)%nat -> meets side_ray (corners_box (nth k (listing p) [])) <-> k = p.
Proof.
  intros p k HP HK. split.
  - intros M. destruct (Nat.eq_dec k p) as [|NE]; auto. exfalso. revert M.
    destruct p as [|[|[|[|p]]]]; try lia; cbn [listing]; do 12 (destruct k as [|k]; [cbn [nth twelve]; try lia; apply side_misses; lra|]); lia.
  - intros ->. destruct p as [|[|[|[|p]]]]; try lia; exact side_meets.
Qed.
Lemma listing_codes : forall p, morton_codes (/ 10 ^ 6) (map centroid (listing p)) = Ok twelve_codes.
Proof. intros [|[|[|p]]]; apply twelve_morton; lra. Qed.
Lemma listing_regular : forall p k, (k < 12)%nat -> regular_for (/ 10 ^ 12) (r_direction side_ray) (primitive_of_corners (nth k (listing p) [])).
Proof. intros p k HK. destruct p as [|[|[|p]]]; cbn [listing]; do 12 (destruct k as [|k]; [apply side_regular|]); lia. Qed.
Lemma listing_length : forall p, List.length (listing p) = 12%nat.
Proof. intros [|[|[|p]]]; auto. Qed.
Theorem listing_blocked : forall sort, sorts sort -> exists q, (1 <= q <= 3)%nat /\ forall p fuel, (1 <= p <= 3)%nat -> (39 <= fuel)%nat ->
  exists b, batch_blocked sort fuel (listing p) [side_ray] = Blocked [Some b] /\ (p = q -> 3/4 <= b) /\ (p <> q -> b = 0).
Proof.
  intros sort HS. destruct (twelve_sorted sort HS) as (order & q & SE & Q & QB & U). exists q. split; auto. intros p fuel HP HF.
  destruct twelve_leaves as (leaves & SB & LL & I13 & LV).
  destruct (filter_reached twelve_codes _ _ order (fun k => corners_box (nth k (listing p) [])) [side_ray] fuel leaves twelve_thirty ltac:(discriminate) twelve_arrays SB) as (m & E & M).
  { intros k. apply corners_box_proper. } { lia. }
  set (found := filter (fun p => existsb (Nat.eqb p) m) (seq 0 (List.length twelve_codes))) in *.
  assert (F : filter_primitives sort fuel (listing p) [side_ray] = Filtered found) by (unfold filter_primitives; rewrite listing_codes, SE; exact E).
  assert (FI : forall k, In k found <-> k = p /\ p = q).
  { intros k. unfold found. rewrite filter_In, in_seq, existsb_exists. change (List.length twelve_codes) with 12%nat in *. split.
    - intros (B & k' & I & EQ). apply Nat.eqb_eq in EQ. subst k'. apply M in I. destruct I as (r & x & [<-|[]] & X & N & H & O).
      apply box_hit_meets in H; auto using side_sane, corners_box_proper. apply listing_place in H; try lia. subst k. split; auto.
      destruct (LV x X) as [->|XB]; [rewrite <- H; exact Q|]. rewrite <- H. apply (U (x - 11)%nat); [lia|]. cbn in H. rewrite H. lia.
    - intros (-> & PQ). split; [lia|]. exists p. split; [|apply Nat.eqb_refl]. apply M. exists side_ray, 13%nat. split; [left; auto|]. split; auto. split; [cbn; congruence|].
      split; [|cbn; lia]. apply box_hit_meets; auto using side_sane, corners_box_proper. apply listing_place; lia. }
  unfold batch_blocked. rewrite F. destruct (Nat.eq_dec p q) as [PQ|PQ].
  - destruct found as [|f0 found']; [exfalso; assert (I : In p []) by (apply FI; auto); destruct I|].
    set (ps := map (fun p0 => primitive_of_corners (nth p0 (listing p) [])) (f0 :: found')).
    destruct (soft_mask_blocks (/ 10 ^ 12) 1000 100 (5/100) (r_origin side_ray) (r_direction side_ray) ps (primitive_of_corners mirror_x) (9/2) (3/10) (1/2) 0) as (b & B & K); try lra.
    + intros x X. apply in_map_iff in X. destruct X as (k & <- & I). apply FI in I. destruct I as (-> & _). apply listing_regular. lia.
    + apply in_map_iff. exists p. split; [|apply FI; auto]. destruct p as [|[|[|[|p]]]]; try lia; reflexivity.
    + exact side_crosses.
    + unfold clearly_blocks. lra.
    + exists b. cbn [map]. unfold traced_mask. rewrite B. split; auto. split; [intros _|congruence].
      rewrite Rmult_0_r, sigmoid_half in K. replace (100 * (/ 2) ^ 5) with (100 * / 32) in K by field. pose proof exp_minus_3. lra.
  - destruct found as [|f0 found'].
    + exists 0. cbn [map]. split; auto. split; [congruence|auto].
    + exfalso. destruct (proj1 (FI f0) (or_introl eq_refl)) as (_ & X). contradiction.
Qed.
Lemma listing_relisted : forall p p', (1 <= p <= 3)%nat -> (1 <= p' <= 3)%nat -> exists perm, relisted perm (listing p) (listing p') /\ nth_error perm 11 = Some 11%nat.
Proof.
  intros p p' HP HP'.
  assert (C : forall a b c : nat, Permutation [a; b; c] [1; 2; 3]%nat ->
    nth_error (listing p') 1 = nth_error (listing p) a -> nth_error (listing p') 2 = nth_error (listing p) b -> nth_error (listing p') 3 = nth_error (listing p) c ->
    exists perm, relisted perm (listing p) (listing p') /\ nth_error perm 11 = Some 11%nat).
  { intros a b c P N1 N2 N3. exists (0%nat :: [a; b; c] ++ seq 4 8). split; [|reflexivity]. split; [|split; [rewrite !listing_length; auto|]].
    - rewrite listing_length. change (seq 0 12) with (0%nat :: [1; 2; 3]%nat ++ seq 4 8). constructor. apply Permutation_app_tail. auto.
    - intros k j E. destruct k as [|[|[|[|k]]]].
      + injection E as <-. destruct p as [|[|[|[|p]]]]; try lia; destruct p' as [|[|[|[|p']]]]; try lia; reflexivity.
      + injection E as <-. auto.
      + injection E as <-. auto.
      + injection E as <-. auto.
      + do 8 (destruct k as [|k]; [injection E as <-; destruct p as [|[|[|[|p]]]]; try lia; destruct p' as [|[|[|[|p']]]]; try lia; reflexivity|]). destruct k; discriminate. }
  assert (P1 : Permutation [2; 1; 3]%nat [1; 2; 3]%nat) by constructor.
  assert (P2 : Permutation [1; 3; 2]%nat [1; 2; 3]%nat) by (constructor; constructor).
  assert (P3 : Permutation [2; 3; 1]%nat [1; 2; 3]%nat) by (apply Permutation_sym, (Permutation_cons_append [2; 3]%nat 1%nat)).
  assert (P4 : Permutation [3; 1; 2]%nat [1; 2; 3]%nat) by (apply (Permutation_cons_append [1; 2]%nat 3%nat)).
  destruct p as [|[|[|[|p]]]]; try lia; destruct p' as [|[|[|[|p']]]]; try lia.
  - apply (C 1 2 3)%nat; reflexivity.
  - apply (C 2 1 3)%nat; auto.
  - apply (C 2 3 1)%nat; auto.
  - apply (C 2 1 3)%nat; auto.
  - apply (C 1 2 3)%nat; reflexivity.
  - apply (C 1 3 2)%nat; auto.
  - apply (C 3 1 2)%nat; auto.
  - apply (C 1 3 2)%nat; auto.
  - apply (C 1 2 3)%nat; reflexivity.
Qed.
Theorem same_cell_order : forall sort, sorts sort -> exists perm corners corners' r, relisted perm corners corners' /\ sane_ray r
  /\ (r_owner r < List.length corners)%nat /\ nth_error perm (r_owner r) = Some (r_owner r)
  /\ forall fuel, (39 <= fuel)%nat -> exists b, batch_blocked sort fuel corners [r] = Blocked [Some 0] /\ batch_blocked sort fuel corners' [r] = Blocked [Some b] /\ 3/4 <= b.
Proof.
  intros sort HS. destruct (listing_blocked sort HS) as (q & QB & H).
  assert (EP : exists p, (1 <= p <= 3)%nat /\ p <> q) by (destruct (Nat.eq_dec q 1); [exists 2%nat|exists 1%nat]; lia). destruct EP as (p & PB & PQ).
  destruct (listing_relisted p q PB QB) as (perm & RL & PO). exists perm, (listing p), (listing q), side_ray.
  split; auto. split; [apply side_sane|]. split; [rewrite listing_length; cbn; lia|]. split; auto. intros fuel HF.
  destruct (H p fuel PB HF) as (b & B & _ & Z). destruct (H q fuel QB HF) as (b' & B' & G & _). exists b'. rewrite B, B', (Z PQ). auto.
Qed.
