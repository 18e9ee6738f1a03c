From Coq Require Import List Arith ZArith Reals Bool Lia Lra.
From Verif Require Import RealSums ModelField ModelSplatting ModelLBVH SpecLBVH ProofsSplatting.
Import ListNotations.
Local Open Scope Z_scope.

(** * Bit expansion *)
Definition expand_ok (x : Z) : bool :=
  match expand_bits x with
  | Ok y => (0 <=? y) && (y <? 2^28) &&
            forallb (fun k => let k := Z.of_nat k in
              Bool.eqb (Z.testbit y (3*k)) (Z.testbit x k) && negb (Z.testbit y (3*k+1)) && negb (Z.testbit y (3*k+2)))
              (seq 0 10)
  | Err _ => false
  end.

Lemma expand_ok_all : forallb expand_ok (map Z.of_nat (seq 0 1024)) = true.
Proof. vm_compute. reflexivity. Qed.

Lemma testbit_above : forall x m k, 0 <= x < 2^m -> 0 <= m <= k -> Z.testbit x k = false.
Proof.
  intros x m k H Hk. destruct (Z.eq_dec x 0) as [->|N]; [apply Z.bits_0|].
  apply Z.bits_above_log2; [lia|]. apply Z.log2_lt_pow2; [lia|].
  apply Z.lt_le_trans with (2^m); [lia|]. apply Z.pow_le_mono_r; lia.
Qed.

Lemma expand_bits_spec : forall x, 0 <= x <= 1023 ->
  exists y, expand_bits x = Ok y /\ 0 <= y < 2^28
    /\ forall k, 0 <= k -> Z.testbit y (3*k) = Z.testbit x k
                          /\ Z.testbit y (3*k+1) = false /\ Z.testbit y (3*k+2) = false.
Proof.
  intros x Hx.
  assert (H : expand_ok x = true).
  { pose proof expand_ok_all as A. rewrite forallb_forall in A. apply A.
    apply in_map_iff. exists (Z.to_nat x). rewrite Z2Nat.id by lia. split; auto. apply in_seq. lia. }
  unfold expand_ok in H. destruct (expand_bits x) as [y|]; [|discriminate].
  rewrite !andb_true_iff, Z.leb_le, Z.ltb_lt, forallb_forall in H. destruct H as [[H1 H2] H3].
  exists y. split; auto. split; [lia|]. intros k Hk.
  destruct (Z.lt_ge_cases k 10) as [L|L].
  - specialize (H3 (Z.to_nat k)). rewrite Z2Nat.id in H3 by lia.
    assert (I : In (Z.to_nat k) (seq 0 10)) by (apply in_seq; lia). specialize (H3 I).
    rewrite !andb_true_iff, !negb_true_iff, eqb_true_iff in H3. tauto.
  - rewrite (testbit_above x 10 k) by lia.
    rewrite !(testbit_above y 28) by lia. auto.
Qed.

Lemma expand_bits_reject : forall x, ~ (0 <= x <= 1023) -> expand_bits x = Err ValueError.
Proof.
  intros x H. unfold expand_bits. destruct (Z.ltb_spec x 0); auto. destruct (Z.ltb_spec 1023 x); auto. lia.
Qed.

Lemma wrap32_small : forall x, - 2^31 <= x < 2^31 -> wrap32 x = x.
Proof. intros. unfold wrap32. rewrite Z.mod_small; lia. Qed.

Lemma lor_bound : forall a b n, 0 <= n -> 0 <= a < 2^n -> 0 <= b < 2^n -> 0 <= Z.lor a b < 2^n.
Proof.
  intros a b n Hn Ha Hb. split; [apply Z.lor_nonneg; lia|].
  destruct (Z.eq_dec (Z.lor a b) 0) as [->|N]; [lia|].
  assert (0 <= Z.lor a b) by (apply Z.lor_nonneg; lia).
  apply Z.log2_lt_pow2; [lia|]. rewrite Z.log2_lor by lia.
  apply Z.max_lub_lt.
  - destruct (Z.eq_dec a 0) as [->|]; [|apply Z.log2_lt_pow2; lia].
    destruct (Z.eq_dec n 0); [subst; simpl in *; replace b with 0 in * by lia; simpl in N; lia|simpl; lia].
  - destruct (Z.eq_dec b 0) as [->|]; [|apply Z.log2_lt_pow2; lia].
    destruct (Z.eq_dec n 0); [subst; simpl in *; replace a with 0 in * by lia; simpl in N; lia|simpl; lia].
Qed.

Definition in_cell_range (x : Z) : Prop := 0 <= x <= 1023.

Lemma morton_of_cell_spec : forall e n u, in_cell_range e -> in_cell_range n -> in_cell_range u ->
  exists c, morton_of_cell e n u = Ok c /\ 0 <= c < 2^30
    /\ forall k, 0 <= k -> Z.testbit c (3*k+2) = Z.testbit n k
                          /\ Z.testbit c (3*k+1) = Z.testbit e k
                          /\ Z.testbit c (3*k) = Z.testbit u k.
Proof.
  intros e n u He Hn Hu. unfold morton_of_cell.
  destruct (expand_bits_spec u Hu) as (yu & -> & Bu & Tu).
  destruct (expand_bits_spec e He) as (ye & -> & Be & Te).
  destruct (expand_bits_spec n Hn) as (yn & -> & Bn & Tn). cbn [bind].
  unfold shl32. rewrite !wrap32_small by (rewrite Z.shiftl_mul_pow2 by lia; lia).
  eexists. split; [reflexivity|]. split.
  - apply lor_bound; [lia| |lia]. apply lor_bound; [lia| |]; rewrite Z.shiftl_mul_pow2; lia.
  - intros k Hk. rewrite !Z.lor_spec, !Z.shiftl_spec by lia.
    destruct (Tu k Hk) as (U0 & U1 & U2). destruct (Te k Hk) as (E0 & E1 & E2). destruct (Tn k Hk) as (N0 & N1 & N2).
    replace (3 * k + 2 - 2) with (3*k) by lia. replace (3 * k + 2 - 1) with (3*k+1) by lia.
    replace (3 * k + 1 - 1) with (3*k) by lia.
    rewrite U0, U1, U2, E0, E1, N0.
    (* bits below: position 3k+1-2 = 3(k-1)+2, 3k-2 = 3(k-1)+1, 3k-1 = 3(k-1)+2 *)
    assert (P : forall y, (forall k, 0 <= k -> Z.testbit y (3*k+1) = false /\ Z.testbit y (3*k+2) = false) ->
       Z.testbit y (3*k+1-2) = false /\ Z.testbit y (3*k-2) = false /\ Z.testbit y (3*k-1) = false).
    { intros y Hy. destruct (Z.eq_dec k 0) as [->|Nk].
      - repeat split; apply Z.testbit_neg_r; lia.
      - destruct (Hy (k-1) ltac:(lia)) as [H1 H2].
        replace (3*k+1-2) with (3*(k-1)+2) by lia. replace (3*k-2) with (3*(k-1)+1) by lia.
        replace (3*k-1) with (3*(k-1)+2) by lia. auto. }
    destruct (P yn ltac:(intros; destruct (Tn k0 H) as (?&?&?); auto)) as (Q1 & Q2 & Q3).
    destruct (P ye ltac:(intros; destruct (Te k0 H) as (?&?&?); auto)) as (W1 & W2 & W3).
    rewrite Q1, Q2, W3. rewrite !orb_false_r, !orb_false_l. auto.
Qed.

Lemma morton_of_cell_inj : forall e n u e' n' u' c,
  in_cell_range e -> in_cell_range n -> in_cell_range u ->
  in_cell_range e' -> in_cell_range n' -> in_cell_range u' ->
  morton_of_cell e n u = Ok c -> morton_of_cell e' n' u' = Ok c -> (e, n, u) = (e', n', u').
Proof.
  intros e n u e' n' u' c He Hn Hu He' Hn' Hu' H1 H2.
  destruct (morton_of_cell_spec e n u He Hn Hu) as (c1 & E1 & _ & T1).
  destruct (morton_of_cell_spec e' n' u' He' Hn' Hu') as (c2 & E2 & _ & T2).
  rewrite H1 in E1. rewrite H2 in E2. injection E1 as <-. injection E2 as <-.
  assert (X : forall x y, in_cell_range x -> in_cell_range y ->
            (forall k, 0 <= k -> Z.testbit x k = Z.testbit y k) -> x = y).
  { intros x y _ _ Hb. apply Z.bits_inj'. auto. }
  f_equal; [f_equal|]; apply X; auto; intros k Hk; destruct (T1 k Hk) as (A & B & C);
  destruct (T2 k Hk) as (A' & B' & C'); congruence.
Qed.

(** * Cells of centroids *)
Local Open Scope R_scope.
Lemma fold_min_le : forall l x, fold_left Rmin l x <= x /\ forall y, In y l -> fold_left Rmin l x <= y.
Proof.
  induction l; simpl; intros x; [split; [lra|tauto]|].
  destruct (IHl (Rmin x a)) as [H1 H2]. pose proof (Rmin_l x a). pose proof (Rmin_r x a). split; [lra|].
  intros y [->|Hy]; [lra|auto].
Qed.
Lemma fold_max_ge : forall l x, x <= fold_left Rmax l x /\ forall y, In y l -> y <= fold_left Rmax l x.
Proof.
  induction l; simpl; intros x; [split; [lra|tauto]|].
  destruct (IHl (Rmax x a)) as [H1 H2]. pose proof (Rmax_l x a). pose proof (Rmax_r x a). split; [lra|].
  intros y [->|Hy]; [lra|auto].
Qed.
Lemma Rmin_list_le : forall l y, In y l -> Rmin_list l <= y.
Proof. destruct l; simpl; intros y H; [tauto|]. destruct (fold_min_le l r). destruct H; subst; auto. Qed.
Lemma Rmax_list_ge : forall l y, In y l -> y <= Rmax_list l.
Proof. destruct l; simpl; intros y H; [tauto|]. destruct (fold_max_ge l r). destruct H; subst; auto. Qed.
Lemma fold_min_in : forall l x, In (fold_left Rmin l x) (x :: l).
Proof.
  induction l; simpl; intros x; auto. specialize (IHl (Rmin x a)). simpl in IHl.
  destruct IHl as [E|H]; auto. rewrite <- E. unfold Rmin. destruct Rle_dec; auto.
Qed.
Lemma fold_max_in : forall l x, In (fold_left Rmax l x) (x :: l).
Proof.
  induction l; simpl; intros x; auto. specialize (IHl (Rmax x a)). simpl in IHl.
  destruct IHl as [E|H]; auto. rewrite <- E. unfold Rmax. destruct Rle_dec; auto.
Qed.
Lemma Rmin_list_in : forall l, l <> [] -> In (Rmin_list l) l.
Proof. destruct l; intros; [congruence|]. apply fold_min_in. Qed.
Lemma Rmax_list_in : forall l, l <> [] -> In (Rmax_list l) l.
Proof. destruct l; intros; [congruence|]. apply fold_max_in. Qed.

Lemma grid_cell_range : forall eps coords p, 0 < eps -> In p coords ->
  let '(e, n, u) := grid_cell eps coords p in in_cell_range e /\ in_cell_range n /\ in_cell_range u.
Proof.
  intros eps coords p Heps Hin. unfold grid_cell, grid_scale.
  set (ext := fun f : point -> R => Rmax_list (map f coords) - Rmin_list (map f coords)).
  fold (ext pe) (ext pn) (ext pu).
  set (M := Rmax (Rmax (ext pe) (ext pn)) (ext pu)).
  assert (G : forall f : point -> R, (f = pe \/ f = pn \/ f = pu) ->
     in_cell_range (to_long ((f p - Rmin_list (map f coords)) * (1023 / (M + eps))))).
  { intros f Hf.
    assert (L : Rmin_list (map f coords) <= f p) by (apply Rmin_list_le; apply in_map; auto).
    assert (U : f p <= Rmax_list (map f coords)) by (apply Rmax_list_ge; apply in_map; auto).
    assert (E : ext f <= M).
    { unfold M. pose proof (Rmax_l (Rmax (ext pe) (ext pn)) (ext pu)). pose proof (Rmax_r (Rmax (ext pe) (ext pn)) (ext pu)).
      pose proof (Rmax_l (ext pe) (ext pn)). pose proof (Rmax_r (ext pe) (ext pn)).
      destruct Hf as [->|[->| ->]]; lra. }
    unfold ext in E.
    set (x := f p - Rmin_list (map f coords)) in *.
    assert (0 <= x <= M) by (unfold x; lra).
    assert (0 < M + eps) by lra.
    assert (Hx : 0 <= x * (1023 / (M + eps))).
    { apply Rmult_le_pos; [lra|]. unfold Rdiv. apply Rmult_le_pos; [lra|]. left. apply Rinv_0_lt_compat. auto. }
    assert (Hx' : x * (1023 / (M + eps)) < 1023).
    { apply Rmult_lt_reg_r with (M + eps); auto. field_simplify; [|lra]. lra. }
    split.
    - apply (to_long_nonneg _ Hx).
    - apply Z.lt_succ_r. apply to_long_lt; auto. simpl. lra. }
  repeat split; apply G; auto.
Qed.

Lemma map_res_ok : forall {A B} (f : A -> res B) l, (forall x, In x l -> exists y, f x = Ok y) ->
  exists ys, map_res f l = Ok ys /\ List.length ys = List.length l
    /\ forall i x, nth_error l i = Some x -> exists y, f x = Ok y /\ nth_error ys i = Some y.
Proof.
  induction l as [|x l IH]; intros H; simpl.
  - exists []. split; auto. split; auto. intros i x Hx. destruct i; discriminate.
  - destruct (H x (or_introl eq_refl)) as (y & Hy). rewrite Hy.
    destruct IH as (ys & E & L & N); [intros; apply H; simpl; auto|].
    simpl. rewrite E. simpl. exists (y :: ys). split; auto. split; [simpl; auto|].
    intros i x' Hi. destruct i; simpl in *.
    + injection Hi as <-. eauto.
    + apply N. auto.
Qed.

Lemma morton_codes_spec : forall eps coords, 0 < eps ->
  exists codes, morton_codes eps coords = Ok codes /\ List.length codes = List.length coords
    /\ (forall c, In c codes -> (0 <= c < 2^30)%Z)
    /\ (forall i p c, nth_error coords i = Some p -> nth_error codes i = Some c ->
         let '(e, n, u) := grid_cell eps coords p in
         (0 <= e <= 1023 /\ 0 <= n <= 1023 /\ 0 <= u <= 1023
          /\ forall k, 0 <= k -> Z.testbit c (3*k+2) = Z.testbit n k
                          /\ Z.testbit c (3*k+1) = Z.testbit e k
                          /\ Z.testbit c (3*k) = Z.testbit u k)%Z)
    /\ (forall i j p q c d, nth_error coords i = Some p -> nth_error coords j = Some q ->
         nth_error codes i = Some c -> nth_error codes j = Some d ->
         (c = d <-> grid_cell eps coords p = grid_cell eps coords q)).
Proof.
  intros eps coords Heps. unfold morton_codes.
  set (f := fun p : point => let '(e, n, u) := grid_cell eps coords p in morton_of_cell e n u).
  assert (F : forall p, In p coords -> let '(e, n, u) := grid_cell eps coords p in
     exists c, f p = Ok c /\ (0 <= c < 2^30)%Z /\ in_cell_range e /\ in_cell_range n /\ in_cell_range u
       /\ morton_of_cell e n u = Ok c
       /\ forall k, (0 <= k)%Z -> Z.testbit c (3*k+2) = Z.testbit n k
                          /\ Z.testbit c (3*k+1) = Z.testbit e k
                          /\ Z.testbit c (3*k) = Z.testbit u k).
  { intros p Hp. pose proof (grid_cell_range eps coords p Heps Hp) as R. unfold f.
    destruct (grid_cell eps coords p) as [[e n] u]. destruct R as (Re & Rn & Ru).
    destruct (morton_of_cell_spec e n u Re Rn Ru) as (c & E & B & T). exists c. split; [exact E|]. split; [exact B|]. split; [exact Re|]. split; [exact Rn|]. split; [exact Ru|]. split; [exact E|]. exact T. }
  destruct (map_res_ok f coords) as (codes & E & L & N).
  { intros p Hp. specialize (F p Hp). destruct (grid_cell eps coords p) as [[e n] u]. destruct F as (c & Hc & _). eauto. }
  exists codes. split; auto. split; auto.
  assert (NN : forall i p c, nth_error coords i = Some p -> nth_error codes i = Some c -> f p = Ok c).
  { intros i p c Hp Hc. destruct (N i p Hp) as (c' & Hf & Hc'). congruence. }
  split; [|split].
  - intros c Hc. apply In_nth_error in Hc. destruct Hc as (i & Hi).
    assert (Hl : (i < List.length coords)%nat) by (rewrite <- L; apply nth_error_Some; congruence).
    apply nth_error_Some in Hl. destruct (nth_error coords i) as [p|] eqn:Ep; [|congruence].
    specialize (F p (nth_error_In _ _ Ep)). specialize (NN i p c Ep Hi).
    destruct (grid_cell eps coords p) as [[e n] u]. destruct F as (c' & Hc' & B & _).
    rewrite NN in Hc'. injection Hc' as <-. auto.
  - intros i p c Hp Hc. specialize (F p (nth_error_In _ _ Hp)). specialize (NN i p c Hp Hc).
    destruct (grid_cell eps coords p) as [[e n] u]. destruct F as (c' & Hc' & B & Re & Rn & Ru & _ & T).
    rewrite NN in Hc'. injection Hc' as <-. repeat split; try apply Re; try apply Rn; try apply Ru; apply T; auto.
  - intros i j p q c d Hp Hq Hc Hd.
    pose proof (F p (nth_error_In _ _ Hp)) as Fp. pose proof (F q (nth_error_In _ _ Hq)) as Fq.
    pose proof (NN i p c Hp Hc) as Np. pose proof (NN j q d Hq Hd) as Nq.
    split.
    + intros <-.
      destruct (grid_cell eps coords p) as [[e n] u]. destruct (grid_cell eps coords q) as [[e' n'] u'].
      destruct Fp as (c1 & Hc1 & _ & Re & Rn & Ru & M & _). destruct Fq as (c2 & Hc2 & _ & Re' & Rn' & Ru' & M' & _).
      assert (c1 = c) by congruence. assert (c2 = c) by congruence. subst.
      eapply morton_of_cell_inj; eauto.
    + intros EQ. assert (f p = f q) by (unfold f; rewrite EQ; auto). congruence.
Qed.

(** The same in terms of the specification. *)
Lemma least_Rmin : forall f ps, ps <> [] -> least f ps (Rmin_list (map f ps)).
Proof.
  intros f ps H. split.
  - assert (I : In (Rmin_list (map f ps)) (map f ps)) by (apply Rmin_list_in; destruct ps; simpl; congruence).
    apply in_map_iff in I. destruct I as (p & E & Hp). eauto.
  - intros p Hp. apply Rmin_list_le. apply in_map. auto.
Qed.
Lemma greatest_Rmax : forall (f : point -> R) ps, ps <> [] -> (exists p, In p ps /\ f p = Rmax_list (map f ps)) /\ forall p, In p ps -> f p <= Rmax_list (map f ps).
Proof.
  intros f ps H. split.
  - assert (I : In (Rmax_list (map f ps)) (map f ps)) by (apply Rmax_list_in; destruct ps; simpl; congruence).
    apply in_map_iff in I. destruct I as (p & E & Hp). eauto.
  - intros p Hp. apply Rmax_list_ge. apply in_map. auto.
Qed.
Lemma least_unique : forall f ps m m', least f ps m -> least f ps m' -> m = m'.
Proof.
  intros f ps m m' ((p & Hp & E) & L) ((q & Hq & E') & L').
  specialize (L q Hq). specialize (L' p Hp). lra.
Qed.

Lemma span_max : forall ps D, ps <> [] -> largest_span ps D ->
  D = Rmax (Rmax (Rmax_list (map pe ps) - Rmin_list (map pe ps)) (Rmax_list (map pn ps) - Rmin_list (map pn ps)))
           (Rmax_list (map pu ps) - Rmin_list (map pu ps)).
Proof.
  intros ps D H (U & f & p & q & Hf & Hp & Hq & E).
  set (ext := fun f : point -> R => Rmax_list (map f ps) - Rmin_list (map f ps)).
  fold (ext pe) (ext pn) (ext pu).
  assert (A : forall f, In f [pe; pn; pu] -> ext f <= D).
  { intros g Hg. destruct (greatest_Rmax g ps H) as ((a & Ha & Ea) & _). destruct (least_Rmin g ps H) as ((b & Hb & Eb) & _).
    unfold ext. rewrite <- Ea, <- Eb. apply U; auto. }
  assert (B : D <= ext f).
  { destruct (greatest_Rmax f ps H) as (_ & Ga). destruct (least_Rmin f ps H) as (_ & Lb).
    specialize (Ga p Hp). specialize (Lb q Hq). unfold ext. lra. }
  pose proof (A pe ltac:(simpl; auto)) as A1. pose proof (A pn ltac:(simpl; auto)) as A2. pose proof (A pu ltac:(simpl; auto)) as A3.
  pose proof (Rmax_l (Rmax (ext pe) (ext pn)) (ext pu)). pose proof (Rmax_r (Rmax (ext pe) (ext pn)) (ext pu)).
  pose proof (Rmax_l (ext pe) (ext pn)). pose proof (Rmax_r (ext pe) (ext pn)).
  apply Rle_antisym.
  - destruct Hf as [<-|[<-|[<-|[]]]]; lra.
  - apply Rmax_lub; [apply Rmax_lub|]; auto.
Qed.

Lemma in_cell_unique : forall ps D eps f p c c', in_cell ps D eps f p c -> in_cell ps D eps f p c' -> c = c'.
Proof.
  intros ps D eps f p c c' (m & L & B) (m' & L' & B'). rewrite (least_unique _ _ _ _ L' L) in B'.
  set (x := (f p - m) / (D + eps) * 1023) in *.
  assert (c < c' + 1)%Z by (apply lt_IZR; rewrite plus_IZR; lra).
  assert (c' < c + 1)%Z by (apply lt_IZR; rewrite plus_IZR; lra). lia.
Qed.

Lemma grid_cell_in_cell : forall eps ps D p, 0 < eps -> In p ps -> largest_span ps D ->
  let '(e, n, u) := grid_cell eps ps p in
  in_cell ps D eps pe p e /\ in_cell ps D eps pn p n /\ in_cell ps D eps pu p u.
Proof.
  intros eps ps D p Heps Hp HD. assert (NE : ps <> []) by (destruct ps; simpl in *; [tauto|congruence]).
  assert (D0 : 0 <= D). { destruct HD as (U & _). specialize (U pe ltac:(simpl; auto) p p Hp Hp). lra. }
  unfold grid_cell, grid_scale. rewrite <- (span_max ps D NE HD).
  assert (G : forall f : point -> R, in_cell ps D eps f p (to_long ((f p - Rmin_list (map f ps)) * (1023 / (D + eps))))).
  { intros f. exists (Rmin_list (map f ps)). split; [apply least_Rmin; auto|].
    destruct (least_Rmin f ps NE) as (_ & L). specialize (L p Hp).
    replace ((f p - Rmin_list (map f ps)) / (D + eps) * 1023) with ((f p - Rmin_list (map f ps)) * (1023 / (D + eps))) by (field; lra).
    apply to_long_nonneg. apply Rmult_le_pos; [lra|]. apply Rmult_le_pos; [lra|]. left. apply Rinv_0_lt_compat. lra. }
  repeat split; apply G.
Qed.

Lemma morton_codes_correct : forall eps ps D, 0 < eps -> ps <> [] -> largest_span ps D ->
  exists codes, morton_codes eps ps = Ok codes /\ List.length codes = List.length ps /\ thirty_bit codes
    /\ (forall i p c, nth_error ps i = Some p -> nth_error codes i = Some c ->
         exists n e u, in_cell ps D eps pn p n /\ in_cell ps D eps pe p e /\ in_cell ps D eps pu p u
                       /\ (0 <= n <= 1023)%Z /\ (0 <= e <= 1023)%Z /\ (0 <= u <= 1023)%Z /\ interleaves n e u c)
    /\ (forall i j p q c d, nth_error ps i = Some p -> nth_error ps j = Some q ->
         nth_error codes i = Some c -> nth_error codes j = Some d ->
         (c = d <-> same_cell ps D eps p q)).
Proof.
  intros eps ps D Heps NE HD. destruct (morton_codes_spec eps ps Heps) as (codes & E & L & B & T & I).
  exists codes. split; auto. split; auto. split; [exact B|]. split.
  - intros i p c Hp Hc. specialize (T i p c Hp Hc). pose proof (grid_cell_in_cell eps ps D p Heps (nth_error_In _ _ Hp) HD) as G.
    destruct (grid_cell eps ps p) as [[e n] u]. destruct T as (Te & Tn & Tu & T). destruct G as (Ge & Gn & Gu).
    exists n, e, u. auto 10.
  - intros i j p q c d Hp Hq Hc Hd. rewrite (I i j p q c d Hp Hq Hc Hd).
    pose proof (grid_cell_in_cell eps ps D p Heps (nth_error_In _ _ Hp) HD) as Gp.
    pose proof (grid_cell_in_cell eps ps D q Heps (nth_error_In _ _ Hq) HD) as Gq.
    destruct (grid_cell eps ps p) as [[e n] u]. destruct (grid_cell eps ps q) as [[e' n'] u'].
    destruct Gp as (Ge & Gn & Gu). destruct Gq as (Ge' & Gn' & Gu'). split.
    + intros X. injection X as -> -> ->. intros f [<-|[<-|[<-|[]]]]; eauto.
    + intros S. destruct (S pe ltac:(simpl; auto)) as (c1 & A1 & B1). destruct (S pn ltac:(simpl; auto)) as (c2 & A2 & B2).
      destruct (S pu ltac:(simpl; auto)) as (c3 & A3 & B3).
      rewrite (in_cell_unique _ _ _ _ _ _ _ Ge A1), (in_cell_unique _ _ _ _ _ _ _ Gn A2), (in_cell_unique _ _ _ _ _ _ _ Gu A3).
      rewrite (in_cell_unique _ _ _ _ _ _ _ Ge' B1), (in_cell_unique _ _ _ _ _ _ _ Gn' B2), (in_cell_unique _ _ _ _ _ _ _ Gu' B3).
      auto.
Qed.

(** * Longest common prefix *)
Local Open Scope Z_scope.

(** The counting state after some steps: [bits] represents [d * 2^lz] in 32 bits. *)
Definition clz_inv (d s : Z) (st : Z * Z) : Prop :=
  0 <= fst st /\ snd st = wrap32 (d * 2 ^ fst st) /\ d * 2 ^ fst st < 2 ^ 32 /\ 2 ^ (32 - s) <= d * 2 ^ fst st.

Lemma wrap32_range : forall x, - 2^31 <= wrap32 x < 2^31.
Proof. intros. unfold wrap32. pose proof (Z.mod_pos_bound (x + 2^31) (2^32)). lia. Qed.

Lemma wrap32_unsigned : forall x, 0 <= x < 2^32 -> wrap32 x = if x <? 2^31 then x else x - 2^32.
Proof.
  intros x H. unfold wrap32. destruct (Z.ltb_spec x (2^31)).
  - rewrite Z.mod_small; lia.
  - replace ((x + 2^31) mod 2^32) with (x - 2^31); [lia|].
    apply (Z.mod_unique_pos _ _ 1); lia.
Qed.

Lemma clz_step_inv : forall d s st, 0 < d -> 0 < s <= 16 ->
  clz_inv d (2 * s) st -> clz_inv d s (clz_step st s).
Proof.
  intros d s [lz bits] Hd Hs (H0 & H1 & H2 & H3). cbn [fst snd] in *. unfold clz_step.
  set (x := d * 2 ^ lz) in *.
  assert (Hx : 0 < x) by (unfold x; apply Z.mul_pos_pos; [lia|apply Z.pow_pos_nonneg; lia]).
  rewrite wrap32_unsigned in H1 by lia.
  assert (P : Z.shiftr bits (32 - s) = 0 <-> x < 2 ^ (32 - s)).
  { rewrite Z.shiftr_div_pow2 by lia.
    assert (2 ^ (32 - s) <= 2 ^ 31) by (apply Z.pow_le_mono_r; lia).
    assert (0 < 2 ^ (32 - s)) by (apply Z.pow_pos_nonneg; lia).
    destruct (Z.ltb_spec x (2^31)).
    - subst bits. split; intros Q.
      + apply Z.div_small_iff in Q; lia.
      + apply Z.div_small; lia.
    - split; intros Q; [|lia]. exfalso.
      assert (bits < 0) by lia. assert (bits / 2 ^ (32 - s) < 0) by (apply Z.div_lt_upper_bound; lia). lia. }
  destruct (Z.eqb_spec (Z.shiftr bits (32 - s)) 0) as [E|E].
  - apply P in E. assert (2 ^ (32 - s) <= 2 ^ 31) by (apply Z.pow_le_mono_r; lia).
    destruct (Z.ltb_spec x (2^31)); [|lia]. subst bits. unfold clz_inv. cbn [fst snd].
    rewrite Z.pow_add_r by lia. rewrite Z.mul_assoc. fold x.
    unfold shl32. rewrite Z.shiftl_mul_pow2 by lia.
    assert (0 < 2 ^ s) by (apply Z.pow_pos_nonneg; lia).
    split; [lia|]. split; auto. split.
    + replace (2 ^ 32) with (2 ^ (32 - s) * 2 ^ s) by (rewrite <- Z.pow_add_r by lia; f_equal; lia).
      apply Z.mul_lt_mono_pos_r; auto.
    + replace (2 ^ (32 - s)) with (2 ^ (32 - 2 * s) * 2 ^ s) by (rewrite <- Z.pow_add_r by lia; f_equal; lia).
      apply Z.mul_le_mono_nonneg_r; lia.
  - unfold clz_inv. cbn [fst snd]. fold x. rewrite wrap32_unsigned by lia.
    split; auto. split; auto. split; auto.
    destruct (Z.lt_ge_cases x (2 ^ (32 - s))); [|lia]. exfalso. apply E. apply P. auto.
Qed.

Lemma clz_spec : forall d, 0 < d < 2^32 ->
  let st := fold_left clz_step [16; 8; 4; 2; 1] (0, wrap32 d) in
  snd st <> 0 /\ fst st = 31 - Z.log2 d.
Proof.
  intros d Hd st.
  assert (I : clz_inv d 1 st).
  { unfold st. cbn [fold_left].
    apply (clz_step_inv d 1); [lia|lia|]. apply (clz_step_inv d 2); [lia|lia|].
    apply (clz_step_inv d 4); [lia|lia|]. apply (clz_step_inv d 8); [lia|lia|].
    apply (clz_step_inv d 16); [lia|lia|]. unfold clz_inv. cbn [fst snd].
    rewrite Z.pow_0_r, Z.mul_1_r. split; [lia|]. split; auto. split; [lia|]. simpl. lia. }
  destruct st as [lz bits]. destruct I as (H0 & H1 & H2 & H3). cbn [fst snd] in *.
  change (2 ^ (32 - 1)) with (2 ^ 31) in H3.
  split.
  - rewrite wrap32_unsigned in H1 by lia. destruct (Z.ltb_spec (d * 2 ^ lz) (2^31)); lia.
  - assert (L : Z.log2 (d * 2 ^ lz) = 31) by (apply Z.log2_unique; simpl; lia).
    rewrite Z.log2_mul_pow2 in L by lia. lia.
Qed.

Lemma lcp_log2 : forall codes i j ci cj,
  0 <= i -> 0 <= j < Z.of_nat (List.length codes) ->
  nth_error codes (Z.to_nat i) = Some ci -> nth_error codes (Z.to_nat j) = Some cj ->
  0 <= ci < 2^30 -> 0 <= cj < 2^30 ->
  longest_common_prefix codes i j = if ci =? cj then 30 else 29 - Z.log2 (Z.lxor ci cj).
Proof.
  intros codes i j ci cj Hi Hj Ei Ej Bi Bj. unfold longest_common_prefix.
  destruct (Z.leb_spec 0 j); [|lia]. destruct (Z.ltb_spec j (Z.of_nat (List.length codes))); [|lia]. cbn [andb].
  rewrite (nth_error_nth _ _ 0 Ei), (nth_error_nth _ _ 0 Ej).
  set (d := Z.lxor ci cj).
  destruct (Z.eqb_spec ci cj) as [E|E].
  - subst cj. replace d with 0 by (unfold d; rewrite Z.lxor_nilpotent; auto). reflexivity.
  - assert (D0 : d <> 0) by (unfold d; rewrite Z.lxor_eq_0_iff; auto).
    assert (Dn : 0 <= d) by (unfold d; apply Z.lxor_nonneg; lia).
    assert (Db : d < 2^30).
    { apply Z.log2_lt_pow2; [lia|]. unfold d.
      apply Z.le_lt_trans with (Z.max (Z.log2 ci) (Z.log2 cj)); [apply Z.log2_lxor; lia|].
      assert (forall c, 0 <= c < 2^30 -> Z.log2 c < 30).
      { intros c Hc. destruct (Z.eq_dec c 0) as [->|]; [simpl; lia|apply Z.log2_lt_pow2; lia]. }
      apply Z.max_lub_lt; auto. }
    destruct (Z.eqb_spec d 0); [lia|].
    destruct (clz_spec d) as [S1 S2]; [lia|].
    rewrite wrap32_small in S1, S2 by lia.
    destruct (fold_left clz_step [16; 8; 4; 2; 1] (0, d)) as [lz bits]. cbn [fst snd] in *.
    destruct (Z.eqb_spec bits 0); [lia|]. lia.
Qed.

Lemma lxor_log2_agree : forall a b m, 0 <= a -> 0 <= b -> 0 <= m -> a <> b ->
  (Z.shiftr a m = Z.shiftr b m <-> Z.log2 (Z.lxor a b) < m).
Proof.
  intros a b m Ha Hb Hm N.
  assert (D0 : Z.lxor a b <> 0) by (rewrite Z.lxor_eq_0_iff; auto).
  assert (Dn : 0 <= Z.lxor a b) by (apply Z.lxor_nonneg; lia).
  rewrite <- Z.lxor_eq_0_iff, <- Z.shiftr_lxor, Z.shiftr_eq_0_iff. split; [intros [|[]]; lia|intros; right; lia].
Qed.

(** The specification of the prefix length by agreement of the high bits. *)
Lemma lcp_spec : forall codes i j ci cj,
  (forall c, In c codes -> 0 <= c < 2^30) -> 0 <= i -> 0 <= j ->
  nth_error codes (Z.to_nat i) = Some ci -> nth_error codes (Z.to_nat j) = Some cj ->
  let L := longest_common_prefix codes i j in
  0 <= L <= 30 /\ (L = 30 <-> ci = cj)
  /\ (forall b, 30 - L <= b < 30 -> Z.testbit ci b = Z.testbit cj b)
  /\ (L < 30 -> Z.testbit ci (29 - L) = negb (Z.testbit cj (29 - L))).
Proof.
  intros codes i j ci cj HB Hi Hj Ei Ej L.
  assert (Bi : 0 <= ci < 2^30) by (apply HB; eapply nth_error_In; eauto).
  assert (Bj : 0 <= cj < 2^30) by (apply HB; eapply nth_error_In; eauto).
  assert (Lj : 0 <= j < Z.of_nat (List.length codes)).
  { split; auto. assert (Z.to_nat j < List.length codes)%nat by (apply nth_error_Some; congruence). lia. }
  unfold L. rewrite (lcp_log2 codes i j ci cj) by auto.
  destruct (Z.eqb_spec ci cj) as [E|E].
  - subst. repeat split; auto; try lia.
  - set (d := Z.lxor ci cj).
    assert (D0 : d <> 0) by (unfold d; rewrite Z.lxor_eq_0_iff; auto).
    assert (Dn : 0 <= d) by (unfold d; apply Z.lxor_nonneg; lia).
    assert (0 <= Z.log2 d) by apply Z.log2_nonneg.
    assert (Dl : Z.log2 d < 30).
    { unfold d. apply (lxor_log2_agree ci cj 30); try lia.
      rewrite !Z.shiftr_div_pow2 by lia. rewrite !Z.div_small by lia. auto. }
    split; [lia|]. split; [split; intros; [lia|congruence]|]. split.
    + intros b Hb. assert (T : Z.testbit d b = false) by (apply Z.bits_above_log2; lia).
      unfold d in T. rewrite Z.lxor_spec in T. destruct (Z.testbit ci b), (Z.testbit cj b); auto; discriminate.
    + intros _. replace (29 - (29 - Z.log2 d)) with (Z.log2 d) by lia.
      assert (T : Z.testbit d (Z.log2 d) = true) by (apply Z.bit_log2; lia).
      unfold d at 1 in T. rewrite Z.lxor_spec in T.
      destruct (Z.testbit ci (Z.log2 d)), (Z.testbit cj (Z.log2 d)); auto; discriminate.
Qed.

Lemma lcp_out_of_range : forall codes i j, ~ (0 <= j < Z.of_nat (List.length codes)) ->
  longest_common_prefix codes i j = -1.
Proof.
  intros codes i j H. unfold longest_common_prefix.
  destruct (Z.leb_spec 0 j); auto. destruct (Z.ltb_spec j (Z.of_nat (List.length codes))); auto. lia.
Qed.

Lemma lcp_correct : forall codes i j, thirty_bit codes -> (i < List.length codes)%nat ->
  ((j < List.length codes)%nat ->
     common_prefix_length (nth i codes 0) (nth j codes 0) (longest_common_prefix codes (Z.of_nat i) (Z.of_nat j)))
  /\ (forall j', j' < 0 \/ Z.of_nat (List.length codes) <= j' -> longest_common_prefix codes (Z.of_nat i) j' = -1).
Proof.
  intros codes i j HB Hi. split.
  - intros Hj. destruct (lcp_spec codes (Z.of_nat i) (Z.of_nat j) (nth i codes 0) (nth j codes 0)) as (A & _ & C & D); auto; try lia.
    + rewrite Nat2Z.id. apply nth_error_nth'. auto.
    + rewrite Nat2Z.id. apply nth_error_nth'. auto.
    + split; auto. split; auto. intros HL. specialize (D HL). intros E. rewrite E in D.
      destruct (Z.testbit (nth j codes 0) _); discriminate.
  - intros j' Hj'. apply lcp_out_of_range. lia.
Qed.

Lemma expand_bits_correct : forall x,
  (0 <= x <= 1023 -> exists y, expand_bits x = Ok y
     /\ forall k, 0 <= k -> Z.testbit y (3 * k) = Z.testbit x k
                         /\ Z.testbit y (3 * k + 1) = false /\ Z.testbit y (3 * k + 2) = false)
  /\ (~ (0 <= x <= 1023) -> expand_bits x = Err ValueError).
Proof.
  intros x. split.
  - intros H. destruct (expand_bits_spec x H) as (y & E & _ & T). eauto.
  - apply expand_bits_reject.
Qed.

Lemma common_prefix_unique : forall a b L L', common_prefix_length a b L -> common_prefix_length a b L' -> L = L'.
Proof.
  assert (G : forall a b L L', common_prefix_length a b L -> common_prefix_length a b L' -> ~ L < L').
  { intros a b L L' (A1 & A2 & A3) (B1 & B2 & B3) H. apply A3; [lia|]. apply B2. lia. }
  intros a b L L' H H'. pose proof (G a b L L' H H'). pose proof (G a b L' L H' H). lia.
Qed.
