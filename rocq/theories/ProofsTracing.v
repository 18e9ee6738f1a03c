From Coq Require Import List Arith ZArith Reals Bool Lia Lra Permutation Sorted.
From Verif Require Import RealSums ModelField ModelDistributed ModelSplatting SpecDistributed SpecSplatting ProofsDistributed ProofsSplatting.
Import ListNotations.
Local Open Scope R_scope.

(** * A single ray *)
Lemma hat_pos_near : forall x, hat x <> 0 -> Rabs x < 1.
Proof.
  intros x H. destruct (Rlt_dec (Rabs x) 1); auto. exfalso. apply H. unfold hat. apply Rmax_left. lra.
Qed.

Lemma splat_single_ray : forall w h ray,
  (1 <= w)%nat -> (1 <= h)%nat -> inside_grid w h ray -> 0 <= hit_intensity ray ->
  exists image, bilinear_splatting w h [ray] = Ok image /\ is_image w h image
    /\ (forall r c, (r < h)%nat -> (c < w)%nat ->
          0 <= pixel image h r c <= hit_intensity ray
          /\ (pixel image h r c <> 0 -> Rabs (hit_e ray - INR c) < 1 /\ Rabs (hit_u ray - INR r) < 1))
    /\ Rsum_n h (fun r => Rsum_n w (fun c => pixel image h r c)) = hit_intensity ray
    /\ Rsum_n h (fun r => Rsum_n w (fun c => pixel image h r c * INR c)) = hit_intensity ray * hit_e ray
    /\ Rsum_n h (fun r => Rsum_n w (fun c => pixel image h r c * INR r)) = hit_intensity ray * hit_u ray.
Proof.
  intros w h ray Hw Hh HI Hi. destruct HI as [He Hu] eqn:E. clear E.
  destruct (splatting_pixels w h [ray] Hw Hh) as (image & A & I & P).
  { intros r [<-|[]]. lra. }
  assert (HB : on_bitmap w h ray = true) by (apply on_bitmap_iff; try lra; auto).
  assert (Q : forall r c, (r < h)%nat -> (c < w)%nat ->
     pixel image h r c = hit_intensity ray * hat (hit_e ray - INR c) * hat (hit_u ray - INR r)).
  { intros r c Hr Hc. rewrite P by auto. unfold sum_where. simpl. rewrite HB. simpl. lra. }
  exists image. split; auto. split; auto. split; [|split; [|split]].
  - intros r c Hr Hc. rewrite Q by auto.
    pose proof (hat_nonneg (hit_e ray - INR c)). pose proof (hat_nonneg (hit_u ray - INR r)).
    pose proof (hat_le_1 (hit_e ray - INR c)). pose proof (hat_le_1 (hit_u ray - INR r)).
    split.
    + split; [repeat apply Rmult_le_pos; auto|].
      rewrite Rmult_assoc. rewrite <- (Rmult_1_r (hit_intensity ray)) at 2.
      apply Rmult_le_compat_l; auto. rewrite <- (Rmult_1_r 1). apply Rmult_le_compat; auto.
    + intros N. split; apply hat_pos_near; intros Z; rewrite Z in N; apply N; lra.
  - rewrite (Rsum_n_ext h _ (fun r => hit_intensity ray * hat (hit_u ray - INR r))).
    + rewrite Rsum_n_scal, hat_sum by auto. lra.
    + intros r Hr. rewrite (Rsum_n_ext w _ (fun c => hit_intensity ray * hat (hit_u ray - INR r) * hat (hit_e ray - INR c)))
        by (intros; rewrite Q by auto; lra).
      rewrite Rsum_n_scal, hat_sum by auto. lra.
  - rewrite (Rsum_n_ext h _ (fun r => hit_intensity ray * hit_e ray * hat (hit_u ray - INR r))).
    + rewrite Rsum_n_scal, hat_sum by auto. lra.
    + intros r Hr. rewrite (Rsum_n_ext w _ (fun c => hit_intensity ray * hat (hit_u ray - INR r) * (INR c * hat (hit_e ray - INR c))))
        by (intros; rewrite Q by auto; lra).
      rewrite Rsum_n_scal, hat_mean by auto. lra.
  - rewrite (Rsum_n_ext h _ (fun r => hit_intensity ray * (INR r * hat (hit_u ray - INR r)))).
    + rewrite Rsum_n_scal, hat_mean by auto. lra.
    + intros r Hr. rewrite (Rsum_n_ext w _ (fun c => hit_intensity ray * INR r * hat (hit_u ray - INR r) * hat (hit_e ray - INR c)))
        by (intros; rewrite Q by auto; lra).
      rewrite Rsum_n_scal, hat_sum by auto. lra.
Qed.

(** * Bitmaps per target *)
Lemma add_bitmaps_length : forall a b, List.length a = List.length b -> List.length (add_bitmaps a b) = List.length a.
Proof. intros. unfold add_bitmaps. rewrite map_length, combine_length. lia. Qed.

Lemma add_bitmaps_nth : forall a b p, List.length a = List.length b ->
  nth p (add_bitmaps a b) 0 = nth p a 0 + nth p b 0.
Proof.
  induction a; destruct b; intros p H; simpl in H; try lia.
  - destruct p; simpl; lra.
  - destruct p; simpl; auto. apply IHa. lia.
Qed.

Lemma fold_bitmaps : forall n l, (forall b, In b l -> List.length b = n) ->
  List.length (fold_right add_bitmaps (repeat 0 n) l) = n
  /\ forall p, nth p (fold_right add_bitmaps (repeat 0 n) l) 0 = Rsum (map (fun b => nth p b 0) l).
Proof.
  induction l as [|b l IH]; intros H; simpl.
  - split; [apply repeat_length|]. intros p. destruct (Nat.lt_ge_cases p n).
    + apply nth_repeat.
    + apply nth_overflow. rewrite repeat_length. auto.
  - destruct IH as [L N]; [intros; apply H; simpl; auto|].
    assert (List.length b = n) by (apply H; simpl; auto). split.
    + rewrite add_bitmaps_length; lia.
    + intros p. rewrite add_bitmaps_nth by lia. rewrite N. auto.
Qed.

Lemma nth_map_seq0 : forall {A} (f : nat -> A) n i d, (i < n)%nat -> nth i (map f (seq 0 n)) d = f i.
Proof.
  intros. rewrite (nth_indep _ d (f 0%nat)) by (rewrite map_length, seq_length; auto).
  rewrite map_nth, seq_nth by auto. auto.
Qed.

Lemma bitmaps_per_target_spec : forall T n bitmaps targets,
  List.length bitmaps = List.length targets -> (forall b, In b bitmaps -> List.length b = n) ->
  exists out, bitmaps_per_target T n bitmaps targets = Ok out
    /\ is_image n T out
    /\ (forall t p, (t < T)%nat ->
         nth p (nth t out []) 0
         = sum_where (fun '(_, t') => (t' =? Z.of_nat t)%Z) (fun '(b, _) => nth p b 0) (combine bitmaps targets))
    /\ ((forall t, In t targets -> (0 <= t < Z.of_nat T)%Z) ->
        forall p, Rsum_n T (fun t => nth p (nth t out []) 0) = Rsum (map (fun b => nth p b 0) bitmaps))
    /\ (forall t p, (t < T)%nat -> ~ In (Z.of_nat t) targets -> nth p (nth t out []) 0 = 0).
Proof.
  intros T n bitmaps targets HL Hn. unfold bitmaps_per_target. rewrite HL, Nat.eqb_refl.
  set (f := fun index : nat => _). eexists. split; [reflexivity|].
  set (sel := fun t => map fst (filter (fun '(_, t') => (t' =? Z.of_nat t)%Z) (combine bitmaps targets))).
  assert (Hsel : forall t b, In b (sel t) -> List.length b = n).
  { intros t b Hb. unfold sel in Hb. apply in_map_iff in Hb. destruct Hb as ([b' t'] & E & Hb). simpl in E. subst b'.
    apply filter_In in Hb. destruct Hb as [Hb _]. apply in_combine_l in Hb. auto. }
  assert (F : forall t, f t = fold_right add_bitmaps (repeat 0 n) (sel t)).
  { intros t. unfold f. fold (sel t). destruct (sel t); auto. }
  assert (P : forall t p, (t < T)%nat -> nth p (nth t (map f (seq 0 T)) []) 0
         = sum_where (fun '(_, t') => (t' =? Z.of_nat t)%Z) (fun '(b, _) => nth p b 0) (combine bitmaps targets)).
  { intros t p Ht. rewrite nth_map_seq0, F by auto.
    destruct (fold_bitmaps n (sel t) (Hsel t)) as [_ N]. rewrite N. unfold sel, sum_where. rewrite map_map.
    apply Rsum_map_ext. intros [b t'] _. reflexivity. }
  split; [|split; [exact P|split]].
  - split; [rewrite map_length, seq_length; auto|].
    intros row Hr. apply in_map_iff in Hr. destruct Hr as (t & <- & _). rewrite F.
    apply fold_bitmaps. apply Hsel.
  - intros HT p.
    rewrite (Rsum_n_ext T _ (fun t => Rsum (map (fun bt : list R * Z => if (snd bt =? Z.of_nat t)%Z then nth p (fst bt) 0 else 0) (combine bitmaps targets)))).
    + unfold Rsum_n. rewrite Rsum_swap.
      transitivity (Rsum (map (fun bt : list R * Z => nth p (fst bt) 0) (combine bitmaps targets))).
      * apply Rsum_map_ext. intros [b t] Hin. cbn [fst snd].
        assert (Ht : (0 <= t < Z.of_nat T)%Z) by (apply HT; eapply in_combine_r; eauto).
        change (Rsum_n T (fun x => if (t =? Z.of_nat x)%Z then nth p b 0 else 0) = nth p b 0).
        rewrite (Rsum_n_single T _ (Z.to_nat t)); [|lia|].
        -- rewrite Z2Nat.id by lia. rewrite Z.eqb_refl. auto.
        -- intros i Hi Ni. destruct (Z.eqb_spec t (Z.of_nat i)); auto. subst. rewrite Nat2Z.id in Ni. lia.
      * rewrite <- map_map with (f := fst) (g := fun b => nth p b 0).
        f_equal. f_equal. clear -HL. revert targets HL. induction bitmaps; destruct targets; simpl; intros; try lia; auto.
        f_equal. apply IHbitmaps. lia.
    + intros t Ht. rewrite P by auto. unfold sum_where. rewrite Rsum_filter. apply Rsum_map_ext.
      intros [b t'] _. reflexivity.
  - intros t p Ht Hn'. rewrite P by auto. unfold sum_where. rewrite Rsum_filter. apply Rsum_map_zero.
    intros [b t'] Hin. destruct (Z.eqb_spec t' (Z.of_nat t)); auto. subst. exfalso. apply Hn'.
    eapply in_combine_r; eauto.
Qed.

(** * Fractions *)
Lemma filter_length_le : forall {A} (p q : A -> bool) l,
  (forall x, In x l -> p x = true -> q x = true) ->
  (List.length (filter p l) <= List.length (filter q l))%nat.
Proof.
  induction l; simpl; intros H; auto.
  assert (List.length (filter p l) <= List.length (filter q l))%nat by (apply IHl; auto).
  destruct (p a) eqn:E.
  - rewrite (H a) by auto. simpl. lia.
  - destruct (q a); simpl; lia.
Qed.

Lemma fraction_mono : forall {A} (p q : A -> bool) l, l <> [] ->
  (forall x, In x l -> p x = true -> q x = true) -> fraction p l <= fraction q l.
Proof.
  intros A p q l Hl H. unfold fraction. unfold Rdiv.
  assert (0 < INR (List.length l)) by (destruct l; [congruence|]; apply lt_0_INR; simpl; lia).
  apply Rmult_le_compat_r; [apply Rlt_le, Rinv_0_lt_compat; auto|].
  apply le_INR, filter_length_le; auto.
Qed.

Lemma filter_all : forall {A} (l : list A), filter (fun _ => true) l = l.
Proof. induction l; simpl; congruence. Qed.
Lemma filter_none : forall {A} (l : list A), filter (fun _ => false) l = [].
Proof. induction l; simpl; congruence. Qed.

Lemma fraction_bounds : forall {A} (p : A -> bool) l, l <> [] -> 0 <= fraction p l <= 1.
Proof.
  intros A p l Hl. assert (0 < INR (List.length l)) by (destruct l; [congruence|]; apply lt_0_INR; simpl; lia).
  split.
  - replace 0 with (fraction (fun _ : A => false) l).
    + apply fraction_mono; auto. discriminate.
    + unfold fraction. rewrite filter_none. simpl. unfold Rdiv. apply Rmult_0_l.
  - replace 1 with (fraction (fun _ : A => true) l).
    + apply fraction_mono; auto.
    + unfold fraction. rewrite filter_all. apply Rinv_r. lra.
Qed.

Lemma positive_iff : forall x, positive x = true <-> 0 < x.
Proof. intros. unfold positive. destruct (Rlt_dec 0 x); split; auto; discriminate. Qed.

Lemma ray_fractions : forall extinction reflectivity (rays : list (R * R)),
  rays <> [] -> (forall ray, In ray rays -> 0 <= fst ray) ->
  0 <= on_target_factor rays <= 1
  /\ 0 <= blocking_factor rays <= 1
  /\ 0 <= intercept_factor extinction reflectivity rays <= on_target_factor rays
  /\ (0 < reflectivity -> extinction < 1 -> (forall ray, In ray rays -> snd ray < 1) ->
      intercept_factor extinction reflectivity rays = on_target_factor rays).
Proof.
  intros ext refl rays Hne Hnn. unfold on_target_factor, blocking_factor, intercept_factor.
  split; [apply fraction_bounds; auto|]. split; [apply fraction_bounds; auto|].
  assert (M : fraction (fun '(a, b) => positive (ray_intensity ext refl a b)) rays
              <= fraction (fun '(a, _) => positive a) rays).
  { apply fraction_mono; auto. intros [a b] Hin. rewrite !positive_iff. specialize (Hnn _ Hin). simpl in Hnn.
    intros H. destruct (Rle_lt_or_eq_dec 0 a Hnn) as [|E]; auto. subst. unfold ray_intensity in H. lra. }
  split; [split; auto; apply fraction_bounds; auto|].
  intros Hr He Hb. apply Rle_antisym; auto. apply fraction_mono; auto.
  intros [a b] Hin. rewrite !positive_iff. specialize (Hb _ Hin). simpl in Hb. intros Ha.
  unfold ray_intensity. repeat apply Rmult_lt_0_compat; lra.
Qed.

(** * Batches *)
Local Open Scope nat_scope.

Lemma chunks_concat : forall {A} b fuel (l : list A), 1 <= b -> List.length l <= fuel ->
  List.concat (chunks fuel b l) = l.
Proof.
  intros A b. induction fuel; intros l Hb H; destruct l; simpl; auto; simpl in H; try lia.
  rewrite IHfuel.
  - apply (firstn_skipn b (a :: l)).
  - auto.
  - rewrite skipn_length. cbn [List.length]. lia.
Qed.

Lemma sorted_filter_seq : forall n pos (batch : list nat), StronglySorted lt batch ->
  (forall i, In i batch -> pos <= i < pos + n) ->
  filter (fun i => existsb (Nat.eqb i) batch) (seq pos n) = batch.
Proof.
  induction n; intros pos batch Hs Hin.
  - destruct batch; auto. specialize (Hin n (or_introl eq_refl)). lia.
  - simpl. destruct batch as [|b batch].
    + simpl. rewrite filter_none. auto.
    + inversion Hs; subst. rewrite Forall_forall in H2.
      destruct (Nat.eq_dec pos b) as [->|N].
      * simpl. rewrite Nat.eqb_refl. simpl. f_equal.
        transitivity (filter (fun i => existsb (Nat.eqb i) batch) (seq (S b) n)).
        -- apply filter_ext_in. intros i Hi. apply in_seq in Hi. simpl.
           destruct (Nat.eqb_spec i b); [lia|]. auto.
        -- apply IHn; auto. intros i Hi. specialize (H2 i Hi). specialize (Hin i (or_intror Hi)). lia.
      * assert (pos < b) by (specialize (Hin b (or_introl eq_refl)); lia).
        assert (E : existsb (Nat.eqb pos) (b :: batch) = false).
        { apply not_true_iff_false. rewrite existsb_exists. intros (x & Hx & Ex). apply Nat.eqb_eq in Ex. subst x.
          destruct Hx as [->|Hx]; [lia|]. specialize (H2 _ Hx). lia. }
        rewrite E. apply IHn; auto. intros i Hi.
        assert (pos < i) by (destruct Hi as [->|Hi]; [auto|specialize (H2 i Hi); lia]).
        specialize (Hin i Hi). lia.
Qed.

Lemma read_masked_spec : forall {A} (d : A) (l : list A) pos mask,
  map snd (filter (fun '(i, _) => mask i) (combine (seq pos (List.length l)) l))
  = map (fun i => nth (i - pos) l d) (filter mask (seq pos (List.length l))).
Proof.
  induction l; intros; simpl; auto. destruct (mask pos); simpl; rewrite IHl.
  - rewrite Nat.sub_diag. f_equal. apply map_ext_in. intros i Hi. apply filter_In in Hi. destruct Hi as [Hi _].
    apply in_seq in Hi. destruct (i - pos) eqn:E; [lia|]. f_equal. lia.
  - apply map_ext_in. intros i Hi. apply filter_In in Hi. destruct Hi as [Hi _].
    apply in_seq in Hi. destruct (i - pos) eqn:E; [lia|]. f_equal. lia.
Qed.

Lemma write_masked_spec : forall {A} (f : nat -> A) mask (out : list (option A)) pos j,
  nth_error (write_masked out pos mask (map f (filter mask (seq pos (List.length out))))) j
  = match nth_error out j with
    | Some o => Some (if mask (pos + j) then Some (f (pos + j)) else o)
    | None => None
    end.
Proof.
  induction out; intros pos j; simpl.
  - destruct j; auto.
  - destruct (mask pos) eqn:E; simpl; destruct j; simpl.
    + rewrite Nat.add_0_r, E. auto.
    + rewrite IHout. rewrite Nat.add_succ_r. simpl. auto.
    + rewrite Nat.add_0_r, E. auto.
    + rewrite IHout. rewrite Nat.add_succ_r. simpl. auto.
Qed.

Lemma write_masked_length : forall {A} mask (out : list (option A)) pos rows,
  List.length (write_masked out pos mask rows) = List.length out.
Proof. induction out; intros; simpl; auto. destruct (mask pos), rows; simpl; auto. Qed.

Lemma map_combine_map : forall {A B C E} (g : B -> C -> E) (f1 : A -> B) (f2 : A -> C) l,
  map (fun '(x, y) => g x y) (combine (map f1 l) (map f2 l)) = map (fun i => g (f1 i) (f2 i)) l.
Proof. induction l; simpl; congruence. Qed.

Section Batches.
Context {D S A : Type} (trace : D -> S -> A) (distortions : list D) (state : list S) (d0 : D) (s0 : S).
Hypothesis HL : List.length distortions = List.length state.
Notation n := (List.length state).
Definition row (i : nat) : A := trace (nth i distortions d0) (nth i state s0).

Lemma trace_batch_spec : forall out batch, List.length out = n -> StronglySorted lt batch ->
  (forall i, In i batch -> i < n) ->
  List.length (trace_batch trace distortions state out batch) = n
  /\ forall j, j < n ->
     nth_error (trace_batch trace distortions state out batch) j
     = if existsb (Nat.eqb j) batch then Some (Some (row j)) else nth_error out j.
Proof.
  intros out batch Ho Hs Hin. unfold trace_batch. set (mask := fun i => existsb (Nat.eqb i) batch).
  assert (FB : filter mask (seq 0 n) = batch) by (apply sorted_filter_seq; auto; intros i Hi; specialize (Hin i Hi); lia).
  assert (E1 : flat_map (fun i => match nth_error distortions i with Some d => [d] | None => [] end) batch
               = map (fun i => nth i distortions d0) batch).
  { clear -Hin HL. revert Hin. induction batch; intros; simpl; auto.
    rewrite (nth_error_nth' distortions d0) by (rewrite HL; apply Hin; simpl; auto). simpl.
    f_equal. apply IHbatch. intros; apply Hin; simpl; auto. }
  assert (E2 : read_masked state mask = map (fun i => nth i state s0) batch).
  { unfold read_masked. rewrite (read_masked_spec s0), FB. apply map_ext. intros. rewrite Nat.sub_0_r. auto. }
  rewrite E1, E2, map_combine_map.
  split; [rewrite write_masked_length; auto|].
  intros j Hj.
  assert (E3 : map (fun i => trace (nth i distortions d0) (nth i state s0)) batch
               = map row (filter mask (seq 0 (List.length out)))) by (rewrite Ho, FB; reflexivity).
  rewrite E3, write_masked_spec. simpl. unfold mask.
  destruct (nth_error out j) eqn:E.
  - destruct (existsb (Nat.eqb j) batch); auto.
  - apply nth_error_None in E. lia.
Qed.

Lemma fold_batches_spec : forall batches out, List.length out = n ->
  (forall b, In b batches -> StronglySorted lt b) -> (forall b i, In b batches -> In i b -> i < n) ->
  List.length (fold_left (trace_batch trace distortions state) batches out) = n
  /\ forall j, j < n ->
     nth_error (fold_left (trace_batch trace distortions state) batches out) j
     = if existsb (Nat.eqb j) (List.concat batches) then Some (Some (row j)) else nth_error out j.
Proof.
  induction batches as [|b batches IH]; intros out Ho Hs Hin; simpl.
  - split; auto.
  - destruct (trace_batch_spec out b Ho) as [L N].
    { apply Hs; simpl; auto. } { intros; eapply Hin; simpl; eauto. }
    destruct (IH (trace_batch trace distortions state out b) L) as [L' N'].
    { intros; apply Hs; simpl; auto. } { intros; eapply Hin; simpl; eauto. }
    split; auto. intros j Hj. rewrite N', N by auto. rewrite existsb_app.
    destruct (existsb (Nat.eqb j) b), (existsb (Nat.eqb j) (List.concat batches)); auto.
Qed.
End Batches.

Lemma sorted_app_l : forall (l1 l2 : list nat), StronglySorted lt (l1 ++ l2) -> StronglySorted lt l1 /\ StronglySorted lt l2.
Proof.
  induction l1; simpl; intros l2 H; [split; [constructor|auto]|]. inversion H; subst.
  destruct (IHl1 _ H2). split; auto. constructor; auto. rewrite Forall_forall in *. intros; apply H3. apply in_or_app; auto.
Qed.

Lemma chunks_sorted : forall b fuel (l : list nat), StronglySorted lt l ->
  forall c, In c (chunks fuel b l) -> StronglySorted lt c.
Proof.
  induction fuel; intros l Hs c Hc; destruct l; simpl in Hc; try contradiction.
  rewrite <- (firstn_skipn b (n :: l)) in Hs. apply sorted_app_l in Hs. destruct Hs as [H1 H2].
  destruct Hc as [<-|Hc]; auto. eapply IHfuel; eauto.
Qed.

Lemma trace_batches_spec : forall {D S A} (trace : D -> S -> A) distortions state sampler batch_size,
  1 <= batch_size -> List.length distortions = List.length state ->
  StronglySorted lt sampler -> (forall i, In i sampler -> i < List.length state) ->
  List.length (trace_batches trace distortions state sampler batch_size) = List.length state
  /\ forall i d s, nth_error distortions i = Some d -> nth_error state i = Some s ->
       nth_error (trace_batches trace distortions state sampler batch_size) i
       = Some (if existsb (Nat.eqb i) sampler then Some (trace d s) else None).
Proof.
  intros D S A trace distortions state sampler batch_size Hb HL Hs Hin. unfold trace_batches.
  destruct distortions as [|d0 ds] eqn:ED.
  - destruct state; [|simpl in HL; lia]. destruct sampler as [|k ?]; [|specialize (Hin k (or_introl eq_refl)); simpl in Hin; lia].
    simpl. split; auto. intros i d s H. destruct i; discriminate.
  - destruct state as [|s0 ss] eqn:ES; [simpl in HL; lia|]. rewrite <- ED, <- ES in *.
    destruct (fold_batches_spec trace distortions state d0 s0 HL
                (chunks (List.length sampler) batch_size sampler) (repeat None (List.length state))) as [L N].
    + apply repeat_length.
    + intros b Hbt. eapply chunks_sorted; eauto.
    + intros b i Hbt Hi. apply Hin. rewrite <- (chunks_concat batch_size (List.length sampler) sampler) by auto.
      apply in_concat. eauto.
    + split; auto. intros i d s Hd Hst.
      assert (Hi : i < List.length state) by (apply nth_error_Some; congruence).
      rewrite N, chunks_concat by auto.
      rewrite (nth_error_repeat None Hi). unfold row.
      rewrite (nth_error_nth _ _ d0 Hd), (nth_error_nth _ _ s0 Hst).
      destruct (existsb (Nat.eqb i) sampler); auto.
Qed.

Lemma tracer_sampler_sorted : forall mask world rank, StronglySorted lt (tracer_sampler_indices mask world rank).
Proof. intros. apply sampler_sorted. Qed.

Lemma tracer_sampler_lt : forall mask world rank i, In i (tracer_sampler_indices mask world rank) -> i < list_sum mask.
Proof.
  intros mask world rank i H. unfold tracer_sampler_indices, mask_samples in H.
  unfold sampler_indices in H. destruct (rank <? Nat.min (mask_active mask) world); [|contradiction].
  apply in_flat_map in H. destruct H as (h & Hh & H). apply in_seq in Hh.
  destruct (_ =? rank); [|contradiction]. apply in_seq in H.
  assert (Ha : mask_active mask <> 0) by lia.
  pose proof (Nat.mul_div_le (list_sum mask) (mask_active mask) Ha).
  set (q := list_sum mask / mask_active mask) in *. nia.
Qed.

Lemma partition_owner : forall (f : nat -> list nat) world total i,
  exact_partition f world total -> i < total -> exists r, r < world /\ In i (f r).
Proof.
  intros f world total i H Hi. unfold exact_partition in H.
  assert (Hin : In i (List.concat (map f (seq 0 world)))).
  { eapply Permutation_in; [apply Permutation_sym; exact H|]. apply in_seq. lia. }
  apply in_concat in Hin. destruct Hin as (l & Hl & Hx). apply in_map_iff in Hl.
  destruct Hl as (r & <- & Hr). apply in_seq in Hr. exists r. split; [lia|auto].
Qed.

Lemma partition_unique : forall (f : nat -> list nat) world total i r1 r2,
  exact_partition f world total -> r1 < world -> r2 < world -> In i (f r1) -> In i (f r2) -> r1 = r2.
Proof.
  intros f world total i r1 r2 H H1 H2 I1 I2.
  assert (ND : NoDup (List.concat (map f (seq 0 world)))).
  { eapply Permutation_NoDup; [apply Permutation_sym; exact H|]. apply seq_NoDup. }
  eapply (nodup_concat_disjoint f world 0); eauto; lia.
Qed.

Lemma existsb_eqb_iff : forall i l, existsb (Nat.eqb i) l = true <-> In i l.
Proof.
  intros. rewrite existsb_exists. split.
  - intros (x & H & E). apply Nat.eqb_eq in E. subst; auto.
  - intros. exists i. split; auto. apply Nat.eqb_refl.
Qed.

Lemma batched_tracing : forall {D S A} (trace : D -> S -> A) distortions state mask world batch_size per,
  1 <= batch_size -> 1 <= world -> (exists m, In m mask /\ 0 < m) ->
  (forall m, In m mask -> m = 0 \/ m = per) ->
  List.length distortions = list_sum mask -> List.length state = list_sum mask ->
  let result rank := trace_batches trace distortions state (tracer_sampler_indices mask world rank) batch_size in
  (forall rank, List.length (result rank) = list_sum mask)
  /\ (forall i d s, nth_error distortions i = Some d -> nth_error state i = Some s ->
       exists owner, owner < world
         /\ nth_error (result owner) i = Some (Some (trace d s))
         /\ forall rank, rank < world -> rank <> owner -> nth_error (result rank) i = Some None).
Proof.
  intros D S A trace distortions state mask world batch_size per Hb Hw Hm He L1 L2 result.
  assert (HP : exact_partition (tracer_sampler_indices mask world) world (list_sum mask))
    by (eapply tracer_exact_partition; eauto).
  assert (SP : forall rank, List.length (result rank) = List.length state
     /\ forall i d s, nth_error distortions i = Some d -> nth_error state i = Some s ->
       nth_error (result rank) i
       = Some (if existsb (Nat.eqb i) (tracer_sampler_indices mask world rank) then Some (trace d s) else None)).
  { intros rank. apply trace_batches_spec; auto; try lia.
    - apply tracer_sampler_sorted.
    - intros i Hi. rewrite L2. eapply tracer_sampler_lt; eauto. }
  split.
  - intros rank. destruct (SP rank) as [L _]. lia.
  - intros i d s Hd Hs.
    assert (Hi : i < list_sum mask) by (rewrite <- L2; apply nth_error_Some; congruence).
    destruct (partition_owner _ _ _ _ HP Hi) as (o & Ho & Io).
    exists o. split; auto. split.
    + destruct (SP o) as [_ N]. rewrite (N i d s Hd Hs). apply existsb_eqb_iff in Io. rewrite Io. auto.
    + intros rank Hr Ne. destruct (SP rank) as [_ N]. rewrite (N i d s Hd Hs).
      destruct (existsb _ _) eqn:E; auto. apply existsb_eqb_iff in E. exfalso. apply Ne.
      eapply partition_unique; eauto.
Qed.

Lemma ray_power : forall dni area points rays, 1 <= points -> 1 <= rays ->
  Rsum (repeat (ray_magnitude (Some dni) area points rays) (points * rays)) = (dni * area)%R.
Proof.
  intros. rewrite Rsum_repeat. unfold ray_magnitude.
  assert (INR (points * rays) <> 0%R) by (apply not_0_INR; nia). field. auto.
Qed.

Lemma inside_gridb_iff : forall w h r, inside_gridb w h r = true <-> inside_grid w h r.
Proof.
  intros. unfold inside_gridb, inside_grid.
  repeat (destruct Rle_dec || destruct Rlt_dec); split; intros; try discriminate; auto; tauto.
Qed.

Lemma power_conserved : forall w h rays, 1 <= w -> 1 <= h ->
  (forall r, In r rays -> (0 <= hit_e r)%R /\ (0 <= hit_u r)%R) ->
  exists image, bilinear_splatting w h rays = Ok image /\ is_image w h image
    /\ image_total image = sum_where (inside_gridb w h) hit_intensity rays
    /\ ((forall r, In r rays -> (0 <= hit_intensity r)%R) ->
        forall row x, In row image -> In x row -> (0 <= x)%R).
Proof.
  intros w h rays Hw Hh Hp. destruct (splatting_conserves w h rays Hw Hh Hp) as (im & A & B & C & E).
  exists im. split; auto. split; auto. split; auto. rewrite C. unfold sum_where.
  rewrite (inside_dec_filter w h rays (inside_gridb w h)); auto. intros; apply inside_gridb_iff.
Qed.

Lemma pixel_formula : forall w h rays, 1 <= w -> 1 <= h ->
  (forall r, In r rays -> (0 <= hit_e r)%R /\ (0 <= hit_u r)%R) ->
  exists image, bilinear_splatting w h rays = Ok image /\ is_image w h image
    /\ forall r c, r < h -> c < w ->
       pixel image h r c
       = sum_where (inside_gridb w h)
           (fun ray => hit_intensity ray * hat (hit_e ray - INR c) * hat (hit_u ray - INR r))%R rays.
Proof.
  intros w h rays Hw Hh Hp. destruct (splatting_pixels w h rays Hw Hh Hp) as (im & A & B & C).
  exists im. split; auto. split; auto. intros. rewrite C by auto. unfold sum_where.
  rewrite (inside_dec_filter w h rays (inside_gridb w h)); auto. intros; apply inside_gridb_iff.
Qed.
