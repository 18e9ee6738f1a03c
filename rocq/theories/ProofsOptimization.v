From Coq Require Import List Arith ZArith Reals Lra Lia Bool Permutation.
From Verif Require Import RealSums ModelField ModelDistributed SpecDistributed ProofsDistributed ModelLBVH ModelSplatting SpecSplatting ProofsTracing ModelActuators ModelLosses ModelOptimization SpecOptimization.
Import ListNotations.
Local Open Scope R_scope.

(** * Motors *)
Lemma tanh_bounds : forall x, -1 < tanh x < 1.
Proof.
  intros x. unfold tanh, sinh, cosh. pose proof (exp_pos x). pose proof (exp_pos (- x)).
  assert (D : 0 < (exp x + exp (- x)) / 2) by lra. split.
  - apply (Rmult_lt_reg_r ((exp x + exp (- x)) / 2)); auto. unfold Rdiv at 2. rewrite Rmult_assoc, Rinv_l by lra. lra.
  - apply (Rmult_lt_reg_r ((exp x + exp (- x)) / 2)); auto. unfold Rdiv at 1. rewrite Rmult_assoc, Rinv_l by lra. lra.
Qed.
Lemma motor_bounds : forall minimum maximum initial p,
  let scale := motor_scale minimum maximum initial in
  initial - scale < motor_position initial scale p < initial + scale.
Proof.
  intros minimum maximum initial p scale. unfold motor_position. pose proof (tanh_bounds p) as T.
  assert (S : 1 <= scale) by (unfold scale, motor_scale; apply Rmax_r).
  assert (A : - scale < tanh p * scale) by (replace (- scale) with (-1 * scale) by ring; apply Rmult_lt_compat_r; lra).
  assert (B : tanh p * scale < scale) by (rewrite <- (Rmult_1_l scale) at 2; apply Rmult_lt_compat_r; lra).
  lra.
Qed.
Theorem motors_in_limits : forall motors parameters position,
  (forall minimum maximum initial, In (minimum, maximum, initial) motors -> minimum + 1 <= initial <= maximum - 1) ->
  In position (group_motor_positions motors parameters) ->
  exists minimum maximum initial, In (minimum, maximum, initial) motors /\ within_limits minimum maximum position.
Proof.
  intros motors parameters position M I. unfold group_motor_positions in I. apply in_map_iff in I. destruct I as ((((minimum & maximum) & initial) & p) & <- & I).
  apply in_combine_l in I. exists minimum, maximum, initial. split; auto. specialize (M _ _ _ I).
  pose proof (motor_bounds minimum maximum initial p) as B. cbv zeta in B. unfold within_limits.
  assert (S : motor_scale minimum maximum initial <= initial - minimum /\ motor_scale minimum maximum initial <= maximum - initial).
  { unfold motor_scale, Rmax, Rmin. repeat destruct Rle_dec; lra. }
  lra.
Qed.
Theorem motor_limits : forall minimum maximum initial p, minimum + 1 <= initial <= maximum - 1 ->
  within_limits minimum maximum (motor_position initial (motor_scale minimum maximum initial) p).
Proof.
  intros minimum maximum initial p M. pose proof (motor_bounds minimum maximum initial p) as B. cbv zeta in B. unfold within_limits.
  assert (S : motor_scale minimum maximum initial <= initial - minimum /\ motor_scale minimum maximum initial <= maximum - initial).
  { unfold motor_scale, Rmax, Rmin. repeat destruct Rle_dec; lra. }
  lra.
Qed.
Theorem motor_overshoot : forall minimum maximum initial p, within_limits minimum maximum initial ->
  within_limits (minimum - 1) (maximum + 1) (motor_position initial (motor_scale minimum maximum initial) p).
Proof.
  intros minimum maximum initial p M. pose proof (motor_bounds minimum maximum initial p) as B. cbv zeta in B. unfold within_limits in *.
  unfold motor_scale, Rmax, Rmin in *. repeat destruct Rle_dec; lra.
Qed.
Theorem motor_start : forall minimum maximum initial, motor_position initial (motor_scale minimum maximum initial) 0 = initial.
Proof. intros. unfold motor_position, tanh, sinh. rewrite Ropp_0, Rminus_diag_eq by auto. unfold Rdiv. ring. Qed.
Lemma tanh_half : forall x, 1 <= x -> 1 / 2 < tanh x.
Proof.
  intros x H. unfold tanh, sinh, cosh. pose proof (exp_pos x). pose proof (exp_pos (- x)).
  assert (NZ : x <> 0) by lra. pose proof (exp_ineq1 x NZ) as E.
  assert (F : exp (- x) < 1 / 2). { rewrite exp_Ropp. apply (Rmult_lt_reg_r (exp x)); [lra|]. rewrite Rinv_l by lra. lra. }
  apply (Rmult_lt_reg_r ((exp x + exp (- x)) / 2)); [lra|].
  replace ((exp x - exp (- x)) / 2 / ((exp x + exp (- x)) / 2) * ((exp x + exp (- x)) / 2)) with ((exp x - exp (- x)) / 2) by (field; lra). lra.
Qed.

(** * Flux of all groups *)
Lemma replace_at_length : forall {A} (l : list A) i x, length (replace_at l i x) = length l.
Proof. induction l; intros [|i] x; cbn; auto. Qed.
Lemma replace_at_nth : forall {A} (l : list A) i x j, nth_error (replace_at l i x) j = if (j =? i)%nat then (if (i <? length l)%nat then Some x else None) else nth_error l j.
Proof.
  induction l as [|y l IH]; intros i x j; cbn [replace_at].
  - destruct i; cbn; destruct j; cbn; auto; destruct (Nat.eqb _ _); auto.
  - destruct i as [|i]; [destruct j; auto|]. destruct j as [|j]; auto. cbn [nth_error]. rewrite IH. cbn [Nat.eqb length]. auto.
Qed.
Lemma scatter_block : forall {A} (values : list A) l offset, (offset + length values <= length l)%nat ->
  exists r, scatter l (map (fun i => (offset + i)%nat) (seq 0 (length values))) values = Ok r /\ length r = length l
  /\ (forall i x, nth_error values i = Some x -> nth_error r (offset + i) = Some x)
  /\ (forall j, (j < offset \/ offset + length values <= j)%nat -> nth_error r j = nth_error l j).
Proof.
  intros A values l offset B. unfold scatter. rewrite map_length, seq_length, Nat.eqb_refl.
  assert (X : existsb (fun i => (length l <=? i)%nat) (map (fun i => (offset + i)%nat) (seq 0 (length values))) = false).
  { apply not_true_is_false. intros X. apply existsb_exists in X. destruct X as (k & I & X). apply in_map_iff in I. destruct I as (i & <- & I). apply in_seq in I. apply Nat.leb_le in X. lia. }
  rewrite X. eexists. split; [reflexivity|]. clear X.
  assert (G : forall start l, (offset + start + length values <= length l)%nat ->
    let r := fold_left (fun acc '(i, x) => replace_at acc i x) (combine (map (fun i => (offset + i)%nat) (seq start (length values))) values) l in
    length r = length l /\ (forall i x, nth_error values i = Some x -> nth_error r (offset + start + i) = Some x)
    /\ (forall j, (j < offset + start \/ offset + start + length values <= j)%nat -> nth_error r j = nth_error l j)).
  { clear. induction values as [|v values IH]; intros start l B; cbn [length seq map combine fold_left].
    - repeat split; auto. intros [|i] x; discriminate.
    - cbn [length] in B. destruct (IH (S start) (replace_at l (offset + start) v)) as (L & H1 & H2); [rewrite replace_at_length; lia|].
      rewrite replace_at_length in L. repeat split; auto.
      + intros [|i] x E; cbn in E.
        * injection E as <-. rewrite H2 by lia. rewrite replace_at_nth. rewrite Nat.add_0_r, Nat.eqb_refl. destruct (Nat.ltb_spec (offset + start) (length l)); auto; lia.
        * specialize (H1 i x E). rewrite <- H1. f_equal. lia.
      + intros j J. rewrite H2 by lia. rewrite replace_at_nth. destruct (Nat.eqb_spec j (offset + start)); auto; lia. }
  specialize (G 0%nat l). rewrite Nat.add_0_r in G. apply G. auto.
Qed.
Lemma sampler_single : forall n, tracer_sampler_indices (repeat 1%nat n) 1 0 = seq 0 n.
Proof.
  intros n. unfold tracer_sampler_indices, mask_samples, mask_active, sampler_indices.
  assert (F : filter (fun m => 0 <? m)%nat (repeat 1%nat n) = repeat 1%nat n) by (clear; induction n as [|n IH]; [reflexivity|]; change (1%nat :: filter (fun m => 0 <? m)%nat (repeat 1%nat n) = 1%nat :: repeat 1%nat n); rewrite IH; reflexivity).
  rewrite F, repeat_length. assert (S : list_sum (repeat 1%nat n) = n) by (clear; unfold list_sum; induction n as [|n IH]; [reflexivity|]; cbn [repeat fold_right]; rewrite IH; reflexivity). rewrite S. clear S F.
  destruct n as [|n]; [reflexivity|]. rewrite (Nat.min_r (S n) 1) by lia. rewrite Nat.div_same by lia. cbn [Nat.ltb Nat.leb].
  rewrite (flat_map_ext _ (fun i => [i])); [|intros i; rewrite Nat.mod_1_r, Nat.mul_1_r; reflexivity].
  rewrite flat_map_concat_map. generalize (S n), 0%nat. clear. intros n. induction n; intros k; auto. cbn. f_equal. apply IHn.
Qed.
Lemma offset_bound : forall sizes g, (g < length sizes)%nat -> (group_offset sizes g + nth g sizes 0 <= list_sum sizes)%nat.
Proof.
  unfold group_offset. induction sizes as [|n sizes IH]; intros [|g] H; cbn [length] in H; try lia; cbn.
  - lia.
  - change (fold_right Nat.add 0%nat) with list_sum. specialize (IH g). change (list_sum sizes) with (list_sum sizes) in *. unfold list_sum in *. lia.
Qed.
Lemma offset_mono : forall sizes g g', (g < g')%nat -> (g' <= length sizes)%nat -> (group_offset sizes g + nth g sizes 0 <= group_offset sizes g')%nat.
Proof.
  unfold group_offset. induction sizes as [|n sizes IH]; intros g g' H L; cbn [length] in L; [lia|]. destruct g' as [|g']; [lia|]. destruct g as [|g]; cbn.
  - lia.
  - specialize (IH g g'). unfold list_sum in *. lia.
Qed.
Lemma add_bitmaps_nth : forall a b p n, length a = n -> length b = n -> length (add_bitmaps a b) = n /\ nth p (add_bitmaps a b) 0 = nth p a 0 + nth p b 0.
Proof.
  intros a b p n A B. unfold add_bitmaps. split; [rewrite map_length, combine_length; lia|]. subst n. revert b p B.
  induction a as [|x a IH]; intros [|y b] p B; cbn in B; try lia; destruct p; cbn; try lra. apply IH. lia.
Qed.
Lemma fold_bitmaps : forall l n, (forall b, In b l -> length b = n) ->
  length (fold_right add_bitmaps (repeat 0 n) l) = n /\ forall p, nth p (fold_right add_bitmaps (repeat 0 n) l) 0 = Rsum (map (fun b => nth p b 0) l).
Proof.
  induction l as [|b l IH]; intros n H; cbn [fold_right map Rsum].
  - split; [apply repeat_length|]. intros p. rewrite nth_repeat. reflexivity.
  - destruct (IH n) as (L & N); [intros; apply H; right; auto|]. split; [apply (add_bitmaps_nth b _ 0 n); auto; apply H; left; auto|].
    intros p. rewrite (proj2 (add_bitmaps_nth b _ p n (H b (or_introl eq_refl)) L)), N. reflexivity.
Qed.
Section Groups.
Variables pixels number_of_targets target : nat.
Variable sizes : list nat.
Variables row garbage : nat -> nat -> traced.
Hypothesis target_exists : (target < number_of_targets)%nat.
Hypothesis images : forall g i, length (t_flux (row g i)) = pixels.
Lemma accumulate_group_ok : forall flux intercepts g, (g < length sizes)%nat -> length flux = pixels -> length intercepts = list_sum sizes ->
  exists flux' intercepts', accumulate_group pixels number_of_targets target sizes row garbage 1 0 (flux, intercepts) g = Ok (flux', intercepts')
  /\ length flux' = pixels /\ length intercepts' = list_sum sizes
  /\ (forall p, nth p flux' 0 = nth p flux 0 + Rsum (map (fun i => nth p (t_flux (row g i)) 0) (seq 0 (nth g sizes 0%nat))))
  /\ (forall i, (i < nth g sizes 0)%nat -> nth_error intercepts' (group_offset sizes g + i) = Some (t_intercept (row g i)))
  /\ (forall j, (j < group_offset sizes g \/ group_offset sizes g + nth g sizes 0 <= j)%nat -> nth_error intercepts' j = nth_error intercepts j).
Proof.
  intros flux intercepts g G F I. unfold accumulate_group. rewrite sampler_single. set (n := nth g sizes 0%nat).
  assert (T : traced_rows n (seq 0 n) (row g) (garbage g) = map (row g) (seq 0 n)).
  { unfold traced_rows. apply map_ext_in. intros i J. assert (E : existsb (Nat.eqb i) (seq 0 n) = true) by (apply existsb_exists; exists i; rewrite Nat.eqb_refl; auto). rewrite E. auto. }
  rewrite T. destruct (bitmaps_per_target_spec number_of_targets pixels (map t_flux (map (row g) (seq 0 n))) (map (fun _ => Z.of_nat target) (seq 0 n))) as (out & E & IM & PX & _).
  { rewrite !map_length. auto. }
  { intros b J. rewrite map_map in J. apply in_map_iff in J. destruct J as (i & <- & _). auto. }
  rewrite E. cbn [bind]. destruct IM as (L & RL). destruct (nth_error out target) as [bitmap|] eqn:N; [|apply nth_error_None in N; lia].
  assert (NB : nth target out [] = bitmap) by (apply nth_error_nth; auto).
  destruct (scatter_block (map t_intercept (map (row g) (seq 0 n))) intercepts (group_offset sizes g)) as (r & S1 & S2 & S3 & S4).
  { rewrite !map_length, seq_length, I. apply offset_bound; auto. }
  rewrite !map_length, seq_length in S1. cbn [fst snd]. rewrite S1. cbn [bind]. exists (add_bitmaps flux bitmap), r.
  assert (BL : length bitmap = pixels) by (apply RL; eapply nth_error_In; eauto).
  split; auto. split; [apply (add_bitmaps_nth flux bitmap 0 pixels); auto|]. split; [congruence|]. split; [|split].
  - intros p. rewrite (proj2 (add_bitmaps_nth flux bitmap p pixels F BL)). f_equal. rewrite <- NB, PX by auto. unfold sum_where.
    assert (Q : forall (f : nat -> list R) l, Rsum (map (fun '(b, _) => nth p b 0) (filter (fun '(_, t') => (t' =? Z.of_nat target)%Z) (combine (map f l) (map (fun _ : nat => Z.of_nat target) l)))) = Rsum (map (fun i => nth p (f i) 0) l)).
    { induction l as [|x l IH]; auto. cbn [map combine filter]. rewrite Z.eqb_refl. cbn [map]. rewrite !Rsum_cons, IH. auto. }
    rewrite map_map. apply Q.
  - intros i J. apply S3. rewrite map_map, nth_error_map. rewrite (nth_error_nth' _ 0%nat) by (rewrite seq_length; auto). rewrite seq_nth by auto. reflexivity.
  - intros j J. apply S4. rewrite !map_length, seq_length. auto.
Qed.
Lemma accumulate_ok : forall groups flux intercepts, (forall g, In g groups -> (g < length sizes)%nat) -> length flux = pixels -> length intercepts = list_sum sizes ->
  exists flux' intercepts', accumulate pixels number_of_targets target sizes row garbage 1 0 (flux, intercepts) groups = Ok (flux', intercepts')
  /\ length flux' = pixels /\ length intercepts' = list_sum sizes
  /\ (forall p, nth p flux' 0 = nth p flux 0 + flux_of_groups sizes (fun g i => nth p (t_flux (row g i)) 0) groups)
  /\ (forall g i, (g < length sizes)%nat -> (i < nth g sizes 0)%nat -> nth_error intercepts' (field_index sizes g i)
        = if existsb (Nat.eqb g) groups then Some (t_intercept (row g i)) else nth_error intercepts (field_index sizes g i)).
Proof.
  induction groups as [|g groups IH]; intros flux intercepts G F I.
  - cbn. exists flux, intercepts. repeat split; auto. intros p. unfold flux_of_groups. cbn. lra.
  - cbn [accumulate]. destruct (accumulate_group_ok flux intercepts g) as (f1 & i1 & E & F1 & I1 & P1 & A1 & B1); auto; [apply G; left; auto|].
    rewrite E. cbn [bind]. destruct (IH f1 i1) as (f2 & i2 & E2 & F2 & I2 & P2 & A2); auto; [intros; apply G; right; auto|].
    exists f2, i2. split; auto. split; auto. split; auto. split.
    + intros p. rewrite P2, P1. unfold flux_of_groups. cbn [map]. rewrite Rsum_cons. lra.
    + intros g' i G' L. rewrite A2 by auto. cbn [existsb]. destruct (Nat.eqb_spec g' g) as [->|N]; cbn [orb].
      * destruct (existsb _ groups); auto. apply A1; auto.
      * destruct (existsb _ groups); auto. apply B1. unfold field_index. fold (group_offset sizes g').
        destruct (Nat.lt_total g' g) as [H|[H|H]]; [left|lia|right].
        -- pose proof (offset_mono sizes g' g H). specialize (G g (or_introl eq_refl)). lia.
        -- pose proof (offset_mono sizes g g' H). lia.
Qed.
(** Not more ranks than groups: every group is processed by one rank. *)
Theorem accumulated_flux : forall world rank, (1 <= world <= length sizes)%nat -> (rank < world)%nat ->
  exists flux intercepts, trace_and_accumulate pixels number_of_targets target sizes row garbage world rank = Ok (flux, intercepts)
  /\ length flux = pixels /\ length intercepts = list_sum sizes
  /\ (forall p, nth p flux 0 = flux_of_groups sizes (fun g i => nth p (t_flux (row g i)) 0) (seq 0 (length sizes)))
  /\ (forall g i, (g < length sizes)%nat -> (i < nth g sizes 0)%nat -> nth_error intercepts (field_index sizes g i)
        = Some (if existsb (Nat.eqb g) (groups_of_rank world (length sizes) rank) then t_intercept (row g i) else 0)).
Proof.
  intros world rank W RK. unfold trace_and_accumulate.
  destruct (groups_distribution world (length sizes) ltac:(lia) ltac:(lia)) as (_ & NEST & _ & VALID & PART & _). destruct (PART ltac:(lia)) as (PP & _).
  assert (SG : forall r, setup_rank world (length sizes) r = {| sg_rank := 0; sg_world := 1; sg_members := None |}).
  { intros r. unfold setup_rank. destruct (distribute_groups_among_ranks world (length sizes)) as (m & nested) eqn:D. cbn [snd] in NEST. destruct nested; auto. assert (length sizes < world)%nat by (apply NEST; auto). lia. }
  set (ok := fun r out => length (fst out) = pixels /\ length (snd out) = list_sum sizes
     /\ (forall p, nth p (fst out) 0 = flux_of_groups sizes (fun g i => nth p (t_flux (row g i)) 0) (groups_of_rank world (length sizes) r))
     /\ (forall g i, (g < length sizes)%nat -> (i < nth g sizes 0)%nat -> nth_error (snd out) (field_index sizes g i)
        = Some (if existsb (Nat.eqb g) (groups_of_rank world (length sizes) r) then t_intercept (row g i) else 0))).
  assert (RF : forall r, (r < world)%nat -> exists out, rank_flux pixels number_of_targets target sizes row garbage world r = Ok out /\ ok r out).
  { intros r H. unfold rank_flux. rewrite SG. cbn [sg_rank sg_world].
    destruct (accumulate_ok (groups_of_rank world (length sizes) r) (repeat 0 pixels) (repeat 0 (list_sum sizes))) as (f & i & E & F & I & P & A).
    { intros g J. apply (VALID r g H J). }
    { apply repeat_length. }
    { apply repeat_length. }
    exists (f, i). split; auto. unfold ok. cbn [fst snd]. repeat split; auto.
    - intros p. rewrite P, nth_repeat. lra.
    - intros g j G L. rewrite A by auto. destruct (existsb _ _); auto. assert (B : (field_index sizes g j < list_sum sizes)%nat).
      { pose proof (offset_bound sizes g G). unfold field_index, group_offset in *. lia. }
      rewrite (nth_error_nth' _ 0) by (rewrite repeat_length; auto). rewrite nth_repeat. auto. }
  assert (ALL : forall n start, (start + n <= world)%nat -> exists outs, map_res (rank_flux pixels number_of_targets target sizes row garbage world) (seq start n) = Ok outs
     /\ length outs = n /\ (forall k, (k < n)%nat -> exists out, nth_error outs k = Some out /\ ok (start + k)%nat out)
     /\ (forall b, In b (map fst outs) -> length b = pixels)
     /\ forall p, Rsum (map (fun b => nth p b 0) (map fst outs)) = flux_of_groups sizes (fun g i => nth p (t_flux (row g i)) 0) (concat (map (groups_of_rank world (length sizes)) (seq start n)))).
  { induction n as [|n IH]; intros start B.
    - exists []. cbn. repeat split; auto; [intros; lia|intros ? []].
    - cbn [seq map_res]. destruct (RF start ltac:(lia)) as (out & E & O). rewrite E. cbn [bind]. destruct (IH (S start) ltac:(lia)) as (outs & E2 & L & K & LB & P).
      rewrite E2. cbn [bind]. exists (out :: outs). split; auto. split; [cbn; lia|]. split; [|split].
      + intros [|k] H; [exists out; rewrite Nat.add_0_r; auto|]. cbn [nth_error]. destruct (K k ltac:(lia)) as (o & O1 & O2). exists o. split; auto. replace (start + S k)%nat with (S start + k)%nat by lia. auto.
      + intros b [<-|J]; [apply O|apply LB; auto].
      + intros p. cbn [map concat]. rewrite Rsum_cons, P. destruct O as (_ & _ & O & _). rewrite O. unfold flux_of_groups. rewrite map_app, Rsum_app. reflexivity. }
  destruct (ALL world 0%nat ltac:(lia)) as (outs & E & L & K & LB & P). rewrite E. cbn [bind]. destruct (K rank RK) as (out & N & O). rewrite N.
  destruct (fold_bitmaps (map fst outs) pixels LB) as (FL & FN). eexists _, _. split; [reflexivity|]. split; auto. destruct O as (_ & O2 & _ & O4). split; auto. split.
  - intros p. rewrite FN, P. unfold flux_of_groups. apply Rsum_perm, Permutation_map. exact PP.
  - intros g i G J. apply O4; auto.
Qed.
End Groups.

(** More ranks than groups. *)
Lemma map_res_fails : forall {A B} (f : A -> res B) l x e, In x l -> f x = Err e -> exists e', map_res f l = Err e'.
Proof.
  induction l as [|y l IH]; intros x e I F; [contradiction|]. cbn [map_res]. destruct I as [->|I].
  - rewrite F. cbn. eauto.
  - destruct (f y) as [b|e']; cbn [bind]; eauto. destruct (IH x e I F) as (e' & ->). cbn. eauto.
Qed.
Lemma sampler_share : forall n members rank, (2 <= n)%nat -> (2 <= members)%nat -> length (tracer_sampler_indices (repeat 1%nat n) members rank) <> n.
Proof.
  intros n members rank N M. unfold tracer_sampler_indices, mask_samples, mask_active, sampler_indices.
  assert (F : filter (fun m => 0 <? m)%nat (repeat 1%nat n) = repeat 1%nat n) by (clear; induction n as [|n IH]; [reflexivity|]; change (1%nat :: filter (fun m => 0 <? m)%nat (repeat 1%nat n) = 1%nat :: repeat 1%nat n); rewrite IH; reflexivity).
  rewrite F, repeat_length. assert (S : list_sum (repeat 1%nat n) = n) by (clear; unfold list_sum; induction n as [|n IH]; [reflexivity|]; cbn [repeat fold_right]; rewrite IH; reflexivity). rewrite S. clear S.
  destruct (Nat.ltb_spec rank (Nat.min n members)) as [R|R]; [|cbn; lia]. rewrite Nat.div_same by lia.
  set (k := Nat.min n members) in *. assert (K : (2 <= k)%nat) by (unfold k; lia).
  assert (B : forall l, (length (flat_map (fun i => if i mod k =? rank then seq (i * 1) 1 else []) l) <= length l)%nat /\
     (length (flat_map (fun i => if i mod k =? rank then seq (i * 1) 1 else []) l) = length l -> forall i, In i l -> i mod k = rank)%nat).
  { induction l as [|x l (I1 & I2)]; [split; [auto|intros _ ? []]|]. cbn [flat_map]. rewrite app_length.
    assert (L1 : length (if x mod k =? rank then seq (x * 1) 1 else [])%nat = if (x mod k =? rank)%nat then 1%nat else 0%nat) by (destruct (x mod k =? rank)%nat; auto).
    rewrite L1. change (length (x :: l)) with (S (length l)). destruct (Nat.eqb_spec (x mod k) rank) as [E|E].
    - split; [lia|]. intros H i [<-|J]; [exact E|]. apply I2; [lia|exact J].
    - split; [lia|]. intros H. exfalso. lia. }
  intros H. destruct (B (seq 0 n)) as (_ & B2). rewrite seq_length in B2. specialize (B2 H).
  pose proof (B2 0%nat ltac:(apply in_seq; lia)) as E0. pose proof (B2 1%nat ltac:(apply in_seq; lia)) as E1.
  rewrite Nat.mod_0_l in E0 by lia. rewrite Nat.mod_small in E1 by lia. lia.
Qed.
Lemma shared_group : forall world groups, (1 <= groups < world)%nat -> exists rank, (rank < world)%nat /\ (2 <= sg_world (setup_rank world groups rank))%nat.
Proof.
  intros world groups H. destruct (existsb (fun r => 2 <=? sg_world (setup_rank world groups r))%nat (seq 0 world)) eqn:E.
  - apply existsb_exists in E. destruct E as (r & I & L). apply in_seq in I. apply Nat.leb_le in L. exists r. split; auto; lia.
  - exfalso. assert (ONE : forall r, (r < world)%nat -> (sg_world (setup_rank world groups r) <= 1)%nat).
    { intros r L. apply Nat.nlt_ge. intros X. assert (existsb (fun r => 2 <=? sg_world (setup_rank world groups r))%nat (seq 0 world) = true); [|congruence].
      apply existsb_exists. exists r. split; [apply in_seq; lia|apply Nat.leb_le; lia]. }
    destruct (groups_distribution world groups ltac:(lia) ltac:(lia)) as (_ & _ & _ & _ & _ & NEST). destruct (NEST ltac:(lia)) as (SINGLE & _).
    set (f := fun r => nth 0 (groups_of_rank world groups r) 0%nat).
    assert (INJ : forall r1 r2, (r1 < world)%nat -> (r2 < world)%nat -> f r1 = f r2 -> r1 = r2).
    { intros r1 r2 L1 L2 E12. destruct (SINGLE r1 L1) as (g1 & _ & G1). destruct (SINGLE r2 L2) as (g2 & _ & G2). unfold f in E12. rewrite G1, G2 in E12. cbn in E12. subst g2.
      destruct (setup_rank_consistent world groups r1 H L1) as (members & _ & ND & NTH & LEN & MEM & _). specialize (ONE r1 L1). rewrite LEN in ONE.
      assert (I2 : In r2 members) by (apply MEM; split; auto; congruence). assert (I1 : In r1 members) by (eapply nth_error_In; eauto).
      destruct members as [|a [|b members]]; cbn [length] in ONE; try lia; [contradiction|]. destruct I1 as [<-|[]]; destruct I2 as [<-|[]]; auto. }
    assert (ND : NoDup (map f (seq 0 world))).
    { assert (A : forall l, NoDup l -> (forall x, In x l -> (x < world)%nat) -> NoDup (map f l)).
      { induction 1 as [|x l N D IH]; intros B; cbn; constructor; [|apply IH; intros; apply B; right; auto]. intros I. apply in_map_iff in I. destruct I as (y & Ey & I). apply INJ in Ey; [subst; auto|apply B; right; auto|apply B; left; auto]. }
      apply A; [apply seq_NoDup|]. intros x I. apply in_seq in I. lia. }
    assert (INC : incl (map f (seq 0 world)) (seq 0 groups)).
    { intros x I. apply in_map_iff in I. destruct I as (r & <- & I). apply in_seq in I. destruct (SINGLE r ltac:(lia)) as (g & L & G). unfold f. rewrite G. cbn. apply in_seq. lia. }
    pose proof (NoDup_incl_length ND INC) as LE. rewrite map_length, !seq_length in LE. lia.
Qed.
Theorem nested_fails : forall pixels number_of_targets target sizes row garbage world rank, (1 <= number_of_targets)%nat ->
  (1 <= length sizes < world)%nat -> (forall n, In n sizes -> 2 <= n)%nat ->
  exists e, trace_and_accumulate pixels number_of_targets target sizes row garbage world rank = Err e.
Proof.
  intros pixels number_of_targets target sizes row garbage world rank T W S. unfold trace_and_accumulate.
  destruct (shared_group world (length sizes) W) as (r & R & M).
  destruct (groups_distribution world (length sizes) ltac:(lia) ltac:(lia)) as (_ & _ & _ & _ & _ & NEST). destruct (NEST ltac:(lia)) as (SINGLE & _).
  destruct (SINGLE r R) as (g & G & WORK).
  destruct (map_res_fails (rank_flux pixels number_of_targets target sizes row garbage world) (seq 0 world) r IndexError) as (e & E).
  { apply in_seq. lia. }
  { unfold rank_flux. rewrite WORK. cbn [accumulate]. unfold accumulate_group.
    set (n := nth g sizes 0%nat). assert (N : (2 <= n)%nat) by (apply S, nth_In; auto).
    pose proof (sampler_share n _ (sg_rank (setup_rank world (length sizes) r)) N M) as X.
    unfold bitmaps_per_target. unfold traced_rows. rewrite !map_length, seq_length. destruct (Nat.eqb_spec n (length (tracer_sampler_indices (repeat 1%nat n) (sg_world (setup_rank world (length sizes) r)) (sg_rank (setup_rank world (length sizes) r))))) as [Q|Q]; [congruence|].
    destruct number_of_targets; [lia|]. reflexivity. }
  rewrite E. cbn. eauto.
Qed.
Lemma single_rank_groups : forall groups g, (1 <= groups)%nat -> (g < groups)%nat -> existsb (Nat.eqb g) (groups_of_rank 1 groups 0) = true.
Proof.
  intros groups g G L. destruct (groups_distribution 1 groups ltac:(lia) G) as (_ & _ & ALL & _). destruct (ALL g L) as (r & R & I). replace r with 0%nat in I by lia.
  apply existsb_exists. exists g. rewrite Nat.eqb_refl. auto.
Qed.
Theorem single_rank_factors : forall pixels number_of_targets target sizes row garbage, (target < number_of_targets)%nat -> (1 <= length sizes)%nat ->
  (forall g i, length (t_flux (row g i)) = pixels) ->
  exists flux intercepts, trace_and_accumulate pixels number_of_targets target sizes row garbage 1 0 = Ok (flux, intercepts)
  /\ length intercepts = list_sum sizes
  /\ forall g i, (g < length sizes)%nat -> (i < nth g sizes 0)%nat -> nth_error intercepts (field_index sizes g i) = Some (t_intercept (row g i)).
Proof.
  intros pixels number_of_targets target sizes row garbage T S IM.
  destruct (accumulated_flux pixels number_of_targets target sizes row garbage T IM 1 0) as (f & i & E & _ & L & _ & A); try lia.
  exists f, i. repeat split; auto. intros g j G J. rewrite A by auto. rewrite single_rank_groups by auto. reflexivity.
Qed.
Theorem foreign_factors : forall pixels number_of_targets target sizes row garbage world rank, (target < number_of_targets)%nat -> (1 <= world <= length sizes)%nat -> (rank < world)%nat ->
  (forall g i, length (t_flux (row g i)) = pixels) ->
  exists flux intercepts, trace_and_accumulate pixels number_of_targets target sizes row garbage world rank = Ok (flux, intercepts)
  /\ forall g i, (g < length sizes)%nat -> (i < nth g sizes 0)%nat -> ~ In g (groups_of_rank world (length sizes) rank) -> nth_error intercepts (field_index sizes g i) = Some 0.
Proof.
  intros pixels number_of_targets target sizes row garbage world rank T W R IM.
  destruct (accumulated_flux pixels number_of_targets target sizes row garbage T IM world rank W R) as (f & i & E & _ & L & _ & A).
  exists f, i. split; auto. intros g j G J N. rewrite A by auto. destruct (existsb _ _) eqn:X; auto. apply existsb_exists in X. destruct X as (y & Y & Z). apply Nat.eqb_eq in Z. subst. contradiction.
Qed.
Theorem pixel_density : forall width height re ru density x, 0 < width -> 0 < height -> (0 < re)%nat -> (0 < ru)%nat ->
  (x <= max_flux_density_per_pixel (width, height) re ru density <-> x / (width / INR re * (height / INR ru)) <= density).
Proof.
  intros width height re ru density x W H RE RU. apply lt_0_INR in RE. apply lt_0_INR in RU. unfold max_flux_density_per_pixel. cbn [fst snd].
  assert (A : 0 < width / INR re * (height / INR ru)) by (apply Rmult_lt_0_compat; apply Rdiv_lt_0_compat; auto).
  replace (width * height / (INR re * INR ru) * density) with (density * (width / INR re * (height / INR ru))) by (field; lra).
  split; intros L.
  - apply (Rmult_le_reg_r (width / INR re * (height / INR ru))); auto. replace (x / (width / INR re * (height / INR ru)) * (width / INR re * (height / INR ru))) with x by (field; lra). auto.
  - apply (Rmult_le_compat_r (width / INR re * (height / INR ru))) in L; [|lra]. replace (x / (width / INR re * (height / INR ru)) * (width / INR re * (height / INR ru))) with x in L by (field; lra). auto.
Qed.
Theorem dimensions_of_target : forall planar cylinders index,
  (forall d, nth_error planar index = Some d -> target_plane_dimensions planar cylinders index = Ok d)
  /\ (forall j radius angle height, index = (length planar + j)%nat -> nth_error cylinders j = Some (radius, angle, height) -> target_plane_dimensions planar cylinders index = Ok (radius * angle, height))
  /\ ((length planar + length cylinders <= index)%nat -> target_plane_dimensions planar cylinders index = Err KeyError).
Proof.
  intros planar cylinders index. unfold target_plane_dimensions. split; [|split].
  - intros d E. assert (L : (index < length planar)%nat) by (apply nth_error_Some; congruence). destruct (Nat.ltb_spec index (length planar)); [|lia]. rewrite E. auto.
  - intros j radius angle height -> E. destruct (Nat.ltb_spec (length planar + j) (length planar)); [lia|]. replace (length planar + j - length planar)%nat with j by lia. rewrite E. auto.
  - intros L. destruct (Nat.ltb_spec index (length planar)); [lia|]. replace (nth_error cylinders (index - length planar)) with (@None (R * R * R)); auto. symmetry. apply nth_error_None. lia.
Qed.
