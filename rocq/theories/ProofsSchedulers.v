From Coq Require Import List Arith Reals Lra Lia Bool ZArith.
From Verif Require Import RealSums ModelField ModelSchedulers SpecSchedulers.
Import ListNotations.
Local Open Scope R_scope.

Lemma run_app : forall s st a b, scheduler_run s st (a ++ b) = scheduler_run s (scheduler_run s st a) b.
Proof. intros. unfold scheduler_run. apply fold_left_app. Qed.

(** ** Exponential *)
Lemma exponential_rate : forall gamma initial losses st, create_scheduler (Exponential gamma) initial = Ok st ->
  rate (scheduler_run (Exponential gamma) st losses) = initial * gamma ^ length losses.
Proof.
  intros gamma initial losses st E. injection E as <-. induction losses as [|l losses IH] using rev_ind; [cbn; ring|].
  rewrite run_app, app_length. cbn [length]. rewrite Nat.add_1_r. cbn [scheduler_run fold_left scheduler_step rate pow] in *.
  unfold scheduler_run in *. rewrite IH. ring.
Qed.

(** ** Cyclic *)
Lemma int_part_unique : forall r z, IZR z <= r < IZR z + 1 -> Int_part r = z.
Proof.
  intros r z H. destruct (base_Int_part r) as (A & B). assert (C : (Int_part r < z + 1)%Z) by (apply lt_IZR; rewrite plus_IZR; lra).
  assert (D : (z < Int_part r + 1)%Z) by (apply lt_IZR; rewrite plus_IZR; lra). lia.
Qed.
Lemma cyclic_triangle : forall lr_min lr_max up n, (1 <= up)%nat -> cyclic_rate lr_min lr_max up n = lr_min + (lr_max - lr_min) * triangle up n.
Proof.
  intros lr_min lr_max up n U. unfold cyclic_rate, triangle. cbv zeta. set (k := (n mod (2 * up))%nat). set (q := (n / (2 * up))%nat).
  assert (D : n = (2 * up * q + k)%nat) by (apply Nat.div_mod; lia). assert (K : (k < 2 * up)%nat) by (apply Nat.mod_upper_bound; lia).
  assert (U0 : 0 < INR up) by (apply lt_0_INR; lia). assert (T : INR (up + up) = 2 * INR up) by (rewrite plus_INR; ring).
  assert (KT : 0 <= INR k / INR (up + up) < 1).
  { rewrite T. apply lt_INR in K. rewrite mult_INR in K. cbn [INR] in K. replace (INR k / (2 * INR up)) with (INR k * / (2 * INR up)) by (unfold Rdiv; auto). split.
    - apply Rmult_le_pos; [apply pos_INR|]. apply Rlt_le, Rinv_0_lt_compat. lra.
    - apply (Rmult_lt_reg_r (2 * INR up)); [lra|]. rewrite Rmult_assoc, Rinv_l by lra. lra. }
  assert (ND : INR n / INR (up + up) = INR q + INR k / INR (up + up)).
  { rewrite D at 1. rewrite T, plus_INR, !mult_INR. cbn [INR]. field. lra. }
  rewrite ND. rewrite (int_part_unique _ (1 + Z.of_nat q)); [|rewrite plus_IZR, <- INR_IZR_INZ; lra].
  rewrite plus_IZR, <- INR_IZR_INZ. replace (1 + (INR q + INR k / INR (up + up)) - (1 + INR q)) with (INR k / INR (up + up)) by ring.
  assert (RA : INR up / INR (up + up) = / 2) by (rewrite T; field; lra). rewrite RA. f_equal. f_equal.
  assert (X : INR k / INR (up + up) = INR k / INR up / 2) by (rewrite T; field; lra). rewrite X.
  destruct (Nat.leb_spec k up) as [L|L].
  - destruct (Rle_dec (INR k / INR up / 2) (/ 2)) as [_|N]; [field; lra|]. exfalso. apply N. apply le_INR in L. apply (Rmult_le_reg_r (2 * INR up)); [lra|]. unfold Rdiv. field_simplify; lra.
  - destruct (Rle_dec (INR k / INR up / 2) (/ 2)) as [N|_].
    + exfalso. apply lt_INR in L. apply (Rmult_le_compat_r (2 * INR up)) in N; [|lra]. field_simplify in N; lra.
    + rewrite minus_INR, mult_INR by lia. cbn [INR]. field. lra.
Qed.
Lemma triangle_range : forall up n, (1 <= up)%nat -> 0 <= triangle up n <= 1.
Proof.
  intros up n U. unfold triangle. cbv zeta. set (k := (n mod (2 * up))%nat). assert (K : (k < 2 * up)%nat) by (apply Nat.mod_upper_bound; lia).
  assert (U0 : 0 < INR up) by (apply lt_0_INR; lia).
  assert (G : forall m, (m <= up)%nat -> 0 <= INR m / INR up <= 1).
  { intros m M. apply le_INR in M. pose proof (pos_INR m). unfold Rdiv. split; [apply Rmult_le_pos; auto; apply Rlt_le, Rinv_0_lt_compat; auto|].
    apply (Rmult_le_reg_r (INR up)); auto. rewrite Rmult_assoc, Rinv_l by lra. lra. }
  destruct (Nat.leb_spec k up); apply G; lia.
Qed.
Lemma cyclic_run : forall lr_min lr_max up initial losses st, (1 <= up)%nat -> create_scheduler (Cyclic lr_min lr_max up) initial = Ok st ->
  rate (scheduler_run (Cyclic lr_min lr_max up) st losses) = lr_min + (lr_max - lr_min) * triangle up (length losses).
Proof.
  intros lr_min lr_max up initial losses st U E. cbn [create_scheduler] in E. destruct (Nat.eqb_spec up 0); [lia|]. injection E as <-. rewrite <- cyclic_triangle by auto.
  assert (G : forall s0 r0, rate s0 = cyclic_rate lr_min lr_max up r0 -> steps s0 = r0 -> rate (scheduler_run (Cyclic lr_min lr_max up) s0 losses) = cyclic_rate lr_min lr_max up (r0 + length losses)).
  { induction losses as [|l losses IH]; intros s0 r0 A B; [cbn [scheduler_run fold_left length]; rewrite Nat.add_0_r; auto|]. cbn [length]. rewrite Nat.add_succ_r, <- Nat.add_succ_l.
    unfold scheduler_run. cbn [fold_left]. apply IH; cbn [scheduler_step rate steps]; rewrite B; auto. }
  apply (G _ 0%nat); auto.
Qed.

(** ** Plateau *)
Section Plateau.
Variables (factor : R) (patience : nat) (threshold : R) (cooldown : nat) (lr_min initial : R).
Let s := ReduceOnPlateau factor patience threshold cooldown lr_min.
Hypothesis positive : 0 <= initial. 
Hypothesis threshold_below : threshold < 1.

Definition plateau_state (history : list R) (st : scheduler_state) : Prop :=
  Rmin initial lr_min <= rate st <= initial /\ (best st = None -> history = [] /\ bad_epochs st = 0%nat)
  /\ (forall b, best st = Some b -> exists before recent, history = before ++ recent /\ length recent = bad_epochs st /\ In b before /\ forall l, In l recent -> b * (1 - threshold) <= l).
Lemma reduced_rate : forall r, Rmin initial lr_min <= r <= initial -> 
  let r' := if Rlt_dec (/ 10 ^ 8) (r - Rmax (r * factor) lr_min) then Rmax (r * factor) lr_min else r in Rmin initial lr_min <= r' <= r.
Proof.
  intros r H. cbv zeta. destruct (Rlt_dec (/ 10 ^ 8) (r - Rmax (r * factor) lr_min)) as [L|L]; [|lra].
  assert (0 < / 10 ^ 8) by (apply Rinv_0_lt_compat, pow_lt; lra). split; [|lra]. apply Rle_trans with lr_min; [apply Rmin_r|apply Rmax_r].
Qed.
Lemma split_last : forall (before recent : list R) l, (before ++ recent) ++ [l] = before ++ (recent ++ [l]).
Proof. intros. rewrite app_assoc. auto. Qed.
Lemma plateau_step : forall history st l, plateau_state history st ->
  let st' := scheduler_step s st l in plateau_state (history ++ [l]) st' /\ rate st' <= rate st
  /\ (rate st' <> rate st -> stagnates threshold (history ++ [l]) (S patience)).
Proof.
  intros history st l (RA & NONE & SOME). cbv zeta. unfold s, scheduler_step. cbv zeta.
  set (better := is_better threshold l (best st)). set (best' := if better then Some l else best st). set (bad0 := if better then 0%nat else S (bad_epochs st)).
  set (bad := if (0 <? cooling st)%nat then 0%nat else bad0).
  assert (B0 : best' <> None /\ forall b, best' = Some b -> exists before recent, history ++ [l] = before ++ recent /\ length recent = bad0 /\ In b before /\ forall x, In x recent -> b * (1 - threshold) <= x).
  { unfold best', bad0. destruct better eqn:BE.
    - split; [discriminate|]. intros b E. injection E as <-. exists (history ++ [l]), []. rewrite app_nil_r. repeat split; auto; [apply in_or_app; right; left; auto|intros x []].
    - unfold better, is_better in BE. destruct (best st) as [b0|] eqn:BS; [|destruct (Rlt_dec threshold 1); [discriminate|lra]]. split; [discriminate|]. intros b E. injection E as <-.
      destruct (SOME b0 eq_refl) as (before & recent & H1 & H2 & H3 & H4). destruct (Rlt_dec l (b0 * (1 - threshold))); [discriminate|].
      exists before, (recent ++ [l]). rewrite H1, split_last, app_length, H2. cbn [length]. repeat split; auto; [lia|]. intros x I. apply in_app_iff in I. destruct I as [I|[<-|[]]]; auto. lra. }
  destruct B0 as (BN & B0).
  assert (SHORT : forall c, (c <= bad0)%nat -> forall b, best' = Some b -> exists before recent, history ++ [l] = before ++ recent /\ length recent = c /\ In b before /\ forall x, In x recent -> b * (1 - threshold) <= x).
  { intros c C b E. destruct (B0 b E) as (before & recent & H1 & H2 & H3 & H4). exists (before ++ firstn (bad0 - c) recent), (skipn (bad0 - c) recent).
    rewrite <- app_assoc, firstn_skipn. split; auto. rewrite skipn_length. split; [lia|]. split; [apply in_or_app; auto|]. intros x I. apply H4. rewrite <- (firstn_skipn (bad0 - c) recent). apply in_or_app. auto. }
  assert (BB : (bad <= bad0)%nat) by (unfold bad; destruct (0 <? cooling st)%nat; lia).
  destruct (Nat.ltb_spec patience bad) as [L|L].
  - pose proof (reduced_rate (rate st) RA) as RR. cbv zeta in RR. cbn [rate best bad_epochs]. split; [|split; [lra|]].
    + split; [cbn [rate]; lra|]. cbn [best bad_epochs]. split; [intros C; contradiction|]. apply SHORT. lia.
    + intros _. destruct best' as [b|] eqn:E; [|contradiction]. destruct (SHORT (S patience) ltac:(lia) b eq_refl) as (before & recent & H1 & H2 & H3 & H4). exists before, recent, b. auto.
  - cbn [rate]. split; [|split; [lra|intros C; contradiction]]. split; [cbn [rate]; auto|]. cbn [best bad_epochs]. split; [intros C; contradiction|]. apply SHORT. auto.
Qed.
Lemma plateau_start : forall st, create_scheduler s initial = Ok st -> plateau_state [] st /\ rate st = initial.
Proof.
  intros st E. unfold s, create_scheduler in E. destruct (Rlt_dec factor 1); [|discriminate]. injection E as <-. split; auto. split; [cbn; split; [apply Rmin_l|lra]|]. split; [auto|discriminate].
Qed.
Lemma plateau_reached : forall losses st, create_scheduler s initial = Ok st -> plateau_state losses (scheduler_run s st losses).
Proof.
  intros losses st E. induction losses as [|l losses IH] using rev_ind; [apply plateau_start; auto|]. rewrite run_app. apply (plateau_step losses _ l IH).
Qed.
Theorem plateau_rates : forall losses loss st, create_scheduler s initial = Ok st ->
  Rmin initial lr_min <= rate (scheduler_run s st (losses ++ [loss])) <= rate (scheduler_run s st losses)
  /\ rate (scheduler_run s st losses) <= initial
  /\ (rate (scheduler_run s st (losses ++ [loss])) <> rate (scheduler_run s st losses) -> stagnates threshold (losses ++ [loss]) (S patience)).
Proof.
  intros losses loss st E. pose proof (plateau_reached losses st E) as H. rewrite run_app. destruct (plateau_step losses _ loss H) as ((A & _) & B & C).
  destruct H as (H & _). unfold scheduler_run at 1 3 5. cbn [fold_left]. repeat split; auto; apply A || apply H.
Qed.
End Plateau.

(** ** Ranks *)
Section Shared.
Context {P Q : Type}.
Variables (s : scheduler) (adam : Q -> R -> list R -> P -> Q * P) (gradient : nat -> P -> list R) (loss : nat -> P -> R).
Hypothesis blind : forall st l l', scheduler_step s st l = scheduler_step s st l'.
Lemma epoch_same : forall states, (exists st, forall x, In x states -> x = st) -> exists st, forall x, In x (shared_epoch s adam gradient loss states) -> x = st.
Proof.
  intros states (st & H). unfold shared_epoch. set (mean := mean_gradient _).
  exists (let '(q, p) := adam (optimizer st) (rate (schedule st)) mean (parameters st) in {| parameters := p; optimizer := q; schedule := scheduler_step s (schedule st) 0 |}).
  intros x I. apply in_map_iff in I. destruct I as ((r & st') & E & I). apply in_combine_r in I. apply H in I. subst st'. rewrite <- E. destruct (adam _ _ _ _) as [q p]. f_equal. apply blind.
Qed.
Theorem epochs_same : forall n states, (exists st, forall x, In x states -> x = st) -> exists st, forall x, In x (shared_epochs s adam gradient loss n states) -> x = st.
Proof. induction n as [|n IH]; intros states H; [exact H|]. cbn [shared_epochs]. apply IH, epoch_same, H. Qed.
End Shared.
Lemma exponential_blind : forall gamma st l l', scheduler_step (Exponential gamma) st l = scheduler_step (Exponential gamma) st l'.
Proof. reflexivity. Qed.
Lemma cyclic_blind : forall a b up st l l', scheduler_step (Cyclic a b up) st l = scheduler_step (Cyclic a b up) st l'.
Proof. reflexivity. Qed.

Lemma epochs_last : forall {P Q} s (adam : Q -> R -> list R -> P -> Q * P) gradient loss n states,
  shared_epochs s adam gradient loss (S n) states = shared_epoch s adam gradient loss (shared_epochs s adam gradient loss n states).
Proof. induction n as [|n IH]; intros states; [reflexivity|]. change (shared_epochs s adam gradient loss (S n) (shared_epoch s adam gradient loss states) = shared_epoch s adam gradient loss (shared_epochs s adam gradient loss n (shared_epoch s adam gradient loss states))). apply IH. Qed.

(** Gradient descent on a slope of one; the loss of rank 0 falls with the parameter, the loss of rank 1 is constant. *)
Section Diverge.
Variables (factor : R) (patience : nat) (threshold : R) (cooldown : nat) (lr_min initial : R).
Let s := ReduceOnPlateau factor patience threshold cooldown lr_min.
Hypothesis below : factor < 1.
Hypothesis thr : 0 <= threshold < 1.
Hypothesis pos : 0 < initial.
Hypothesis gap : / 10 ^ 8 < initial - Rmax (initial * factor) lr_min.
Definition descend (q : unit) (lr : R) (g : list R) (p : R) : unit * R := (q, p - lr * hd 0 g).
Definition slope (r : nat) (p : R) : list R := [1].
Definition rank_loss (r : nat) (p : R) : R := match r with O => p | _ => 0 end.
Let epochs := shared_epochs s descend slope rank_loss.
Let mk (p : R) sch := {| parameters := p; optimizer := tt; schedule := sch |}.
Let start := {| steps := 0; rate := initial; best := None; bad_epochs := 0; cooling := 0 |}.

Lemma one_epoch : forall p a b, shared_epoch s descend slope rank_loss [mk p a; mk p b]
  = [mk (p - rate a) (scheduler_step s a p); mk (p - rate b) (scheduler_step s b 0)].
Proof.
  intros p a b. unfold shared_epoch. cbn [length seq combine map]. cbn [parameters optimizer schedule mk slope rank_loss].
  assert (M : mean_gradient [[1]; [1]] = [1]).
  { unfold mean_gradient. cbn [hd length seq map nth]. f_equal. rewrite !Rsum_cons, Rsum_nil. cbn [INR]. field. }
  unfold slope. cbn [map combine seq length]. unfold mk. cbn [parameters optimizer schedule]. rewrite M. unfold descend. cbn [hd]. rewrite !Rmult_1_r. reflexivity.
Qed.
Lemma together : forall n, (n <= patience)%nat -> epochs (S n) [mk 0 start; mk 0 start]
  = [mk (- INR (S n) * initial) {| steps := S n; rate := initial; best := Some (- INR n * initial); bad_epochs := 0; cooling := 0 |};
     mk (- INR (S n) * initial) {| steps := S n; rate := initial; best := Some 0; bad_epochs := n; cooling := 0 |}].
Proof.
  induction n as [|n IH]; intros N.
  - unfold epochs. cbn [shared_epochs]. rewrite one_epoch. unfold s, start, scheduler_step, is_better. cbn [steps rate best bad_epochs cooling Nat.ltb Nat.leb]. destruct (Rlt_dec threshold 1); [|lra].
    cbn [INR]. replace (0 - initial) with (- (1) * initial) by ring. replace (- 0 * initial) with 0 by ring. reflexivity.
  - unfold epochs in *. rewrite (epochs_last s descend slope rank_loss (S n)), IH by lia. rewrite one_epoch. unfold s, scheduler_step, is_better. cbn [steps rate best bad_epochs cooling].
    assert (NI : 0 <= INR n) by apply pos_INR.
    destruct (Rlt_dec (- INR (S n) * initial) (- INR n * initial * (1 - threshold))) as [_|C]; [|exfalso; apply C; rewrite S_INR; assert (0 <= INR n * initial * threshold) by (apply Rmult_le_pos; [apply Rmult_le_pos|]; lra); nra].
    destruct (Rlt_dec 0 (0 * (1 - threshold))) as [C|_]; [lra|]. destruct (Nat.ltb_spec 0 0); [lia|]. destruct (Nat.ltb_spec patience (S n)); [lia|]. destruct (Nat.ltb_spec patience 0); [lia|]. cbn [Nat.sub].
    rewrite !(S_INR (S n)). replace (- INR (S n) * initial - initial) with (- (INR (S n) + 1) * initial) by ring. reflexivity.
Qed.
Theorem diverge : create_scheduler s initial = Ok start /\ exists a b, epochs (patience + 3) [mk 0 start; mk 0 start] = [a; b] /\ parameters a <> parameters b.
Proof.
  split; [unfold s, create_scheduler; destruct (Rlt_dec factor 1); [auto|lra]|].
  replace (patience + 3)%nat with (S (S (S patience))) by lia. unfold epochs. rewrite (epochs_last s descend slope rank_loss (S (S patience))), (epochs_last s descend slope rank_loss (S patience)). pose proof (together patience (le_n _)) as TG. unfold epochs in TG. rewrite TG. clear TG. rewrite one_epoch.
  unfold s at 2 3. unfold scheduler_step, is_better. cbn [steps rate best bad_epochs cooling].
  destruct (Rlt_dec 0 (0 * (1 - threshold))) as [C|_]; [lra|]. destruct (Nat.ltb_spec 0 0); [lia|]. destruct (Nat.ltb_spec patience (S patience)); [|lia]. destruct (Nat.ltb_spec patience 0); [lia|].
  destruct (Rlt_dec (/ 10 ^ 8) (initial - Rmax (initial * factor) lr_min)) as [_|C]; [|contradiction].
  destruct (Rlt_dec (- INR (S patience) * initial) (- INR patience * initial * (1 - threshold))) as [_|C];
    [|exfalso; apply C; rewrite S_INR; pose proof (pos_INR patience); assert (0 <= INR patience * initial * threshold) by (apply Rmult_le_pos; [apply Rmult_le_pos|]; lra); nra].
  cbn [Nat.ltb Nat.leb]. rewrite one_epoch. eexists. eexists. split; [reflexivity|]. unfold mk. cbn [parameters rate]. assert (0 < / 10 ^ 8) by (apply Rinv_0_lt_compat, pow_lt; lra). 
  destruct (Nat.ltb_spec patience 0); [lia|]. cbn [rate]. lra.
Qed.
End Diverge.

Theorem same_parameters : forall (P Q : Type) s (adam : Q -> R -> list R -> P -> Q * P) gradient loss members n st,
  (forall factor patience threshold cooldown lr_min, s <> ReduceOnPlateau factor patience threshold cooldown lr_min) ->
  exists st', shared_epochs s adam gradient loss n (repeat st members) = repeat st' members.
Proof.
  intros P Q s adam gradient loss members n st NP.
  assert (L : forall n l, length (shared_epochs s adam gradient loss n l) = length l).
  { clear. induction n as [|n IH]; intros l; auto. cbn [shared_epochs]. rewrite IH. unfold shared_epoch. rewrite map_length, combine_length, seq_length. apply Nat.min_id. }
  destruct (epochs_same s adam gradient loss) with (n := n) (states := repeat st members) as (st' & H).
  - destruct s as [gamma|a b up|f p t c m]; [apply exponential_blind|apply cyclic_blind|]. exfalso. eapply NP. reflexivity.
  - exists st. intros x I. apply repeat_spec in I. auto.
  - exists st'. rewrite <- (repeat_length st members) at 2. rewrite <- (L n (repeat st members)). apply Forall_eq_repeat. apply Forall_forall. intros x I. symmetry. auto.
Qed.
Theorem plateau_diverges : forall factor patience threshold cooldown lr_min initial, factor < 1 -> 0 <= threshold < 1 -> 0 < initial ->
  / 10 ^ 8 < initial - Rmax (initial * factor) lr_min ->
  exists (adam : unit -> R -> list R -> R -> unit * R) gradient loss st, create_scheduler (ReduceOnPlateau factor patience threshold cooldown lr_min) initial = Ok st
  /\ exists a b, shared_epochs (ReduceOnPlateau factor patience threshold cooldown lr_min) adam gradient loss (patience + 3)
       (repeat {| parameters := 0; optimizer := tt; schedule := st |} 2) = [a; b] /\ parameters a <> parameters b.
Proof.
  intros f p t c m i F T I G. destruct (diverge f p t c m i F T I G) as (E & D). exists descend, slope, rank_loss. eexists. split; [exact E|exact D].
Qed.
