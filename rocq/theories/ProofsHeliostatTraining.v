(** Proofs for C130 and C131. *)
From Coq Require Import List Arith Reals Bool Lra Lia FunctionalExtensionality.
From Verif Require Import RealSums ModelField ModelTraining ModelOptimization ModelSchedulers ModelLearning ModelEpochs ModelHeliostatTraining ProofsSchedulers.
Import ListNotations.
Local Open Scope R_scope.

(** What a finished loop leaves behind: the parameters after a number of steps and the losses before the last of them. *)
Lemma loop_result : forall P T cfg (losses_at : nat -> P -> list R) (validate : P -> T) step, 
  forall fuel epoch loss losses st hist p test r,
  reconstruction_loop cfg losses_at validate step fuel epoch loss losses st hist p test = Done r ->
  exists n, rec_executed r = (epoch + n)%nat
  /\ rec_parameters r = fold_left (fun x e => step e x) (seq epoch n) p
  /\ rec_losses r = match n with O => losses | S k => losses_at (epoch + k)%nat (fold_left (fun x e => step e x) (seq epoch k) p) end.
Proof.
  intros P T cfg losses_at validate step. induction fuel as [|fuel IH]; intros epoch loss losses st hist p test r E; [discriminate|].
  cbn [reconstruction_loop] in E. destruct (above_tolerance cfg loss && _).
  - destruct (stopper_step _ _ _) as [(stop, st')|]; [|discriminate]. destruct (log_interval cfg =? 0)%nat; [discriminate|].
    destruct stop.
    + rewrite orb_true_r in E. injection E as <-. cbn. exists 1%nat. rewrite Nat.add_0_r. split; [lia|]. split; reflexivity.
    + apply IH in E. destruct E as (n & A & B & C). exists (S n). split; [lia|]. split; [exact B|]. rewrite C. destruct n as [|n]; cbn.
      * rewrite Nat.add_0_r. reflexivity.
      * replace (epoch + S n)%nat with (S (epoch + n)) by lia. reflexivity.
  - destruct test; [|discriminate]. injection E as <-. cbn. exists 0%nat. split; [lia|]. split; reflexivity.
Qed.
Lemma train_result : forall T own_loss own_gradient s active cfg (validate : _ -> T) st initial r,
  train_group own_loss own_gradient s active cfg validate st initial = Done r ->
  let run n := Nat.iter n (group_epoch own_loss own_gradient s active) (st, fun h j => fresh (initial h j)) in
  rec_parameters r = run (rec_executed r)
  /\ rec_losses r = match rec_executed r with O => [] | S k => losses_of own_loss active (run k) end.
Proof.
  intros T own_loss own_gradient s active cfg validate st initial r E run. apply loop_result in E. destruct E as (n & A & B & C). cbn [Nat.add] in A. subst n.
  assert (F : forall n, fold_left (fun x (_ : nat) => group_epoch own_loss own_gradient s active x) (seq 0 n) (st, fun h j => fresh (initial h j)) = run n).
  { induction n as [|n IH]; [reflexivity|]. rewrite seq_S, fold_left_app. cbn [fold_left]. rewrite IH. reflexivity. }
  split.
  - rewrite B. apply F.
  - rewrite C. destruct (rec_executed r); auto. rewrite F. reflexivity.
Qed.

(** Without a gradient nothing moves. *)
Definition at_rest (a : adam) (x : R) : Prop := a_m a = 0 /\ a_v a = 0 /\ a_value a = x.
Lemma rest_step : forall lr beta a x, at_rest a x -> at_rest (adam_step lr beta a 0) x.
Proof.
  intros lr beta a x (M & V & X). unfold at_rest, adam_step. cbn [a_m a_v a_value]. rewrite M, V, X. repeat split; try ring.
  replace ((beta * 0 + (1 - beta) * 0) / (1 - beta ^ S (a_step a))) with 0 by (unfold Rdiv; ring). unfold Rdiv. ring.
Qed.
Theorem untrained_unchanged : forall T own_loss own_gradient s active cfg (validate : _ -> T) st initial r,
  train_group own_loss own_gradient s active cfg validate st initial = Done r ->
  forall h j, ~ In h active -> parameters_of (snd (rec_parameters r)) h j = initial h j.
Proof.
  intros T own_loss own_gradient s active cfg validate st initial r E h j N. apply train_result in E. destruct E as (-> & _).
  assert (A : forall n, at_rest (snd (Nat.iter n (group_epoch own_loss own_gradient s active) (st, fun h j => fresh (initial h j))) h j) (initial h j)).
  { induction n as [|n IH]; [repeat split|]. change (Nat.iter (S n) ?f ?x) with (f (Nat.iter n f x)). destruct (Nat.iter n _ _) as (st', f). cbn [snd] in IH. cbn [group_epoch snd].
    unfold gradient_of. replace (existsb (Nat.eqb h) active) with false; [apply rest_step; auto|]. symmetry. apply not_true_iff_false. intros X. apply existsb_exists in X.
    destruct X as (y & Y & EQ). apply Nat.eqb_eq in EQ. subst. contradiction. }
  exact (proj2 (proj2 (A (rec_executed r)))).
Qed.

(** ** Only the own measurements *)
Section Two.
Variables (own_loss own_loss' : nat -> (nat -> R) -> R) (own_gradient own_gradient' : nat -> (nat -> R) -> nat -> R).
Variables (s : scheduler) (active active' : list nat) (h h' : nat).
Hypothesis blind : forall factor patience threshold cooldown lr_min, s <> ReduceOnPlateau factor patience threshold cooldown lr_min.
Hypothesis same_number : length active = length active'.
Hypothesis ins : In h active.
Hypothesis ins' : In h' active'.
Hypothesis same_gradient : forall p j, own_gradient h p j = own_gradient' h' p j.

Lemma schedule_blind : forall st l l', scheduler_step s st l = scheduler_step s st l'.
Proof.
  intros st l l'. destruct s as [g|a b up|f p t c m] eqn:E; [apply exponential_blind|apply cyclic_blind|]. exfalso. exact (blind f p t c m eq_refl).
Qed.
Lemma member : forall x l, In x l -> existsb (Nat.eqb x) l = true.
Proof. intros x l I. apply existsb_exists. exists x. split; auto. apply Nat.eqb_refl. Qed.
Lemma runs_agree : forall st f f' n, (forall j, f h j = f' h' j) ->
  let a := Nat.iter n (group_epoch own_loss own_gradient s active) (st, f) in
  let b := Nat.iter n (group_epoch own_loss' own_gradient' s active') (st, f') in
  fst a = fst b /\ forall j, snd a h j = snd b h' j.
Proof.
  intros st f f' n F. cbv zeta. induction n as [|n IH]; [split; auto|]. change (Nat.iter (S n) ?f ?x) with (f (Nat.iter n f x)).
  destruct (Nat.iter n (group_epoch own_loss own_gradient s active) (st, f)) as (sa, fa). destruct (Nat.iter n (group_epoch own_loss' own_gradient' s active') (st, f')) as (sb, fb).
  cbn [fst snd] in IH. destruct IH as (-> & G). cbn [group_epoch fst snd]. split; [apply schedule_blind|]. intros j. unfold gradient_of. rewrite !member by auto. rewrite G, same_gradient, same_number.
  replace (parameters_of fa h) with (parameters_of fb h'); auto. apply functional_extensionality. intros k. unfold parameters_of. rewrite G. reflexivity.
Qed.
End Two.
Theorem only_own : forall T T' own_loss own_loss' own_gradient own_gradient' s active active' h h' cfg cfg' (validate : _ -> T) (validate' : _ -> T') st initial initial' r r',
  (forall factor patience threshold cooldown lr_min, s <> ReduceOnPlateau factor patience threshold cooldown lr_min) ->
  length active = length active' -> In h active -> In h' active' ->
  (forall p j, own_gradient h p j = own_gradient' h' p j) -> (forall p, own_loss h p = own_loss' h' p) -> (forall j, initial h j = initial' h' j) ->
  train_group own_loss own_gradient s active cfg validate st initial = Done r -> train_group own_loss' own_gradient' s active' cfg' validate' st initial' = Done r' ->
  rec_executed r = rec_executed r' ->
  (forall j, parameters_of (snd (rec_parameters r)) h j = parameters_of (snd (rec_parameters r')) h' j)
  /\ forall i i', nth_error active i = Some h -> nth_error active' i' = Some h' -> nth_error (rec_losses r) i = nth_error (rec_losses r') i'.
Proof.
  intros T T' own_loss own_loss' own_gradient own_gradient' s active active' h h' cfg cfg' validate validate' st initial initial' r r' B L I I' G LO IN E E' X.
  apply train_result in E, E'. destruct E as (P & Q). destruct E' as (P' & Q'). rewrite P, P', Q, Q', X.
  assert (A : forall n, let a := Nat.iter n (group_epoch own_loss own_gradient s active) (st, fun h j => fresh (initial h j)) in
    let b := Nat.iter n (group_epoch own_loss' own_gradient' s active') (st, fun h j => fresh (initial' h j)) in fst a = fst b /\ forall j, snd a h j = snd b h' j).
  { intros n. apply runs_agree; auto. intros j. rewrite IN. reflexivity. }
  split.
  - intros j. unfold parameters_of. rewrite (proj2 (A (rec_executed r'))). reflexivity.
  - intros i i' N N'. destruct (rec_executed r') as [|k]; [destruct i, i'; reflexivity|]. unfold losses_of. rewrite !nth_error_map, N, N'. cbn [option_map]. f_equal. rewrite LO. f_equal.
    apply functional_extensionality. intros j. unfold parameters_of. rewrite (proj2 (A k)). reflexivity.
Qed.

(** ** The number of heliostats *)
Lemma first_value : forall own_loss own_gradient s active st initial h j, momentum s (steps st) <> 1 -> In h active ->
  let g := own_gradient h (fun k => initial h k) j / INR (length active) in
  parameters_of (snd (group_epoch own_loss own_gradient s active (st, fun h j => fresh (initial h j)))) h j = initial h j - rate st * (g / (Rabs g + / 10 ^ 8)).
Proof.
  intros own_loss own_gradient s active st initial h j M I g. cbn [group_epoch snd]. unfold parameters_of at 1, gradient_of. rewrite member by auto.
  change (parameters_of (fun h j => fresh (initial h j)) h) with (fun k => initial h k). fold g. unfold adam_step, fresh. cbn [a_m a_v a_step a_value].
  replace ((momentum s (steps st) * 0 + (1 - momentum s (steps st)) * g) / (1 - momentum s (steps st) ^ 1)) with g by (field; lra).
  replace ((999 / 1000 * 0 + (1 - 999 / 1000) * g ^ 2) / (1 - (999 / 1000) ^ 1)) with (Rsqr g) by (unfold Rsqr; field). rewrite sqrt_Rsqr_abs. reflexivity.
Qed.
Lemma shrunk : forall g a b, g <> 0 -> 0 < a < b -> g / a / (Rabs (g / a) + / 10 ^ 8) <> g / b / (Rabs (g / b) + / 10 ^ 8).
Proof.
  intros g a b G (A & B) E. set (e := / 10 ^ 8) in *. assert (P : 0 < e) by (apply Rinv_0_lt_compat; lra).
  assert (AB : forall c, 0 < c -> Rabs (g / c) = Rabs g * / c).
  { intros c C. unfold Rdiv. rewrite Rabs_mult, (Rabs_pos_eq (/ c)); auto. left. apply Rinv_0_lt_compat. lra. }
  rewrite !AB in E by lra.
  assert (GP : 0 < Rabs g) by (apply Rabs_pos_lt; auto).
  assert (X : forall c, 0 < c -> g / c / (Rabs g * / c + e) = g / (Rabs g + c * e)).
  { intros c C. field. repeat split; try lra; try (assert (0 < c * e) by (apply Rmult_lt_0_compat; lra); lra). }
  rewrite !X in E by lra. assert (D : Rabs g + a * e = Rabs g + b * e).
  { assert (0 < a * e) by (apply Rmult_lt_0_compat; lra). assert (0 < b * e) by (apply Rmult_lt_0_compat; lra).
    apply (Rmult_eq_reg_l g); auto. apply (f_equal (fun z => z * (Rabs g + a * e) * (Rabs g + b * e))) in E. unfold Rdiv in E.
    replace (g * / (Rabs g + a * e) * (Rabs g + a * e) * (Rabs g + b * e)) with (g * (Rabs g + b * e)) in E by (field; lra).
    replace (g * / (Rabs g + b * e) * (Rabs g + a * e) * (Rabs g + b * e)) with (g * (Rabs g + a * e)) in E by (field; lra). lra. }
  assert (a * e < b * e) by (apply Rmult_lt_compat_r; lra). lra.
Qed.

Theorem number_matters : forall T T' own_loss own_loss' own_gradient s active active' h j cfg cfg' (validate : _ -> T) (validate' : _ -> T') st initial r r' lr,
  create_scheduler s lr = Ok st -> rate st <> 0 -> momentum s (steps st) <> 1 -> In h active -> In h active' -> length active <> length active' ->
  own_gradient h (initial h) j <> 0 ->
  train_group own_loss own_gradient s active cfg validate st initial = Done r -> train_group own_loss' own_gradient s active' cfg' validate' st initial = Done r' ->
  rec_executed r = 1%nat -> rec_executed r' = 1%nat ->
  parameters_of (snd (rec_parameters r)) h j <> parameters_of (snd (rec_parameters r')) h j.
Proof.
  intros T T' own_loss own_loss' own_gradient s active active' h j cfg cfg' validate validate' st initial r r' lr C RA M I I' L G E E' X X'.
  apply train_result in E, E'. destruct E as (P & _). destruct E' as (P' & _). rewrite P, P', X, X'. change (Nat.iter 1 ?f ?x) with (f x).
  rewrite !first_value by auto. change (fun k => initial h k) with (initial h). intros EQ.
  assert (PO : forall l : list nat, In h l -> 0 < INR (length l)). { intros [|? l]; [contradiction|]. intros _. apply lt_0_INR. cbn. lia. }
  pose proof (PO _ I) as P1. pose proof (PO _ I') as P2. assert (L2 : INR (length active) <> INR (length active')) by (intros Z; apply L; apply INR_eq; exact Z).
  assert (Q : forall a b g, 0 < a -> 0 < b -> a <> b -> g <> 0 -> g / a / (Rabs (g / a) + / 10 ^ 8) <> g / b / (Rabs (g / b) + / 10 ^ 8)).
  { intros a b g A B N GN. destruct (Rlt_le_dec a b); [apply shrunk; auto|]. apply not_eq_sym. apply shrunk; auto. split; auto. lra. }
  apply (Q _ _ (own_gradient h (initial h) j) P1 P2 L2 G). apply (Rmult_eq_reg_l (rate st)); auto. lra.
Qed.
Theorem others_stop : forall T own_loss own_gradient s cfg (validate : _ -> T) st initial h h2, h <> h2 ->
  (2 <= window_size (stopper cfg))%nat -> (1 <= max_epoch cfg)%nat ->
  tolerance cfg < own_loss h (initial h) -> own_loss h2 (initial h2) <= 2 * tolerance cfg - own_loss h (initial h) ->
  (forall r, train_group own_loss own_gradient s [h] cfg validate st initial = Done r -> (2 <= rec_executed r)%nat)
  /\ exists r, train_group own_loss own_gradient s [h; h2] cfg validate st initial = Done r /\ rec_executed r = 1%nat.
Proof.
  intros T own_loss own_gradient s cfg validate st initial h h2 N W ME A B.
  assert (SS : forall l, exists st1, stopper_step (stopper cfg) new_stopper l = Ok (false, st1)).
  { intros l. unfold stopper_step, deque_append, new_stopper. cbn [loss_window counter app length]. replace (1 - window_size (stopper cfg))%nat with 0%nat by lia. cbn [skipn length].
    replace (1 <? window_size (stopper cfg))%nat with true by (symmetry; apply Nat.ltb_lt; lia). eauto. }
  assert (LI : (log_interval cfg =? 0)%nat = false). { unfold log_interval. destruct (Nat.eqb_spec (log_step cfg) 0); apply Nat.eqb_neq; lia. }
  unfold train_group, reconstruct_parameters. replace (max_epoch cfg + 2)%nat with (S (S (max_epoch cfg))) by lia. split.
  - intros r E. remember (S (max_epoch cfg)) as fuel. cbn [reconstruction_loop above_tolerance andb Nat.leb] in E. rewrite LI in E.
    destruct (SS (mean (losses_of own_loss [h] (st, fun h j => fresh (initial h j))))) as (st1 & S1). rewrite S1 in E. rewrite Nat.mod_0_l in E by (apply Nat.eqb_neq; auto). cbn [Nat.eqb orb] in E. subst fuel.
    cbn [reconstruction_loop] in E.
    assert (AT : above_tolerance cfg (Some (mean (losses_of own_loss [h] (st, fun h j => fresh (initial h j))))) = true).
    { cbn [losses_of map above_tolerance]. unfold mean. cbn [length INR]. rewrite Rsum_cons. change (Rsum []) with 0. change (parameters_of (snd (st, fun h j => fresh (initial h j))) h) with (initial h).
      unfold Rgtb. destruct (Rlt_dec _ _) as [|C]; auto. exfalso. apply C. lra. }
    rewrite AT in E. replace (1 <=? max_epoch cfg)%nat with true in E by (symmetry; apply Nat.leb_le; lia). cbn [andb] in E.
    destruct (stopper_step _ _ _) as [(stop, st2)|]; [|discriminate]. rewrite LI in E. destruct stop.
    + rewrite orb_true_r in E. injection E as <-. cbn. lia.
    + apply loop_result in E. destruct E as (n & X & _). lia.
  - remember (S (max_epoch cfg)) as fuel. cbn [reconstruction_loop above_tolerance andb Nat.leb]. rewrite LI.
    destruct (SS (mean (losses_of own_loss [h; h2] (st, fun h j => fresh (initial h j))))) as (st1 & S1). rewrite S1. rewrite Nat.mod_0_l by (apply Nat.eqb_neq; auto). cbn [Nat.eqb orb]. subst fuel.
    cbn [reconstruction_loop].
    assert (AT : above_tolerance cfg (Some (mean (losses_of own_loss [h; h2] (st, fun h j => fresh (initial h j))))) = false).
    { cbn [losses_of map above_tolerance]. unfold mean. cbn [length INR]. rewrite !Rsum_cons. change (Rsum []) with 0. change (parameters_of (snd (st, fun h j => fresh (initial h j)))) with initial.
      unfold Rgtb. destruct (Rlt_dec _ _) as [C|C]; auto. exfalso. lra. }
    rewrite AT. cbn [andb]. eexists. split; reflexivity.
Qed.

(** With a maximum of zero epochs one is executed. *)
Lemma one_epoch_done : forall T own_loss own_gradient s active cfg (validate : _ -> T) st initial,
  (2 <= window_size (stopper cfg))%nat -> max_epoch cfg = 0%nat -> (1 <= log_step cfg)%nat ->
  exists r, train_group own_loss own_gradient s active cfg validate st initial = Done r /\ rec_executed r = 1%nat.
Proof.
  intros T own_loss own_gradient s active cfg validate st initial W ME LS. unfold train_group, reconstruct_parameters. rewrite ME. cbn [Nat.add].
  assert (LI : log_interval cfg <> 0%nat). { unfold log_interval. destruct (Nat.eqb_spec (log_step cfg) 0); lia. }
  cbn [reconstruction_loop above_tolerance andb]. rewrite ME. cbn [Nat.leb].
  unfold stopper_step, deque_append, new_stopper. cbn [loss_window counter app length]. replace (1 - window_size (stopper cfg))%nat with 0%nat by lia. cbn [skipn length].
  replace (1 <? window_size (stopper cfg))%nat with true by (symmetry; apply Nat.ltb_lt; lia). rewrite (proj2 (Nat.eqb_neq _ _) LI), Nat.mod_0_l by auto.
  cbn [Nat.eqb orb]. rewrite andb_false_r. eexists. split; reflexivity.
Qed.
(** The same for the control points of a surface. *)
Theorem untrained_surface : forall height width control_points history h f i j c,
  (forall lr beta members g, In (lr, beta, members) history -> In g members -> g h f i j c = 0) ->
  train_control_points height width control_points history h f i j c = control_points h f i j c.
Proof.
  intros height width control_points history h f i j c. unfold train_control_points.
  assert (G : forall a, at_rest a (control_points h f i j c) -> (forall lr beta members g, In (lr, beta, members) history -> In g members -> g h f i j c = 0) ->
    at_rest (fold_left (fun s '(lr, beta, members) => adam_step lr beta s (lock_edges height width (averaged members) h f i j c)) history a) (control_points h f i j c)).
  { induction history as [|((lr, beta), members) l IH]; intros a A Z; [exact A|]. cbn [fold_left]. apply IH; [|intros lr' beta' m' g I J; eapply Z; [right; exact I|exact J]].
    replace (lock_edges height width (averaged members) h f i j c) with 0; [apply rest_step; auto|].
    assert (M : averaged members h f i j c = 0).
    { unfold averaged. replace (Rsum (map (fun g => g h f i j c) members)) with 0; [apply Rmult_0_l|].
      assert (ZM : forall g, In g members -> g h f i j c = 0) by (intros g I; eapply Z; [left; reflexivity|exact I]). clear - ZM.
      induction members as [|g m IH]; [reflexivity|]. cbn [map]. rewrite Rsum_cons, <- IH by (intros g' I; apply ZM; right; auto). rewrite (ZM g) by (left; auto). ring. }
    unfold lock_edges. rewrite M. destruct (c <? 2)%nat, ((i =? 0)%nat || (i =? height - 1)%nat || (j =? 0)%nat || (j =? width - 1)%nat); reflexivity. }
  intros Z. exact (proj2 (proj2 (G (fresh (control_points h f i j c)) (conj eq_refl (conj eq_refl eq_refl)) Z))).
Qed.
