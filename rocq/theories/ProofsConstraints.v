From Coq Require Import List Arith ZArith Reals Lra Lia Bool.
From Verif Require Import RealSums ModelField ModelDistributed ModelLBVH ModelSplatting ModelActuators ModelLosses ModelOptimization SpecOptimization.
Import ListNotations.
Local Open Scope R_scope.

Lemma clamp0_nonneg : forall x, 0 <= clamp0 x.
Proof. intros. unfold clamp0. apply Rmax_r. Qed.
Lemma clamp0_zero : forall x, clamp0 x = 0 <-> x <= 0.
Proof. intros. unfold clamp0, Rmax. destruct Rle_dec; split; intros; lra. Qed.
Lemma penalty_nonneg : forall l r v, 0 <= l -> 0 <= r -> 0 <= v -> 0 <= penalty l r v.
Proof. intros. unfold penalty. assert (0 <= l * v) by (apply Rmult_le_pos; auto). assert (0 <= r * v ^ 2) by (apply Rmult_le_pos; auto; apply pow_le; auto). lra. Qed.
Lemma penalty_at_zero : forall l r, penalty l r 0 = 0.
Proof. intros. unfold penalty. ring. Qed.
Lemma penalty_zero : forall l r v, 0 <= l -> 0 < r -> 0 <= v -> penalty l r v = 0 -> v = 0.
Proof.
  intros l r v L R V E. unfold penalty in E. assert (A : 0 <= l * v) by (apply Rmult_le_pos; auto). assert (B : r * v ^ 2 <= 0) by lra.
  destruct (Rle_lt_or_eq_dec 0 v V) as [P|]; auto. assert (0 < r * v ^ 2) by (apply Rmult_lt_0_compat; auto; apply pow_lt; auto). lra.
Qed.
Lemma length_pos : forall {A} (l : list A), l <> [] -> 0 < INR (length l).
Proof. intros A l H. apply lt_0_INR. destruct l; [congruence|cbn; lia]. Qed.
Lemma mean_nonneg : forall l, l <> [] -> (forall x, In x l -> 0 <= x) -> 0 <= mean l.
Proof. intros l N H. unfold mean, Rdiv. apply Rmult_le_pos; [apply Rsum_nonneg; auto|]. left. apply Rinv_0_lt_compat, length_pos; auto. Qed.
Lemma mean_zero : forall l, l <> [] -> (forall x, In x l -> 0 <= x) -> mean l = 0 -> forall x, In x l -> x = 0.
Proof.
  intros l N H E. apply Rsum_zero_nonneg; auto. unfold mean in E. pose proof (length_pos l N) as P.
  apply (Rmult_eq_reg_r (/ INR (length l))); [rewrite Rmult_0_l; exact E|]. apply Rinv_neq_0_compat. lra.
Qed.
Lemma mean_all_zero : forall l, (forall x, In x l -> x = 0) -> mean l = 0.
Proof.
  intros l H. unfold mean. replace (Rsum l) with 0; [unfold Rdiv; ring|]. induction l as [|x l IH]; auto. rewrite Rsum_cons, <- IH, (H x); [ring|left; auto|intros; apply H; right; auto].
Qed.
Lemma maximum_spec : forall l, l <> [] -> In (maximum l) l /\ forall x, In x l -> x <= maximum l.
Proof.
  intros [|x l] N; [congruence|]. clear N. cbn [maximum].
  assert (G : forall l x, In (fold_left Rmax l x) (x :: l) /\ forall y, In y (x :: l) -> y <= fold_left Rmax l x).
  { clear. induction l as [|z l IH]; intros x; cbn [fold_left].
    - split; [left; auto|]. intros y [<-|[]]. lra.
    - destruct (IH (Rmax x z)) as (I & U). split.
      + destruct I as [<-|I]; [|right; right; auto]. unfold Rmax. destruct Rle_dec; [right; left|left]; auto.
      + intros y [<-|[<-|J]].
        * apply Rle_trans with (Rmax x z); [apply Rmax_l|apply U; left; auto].
        * apply Rle_trans with (Rmax x z); [apply Rmax_r|apply U; left; auto].
        * apply U. right; auto. }
  apply G.
Qed.
Lemma div_sign : forall a b, 0 < b -> (a / b <= 0 <-> a <= 0).
Proof.
  intros a b B. split; intros H.
  - destruct (Rle_lt_dec a 0); auto. exfalso. assert (0 < a / b) by (apply Rdiv_lt_0_compat; auto). lra.
  - unfold Rdiv. assert (0 < / b) by (apply Rinv_0_lt_compat; auto). rewrite <- (Rmult_0_l (/ b)). apply Rmult_le_compat_r; lra.
Qed.

Definition good (m : multipliers) := 0 <= lambda_flux m /\ 0 <= lambda_intercept m /\ 0 <= lambda_local m.
Section Aim.
Variable p : penalties.
Hypothesis rho_f : 0 <= rho_flux p.
Hypothesis rho_i : 0 <= rho_intercept p.
Hypothesis rho_l : 0 <= rho_local p.
Hypothesis eps_pos : 0 < eps p.
Hypothesis density : 0 <= max_density p.
Definition valid_epoch (n : nat) (d : epoch_data) := e_flux d <> [] /\ (0 < n)%nat /\ length (e_intercepts d) = n /\ (forall x, In x (e_flux d) -> 0 <= x) /\ (forall x, In x (e_intercepts d) -> 0 <= x).
Definition promised (d0 d : epoch_data) (o : epoch_terms) (m : multipliers) :=
  0 <= o_flux_term o /\ 0 <= o_intercept_term o /\ 0 <= o_local_term o
  /\ o_loss o = e_flux_loss d + o_flux_term o + o_intercept_term o + o_local_term o
  /\ good m
  /\ (Rsum (e_flux d0) <= Rsum (e_flux d) -> o_flux_term o = 0)
  /\ (none_below (e_intercepts d0) (e_intercepts d) -> o_intercept_term o = 0)
  /\ ((forall x, In x (e_flux d) -> x <= max_density p) -> o_local_term o = 0)
  /\ (0 < rho_flux p -> o_flux_term o = 0 -> Rsum (e_flux d0) <= Rsum (e_flux d))
  /\ (0 < rho_intercept p -> o_intercept_term o = 0 -> none_below (e_intercepts d0) (e_intercepts d))
  /\ (0 < rho_local p -> o_local_term o = 0 -> forall x, In x (e_flux d) -> x <= max_density p).
Lemma one_epoch : forall n epoch d0 d m, valid_epoch n d0 -> valid_epoch n d -> good m ->
  (epoch = 0%nat /\ d0 = d \/ epoch <> 0%nat /\ reference_flux m = Rsum (e_flux d0) /\ reference_intercepts m = e_intercepts d0) ->
  let '(o, m') := compute_kl_constraints p epoch d m in
  promised d0 d o m' /\ reference_flux m' = Rsum (e_flux d0) /\ reference_intercepts m' = e_intercepts d0.
Proof.
  intros n epoch d0 d m (F0 & N & L0 & P0 & I0) (F & _ & L & P & I) (G1 & G2 & G3) E. unfold compute_kl_constraints.
  assert (R1 : (if (epoch =? 0)%nat then Rsum (e_flux d) else reference_flux m) = Rsum (e_flux d0)) by (destruct (Nat.eqb_spec epoch 0), E as [(? & ?)|(? & ? & ?)]; subst; congruence).
  assert (R2 : (if (epoch =? 0)%nat then e_intercepts d else reference_intercepts m) = e_intercepts d0) by (destruct (Nat.eqb_spec epoch 0), E as [(? & ?)|(? & ? & ?)]; subst; congruence).
  rewrite R1, R2. split; [|split; reflexivity].
  assert (S0 : 0 <= Rsum (e_flux d0)) by (apply Rsum_nonneg; auto).
  set (fd := (Rsum (e_flux d0) - Rsum (e_flux d)) / (Rsum (e_flux d0) + eps p)).
  assert (FD : clamp0 fd = 0 <-> Rsum (e_flux d0) <= Rsum (e_flux d)) by (rewrite clamp0_zero; unfold fd; rewrite div_sign by lra; lra).
  set (ids := map (fun '(r, x) => (r - x) / (r + eps p)) (combine (e_intercepts d0) (e_intercepts d))).
  set (lv := map (fun x => (x - max_density p) / (max_density p + eps p)) (e_flux d)).
  assert (IDN : ids <> []) by (unfold ids; destruct (e_intercepts d0), (e_intercepts d); cbn in *; try lia; discriminate).
  assert (LVN : lv <> []) by (unfold lv; destruct (e_flux d); [congruence|discriminate]).
  assert (ID : (forall x, In x ids -> clamp0 x = 0) <-> none_below (e_intercepts d0) (e_intercepts d)).
  { unfold none_below, ids. split.
    - intros H i r x A B. assert (J : In ((r - x) / (r + eps p)) (map (fun '(r, x) => (r - x) / (r + eps p)) (combine (e_intercepts d0) (e_intercepts d)))).
      { apply in_map_iff. exists (r, x). split; auto. apply nth_error_In with i. clear - A B. revert i A B. generalize (e_intercepts d0) (e_intercepts d). induction l as [|y l IH]; intros [|z l'] [|i] A B; cbn in *; try discriminate; [congruence|]. apply IH; auto. }
      apply H, clamp0_zero in J. apply div_sign in J; [lra|]. assert (0 <= r) by (apply I0; eapply nth_error_In; eauto). lra.
    - intros H y J. apply in_map_iff in J. destruct J as ((r & x) & <- & J). apply In_nth_error in J. destruct J as (i & J).
      assert (AB : nth_error (e_intercepts d0) i = Some r /\ nth_error (e_intercepts d) i = Some x).
      { clear - J. revert i J. generalize (e_intercepts d0) (e_intercepts d). induction l as [|a l IH]; intros [|b l'] [|i] J; cbn in *; try discriminate; [injection J as <- <-; auto|]. apply IH; auto. }
      destruct AB as (A & B). specialize (H i r x A B). apply clamp0_zero, div_sign; [|lra]. assert (0 <= r) by (apply I0; eapply nth_error_In; eauto). lra. }
  assert (LV : (forall x, In x lv -> clamp0 x = 0) <-> forall x, In x (e_flux d) -> x <= max_density p).
  { unfold lv. split.
    - intros H x J. assert (C : clamp0 ((x - max_density p) / (max_density p + eps p)) = 0) by (apply H, in_map_iff; eauto). apply clamp0_zero, div_sign in C; lra.
    - intros H y J. apply in_map_iff in J. destruct J as (x & <- & J). apply clamp0_zero, div_sign; [lra|]. specialize (H x J). lra. }
  clearbody ids lv.
  set (its := map (fun x => penalty (lambda_intercept m) (rho_intercept p) (clamp0 x)) ids).
  set (lts := map (fun x => penalty (lambda_local m) (rho_local p) (clamp0 x)) lv).
  assert (ITS : forall y, In y its -> 0 <= y) by (intros y J; apply in_map_iff in J; destruct J as (x & <- & _); apply penalty_nonneg; auto; apply clamp0_nonneg).
  assert (LTS : forall y, In y lts -> 0 <= y) by (intros y J; apply in_map_iff in J; destruct J as (x & <- & _); apply penalty_nonneg; auto; apply clamp0_nonneg).
  assert (ITN : its <> []) by (unfold its; destruct ids; [congruence|discriminate]).
  assert (LTN : lts <> []) by (unfold lts; destruct lv; [congruence|discriminate]).
  destruct (maximum_spec lts LTN) as (MI & MU).
  unfold promised. cbn [o_flux_term o_intercept_term o_local_term o_loss]. repeat split.
  - apply penalty_nonneg; auto. apply clamp0_nonneg.
  - apply mean_nonneg; auto.
  - apply LTS; auto.
  - apply clamp0_nonneg.
  - apply clamp0_nonneg.
  - apply clamp0_nonneg.
  - intros H. apply FD in H. rewrite H. apply penalty_at_zero.
  - intros H. apply mean_all_zero. intros y J. apply in_map_iff in J. destruct J as (x & <- & J). rewrite (proj2 ID H x J). apply penalty_at_zero.
  - intros H. assert (Z : forall y, In y lts -> y = 0). { intros y J. apply in_map_iff in J. destruct J as (x & <- & J). rewrite (proj2 LV H x J). apply penalty_at_zero. }
    apply Z; auto.
  - intros R H. apply FD. apply (penalty_zero (lambda_flux m) (rho_flux p)); auto. apply clamp0_nonneg.
  - intros R H. apply ID. intros x J. apply (penalty_zero (lambda_intercept m) (rho_intercept p)); auto; [apply clamp0_nonneg|]. apply (mean_zero its ITN ITS H). apply in_map_iff; eauto.
  - intros R H. apply LV. intros x J. apply (penalty_zero (lambda_local m) (rho_local p)); auto; [apply clamp0_nonneg|].
    assert (Jl : In (penalty (lambda_local m) (rho_local p) (clamp0 x)) lts) by (apply in_map_iff; eauto). pose proof (MU _ Jl). pose proof (LTS _ Jl). rewrite H in *. lra.
Qed.
Theorem constraint_history : forall n d0 history, (forall d, In d (d0 :: history) -> valid_epoch n d) ->
  forall k d, nth_error (d0 :: history) k = Some d -> exists o m, nth_error (run_constraints p 0 (d0 :: history) initial_multipliers) k = Some (o, m) /\ promised d0 d o m.
Proof.
  intros n d0 history V.
  assert (G : forall l epoch m, (forall d, In d l -> valid_epoch n d) -> good m -> (epoch <> 0)%nat -> reference_flux m = Rsum (e_flux d0) -> reference_intercepts m = e_intercepts d0 ->
    forall k d, nth_error l k = Some d -> exists o m', nth_error (run_constraints p epoch l m) k = Some (o, m') /\ promised d0 d o m').
  { induction l as [|x l IH]; intros epoch m VL GM E R1 R2 k d K; [destruct k; discriminate|]. cbn [run_constraints].
    pose proof (one_epoch n epoch d0 x m (V d0 (or_introl eq_refl)) (VL x (or_introl eq_refl)) GM (or_intror (conj E (conj R1 R2)))) as O.
    destruct (compute_kl_constraints p epoch x m) as (o & m') eqn:C. destruct O as (O & R1' & R2'). destruct k as [|k]; cbn [nth_error] in K |- *.
    - injection K as <-. eauto.
    - cbn [snd]. apply IH; auto; [intros; apply VL; right; auto|apply O]. }
  intros k d K. cbn [run_constraints].
  pose proof (one_epoch n 0 d0 d0 initial_multipliers (V d0 (or_introl eq_refl)) (V d0 (or_introl eq_refl))) as O.
  assert (GI : good initial_multipliers) by (unfold good; cbn; lra). specialize (O GI (or_introl (conj eq_refl eq_refl))).
  destruct (compute_kl_constraints p 0 d0 initial_multipliers) as (o & m') eqn:C. destruct O as (O & R1' & R2'). destruct k as [|k]; cbn [nth_error] in K |- *.
  - injection K as <-. eauto.
  - cbn [snd]. apply G; auto; [intros; apply V; right; auto|apply O].
Qed.
End Aim.
