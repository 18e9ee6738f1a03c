(** Proofs of C128. *)
From Coq Require Import List Arith Reals Lra Lia Bool Permutation.
From Verif Require Import RealSums ModelOptimization SpecOptimization.
Import ListNotations.
Local Open Scope R_scope.

Lemma lock_edges_at : forall height width g g' h f i j c, g h f i j c = g' h f i j c -> lock_edges height width g h f i j c = lock_edges height width g' h f i j c.
Proof. intros. unfold lock_edges. destruct (c <? 2)%nat; auto. destruct (_ || _); auto. Qed.
Theorem same_means : forall height width control_points history history' h f i j c,
  Forall2 (fun '(lr, beta, members) '(lr', beta', members') => lr = lr' /\ beta = beta'
    /\ mean_gradient (map (fun g : gradients => g h f i j c) members) = mean_gradient (map (fun g : gradients => g h f i j c) members')) history history' ->
  train_control_points height width control_points history h f i j c = train_control_points height width control_points history' h f i j c.
Proof.
  intros height width control_points history history' h f i j c F. unfold train_control_points. f_equal. generalize (fresh (control_points h f i j c)).
  induction F as [|((lr & beta) & members) ((lr' & beta') & members') l l' (-> & -> & E) F IH]; intros s; auto. cbn [fold_left].
  rewrite (lock_edges_at height width (averaged members) (averaged members')); auto. unfold averaged. unfold mean_gradient in E. rewrite !map_length in E. exact E.
Qed.
Lemma mean_repeat : forall x n, (1 <= n)%nat -> mean_gradient (repeat x n) = x.
Proof. intros x n N. unfold mean_gradient. rewrite repeat_length, Rsum_repeat. assert (0 < INR n) by (apply lt_0_INR; lia). field. lra. Qed.
Lemma mean_permuted : forall l l', Permutation l l' -> mean_gradient l = mean_gradient l'.
Proof.
  intros l l' P. unfold mean_gradient. rewrite (Permutation_length P). f_equal. induction P; rewrite ?Rsum_cons; auto; try lra.
Qed.
Theorem first_epoch : forall height width control_points lr beta members h f i j c, beta <> 1 -> (i < height)%nat -> (j < width)%nat -> ~ (on_border height width i j /\ (c < 2)%nat) ->
  let g := mean_gradient (map (fun g : gradients => g h f i j c) members) in
  train_control_points height width control_points [(lr, beta, members)] h f i j c = control_points h f i j c - lr * (g / (Rabs g + / 10 ^ 8)).
Proof.
  intros height width control_points lr beta members h f i j c B I J N g. unfold train_control_points. cbn [fold_left].
  assert (E : lock_edges height width (averaged members) h f i j c = g).
  { unfold lock_edges. assert (A : averaged members h f i j c = g) by (unfold averaged, g, mean_gradient; rewrite map_length; auto).
    destruct (Nat.ltb_spec c 2) as [C|C]; auto. destruct (_ || _) eqn:O; auto. exfalso. apply N. split; auto.
    apply orb_prop in O. destruct O as [O|O]; [apply orb_prop in O; destruct O as [O|O]; [apply orb_prop in O; destruct O as [O|O]|]|]; apply Nat.eqb_eq in O; unfold on_border; lia. }
  rewrite E. unfold adam_step, fresh. cbn [a_m a_v a_step a_value pow]. 
  replace ((beta * 0 + (1 - beta) * g) / (1 - beta * 1)) with g by (field; lra).
  replace ((999 / 1000 * 0 + (1 - 999 / 1000) * (g * (g * 1))) / (1 - 999 / 1000 * 1)) with (Rsqr g) by (unfold Rsqr; field). rewrite sqrt_Rsqr_abs. reflexivity.
Qed.
