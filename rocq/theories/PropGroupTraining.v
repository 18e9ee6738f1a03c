(** C128: surface training on several ranks. *)
From Coq Require Import List Arith Reals Lra Lia Permutation.
From Verif Require Import RealSums ModelOptimization SpecOptimization ProofsGroupTraining.
Import ListNotations.
Local Open Scope R_scope.

(** C128. The control points after any number of epochs depend on the gradients of the ranks through their means only ... *)
Theorem C128_means : forall height width control_points history history' h f i j c,
  Forall2 (fun '(lr, beta, members) '(lr', beta', members') => lr = lr' /\ beta = beta'
    /\ mean_gradient (map (fun g : gradients => g h f i j c) members) = mean_gradient (map (fun g : gradients => g h f i j c) members')) history history' ->
  train_control_points height width control_points history h f i j c = train_control_points height width control_points history' h f i j c.
Proof. exact same_means. Qed.
Print Assumptions C128_means.

(** ... so that ranks that compute the same gradients train the surface one rank trains, however many they are, and their order does
    not matter; ... *)
Theorem C128_same_work : forall height width control_points (history : list (R * R * gradients)) ranks h f i j c, (1 <= ranks)%nat ->
  train_control_points height width control_points (map (fun '(lr, beta, g) => (lr, beta, repeat g ranks)) history) h f i j c
  = train_control_points height width control_points (map (fun '(lr, beta, g) => (lr, beta, [g])) history) h f i j c.
Proof.
  intros height width control_points history ranks h f i j c N. apply same_means. induction history as [|((lr & beta) & g) l IH]; cbn [map]; constructor; auto.
  split; auto. split; auto. assert (M : map (fun g : gradients => g h f i j c) (repeat g ranks) = repeat (g h f i j c) ranks) by (clear; induction ranks; cbn; congruence).
  rewrite M, mean_repeat by auto. unfold mean_gradient. cbn. lra.
Qed.
Print Assumptions C128_same_work.
Theorem C128_order : forall height width control_points (history history' : list (R * R * list gradients)) h f i j c,
  Forall2 (fun a b => fst a = fst b /\ Permutation (snd a) (snd b)) history history' ->
  train_control_points height width control_points history h f i j c = train_control_points height width control_points history' h f i j c.
Proof.
  intros height width control_points history history' h f i j c F. apply same_means. induction F as [|((lr & beta) & m) ((lr' & beta') & m') l l' (E & P) F IH]; constructor; auto.
  cbn [fst snd] in *. injection E as -> ->. split; auto. split; auto. apply mean_permuted. apply Permutation_map. auto.
Qed.
Print Assumptions C128_order.

(** ... and the first epoch moves every entry that is not locked by the learning rate against the mean gradient, as long as that is
    large compared to 1e-8. *)
Theorem C128_first_epoch : forall height width control_points lr beta members h f i j c, beta <> 1 -> (i < height)%nat -> (j < width)%nat -> ~ (on_border height width i j /\ (c < 2)%nat) ->
  let g := mean_gradient (map (fun g : gradients => g h f i j c) members) in
  train_control_points height width control_points [(lr, beta, members)] h f i j c = control_points h f i j c - lr * (g / (Rabs g + / 10 ^ 8)).
Proof. exact first_epoch. Qed.
Print Assumptions C128_first_epoch.

(** Gradients 3 and -1 of two ranks, mean 1: the height of an inner control point goes down by almost the learning rate. *)
Example C128_case : train_control_points 4 3 (fun _ _ _ _ _ => 0) [(1/100, 9/10, [(fun _ _ _ _ _ => 3); (fun _ _ _ _ _ => -1)])] 0 0 1 1 2 < - 99/10000.
Proof.
  rewrite C128_first_epoch by (try lra; try lia; unfold on_border; lia). cbn [map]. unfold mean_gradient. cbn [length INR]. rewrite !Rsum_cons. change (Rsum []) with 0.
  replace ((3 + (-1 + 0)) / (1 + 1)) with 1 by field. rewrite Rabs_R1. set (x := / 10 ^ 8). assert (X : 0 < x < / 1000) by (unfold x; split; [apply Rinv_0_lt_compat|apply Rinv_lt_contravar]; lra).
  assert (995 / 1000 <= 1 / (1 + x)); [|lra]. apply (Rmult_le_reg_r (1 + x)); [lra|]. unfold Rdiv at 2. rewrite Rmult_assoc, Rinv_l by lra. lra.
Qed.
