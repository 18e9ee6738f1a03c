(** C120: samples without a usable gradient. *)
From Coq Require Import List Arith Reals Lra Lia.
From Verif Require Import RealSums ModelGradients ProofsGradients.
Import ListNotations.
Local Open Scope R_scope.

(** C120 (full statement: a sample whose gradient is not finite has no influence on the training, and all other samples have the
    influence they would have without it).  If all samples of a heliostat have finite derivatives, the step of the reconstruction from
    alignments uses their mean, and that of the reconstruction from fluxes the derivatives of the median samples, whatever the samples
    of other heliostats are. *)
Theorem C120_finite_partial : (forall rate heliostats st xs,
    alignment_epoch rate heliostats st (map Some xs) = adam rate st (Some (Rsum xs / INR (length xs) / INR heliostats)))
  /\ forall rate st ranks, (forall h m xs, In (h, m, xs) ranks -> (m < length xs)%nat) ->
     flux_epoch rate st (map (fun '(h, m, xs) => (h, m, map Some xs)) ranks)
     = adam rate st (Some (Rsum (map (fun '(h, m, xs) => nth m xs 0 / INR h) ranks) / INR (length ranks))).
Proof. exact (conj finite_gradient flux_finite). Qed.
Print Assumptions C120_finite_partial.

(** In the reconstruction from alignments one such sample takes the influence of all samples of its heliostat: the step is the one of
    a zero gradient, whatever the other derivatives are. *)
Theorem C120_alignment_refuted : forall rate heliostats st samples, In None samples -> alignment_epoch rate heliostats st samples = adam rate st (Some 0).
Proof. exact cleaned_gradient. Qed.
Print Assumptions C120_alignment_refuted.

(** In the reconstruction from fluxes one such sample in one epoch on one rank makes the parameter unusable for good, even if it
    is not the median. *)
Theorem C120_flux_refuted : forall rate history st, (exists ranks h m samples, In ranks history /\ In (h, m, samples) ranks /\ In None samples) ->
  value (flux_epochs rate st history) = None.
Proof. exact never_recovers. Qed.
Print Assumptions C120_flux_refuted.

Example C120_case : let st := {| value := Some 1; first := Some 0; second := Some 0; step := 0 |} in
  (exists x, value (alignment_epoch (1 / 100, 9 / 10) 2 st [Some 3; Some 5]) = Some x /\ x < 1)
  /\ value (alignment_epoch (1 / 100, 9 / 10) 2 st [Some 3; None]) = Some 1
  /\ value (flux_epochs (fun _ => (1 / 100, 9 / 10)) st [[(2%nat, 0%nat, [Some 3; None])]; [(2%nat, 0%nat, [Some 3; Some 5])]]) = None.
Proof.
  cbv zeta. repeat split.
  - eexists. split; [unfold alignment_epoch, loss_gradient; cbn; reflexivity|]. cbn [step pow].
    match goal with |- 1 - ?r * ?m / (?q + ?e) < 1 => assert (0 < r * m / (q + e)) by (apply Rmult_lt_0_compat; [lra|apply Rinv_0_lt_compat; assert (0 <= q) by apply sqrt_pos; lra]); lra end.
  - unfold alignment_epoch, loss_gradient. cbn. f_equal. unfold Rdiv. rewrite !Rmult_0_r, Rplus_0_l, !Rmult_0_l, Rmult_0_r, Rmult_0_l. lra.
Qed.
