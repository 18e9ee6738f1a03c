(** C126: the weights of the constraints in optimizations. *)
From Coq Require Import List Arith Reals Lra Lia.
From Verif Require Import RealSums ModelField ModelLosses ModelOptimization SpecConstraints ProofsConstraints ProofsSurfaceTraining ProofsWeights.
Import ListNotations.
Local Open Scope R_scope.

(** C126 (full statement: while a constraint stays violated, its weight in the loss grows by at least a fixed amount in every
    epoch).  Aim points: after any history the weight of the total flux is the penalty factor times the largest sum, over the last
    epochs, of the share of the flux that is missing; that of the flux density is the same for the share by which the brightest
    pixel is above the bound; that of the intercept factors is the same for the mean over all heliostats of the shares lost.  The
    terms of an epoch use the weights from before it. *)
Theorem C126_weights_partial : forall p n d0 history excess,
  (forall d, In d (d0 :: history) -> e_flux d <> [] /\ length (e_intercepts d) = n) ->
  (forall e d, nth_error (d0 :: history) e = Some d -> largest_excess (eps p) (max_density p) (e_flux d) (excess e)) ->
  let epoch e := nth e (d0 :: history) d0 in
  let lost e := share_lost (eps p) (Rsum (e_flux d0)) (Rsum (e_flux (epoch e))) in
  let mean_lost e := mean_share_lost (eps p) (e_intercepts d0) (e_intercepts (epoch e)) in
  let outs := run_constraints p 0 (d0 :: history) initial_multipliers in
  forall k d o m, nth_error (d0 :: history) k = Some d -> nth_error outs k = Some (o, m) ->
  (largest_run (rho_flux p) lost (S k) (lambda_flux m) /\ largest_run (rho_intercept p) mean_lost (S k) (lambda_intercept m)
   /\ largest_run (rho_local p) excess (S k) (lambda_local m))
  /\ exists before, (k = 0%nat /\ before = initial_multipliers \/ exists k' o', k = S k' /\ nth_error outs k' = Some (o', before))
  /\ o_flux_term o = augmented (lambda_flux before) (rho_flux p) (lost k)
  /\ o_intercept_term o
     = Rsum (map (fun i => augmented (lambda_intercept before) (rho_intercept p) (share_lost (eps p) (nth i (e_intercepts d0) 0) (nth i (e_intercepts d) 0)))
                 (seq 0 (length (e_intercepts d0)))) / INR (length (e_intercepts d0))
  /\ (0 <= rho_local p -> o_local_term o = augmented (lambda_local before) (rho_local p) (excess k)).
Proof. intros p n d0 history excess V E epoch lost mean_lost outs k d o m. exact (weights_history p n d0 history V excess E k d o m). Qed.
Print Assumptions C126_weights_partial.

(** Hence a total flux that stays short by a share of at least [delta], and a brightest pixel that stays too bright by at least that
    share, is weighted more from epoch to epoch without bound. *)
Theorem C126_grows_partial : forall p n d0 history delta j k o m, 0 <= rho_flux p -> 0 <= rho_local p ->
  (forall d, In d (d0 :: history) -> e_flux d <> [] /\ length (e_intercepts d) = n) ->
  (j <= k)%nat -> nth_error (run_constraints p 0 (d0 :: history) initial_multipliers) k = Some (o, m) ->
  ((forall e d, (j <= e <= k)%nat -> nth_error (d0 :: history) e = Some d -> delta <= share_lost (eps p) (Rsum (e_flux d0)) (Rsum (e_flux d))) ->
     rho_flux p * (INR (S k - j) * delta) <= lambda_flux m)
  /\ ((forall e d, (j <= e <= k)%nat -> nth_error (d0 :: history) e = Some d -> exists x, In x (e_flux d) /\ delta <= (x - max_density p) / (max_density p + eps p)) ->
     rho_local p * (INR (S k - j) * delta) <= lambda_local m).
Proof. exact weights_grow. Qed.
Print Assumptions C126_grows_partial.

(** Two pixels, of which one stays twice as bright as allowed: the weight is at least 3 after three epochs. *)
Example C126_case : let p := {| rho_flux := 1; rho_intercept := 1; rho_local := 2; eps := 1; max_density := 1 |} in
  let d := {| e_flux_loss := 0; e_flux := [0; 2]; e_intercepts := [1] |} in
  exists o m, nth_error (run_constraints p 0 [d; d; d] initial_multipliers) 2 = Some (o, m) /\ 3 <= lambda_local m.
Proof.
  intros p d. destruct (defined_history p d [d; d] 2) as (o & m & K); [cbn; lia|]. exists o, m. split; auto.
  destruct (C126_grows_partial p 1 d [d; d] (1/2) 0 2 o m) as (_ & G); cbn [p rho_flux rho_local]; try lra; try lia; auto.
  - intros x [<-|[<-|[<-|[]]]]; split; try discriminate; auto.
  - change (3 <= lambda_local m). assert (H : rho_local p * (INR (3 - 0) * (1/2)) <= lambda_local m); [|cbn in H; lra].
    apply G. intros e x _ N. exists 2. assert (x = d) as -> by (destruct e as [|[|[|e]]]; cbn in N; try congruence; destruct e; discriminate).
    split; [cbn; auto|]. cbn. lra.
Qed.

(** The full statement fails for the intercept factors: a heliostat may lose half of its factor for good, and if another one gains
    as much, the weight of the constraint is zero after any number of epochs, with any penalty factors. *)
Theorem C126_intercepts_refuted : forall p extra, 0 < eps p -> let d0 := {| e_flux_loss := 0; e_flux := [1]; e_intercepts := [1/2; 1/2] |} in
  let d := {| e_flux_loss := 0; e_flux := [1]; e_intercepts := [1/4; 3/4] |} in
  length (run_constraints p 0 (d0 :: repeat d extra) initial_multipliers) = S extra
  /\ forall k o m, nth_error (run_constraints p 0 (d0 :: repeat d extra) initial_multipliers) k = Some (o, m) -> lambda_intercept m = 0.
Proof. intros p extra P d0 d. split; [rewrite constraints_length; cbn; rewrite repeat_length; auto|exact (balanced_intercepts p extra P)]. Qed.
Print Assumptions C126_intercepts_refuted.

(** Surfaces: the weight of a heliostat is the penalty factor times the sum of its violations in all epochs so far, and the term of an
    epoch uses the sum from before it.  A weight therefore never falls. *)
Theorem C126_surfaces : forall c n d0 history, 0 <= c_rho c -> 0 < c_epsilon c -> (0 < c_samples c)%nat -> 0 <= c_weight_smoothness c /\ 0 <= c_weight_ideal c -> (0 < n)%nat ->
  (forall d, In d (d0 :: history) ->
     length (s_integrals d) = (n * c_samples c)%nat /\ length (s_flux_losses d) = n /\ length (s_smoothness d) = n /\ length (s_ideal d) = n
     /\ (forall x, In x (s_integrals d) -> 0 <= x) /\ (forall x, In x (s_flux_losses d) -> 0 <= x) /\ (forall x, In x (s_smoothness d) -> 0 <= x) /\ (forall x, In x (s_ideal d) -> 0 <= x)) ->
  let violated i e := energy_violation (c_tolerance c) (c_epsilon c) (c_samples c) i (s_integrals d0) (s_integrals (nth e (d0 :: history) d0)) in
  exists outs, train_surface c n (d0 :: history) = Ok outs
  /\ forall k totals constraint lambdas, nth_error outs k = Some (totals, constraint, lambdas) -> forall i, (i < n)%nat ->
     nth_error lambdas i = Some (c_rho c * sum_from (violated i) 0 (S k))
     /\ nth_error constraint i = Some (augmented (c_rho c * sum_from (violated i) 0 k) (c_rho c) (violated i k)).
Proof. intros c n d0 history H1 H2 H3 H4 H5 V violated. exact (surface_weights c n d0 history H1 H2 H3 H4 H5 V). Qed.
Print Assumptions C126_surfaces.

(** One heliostat with one sample that loses half of its flux in two epochs. *)
Example C126_surface_case : let c := {| c_rho := 1; c_tolerance := 1/10; c_epsilon := 1; c_samples := 1; c_weight_smoothness := 0; c_weight_ideal := 0 |} in
  let d x := {| s_integrals := [x]; s_flux_losses := [1]; s_smoothness := [1]; s_ideal := [0] |} in
  exists outs t2 k2 l2, train_surface c 1 [d 9; d 4; d 4] = Ok outs /\ nth_error outs 2 = Some (t2, k2, l2) /\ nth_error l2 0 = Some (4/5).
Proof.
  intros c d. destruct (C126_surfaces c 1 (d 9) [d 4; d 4]) as (outs & T & W); cbn [c c_rho c_epsilon c_samples c_weight_smoothness c_weight_ideal]; try lra; try lia.
  - intros x [<-|[<-|[<-|[]]]]; cbn; repeat split; auto; intros y [<-|[]]; lra.
  - assert (L : length outs = 3%nat).
    { destruct (surface_history c) with (n := 1%nat) (d0 := d 9) (history := [d 4; d 4]) as (outs' & T' & L & _); cbn [c c_rho c_epsilon c_samples c_weight_smoothness c_weight_ideal]; try lra; try lia.
      - intros x [<-|[<-|[<-|[]]]]; cbn; unfold all_nonneg; repeat split; auto; intros y [<-|[]]; lra.
      - rewrite T in T'. injection T' as <-. exact L. }
    destruct (nth_error outs 2) as [((t2 & k2) & l2)|] eqn:N; [|apply nth_error_None in N; lia]. exists outs, t2, k2, l2. split; auto. split; auto.
    destruct (W 2%nat t2 k2 l2 N 0%nat) as (-> & _); [lia|]. f_equal. unfold sum_from, energy_violation, share_lost. cbn.
    rewrite (Rmax_left 0) by lra. rewrite !(Rmax_right 0) by lra. lra.
Qed.
