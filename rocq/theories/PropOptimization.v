(** C62-C64, C84, C85: constraints and bookkeeping of the optimizers. *)
From Coq Require Import List Arith ZArith Reals Lra Lia Bool.
From Verif Require Import RealSums ModelField ModelDistributed ModelLBVH ModelSplatting ModelActuators ModelLosses ModelOptimization SpecOptimization ProofsOptimization ProofsConstraints ProofsSurfaceTraining.
Import ListNotations.
Local Open Scope R_scope.

(** C62. The parameters are arbitrary: whatever the optimizer does. *)
Theorem C62_motor_limits : forall minimum maximum initial parameter, minimum + 1 <= initial <= maximum - 1 ->
  within_limits minimum maximum (motor_position initial (motor_scale minimum maximum initial) parameter).
Proof. exact motor_limits. Qed.
Print Assumptions C62_motor_limits.

Theorem C62_motor_limits_of_group : forall motors parameters position,
  (forall minimum maximum initial, In (minimum, maximum, initial) motors -> minimum + 1 <= initial <= maximum - 1) ->
  In position (group_motor_positions motors parameters) ->
  exists minimum maximum initial, In (minimum, maximum, initial) motors /\ within_limits minimum maximum position.
Proof. exact motors_in_limits. Qed.
Print Assumptions C62_motor_limits_of_group.

(** Without a margin the limits can be exceeded, but by less than one step. *)
Theorem C62_overshoot_below_one_step : forall minimum maximum initial parameter, within_limits minimum maximum initial ->
  within_limits (minimum - 1) (maximum + 1) (motor_position initial (motor_scale minimum maximum initial) parameter).
Proof. exact motor_overshoot. Qed.
Print Assumptions C62_overshoot_below_one_step.

(** The optimization starts from the aligned motor positions. *)
Theorem C62_start : forall minimum maximum initial, motor_position initial (motor_scale minimum maximum initial) 0 = initial.
Proof. exact motor_start. Qed.
Print Assumptions C62_start.

Example C62_case : within_limits 0 1000 (motor_position 300 (motor_scale 0 1000 300) 5)
  /\ motor_scale 0 1000 300 = 300
  /\ ~ within_limits 0 1000 (motor_position 0 (motor_scale 0 1000 0) (-1)).
Proof.
  split; [apply C62_motor_limits; lra|]. split; [unfold motor_scale, Rmax, Rmin; repeat destruct Rle_dec; lra|].
  unfold within_limits, motor_position. assert (S : motor_scale 0 1000 0 = 1) by (unfold motor_scale, Rmax, Rmin; repeat destruct Rle_dec; lra). rewrite S.
  assert (T : tanh (-1) < 0). { unfold tanh, sinh, cosh. pose proof (exp_pos (-1)). pose proof (exp_pos (- -1)). assert (E : exp (-1) < exp (- -1)) by (apply exp_increasing; lra).
    apply (Rmult_lt_reg_r ((exp (-1) + exp (- -1)) / 2)); [lra|]. rewrite Rmult_0_l. replace ((exp (-1) - exp (- -1)) / 2 / ((exp (-1) + exp (- -1)) / 2) * ((exp (-1) + exp (- -1)) / 2)) with ((exp (-1) - exp (- -1)) / 2) by (field; lra). lra. }
  lra.
Qed.

(** C63, aim points. All heliostats have an intercept factor, the flux has at least one pixel. [d0] is the first epoch. *)
Theorem C63_aim_points : forall p n d0 history,
  0 <= rho_flux p -> 0 <= rho_intercept p -> 0 <= rho_local p -> 0 < eps p -> 0 <= max_density p -> (0 < n)%nat ->
  (forall d, In d (d0 :: history) -> e_flux d <> [] /\ (0 < n)%nat /\ length (e_intercepts d) = n /\ (forall x, In x (e_flux d) -> 0 <= x) /\ (forall x, In x (e_intercepts d) -> 0 <= x)) ->
  forall k d, nth_error (d0 :: history) k = Some d ->
  exists o m, nth_error (run_constraints p 0 (d0 :: history) initial_multipliers) k = Some (o, m)
  /\ 0 <= o_flux_term o /\ 0 <= o_intercept_term o /\ 0 <= o_local_term o
  /\ o_loss o = e_flux_loss d + o_flux_term o + o_intercept_term o + o_local_term o
  /\ (0 <= lambda_flux m /\ 0 <= lambda_intercept m /\ 0 <= lambda_local m)
  /\ (Rsum (e_flux d0) <= Rsum (e_flux d) -> o_flux_term o = 0)
  /\ (none_below (e_intercepts d0) (e_intercepts d) -> o_intercept_term o = 0)
  /\ ((forall x, In x (e_flux d) -> x <= max_density p) -> o_local_term o = 0)
  /\ (0 < rho_flux p -> o_flux_term o = 0 -> Rsum (e_flux d0) <= Rsum (e_flux d))
  /\ (0 < rho_intercept p -> o_intercept_term o = 0 -> none_below (e_intercepts d0) (e_intercepts d))
  /\ (0 < rho_local p -> o_local_term o = 0 -> forall x, In x (e_flux d) -> x <= max_density p).
Proof. intros p n d0 history A B C D E _ V k d K. exact (constraint_history p A B C D E n d0 history V k d K). Qed.
Print Assumptions C63_aim_points.

Example C63_case : let p := {| rho_flux := 1; rho_intercept := 1; rho_local := 1; eps := / 10; max_density := 5 |} in
  let d0 := {| e_flux_loss := 2; e_flux := [4; 6]; e_intercepts := [1; 1/2] |} in
  let d1 := {| e_flux_loss := 1; e_flux := [4; 4]; e_intercepts := [1; 1/4] |} in
  exists o0 m0 o1 m1, run_constraints p 0 [d0; d1] initial_multipliers = [(o0, m0); (o1, m1)]
  /\ o_flux_term o0 = 0 /\ 0 < o_local_term o0 /\ 0 < o_flux_term o1 /\ o_local_term o1 = 0.
Proof.
  intros p d0 d1. eexists _, _, _, _. split; [reflexivity|].
  assert (V : forall d, In d [d0; d1] -> e_flux d <> [] /\ (0 < 2)%nat /\ length (e_intercepts d) = 2%nat /\ (forall x, In x (e_flux d) -> 0 <= x) /\ (forall x, In x (e_intercepts d) -> 0 <= x)).
  { intros d [<-|[<-|[]]]; cbn; (split; [discriminate|]); (split; [lia|]); (split; [auto|]); split; intros x I; repeat destruct I as [<-|I]; try contradiction; lra. }
  assert (P : 0 <= 1 /\ 0 < / 10 /\ 0 <= 5) by (repeat split; lra).
  pose proof (C63_aim_points p 2 d0 [d1] ltac:(cbn; lra) ltac:(cbn; lra) ltac:(cbn; lra) ltac:(cbn; lra) ltac:(cbn; lra) ltac:(lia) V) as T.
  destruct (T 0%nat d0 eq_refl) as (o0 & m0 & E0 & _ & _ & L0 & _ & _ & F0 & _ & _ & _ & _ & G0). destruct (T 1%nat d1 eq_refl) as (o1 & m1 & E1 & F1 & _ & _ & _ & _ & _ & _ & H1 & K1 & _).
  injection E0 as <- _. injection E1 as <- _. split; [|split; [|split]].
  - apply F0. cbn. lra.
  - destruct L0 as [L|L]; auto. exfalso. assert (B : 6 <= 5) by (apply (G0 ltac:(cbn; lra) (eq_sym L) 6); cbn; auto). lra.
  - destruct F1 as [L|L]; auto. exfalso. assert (B : Rsum [4; 6] <= Rsum [4; 4]) by (apply (K1 ltac:(cbn; lra) (eq_sym L))). cbn in B. lra.
  - apply H1. intros x [<-|[<-|[]]]; cbn; lra.
Qed.

(** The bound on a pixel is the configured bound on the flux density. *)
Theorem C63_flux_density : forall width height resolution_e resolution_u density x, 0 < width -> 0 < height -> (0 < resolution_e)%nat -> (0 < resolution_u)%nat ->
  (x <= max_flux_density_per_pixel (width, height) resolution_e resolution_u density <-> x / (width / INR resolution_e * (height / INR resolution_u)) <= density).
Proof. exact pixel_density. Qed.
Print Assumptions C63_flux_density.

Theorem C63_target_dimensions : forall planar cylinders index,
  (forall d, nth_error planar index = Some d -> target_plane_dimensions planar cylinders index = Ok d)
  /\ (forall j radius angle height, index = (length planar + j)%nat -> nth_error cylinders j = Some (radius, angle, height) -> target_plane_dimensions planar cylinders index = Ok (radius * angle, height))
  /\ ((length planar + length cylinders <= index)%nat -> target_plane_dimensions planar cylinders index = Err KeyError).
Proof. exact dimensions_of_target. Qed.
Print Assumptions C63_target_dimensions.

(** C63, surfaces: [n] trained heliostats. *)
Theorem C63_surfaces : forall c n d0 history, 0 <= c_rho c -> 0 < c_epsilon c -> (0 < c_samples c)%nat -> 0 <= c_weight_smoothness c /\ 0 <= c_weight_ideal c -> (0 < n)%nat ->
  (forall d, In d (d0 :: history) ->
     length (s_integrals d) = (n * c_samples c)%nat /\ length (s_flux_losses d) = n /\ length (s_smoothness d) = n /\ length (s_ideal d) = n
     /\ (forall x, In x (s_integrals d) -> 0 <= x) /\ (forall x, In x (s_flux_losses d) -> 0 <= x) /\ (forall x, In x (s_smoothness d) -> 0 <= x) /\ (forall x, In x (s_ideal d) -> 0 <= x)) ->
  exists outs, train_surface c n (d0 :: history) = Ok outs /\ length outs = length (d0 :: history)
  /\ forall k d, nth_error (d0 :: history) k = Some d -> exists totals constraint lambdas, nth_error outs k = Some (totals, constraint, lambdas)
  /\ length totals = n /\ length constraint = n /\ length lambdas = n
  /\ forall i, (i < n)%nat ->
       nth i (s_flux_losses d) 0 <= nth i totals 0 /\ 0 <= nth i constraint 0 /\ 0 <= nth i lambdas 0
       /\ (energy_kept (c_tolerance c) (c_epsilon c) (c_samples c) i (s_integrals d0) (s_integrals d) -> nth i constraint 0 = 0)
       /\ (0 < c_rho c -> nth i constraint 0 = 0 -> energy_kept (c_tolerance c) (c_epsilon c) (c_samples c) i (s_integrals d0) (s_integrals d)).
Proof.
  intros c n d0 history A B C D N V. destruct (surface_history c A B C D n d0 history N V) as (outs & E & L & H). exists outs. split; [exact E|]. split; [exact L|].
  intros k d K. destruct (H k d K) as (((t & x) & l) & H1 & H2). exists t, x, l. split; [exact H1|exact H2].
Qed.
Print Assumptions C63_surfaces.

Example C63_surface_case : let c := {| c_rho := 1; c_tolerance := 0; c_epsilon := / 10; c_samples := 1; c_weight_smoothness := 0; c_weight_ideal := 1 |} in
  let d0 := {| s_integrals := [4; 6]; s_flux_losses := [1; 1]; s_smoothness := [1; 1]; s_ideal := [0; 0] |} in
  let d1 := {| s_integrals := [4; 5]; s_flux_losses := [1; 1]; s_smoothness := [1; 1]; s_ideal := [0; 0] |} in
  exists outs totals constraint lambdas, train_surface c 2 [d0; d1] = Ok outs /\ nth_error outs 1 = Some (totals, constraint, lambdas) /\ nth 0 constraint 0 = 0 /\ 0 < nth 1 constraint 0.
Proof.
  intros c d0 d1. destruct (C63_surfaces c 2 d0 [d1]) as (outs & E & _ & H); try (cbn; lra || lia).
  { intros d [<-|[<-|[]]]; cbn; repeat (split; [reflexivity|]); repeat split; intros x I; repeat destruct I as [<-|I]; try contradiction; lra. }
  destruct (H 1%nat d1 eq_refl) as (t & k & l & N & _ & _ & _ & P). exists outs, t, k, l. split; auto. split; auto. split.
  - apply (P 0%nat ltac:(lia)). intros j J. cbn in J. replace j with 0%nat by lia. cbn. lra.
  - destruct (P 1%nat ltac:(lia)) as (_ & K & _ & _ & Q). destruct K as [K|K]; auto. exfalso. specialize (Q ltac:(cbn; lra) (eq_sym K) 0%nat ltac:(cbn; lia)). cbn in Q. lra.
Qed.

(** C64. *)
Theorem C64_locked_gradients : forall height width g h f i j c, (i < height)%nat -> (j < width)%nat ->
  (on_border height width i j /\ (c < 2)%nat -> lock_edges height width g h f i j c = 0)
  /\ (~ (on_border height width i j /\ (c < 2)%nat) -> lock_edges height width g h f i j c = g h f i j c).
Proof. exact lock_exact. Qed.
Print Assumptions C64_locked_gradients.

(** Over every training history the border of a facet keeps its planar position. *)
Theorem C64_border_keeps_planar_position : forall height width control_points history h f i j c, (i < height)%nat -> (j < width)%nat -> on_border height width i j -> (c < 2)%nat ->
  train_control_points height width control_points history h f i j c = control_points h f i j c.
Proof. exact edges_kept. Qed.
Print Assumptions C64_border_keeps_planar_position.

Example C64_case : on_border 4 3 3 1 /\ ~ on_border 4 3 2 1
  /\ lock_edges 4 3 (fun _ _ _ _ _ => 7) 0%nat 0%nat 3%nat 1%nat 1%nat = 0 /\ lock_edges 4 3 (fun _ _ _ _ _ => 7) 0%nat 0%nat 3%nat 1%nat 2%nat = 7 /\ lock_edges 4 3 (fun _ _ _ _ _ => 7) 0%nat 0%nat 2%nat 1%nat 0%nat = 7.
Proof. unfold on_border. repeat split; auto; lia. Qed.

(** C84. With at most as many ranks as groups, the flux seen by every rank is the flux of all heliostats. *)
Theorem C84_total_flux_partial : forall pixels number_of_targets target sizes row garbage, (target < number_of_targets)%nat -> (forall g i, length (t_flux (row g i)) = pixels) ->
  forall world rank, (1 <= world <= length sizes)%nat -> (rank < world)%nat ->
  exists flux intercepts, trace_and_accumulate pixels number_of_targets target sizes row garbage world rank = Ok (flux, intercepts)
  /\ length flux = pixels
  /\ forall p, nth p flux 0 = flux_of_groups sizes (fun g i => nth p (t_flux (row g i)) 0) (seq 0 (length sizes)).
Proof.
  intros pixels number_of_targets target sizes row garbage T IM world rank W R. destruct (accumulated_flux pixels number_of_targets target sizes row garbage T IM world rank W R) as (f & i & E & L & _ & P & _).
  exists f, i. split; [exact E|]. split; [exact L|exact P].
Qed.
Print Assumptions C84_total_flux_partial.

(** With more ranks than groups the optimization fails on every rank. *)
Theorem C84_nested_refuted : forall pixels number_of_targets target sizes row garbage world rank, (1 <= number_of_targets)%nat ->
  (1 <= length sizes < world)%nat -> (forall n, In n sizes -> 2 <= n)%nat ->
  exists e, trace_and_accumulate pixels number_of_targets target sizes row garbage world rank = Err e.
Proof. exact nested_fails. Qed.
Print Assumptions C84_nested_refuted.

Example C84_case : let row g i := {| t_flux := [INR g; INR i]; t_intercept := INR (g + i) |} in
  exists flux intercepts, trace_and_accumulate 2 1 0 [2; 1; 1]%nat row row 2 1 = Ok (flux, intercepts) /\ length flux = 2%nat /\ nth 0 flux 0 = 3 /\ nth 1 flux 0 = 1.
Proof.
  intros row. destruct (C84_total_flux_partial 2 1 0 [2; 1; 1]%nat row row ltac:(lia) ltac:(reflexivity) 2%nat 1%nat ltac:(cbn; lia) ltac:(lia)) as (f & i & E & L & P).
  exists f, i. split; auto. split; auto. rewrite !P. unfold flux_of_groups. cbn. split; lra.
Qed.

(** C85. In a single process the reported factors belong to their heliostats. *)
Theorem C85_factors_partial : forall pixels number_of_targets target sizes row garbage, (target < number_of_targets)%nat -> (1 <= length sizes)%nat ->
  (forall g i, length (t_flux (row g i)) = pixels) ->
  exists flux intercepts, trace_and_accumulate pixels number_of_targets target sizes row garbage 1 0 = Ok (flux, intercepts)
  /\ length intercepts = list_sum sizes
  /\ forall g i, (g < length sizes)%nat -> (i < nth g sizes 0)%nat -> nth_error intercepts (field_index sizes g i) = Some (t_intercept (row g i)).
Proof. exact single_rank_factors. Qed.
Print Assumptions C85_factors_partial.

(** In a distributed run a rank reports zero for all heliostats of the groups of other ranks. *)
Theorem C85_distributed_refuted : forall pixels number_of_targets target sizes row garbage world rank, (target < number_of_targets)%nat -> (1 <= world <= length sizes)%nat -> (rank < world)%nat ->
  (forall g i, length (t_flux (row g i)) = pixels) ->
  exists flux intercepts, trace_and_accumulate pixels number_of_targets target sizes row garbage world rank = Ok (flux, intercepts)
  /\ forall g i, (g < length sizes)%nat -> (i < nth g sizes 0)%nat -> ~ In g (groups_of_rank world (length sizes) rank) -> nth_error intercepts (field_index sizes g i) = Some 0.
Proof. exact foreign_factors. Qed.
Print Assumptions C85_distributed_refuted.

Example C85_case : groups_of_rank 2 3 0 = [0; 2]%nat /\ field_index [2; 1; 1]%nat 1 0 = 2%nat
  /\ exists flux intercepts, trace_and_accumulate 0 1 0 [2; 1; 1]%nat (fun _ _ => {| t_flux := []; t_intercept := 1 |}) (fun _ _ => {| t_flux := []; t_intercept := 1 |}) 2 0 = Ok (flux, intercepts) /\ intercepts = [1; 1; 0; 1].
Proof. split; [reflexivity|]. split; [reflexivity|]. eexists _, _. split; reflexivity. Qed.
