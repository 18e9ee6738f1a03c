(** Model of [artist/optim/aim_point_optimizer.py] and of the constraint code of [artist/optim/surface_reconstructor.py].
    Tensors of floats are lists or functions of real numbers. *)
From Coq Require Import List Arith ZArith Reals Bool.
From Verif Require Import RealSums ModelField ModelDistributed ModelLBVH ModelSplatting ModelActuators ModelLosses.
Import ListNotations.
Local Open Scope R_scope.

(** ** Motor positions *)
(** The scale of a motor, aim_point_optimizer.py:225-229: [torch.minimum(lower, upper).clamp(min=1.0)]. *)
Definition motor_scale (minimum maximum initial : R) : R := Rmax (Rmin (initial - minimum) (maximum - initial)) 1.
(** [_align_all_groups], aim_point_optimizer.py:379-389, for one motor. *)
Definition motor_position (initial scale parameter : R) : R := initial + tanh parameter * scale.
(** The motors of one group: minimum, maximum and initial position of every motor, and the parameters of the optimizer. *)
Definition group_motor_positions (motors : list (R * R * R)) (parameters : list R) : list R :=
  map (fun '((minimum, maximum, initial), p) => motor_position initial (motor_scale minimum maximum initial) p) (combine motors parameters).

(** ** Target dimensions *)
(** [_get_target_plane_dimensions], aim_point_optimizer.py:322-348: planar areas are (width, height), cylinders are
    (radius, opening angle, height); the planar areas come first. *)
Definition target_plane_dimensions (planar : list (R * R)) (cylinders : list (R * R * R)) (index : nat) : res (R * R) :=
  if (index <? length planar)%nat
  then match nth_error planar index with Some d => Ok d | None => Err IndexError end
  else match nth_error cylinders (index - length planar) with
       | Some (radius, angle, height) => Ok (radius * angle, height)
       | None => Err KeyError
       end.
(** aim_point_optimizer.py:820-822. *)
Definition max_flux_density_per_pixel (dimensions : R * R) (resolution_e resolution_u : nat) (max_flux_density : R) : R :=
  (fst dimensions * snd dimensions) / (INR resolution_e * INR resolution_u) * max_flux_density.

(** ** Flux of all groups *)
(** [torch.Tensor.__setitem__] with an index list: one value per index, or one value for all. *)
Fixpoint replace_at {A} (l : list A) (i : nat) (x : A) : list A :=
  match l, i with [], _ => [] | _ :: l', O => x :: l' | y :: l', S i' => y :: replace_at l' i' x end.
Definition scatter {A} (l : list A) (positions : list nat) (values : list A) : res (list A) :=
  if existsb (fun i => (length l <=? i)%nat) positions then Err IndexError
  else if (length positions =? length values)%nat then Ok (fold_left (fun acc '(i, x) => replace_at acc i x) (combine positions values) l)
  else match values with [x] => Ok (fold_left (fun acc i => replace_at acc i x) positions l) | _ => Err ShapeError end.

(** [group_offsets], aim_point_optimizer.py:172-179: start index of every group. *)
Definition group_offset (sizes : list nat) (group : nat) : nat := list_sum (firstn group sizes).

(** What [trace_rays] returns for a group on a rank of its subgroup, heliostat_ray_tracer.py:280-508 (C66): one row per
    active sample of the group.  Rows the rank did not trace stay uninitialised; [uninitialised i] is their content. *)
Definition traced_rows {A} (number_of_samples : nat) (sampler : list nat) (row uninitialised : nat -> A) : list A :=
  map (fun i => if existsb (Nat.eqb i) sampler then row i else uninitialised i) (seq 0 number_of_samples).

Record traced := { t_flux : list R; t_intercept : R }.

Section Accumulate.
Variable pixels : nat.
Variable number_of_targets : nat.
Variable target : nat.
Variable sizes : list nat.
(** [row g i]: what ray tracing computes for heliostat [i] of group [g]; [garbage g i] is uninitialised memory. *)
Variables row garbage : nat -> nat -> traced.

(** The loop body of [_trace_and_accumulate_flux], aim_point_optimizer.py:462-513, for one group: all heliostats are
    active and all aim at [target]. *)
Definition accumulate_group (members rank_in_group : nat) (state : list R * list R) (g : nat) : res (list R * list R) :=
  let size := nth g sizes 0%nat in
  let sampler := tracer_sampler_indices (repeat 1%nat size) members rank_in_group in
  let rows := traced_rows size sampler (row g) (garbage g) in
  bind (bitmaps_per_target number_of_targets pixels (map t_flux rows) (map (fun _ => Z.of_nat target) sampler)) (fun per_target =>
  match nth_error per_target target with
  | None => Err IndexError
  | Some bitmap =>
    bind (scatter (snd state) (map (fun i => (group_offset sizes g + i)%nat) sampler) (map t_intercept rows)) (fun intercepts =>
    Ok (add_bitmaps (fst state) bitmap, intercepts))
  end).
(** [_trace_and_accumulate_flux], aim_point_optimizer.py:445-513, on one rank, before the reduction. *)
Fixpoint accumulate (members rank_in_group : nat) (state : list R * list R) (groups : list nat) : res (list R * list R) :=
  match groups with
  | [] => Ok state
  | g :: groups' => bind (accumulate_group members rank_in_group state g) (fun state' => accumulate members rank_in_group state' groups')
  end.
Definition rank_flux (world rank : nat) : res (list R * list R) :=
  let subgroup := setup_rank world (length sizes) rank in
  accumulate (sg_world subgroup) (sg_rank subgroup) (repeat 0 pixels, repeat 0 (list_sum sizes)) (groups_of_rank world (length sizes) rank).
(** The whole function on rank [rank], with the sum over all ranks (515-521): the flux is reduced, the factors are not. *)
Definition trace_and_accumulate (world rank : nat) : res (list R * list R) :=
  bind (map_res (rank_flux world) (seq 0 world)) (fun all =>
  match nth_error all rank with
  | None => Err IndexError
  | Some own => Ok (fold_right add_bitmaps (repeat 0 pixels) (map fst all), snd own)
  end).
End Accumulate.

(** ** Constraints of the aim point optimization *)
Definition mean (l : list R) : R := Rsum l / INR (length l).
(** [torch.clamp(x, min=0.0)]. *)
Definition clamp0 (x : R) : R := Rmax x 0.
(** [torch.max] of a non-empty tensor. *)
Definition maximum (l : list R) : R := match l with [] => 0 | x :: l' => fold_left Rmax l' x end.

Record penalties := { rho_flux : R; rho_intercept : R; rho_local : R; eps : R; max_density : R }.
Record multipliers := { reference_flux : R; reference_intercepts : list R; lambda_flux : R; lambda_intercept : R; lambda_local : R }.
(** What one epoch computes before the constraints: the flux loss, the flux on the target and the intercept factors. *)
Record epoch_data := { e_flux_loss : R; e_flux : list R; e_intercepts : list R }.
Record epoch_terms := { o_loss : R; o_flux_term : R; o_intercept_term : R; o_local_term : R }.

(** aim_point_optimizer.py:811-816. *)
Definition initial_multipliers : multipliers := {| reference_flux := 0; reference_intercepts := []; lambda_flux := 0; lambda_intercept := 0; lambda_local := 0 |}.
Definition penalty (lambda rho violation : R) : R := lambda * violation + 1 / 2 * rho * violation ^ 2.
(** [_compute_kl_constraints], aim_point_optimizer.py:602-679. *)
Definition compute_kl_constraints (p : penalties) (epoch : nat) (d : epoch_data) (m : multipliers) : epoch_terms * multipliers :=
  let reference := if (epoch =? 0)%nat then Rsum (e_flux d) else reference_flux m in
  let references := if (epoch =? 0)%nat then e_intercepts d else reference_intercepts m in
  let flux_difference := (reference - Rsum (e_flux d)) / (reference + eps p) in
  let flux_term := penalty (lambda_flux m) (rho_flux p) (clamp0 flux_difference) in
  let intercept_differences := map (fun '(r, x) => (r - x) / (r + eps p)) (combine references (e_intercepts d)) in
  let intercept_term := mean (map (fun x => penalty (lambda_intercept m) (rho_intercept p) (clamp0 x)) intercept_differences) in
  let local_violation := map (fun x => (x - max_density p) / (max_density p + eps p)) (e_flux d) in
  let local_term := maximum (map (fun x => penalty (lambda_local m) (rho_local p) (clamp0 x)) local_violation) in
  ({| o_loss := e_flux_loss d + flux_term + intercept_term + local_term; o_flux_term := flux_term; o_intercept_term := intercept_term; o_local_term := local_term |},
   {| reference_flux := reference; reference_intercepts := references;
      lambda_flux := clamp0 (lambda_flux m + rho_flux p * flux_difference);
      lambda_intercept := clamp0 (lambda_intercept m + rho_intercept p * mean intercept_differences);
      lambda_local := clamp0 (lambda_local m + rho_local p * maximum local_violation) |}).
(** The epochs of [optimize], aim_point_optimizer.py:838-900: the data of an epoch may depend on everything before. *)
Fixpoint run_constraints (p : penalties) (epoch : nat) (history : list epoch_data) (m : multipliers) : list (epoch_terms * multipliers) :=
  match history with
  | [] => []
  | d :: history' => let o := compute_kl_constraints p epoch d m in o :: run_constraints p (S epoch) history' (snd o)
  end.

(** ** The flux integral constraint of the surface reconstruction *)
(** [_compute_flux_integral_constraint], surface_reconstructor.py:629-654: [integrals] are the flux integrals of the
    samples of this epoch, [references] those of the first epoch.  One multiplier per heliostat. *)
Definition violations (epsilon tolerance : R) (samples : nat) (integrals references : list R) : res (list R) :=
  reduce_loss_per_sample (map (fun '(s, r) => clamp0 (- tolerance - (s - r) / (r + epsilon))) (combine integrals references)) samples mean.
Definition integral_constraint (rho : R) (lambdas violation : list R) : list R :=
  map (fun '(l, v) => penalty l rho v) (combine lambdas violation).
(** surface_reconstructor.py:1024-1030. *)
Definition update_lambdas (rho : R) (lambdas violation : list R) : list R :=
  map (fun '(l, v) => clamp0 (l + rho * v)) (combine lambdas violation).
(** One epoch's data of a group with [n] trained heliostats: flux integrals of the samples, and flux, smoothness and ideal
    surface losses per heliostat. *)
Record surface_epoch := { s_integrals : list R; s_flux_losses : list R; s_smoothness : list R; s_ideal : list R }.
Record surface_config := { c_rho : R; c_tolerance : R; c_epsilon : R; c_samples : nat; c_weight_smoothness : R; c_weight_ideal : R }.
(** [_compute_regularization_terms], surface_reconstructor.py:709-747: a term with weight zero is not computed. *)
Definition regularization (weight epsilon : R) (flux_losses term : list R) : R * list R :=
  let term := if Rlt_dec 0 weight then term else map (fun _ => 0) flux_losses in
  (weight * mean flux_losses / (mean term + epsilon), term).
(** surface_reconstructor.py:953-1030: the total loss per heliostat and the new multipliers. *)
Definition surface_step (c : surface_config) (references lambdas : list R) (d : surface_epoch) : res (list R * list R * list R) :=
  bind (violations (c_epsilon c) (c_tolerance c) (c_samples c) (s_integrals d) references) (fun v =>
  let constraint := integral_constraint (c_rho c) lambdas v in
  let '(alpha, smoothness) := regularization (c_weight_smoothness c) (c_epsilon c) (s_flux_losses d) (s_smoothness d) in
  let '(beta, ideal) := regularization (c_weight_ideal c) (c_epsilon c) (s_flux_losses d) (s_ideal d) in
  Ok (map (fun '(((f, k), s), i) => f + k + alpha * s + beta * i) (combine (combine (combine (s_flux_losses d) constraint) smoothness) ideal),
      constraint, update_lambdas (c_rho c) lambdas v)).
Fixpoint run_surface (c : surface_config) (references lambdas : list R) (history : list surface_epoch) : res (list (list R * list R * list R)) :=
  match history with
  | [] => Ok []
  | d :: history' =>
    bind (surface_step c references lambdas d) (fun o =>
    bind (run_surface c references (snd o) history') (fun os => Ok (o :: os)))
  end.
(** The first epoch defines the references; the multiplier starts as the number 0 for all [n] heliostats,
    surface_reconstructor.py:922-925 and 977-981. *)
Definition train_surface (c : surface_config) (n : nat) (history : list surface_epoch) : res (list (list R * list R * list R)) :=
  match history with
  | [] => Ok []
  | d :: _ => run_surface c (s_integrals d) (repeat 0 n) history
  end.

(** ** Locked edges *)
(** Gradients of all control points: heliostat, facet, row, column, component. *)
Definition gradients := nat -> nat -> nat -> nat -> nat -> R.
(** [lock_control_points_on_outer_edges], surface_reconstructor.py:1192-1224. *)
Definition lock_edges (height width : nat) (g : gradients) : gradients := fun h f i j c =>
  let rows := i in let cols := j in
  let edge_mask := ((rows =? 0) || (rows =? height - 1) || (cols =? 0) || (cols =? width - 1))%nat in
  if (c <? 2)%nat then (if edge_mask then 0 else g h f i j c) else g h f i j c.
(** [torch.optim.Adam] with its default arguments for one entry (no weight decay, no amsgrad): first and second moment,
    number of steps, value.  [beta] is the first of the [betas], 0.9 unless [CyclicLR] changes it. *)
Record adam := { a_m : R; a_v : R; a_step : nat; a_value : R }.
Definition adam_step (lr beta : R) (s : adam) (g : R) : adam :=
  let m := beta * a_m s + (1 - beta) * g in
  let v := 999 / 1000 * a_v s + (1 - 999 / 1000) * g ^ 2 in
  let t := S (a_step s) in
  let m_hat := m / (1 - beta ^ t) in
  let v_hat := v / (1 - (999 / 1000) ^ t) in
  {| a_m := m; a_v := v; a_step := t; a_value := a_value s - lr * (m_hat / (sqrt v_hat + / 10 ^ 8)) |}.
Definition fresh (value : R) : adam := {| a_m := 0; a_v := 0; a_step := 0; a_value := value |}.
(** The control points after a history of epochs: every epoch has a learning rate and a momentum (set by the scheduler) and the
    gradients of all ranks of the subgroup, which are summed, divided and then locked, surface_reconstructor.py:769-788. *)
Definition averaged (members : list gradients) : gradients := fun h f i j c => Rsum (map (fun g => g h f i j c) members) / INR (length members).
Definition train_control_points (height width : nat) (control_points : gradients) (history : list (R * R * list gradients)) (h f i j c : nat) : R :=
  a_value (fold_left (fun s '(lr, beta, members) => adam_step lr beta s (lock_edges height width (averaged members) h f i j c)) history (fresh (control_points h f i j c))).
