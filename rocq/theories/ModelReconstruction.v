(** Model of the bookkeeping of [artist/optim/kinematics_reconstructor.py] and [artist/optim/surface_reconstructor.py]:
    which loss is reported for which heliostat, and which parameters the ranks hold afterwards. *)
From Coq Require Import List Arith Reals Bool.
From Verif Require Import RealSums ModelField ModelDistributed ModelLBVH ModelLosses ModelOptimization.
Import ListNotations.

(** [None] is [torch.inf]. *)
Definition loss_value := option R.
(** [torch.distributed.ReduceOp.MIN]. *)
Definition min_loss (a b : loss_value) : loss_value :=
  match a, b with Some x, Some y => Some (Rmin x y) | Some x, None => Some x | None, b => b end.

(** [tensor[::step]] of a one-dimensional tensor. *)
Definition every {A} (step : nat) (l : list A) : res (list A) :=
  if step =? 0 then Err ValueError else select_rows l (arange_step (length l) step).
(** [torch.nonzero(mask != 0)]. *)
Definition active_indices (mask : list nat) : list nat := filter (fun i => negb (nth i mask 0 =? 0)) (seq 0 (length mask)).
(** The rows of a group with this mask: heliostat and number of the sample, in the order produced by [repeat_interleave]
    (heliostat_group.py:245-275) and by the calibration parser (C60). *)
Definition sample_rows (mask : list nat) : list (nat * nat) :=
  flat_map (fun i => map (fun k => (i, k)) (seq 0 (nth i mask 0))) (seq 0 (length mask)).

(** An elementwise loss over the leading dimension with the broadcasting of torch: dimensions must be equal or one. *)
Definition broadcast_loss {A B} (loss : A -> B -> R) (prediction : list A) (truth : list B) : res (list R) :=
  if length prediction =? length truth then Ok (map (fun '(x, y) => loss x y) (combine prediction truth))
  else match prediction, truth with
       | [x], _ => Ok (map (loss x) truth)
       | _, [y] => Ok (map (fun x => loss x y) prediction)
       | _, _ => Err RuntimeError
       end.

Section Reconstruction.
Context {P M : Type}.
(** Activation masks of all groups as returned by the calibration parser, [int(n * test_fraction)], the loss of a sample
    and the reduction over the samples of a heliostat. *)
Variable masks : list (list nat).
Variable test_of_count : nat -> nat.
Variable loss_definition : P -> M -> R.
Variable reduction : list R -> R.
(** [prediction g i k]: what the last epoch predicts for training sample [k] of heliostat [i] of group [g];
    [garbage]: uninitialised memory; [measured]: the measurements. *)
Variables prediction garbage : nat -> nat -> nat -> P.
Variable measured : nat -> nat -> nat -> M.

(** [_initialize_reconstruction_bookkeeping], kinematics_reconstructor.py:297-330, surface_reconstructor.py:305-341. *)
Definition group_sizes : list nat := map (@length nat) masks.
Definition initial_losses : list loss_value := repeat None (list_sum group_sizes).
Definition group_mask (g : nat) : list nat := nth g masks [].
Definition measured_rows (g : nat) : list M := map (fun '(i, k) => measured g i k) (sample_rows (group_mask g)).

(** Last epoch of one group and storing of its losses: kinematics_reconstructor.py:535-622 and 1031-1050,
    surface_reconstructor.py:476-591, 974-990 and 1129-1146.  The surface reconstructor adds constraint and regularization
    terms per heliostat (C63) to the flux loss before storing it; they are not part of this model. *)
Definition reconstruct_group (members rank_in_group : nat) (final : list loss_value) (g : nat) : res (list loss_value) :=
  let mask := group_mask g in
  if list_sum mask =? 0 then Ok final
  else
    bind (train_test_split mask test_of_count) (fun split =>
    let train := sr_number_of_train split in
    let samples := sample_rows (sr_mask_train split) in
    let sampler := tracer_sampler_indices (sr_mask_train split) members rank_in_group in
    let rows := map (fun '(s, (i, k)) => if existsb (Nat.eqb s) sampler then prediction g i k else garbage g i k) (combine (seq 0 (length samples)) samples) in
    bind (select_rows (measured_rows g) (sr_train_indices split)) (fun measured_train =>
    bind (select_rows measured_train sampler) (fun truth =>
    bind (broadcast_loss loss_definition rows truth) (fun loss_per_sample =>
    bind (reduce_loss_per_sample loss_per_sample train reduction) (fun loss_per_heliostat =>
    bind (every train sampler) (fun first_samples =>
    bind (select_rows (active_indices mask) (map (fun s => s / train) first_samples)) (fun heliostats =>
    scatter final (map (fun i => i + group_offset group_sizes g) heliostats) (map Some loss_per_heliostat)))))))).
(** The groups of one rank, kinematics_reconstructor.py:924-1052, surface_reconstructor.py:884-1148. *)
Fixpoint reconstruct_groups (members rank_in_group : nat) (final : list loss_value) (groups : list nat) : res (list loss_value) :=
  match groups with
  | [] => Ok final
  | g :: groups' => bind (reconstruct_group members rank_in_group final g) (fun final' => reconstruct_groups members rank_in_group final' groups')
  end.
Definition reconstruct_rank (world rank : nat) : res (list loss_value) :=
  let subgroup := setup_rank world (length masks) rank in
  reconstruct_groups (sg_world subgroup) (sg_rank subgroup) initial_losses (groups_of_rank world (length masks) rank).
(** With the MIN reduction over all ranks, kinematics_reconstructor.py:687-690, surface_reconstructor.py:823-826; every
    rank receives the same result.  A rank that fails never takes part in the reduction. *)
Definition min_losses (a b : list loss_value) : list loss_value := map (fun '(x, y) => min_loss x y) (combine a b).
Definition reconstruct (world : nat) : res (list loss_value) :=
  bind (map_res (reconstruct_rank world) (seq 0 world)) (fun all => Ok (fold_right min_losses initial_losses all)).

(** [_compute_alignment_loss] and [_reconstruct_kinematics_alignment_driven], kinematics_reconstructor.py:472-533 and 707-884: every rank predicts all samples
    of its groups, there is no reduction over ranks. *)
Definition align_group (final : list loss_value) (g : nat) : res (list loss_value) :=
  let mask := group_mask g in
  if list_sum mask =? 0 then Ok final
  else
    bind (train_test_split mask test_of_count) (fun split =>
    let rows := map (fun '(i, k) => prediction g i k) (sample_rows (sr_mask_train split)) in
    bind (select_rows (measured_rows g) (sr_train_indices split)) (fun measured_train =>
    bind (broadcast_loss loss_definition rows measured_train) (fun loss_per_sample =>
    bind (reduce_loss_per_sample loss_per_sample (sr_number_of_train split) reduction) (fun loss_per_heliostat =>
    scatter final (map (fun i => i + group_offset group_sizes g) (active_indices mask)) (map Some loss_per_heliostat))))).
Fixpoint align_groups (final : list loss_value) (groups : list nat) : res (list loss_value) :=
  match groups with
  | [] => Ok final
  | g :: groups' => bind (align_group final g) (fun final' => align_groups final' groups')
  end.
Definition reconstruct_alignment (world rank : nat) : res (list loss_value) :=
  align_groups initial_losses (groups_of_rank world (length masks) rank).
End Reconstruction.

(** ** Parameters after a distributed run *)
(** Lookup in the dictionary from groups to ranks; [None] is a KeyError. *)
Definition ranks_training_group (world groups g : nat) : option (list nat) :=
  match find (fun e => fst e =? g) (ranks_to_groups (fst (distribute_groups_among_ranks world groups))) with
  | Some e => Some (snd e)
  | None => None
  end.
(** [local r g]: parameters of group [g] on rank [r] after the loops; every rank only trains its own groups. *)
Definition local_parameters {A} (world groups : nat) (initial : nat -> A) (trained : nat -> nat -> A) (rank g : nat) : A :=
  if existsb (Nat.eqb g) (groups_of_rank world groups rank) then trained rank g else initial g.
(** [torch.distributed.broadcast] from the first rank of every group, kinematics_reconstructor.py:673-686,
    surface_reconstructor.py:812-822. *)
Definition broadcast_parameters {A} (world groups : nat) (local : nat -> nat -> A) (rank g : nat) : res A :=
  if world =? 1 then Ok (local rank g)
  else match ranks_training_group world groups g with
       | Some (source :: _) => Ok (local source g)
       | _ => Err KeyError
       end.
