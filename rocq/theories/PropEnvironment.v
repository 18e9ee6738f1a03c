(** C118: processes of a distributed run share the work and the devices. *)
From Coq Require Import List Arith Bool Lia Permutation.
From Verif Require Import ModelField ModelDistributed ModelEnvironment SpecDistributed SpecEnvironment ProofsEnvironment.
Import ListNotations.

(** C118 (full statement: however a run is started, each heliostat group is worked on by one process if there are no more processes
    than groups, and processes on the same node use different GPUs as long as there are enough).  Processes that found each other
    share the groups without overlap or omission; ... *)
Theorem C118_work_partial : forall (processes : nat -> environment) requested world groups, 1 <= world <= groups ->
  (forall r, r < world -> joined (processes r) r world /\ 1 <= device_count (processes r)) ->
  exists work, (forall r, r < world -> groups_of_process (processes r) requested groups = Ok (work r)) /\ exact_partition work world groups.
Proof. exact joined_work. Qed.
Print Assumptions C118_work_partial.

(** ... processes that want CUDA get the device of their rank, and these are different on a node whose ranks are consecutive. *)
Theorem C118_devices_partial : forall per_node node count, per_node <= count ->
  NoDup (map (fun rank => rank mod count) (block_ranks per_node node))
  /\ forall e requested rank world, In rank (block_ranks per_node node) -> joined e rank world -> device_count e = count ->
     wants_cuda e requested -> initialize_ddp_environment e requested = Ok (Cuda (Some (rank mod count)), true, rank, world).
Proof.
  intros per_node node count L. split; [exact (block_devices per_node node count L)|]. intros e requested rank world I J C D. apply wanted_device in D. subst count.
  apply joined_cuda; auto. unfold block_ranks in I. apply in_map_iff in I. destruct I as (i & _ & I). apply in_seq in I. lia.
Qed.
Print Assumptions C118_devices_partial.

(** A process whose rendezvous fails carries on alone without an error: each of them works on all groups, as rank zero. *)
Theorem C118_isolated_refuted : forall e requested groups, isolated e -> 1 <= groups ->
  groups_of_process e requested groups = Ok (seq 0 groups)
  /\ exists d, initialize_ddp_environment e requested = Ok (d, false, 0, 1).
Proof.
  intros e requested groups I G. split; [exact (isolated_work e requested groups I G)|]. destruct (isolated_start e requested I) as (d & H & _). eauto.
Qed.
Print Assumptions C118_isolated_refuted.

(** If ranks are dealt to the nodes in turn and the number of nodes is a multiple of the number of GPUs, all processes of a node use
    the same GPU, even if a GPU was requested by its index. *)
Theorem C118_devices_refuted : forall k per_node node count e requested rank world, 1 <= count ->
  In rank (cyclic_ranks (k * count) per_node node) -> joined e rank world -> device_count e = count ->
  wants_cuda e requested -> initialize_ddp_environment e requested = Ok (Cuda (Some (node mod count)), true, rank, world).
Proof.
  intros k per_node node count e requested rank world C I J D G. apply wanted_device in G. rewrite <- (cyclic_devices k per_node node count C rank I). subst count.
  apply joined_cuda; auto.
Qed.
Print Assumptions C118_devices_refuted.

Example C118_case : let e r := {| system := Linux; cuda_available := true; device_count := 4; init_process_group := fun _ => Some (r, 8) |} in
  (forall r, r < 8 -> joined (e r) r 8 /\ 1 <= device_count (e r))
  /\ block_ranks 4 1 = [4; 5; 6; 7] /\ map (fun r => initialize_ddp_environment (e r) None) [5; 6] = [Ok (Cuda (Some 1), true, 5, 8); Ok (Cuda (Some 2), true, 6, 8)]
  /\ groups_of_process (e 5) None 14 = Ok [5; 13]
  /\ cyclic_ranks (1 * 4) 2 1 = [1; 5] /\ initialize_ddp_environment (e 1) (Some (Cuda (Some 3))) = Ok (Cuda (Some 1), true, 1, 8)
  /\ isolated {| system := Linux; cuda_available := false; device_count := 0; init_process_group := fun _ => None |}.
Proof. cbv zeta. repeat split; cbn; auto; lia. Qed.
