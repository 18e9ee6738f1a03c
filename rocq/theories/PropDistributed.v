(** C01-C05: distribution of samples and heliostat groups over processes. *)
From Coq Require Import List Arith Bool Lia Permutation Sorted.
From Verif Require Import ModelDistributed SpecDistributed ProofsDistributed.
Import ListNotations.

(** C01. With [per] samples for each of [active] heliostats, the ranks' samples are a partition of
    all sample indices; in particular two ranks never share a sample. *)
Theorem C01_sampler_exact_partition : forall active per world,
  1 <= active -> 1 <= world ->
  exact_partition (sampler_indices (active * per) active world) world (active * per)
  /\ (forall r1 r2 i, r1 < world -> r2 < world ->
        In i (sampler_indices (active * per) active world r1) ->
        In i (sampler_indices (active * per) active world r2) -> r1 = r2).
Proof.
  exact (fun a p w Ha Hw => conj (sampler_partition a p w Ha Hw)
    (fun r1 r2 i H1 H2 => sampler_disjoint a p w r1 r2 i Ha H1 H2)).
Qed.
Print Assumptions C01_sampler_exact_partition.

(** The same through the activation mask the ray tracer is given: every active heliostat has the same
    number of samples. *)
Theorem C01_tracer_exact_partition : forall per mask world,
  1 <= world -> (exists m, In m mask /\ 0 < m) ->
  (forall m, In m mask -> m = 0 \/ m = per) ->
  exact_partition (tracer_sampler_indices mask world) world (list_sum mask).
Proof. exact tracer_exact_partition. Qed.
Print Assumptions C01_tracer_exact_partition.

Example C01_case : 
  tracer_sampler_indices [2; 0; 2; 2] 2 0 = [0; 1; 4; 5] /\
  tracer_sampler_indices [2; 0; 2; 2] 2 1 = [2; 3] /\
  exact_partition (tracer_sampler_indices [2; 0; 2; 2] 2) 2 6.
Proof.
  split; [reflexivity|]. split; [reflexivity|].
  apply (C01_tracer_exact_partition 2 [2; 0; 2; 2] 2); [lia| |].
  - exists 2. simpl. auto.
  - simpl. intuition.
Qed.

(** C02. Samples of one heliostat [h] are [h*per .. h*per+per-1]; they are all on one rank, each rank's
    list is increasing, the load of working ranks differs by at most one heliostat and ranks beyond the
    number of active heliostats are idle. *)
Theorem C02_heliostat_locality_and_balance : forall active per world,
  1 <= world ->
  (forall h, h < active -> exists rank, rank < world /\
      forall k, k < per -> In (h * per + k) (sampler_indices (active * per) active world rank))
  /\ (forall rank, StronglySorted lt (sampler_indices (active * per) active world rank))
  /\ (forall r1 r2, r1 < Nat.min active world -> r2 < Nat.min active world ->
        length (sampler_indices (active * per) active world r1)
        <= length (sampler_indices (active * per) active world r2) + per)
  /\ (forall rank, Nat.min active world <= rank ->
        sampler_indices (active * per) active world rank = []).
Proof. exact sampler_locality_and_balance. Qed.
Print Assumptions C02_heliostat_locality_and_balance.

Example C02_case :
  map (sampler_indices (5 * 2) 5 3) [0; 1; 2; 3] = [[0; 1; 6; 7]; [2; 3; 8; 9]; [4; 5]; []].
Proof. reflexivity. Qed.

(** C03 (full statement): for every mask the samples of all ranks are an exact partition of all
    activated samples.  Refuted: masks [1;2] on one rank lose a sample. *)
Theorem C03_uneven_masks_refuted :
  ~ (forall mask world, 1 <= world -> (exists m, In m mask /\ 0 < m) ->
       exact_partition (tracer_sampler_indices mask world) world (list_sum mask)).
Proof. exact uneven_masks_refuted. Qed.
Print Assumptions C03_uneven_masks_refuted.

(** What holds for every mask: exactly the last [sum mod active] samples are lost, so that the trace is
    complete if and only if the number of active heliostats divides the number of samples. *)
Theorem C03_uneven_masks_partial : forall mask world,
  1 <= world -> (exists m, In m mask /\ 0 < m) ->
  let active := length (filter (fun m => 0 <? m) mask) in
  exact_partition (tracer_sampler_indices mask world) world
                  (list_sum mask - list_sum mask mod active)
  /\ (exact_partition (tracer_sampler_indices mask world) world (list_sum mask)
      <-> list_sum mask mod active = 0).
Proof. exact uneven_masks_partial. Qed.
Print Assumptions C03_uneven_masks_partial.

Example C03_case :
  concat (map (tracer_sampler_indices [1; 0; 4] 3) [0; 1; 2]) = [0; 1; 2; 3] /\
  list_sum [1; 0; 4] = 5.
Proof. split; reflexivity. Qed.

(** C04. *)
Theorem C04_groups_distribution : forall world groups,
  1 <= world -> 1 <= groups ->
  let work := groups_of_rank world groups in
  length (fst (distribute_groups_among_ranks world groups)) = world
  /\ (snd (distribute_groups_among_ranks world groups) = true <-> groups < world)
  /\ (forall g, g < groups -> exists rank, rank < world /\ In g (work rank))
  /\ (forall rank g, rank < world -> In g (work rank) -> g < groups)
  /\ (world <= groups ->
        exact_partition work world groups
        /\ forall r1 r2, r1 < world -> r2 < world -> length (work r1) <= length (work r2) + 1)
  /\ (groups < world ->
        (forall rank, rank < world -> exists g, g < groups /\ work rank = [g])
        /\ forall g1 g2, g1 < groups -> g2 < groups ->
             length (ranks_processing work world g1) <= length (ranks_processing work world g2) + 1).
Proof. exact groups_distribution. Qed.
Print Assumptions C04_groups_distribution.

Example C04_case :
  fst (distribute_groups_among_ranks 2 5) = [[0; 2; 4]; [1; 3]] /\
  fst (distribute_groups_among_ranks 5 2) = [[0]; [1]; [0]; [1]; [0]].
Proof. split; reflexivity. Qed.

(** C05. *)
Theorem C05_nested_subgroups_consistent : forall world groups rank,
  1 <= groups < world -> rank < world ->
  exists members,
    sg_members (setup_rank world groups rank) = Some members
    /\ NoDup members
    /\ nth_error members (sg_rank (setup_rank world groups rank)) = Some rank
    /\ sg_world (setup_rank world groups rank) = length members
    /\ (forall r, In r members <->
          r < world /\ groups_of_rank world groups r = groups_of_rank world groups rank)
    /\ (forall r, In r members -> sg_members (setup_rank world groups r) = Some members).
Proof. exact setup_rank_consistent. Qed.
Print Assumptions C05_nested_subgroups_consistent.

(** The ranks within the subgroup are exactly [0..size-1]: every number below the size is taken. *)
Theorem C05_nested_ranks_complete : forall world groups rank i,
  1 <= groups < world -> rank < world -> i < sg_world (setup_rank world groups rank) ->
  exists r, r < world
    /\ sg_members (setup_rank world groups r) = sg_members (setup_rank world groups rank)
    /\ sg_rank (setup_rank world groups r) = i.
Proof. exact setup_rank_local_ranks. Qed.
Print Assumptions C05_nested_ranks_complete.

(** Composition of C04 and C05 with C01: in a nested run, every sample of a group is traced by exactly
    one of the ranks working on that group. *)
Theorem C05_nested_run_traces_everything_once : forall world groups g active per,
  1 <= groups < world -> g < groups -> 1 <= active ->
  Permutation
    (concat (map (fun rank => sampler_indices (active * per) active
                                (sg_world (setup_rank world groups rank))
                                (sg_rank (setup_rank world groups rank)))
                 (ranks_processing (groups_of_rank world groups) world g)))
    (seq 0 (active * per)).
Proof. exact nested_run_traces_everything_once. Qed.
Print Assumptions C05_nested_run_traces_everything_once.

Example C05_case :
  setup_rank 5 2 4 = {| sg_rank := 2; sg_world := 3; sg_members := Some [0; 2; 4] |} /\
  setup_rank 5 2 3 = {| sg_rank := 1; sg_world := 2; sg_members := Some [1; 3] |}.
Proof. split; reflexivity. Qed.
