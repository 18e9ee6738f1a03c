(** Model of the work distribution code: [artist/raytracing/sampling.py] and [artist/util/env.py]. *)
From Coq Require Import List Arith Bool.
Import ListNotations.

(** [RestrictedDistributedSampler.__init__], artist/raytracing/sampling.py:108-147; the result is
    [self.rank_indices], which [__iter__] (149-158) yields in order.  Python ints are modelled by
    [nat] (all four arguments are non-negative in every caller). *)
Definition sampler_indices (number_of_samples number_of_active_heliostats world_size rank : nat)
  : list nat :=
  let number_of_active_ranks := Nat.min number_of_active_heliostats world_size in
  if rank <? number_of_active_ranks then
    let per_heliostat := number_of_samples / number_of_active_heliostats in
    flat_map (fun index =>
                if index mod number_of_active_ranks =? rank
                then seq (index * per_heliostat) per_heliostat
                else [])
             (seq 0 number_of_active_heliostats)
  else [].

(** The arguments the ray tracer passes to its sampler,
    artist/raytracing/heliostat_ray_tracer.py:142-152:
    [number_of_samples = sum(mask)], [number_of_active_heliostats = (mask > 0).sum()]. *)
Definition mask_samples (mask : list nat) : nat := list_sum mask.
Definition mask_active (mask : list nat) : nat :=
  length (filter (fun m => 0 <? m) mask).
Definition tracer_sampler_indices (mask : list nat) (world_size rank : nat) : list nat :=
  sampler_indices (mask_samples mask) (mask_active mask) world_size rank.

(** [itertools.islice(itertools.cycle(all), n)] as used at artist/util/env.py:258-259; [rest] is the
    part of the current cycle that has not been yielded yet. *)
Fixpoint islice_cycle {A} (all rest : list A) (n : nat) : list A :=
  match n with
  | 0 => []
  | S n' =>
    match rest with
    | x :: r => x :: islice_cycle all r n'
    | [] => match all with
            | [] => []
            | x :: r => x :: islice_cycle all r n'
            end
    end
  end.

(** [lists[position].append(value)] on the values of the rank dictionary, artist/util/env.py:263. *)
Fixpoint append_at {A} (lists : list (list A)) (position : nat) (value : A) : list (list A) :=
  match lists, position with
  | [], _ => []
  | l :: ls, 0 => (l ++ [value]) :: ls
  | l :: ls, S p => l :: append_at ls p value
  end.

(** The dealing loop, artist/util/env.py:261-263; [position] is the state of the cycling iterator. *)
Fixpoint deal (lists : list (list nat)) (position : nat) (groups : list nat) : list (list nat) :=
  match groups with
  | [] => lists
  | g :: gs =>
    deal (append_at lists position g)
         (if S position =? length lists then 0 else S position) gs
  end.

(** [distribute_groups_among_ranks], artist/util/env.py:231-266.  The dictionary with keys
    [0..world_size-1] is the list of its values. *)
Definition distribute_groups_among_ranks (world_size number_of_heliostat_groups : nat)
  : list (list nat) * bool :=
  let groups := seq 0 number_of_heliostat_groups in
  let is_nested := number_of_heliostat_groups <? world_size in
  let groups := if is_nested then islice_cycle groups groups world_size else groups in
  (deal (repeat [] world_size) 0 groups, is_nested).

(** Insertion-ordered [defaultdict(list)], [d[key].append(value)], artist/util/env.py:119-122. *)
Fixpoint dict_append (d : list (nat * list nat)) (key value : nat) : list (nat * list nat) :=
  match d with
  | [] => [(key, [value])]
  | (k, vs) :: d' =>
    if k =? key then (k, vs ++ [value]) :: d' else (k, vs) :: dict_append d' key value
  end.

(** Inversion of the rank dictionary, artist/util/env.py:119-122 (and 199-202). *)
Definition ranks_to_groups (mapping : list (list nat)) : list (nat * list nat) :=
  fold_left (fun d '(rank, groups) => fold_left (fun d g => dict_append d g rank) groups d)
            (combine (seq 0 (length mapping)) mapping) [].

(** [list.index], first position of a value. *)
Fixpoint index_of (x : nat) (l : list nat) : option nat :=
  match l with
  | [] => None
  | y :: l' => if y =? x then Some 0 else option_map S (index_of x l')
  end.

Record subgroup := { sg_rank : nat; sg_world : nat; sg_members : option (list nat) }.

(** [create_subgroups_for_nested_ddp], artist/util/env.py:96-154.  The process subgroup handle is
    represented by the list of member ranks it was created with; the default values are 127-129. *)
Definition create_subgroups (rank : nat) (mapping : list (list nat)) : subgroup :=
  fold_left (fun acc '(_, ranks) =>
               match index_of rank ranks with
               | Some i => {| sg_rank := i; sg_world := length ranks; sg_members := Some ranks |}
               | None => acc
               end)
            (ranks_to_groups mapping)
            {| sg_rank := 0; sg_world := 1; sg_members := None |}.

(** [setup_distributed_environment], artist/util/env.py:183-202: the per-rank view of a run. *)
Definition setup_rank (world_size number_of_heliostat_groups rank : nat) : subgroup :=
  let '(mapping, is_nested) := distribute_groups_among_ranks world_size number_of_heliostat_groups in
  if is_nested then create_subgroups rank mapping
  else {| sg_rank := 0; sg_world := 1; sg_members := None |}.

(** Groups processed by a rank: [ddp_setup["groups_to_ranks_mapping"][rank]], used by every
    optimizer loop (e.g. artist/optim/surface_reconstructor.py:884). *)
Definition groups_of_rank (world_size number_of_heliostat_groups rank : nat) : list nat :=
  nth rank (fst (distribute_groups_among_ranks world_size number_of_heliostat_groups)) [].
