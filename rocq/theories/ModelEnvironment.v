(** Model of the start of a process: [get_device], [initialize_ddp_environment] and the use of both by
    [setup_distributed_environment] of [artist/util/env.py]. *)
From Coq Require Import List Arith Bool.
From Verif Require Import ModelField ModelDistributed.
Import ListNotations.

(** [torch.device]: the type and, for CUDA, the optional index. *)
Inductive device := Cpu | Cuda (index : option nat) | Mps.
Inductive os := Linux | Windows | Darwin | OtherOs.
Inductive backend := Nccl | Gloo.

(** What a process finds when it starts: operating system, whether CUDA is available and how many devices the process sees, and the
    outcome of [init_process_group] with either backend: [Some (rank, world_size)] or an exception. *)
Record environment := { system : os; cuda_available : bool; device_count : nat; init_process_group : backend -> option (nat * nat) }.

(** [get_device], env.py:266-312. *)
Definition get_device (e : environment) (requested : option device) : device :=
  match requested with
  | Some d => d
  | None => match system e with
            | Linux | Windows => if cuda_available e then Cuda None else Cpu
            | Darwin | OtherOs => Cpu
            end
  end.

(** [initialize_ddp_environment], env.py:33-93: device, [is_distributed], rank and world size.  Every exception of the
    initialization is caught (79-80).  [rank % device_count] raises without devices (85). *)
Definition initialize_ddp_environment (e : environment) (requested : option device) : res (device * bool * nat * nat) :=
  let d := get_device e requested in
  let backend := match d with Cuda _ => Nccl | _ => Gloo end in
  let '(is_distributed, rank, world_size) :=
    match init_process_group e backend with
    | Some (rank, world_size) => (true, rank, world_size)
    | None => (false, 0, 1)
    end in
  match d with
  | Cuda _ => if is_distributed
              then if device_count e =? 0 then Err ZeroDivisionError
                   else Ok (Cuda (Some (rank mod device_count e)), is_distributed, rank, world_size)
              else Ok (d, is_distributed, rank, world_size)
  | _ => Ok (d, is_distributed, rank, world_size)
  end.

(** The groups a process works on: [setup_distributed_environment], env.py:183-187, and the loops over
    [ddp_setup["groups_to_ranks_mapping"][rank]] (e.g. surface_reconstructor.py:884). *)
Definition groups_of_process (e : environment) (requested : option device) (number_of_heliostat_groups : nat) : res (list nat) :=
  bind (initialize_ddp_environment e requested) (fun '(_, _, rank, world_size) => Ok (groups_of_rank world_size number_of_heliostat_groups rank)).
