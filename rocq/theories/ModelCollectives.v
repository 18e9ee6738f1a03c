(** Model of the communication between the ranks of a distributed aim point optimization, [artist/optim/aim_point_optimizer.py]. *)
From Coq Require Import List Arith Reals Bool.
From Verif Require Import RealSums ModelField ModelDistributed ModelLBVH.
Import ListNotations.
Local Open Scope nat_scope.

(** The parameters of a rank that have a gradient after [loss.backward()], in the order of [optimizer.param_groups].  The optimizer
    holds one parameter per heliostat group (aim_point_optimizer.py:231-235 and 269-272), but a rank only uses the parameters of
    its own groups (369-389): [zero_grad] has reset all gradients to None, and the gradient of every other group stays None.
    [gradient r g] is the flattened gradient of group [g] on rank [r]. *)
Definition own_gradients (world groups : nat) (gradient : nat -> nat -> list R) (rank : nat) : list (nat * list R) :=
  map (fun g => (g, gradient rank g)) (filter (fun g => existsb (Nat.eqb g) (groups_of_rank world groups rank)) (seq 0 groups)).

(** [torch.distributed.all_reduce] with SUM over all ranks: the tensors must have the same number of entries. *)
Definition sum_tensors (tensors : list (list R)) : res (list R) :=
  match tensors with
  | [] => Err RuntimeError
  | t :: _ => if forallb (fun u => length u =? length t) tensors then Ok (map (fun j => Rsum (map (fun u => nth j u 0%R) tensors)) (seq 0 (length t)))
              else Err RuntimeError
  end.

(** [_synchronize_distributed_gradients], aim_point_optimizer.py:681-702.  The collective operations of the ranks are matched in the
    order in which they are issued: the k-th call of a rank is combined with the k-th call of every other rank.  If a rank issues
    fewer calls than another one, the run does not go on (it waits, or is matched with another kind of tensor), which is an error
    here.  The result is the list of gradients of rank [rank]. *)
Definition synchronize_gradients (world groups : nat) (gradient : nat -> nat -> list R) (rank : nat) : res (list (nat * list R)) :=
  if world =? 1 then Ok (own_gradients world groups gradient rank)
  else
    let calls := map (own_gradients world groups gradient) (seq 0 world) in
    let own := own_gradients world groups gradient rank in
    if forallb (fun c => length c =? length own) calls
    then map_res (fun '(k, (g, _)) =>
           bind (sum_tensors (map (fun c => snd (nth k c (0, []))) calls)) (fun total => Ok (g, map (fun x => (x / INR world)%R) total)))
           (combine (seq 0 (length own)) own)
    else Err RuntimeError.

(** Mirrors used for blocking on a rank during an epoch: every group was aligned once with the initial motor positions
    (aim_point_optimizer.py:200-215, all groups on all ranks), and the groups of the rank are aligned again in every epoch
    (369-403).  The ray tracer takes the surfaces of all groups of the scenario (heliostat_ray_tracer.py:160-181). *)
Definition blocking_mirrors {A} (world groups rank : nat) (initial current : nat -> list A) : list A :=
  flat_map (fun g => if existsb (Nat.eqb g) (groups_of_rank world groups rank) then current g else initial g) (seq 0 groups).

(** [_broadcast_motor_positions], aim_point_optimizer.py:704-722, is [broadcast_parameters] of ModelReconstruction. *)
