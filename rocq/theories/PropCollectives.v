(** C105, C106: distributed aim point optimizations. *)
From Coq Require Import List Arith Reals Bool Lia Lra.
From Verif Require Import RealSums ModelField ModelDistributed ModelCollectives SpecCollectives ProofsCollectives.
Import ListNotations.
Local Open Scope nat_scope.

(** C105 (full statement: for every number of ranks and groups, the gradient with which the motor positions of a group are changed
    after the synchronization depends on gradients of this group only).  With at least two ranks and a multiple of groups, it
    depends on the gradients of other groups: the ranks add the gradients of their k-th groups, which are different groups. *)
Theorem C105_own_gradients_refuted : forall world m rank k, 2 <= world -> rank < world -> k < m ->
  exists (gradient gradient' : nat -> nat -> list R) t t' l l',
  (forall r g, length (gradient r g) = 1 /\ length (gradient' r g) = 1)
  /\ (forall r, gradient r (k * world + rank) = gradient' r (k * world + rank))
  /\ synchronize_gradients world (m * world) gradient rank = Ok l /\ In (k * world + rank, t) l
  /\ synchronize_gradients world (m * world) gradient' rank = Ok l' /\ In (k * world + rank, t') l' /\ t <> t'.
Proof. exact mixed_gradients. Qed.
Print Assumptions C105_own_gradients_refuted.

(** What the ranks get instead. *)
Theorem C105_mixed_partial : forall world m gradient size rank, 2 <= world -> 1 <= m -> rank < world ->
  (forall r k, r < world -> k < m -> length (gradient r (k * world + r)) = size k) ->
  synchronize_gradients world (m * world) gradient rank
  = Ok (map (fun k => (k * world + rank, mean_tensor world (size k) (fun r => gradient r (k * world + r)))) (seq 0 m)).
Proof. exact synchronized_divided. Qed.
Print Assumptions C105_mixed_partial.
Theorem C105_nested_partial : forall world groups gradient size rank, 1 <= groups < world -> rank < world ->
  (forall r, r < world -> length (gradient r (r mod groups)) = size) ->
  synchronize_gradients world groups gradient rank = Ok [(rank mod groups, mean_tensor world size (fun r => gradient r (r mod groups)))].
Proof. exact synchronized_nested. Qed.
Print Assumptions C105_nested_partial.

(** Groups with different numbers of heliostats in the same place of two ranks, or ranks with different numbers of groups, make the
    synchronization fail. *)
Theorem C105_sizes_refuted : forall world m gradient rank, 2 <= world -> 1 <= m -> rank < world ->
  (exists k r1 r2, k < m /\ r1 < world /\ r2 < world /\ length (gradient r1 (k * world + r1)) <> length (gradient r2 (k * world + r2))) ->
  exists e, synchronize_gradients world (m * world) gradient rank = Err e.
Proof. exact synchronized_sizes. Qed.
Print Assumptions C105_sizes_refuted.
Theorem C105_uneven_refuted : forall world groups gradient rank, 2 <= world <= groups -> rank < world -> groups mod world <> 0 ->
  synchronize_gradients world groups gradient rank = Err RuntimeError.
Proof. exact synchronized_uneven. Qed.
Print Assumptions C105_uneven_refuted.

(** The statement holds for a single group, and for a single rank. *)
Theorem C105_one_group_partial : forall world gradient size rank, 1 <= world -> rank < world -> (forall r, r < world -> length (gradient r 0) = size) ->
  synchronize_gradients world 1 gradient rank = Ok [(0, mean_tensor world size (fun r => gradient r 0))].
Proof. exact synchronized_one_group. Qed.
Print Assumptions C105_one_group_partial.
Theorem C105_one_rank_partial : forall groups gradient, 1 <= groups ->
  synchronize_gradients 1 groups gradient 0 = Ok (map (fun g => (g, gradient 0 g)) (seq 0 groups)).
Proof. exact synchronized_one_rank. Qed.
Print Assumptions C105_one_rank_partial.

(** Two ranks and two groups of one heliostat with one actuator each: group 0 is moved with the mean of the gradients 4 and 8. *)
Example C105_case : synchronize_gradients 2 2 (fun _ g => [if g =? 0 then 4%R else 8%R]) 0 = Ok [(0, [6%R])]
  /\ synchronize_gradients 2 3 (fun _ g => [if g =? 0 then 4%R else 8%R]) 0 = Err RuntimeError.
Proof.
  split.
  - pose proof (C105_mixed_partial 2 1 (fun _ g => [if g =? 0 then 4%R else 8%R]) (fun _ => 1) 0 ltac:(lia) ltac:(lia) ltac:(lia) ltac:(auto)) as Q.
    change (1 * 2) with 2 in Q. rewrite Q. unfold mean_tensor. cbn. do 4 f_equal. field.
  - apply C105_uneven_refuted; [lia|lia|discriminate].
Qed.

(** C106 (full statement: on every rank, the mirrors that may block rays are those of all heliostats as they are aligned in the
    current epoch).  It holds for a single rank. *)
Theorem C106_one_rank_partial : forall (A : Type) groups (initial current : nat -> list A), 1 <= groups ->
  blocking_mirrors 1 groups 0 initial current = flat_map current (seq 0 groups).
Proof. exact mirrors_single. Qed.
Print Assumptions C106_one_rank_partial.

(** With any number of ranks it holds as long as the mirrors of the groups of other ranks have not moved since the start. *)
Theorem C106_unchanged_partial : forall (A : Type) world groups rank (initial current : nat -> list A),
  (forall g, g < groups -> ~ In g (groups_of_rank world groups rank) -> current g = initial g) ->
  blocking_mirrors world groups rank initial current = flat_map current (seq 0 groups).
Proof. exact mirrors_unchanged. Qed.
Print Assumptions C106_unchanged_partial.

(** With two or more ranks and groups there is, for every rank, a group whose motor positions may change as they like: the rank
    goes on with the mirrors as they were at the start. *)
Theorem C106_stale_mirrors_refuted : forall (A : Type) world groups rank, 2 <= world -> 2 <= groups -> rank < world ->
  exists g, g < groups /\ forall initial current current' : nat -> list A, (forall g', g' <> g -> current g' = current' g') ->
    blocking_mirrors world groups rank initial current = blocking_mirrors world groups rank initial current'
    /\ (forall x, In x (initial g) -> In x (blocking_mirrors world groups rank initial current)).
Proof. exact stale_mirrors. Qed.
Print Assumptions C106_stale_mirrors_refuted.

Example C106_case : blocking_mirrors 2 2 0 (fun g => [(g, 0)]) (fun g => [(g, 1)]) = [(0, 1); (1, 0)]
  /\ blocking_mirrors 1 2 0 (fun g => [(g, 0)]) (fun g => [(g, 1)]) = [(0, 1); (1, 1)]
  /\ groups_of_rank 2 3 1 = [1] /\ blocking_mirrors 2 3 1 (fun g => [(g, 0)]) (fun g => [(g, if g =? 1 then 5 else 0)]) = [(0, 0); (1, 5); (2, 0)].
Proof. repeat split; reflexivity. Qed.
