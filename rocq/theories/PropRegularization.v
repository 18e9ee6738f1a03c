(** Which control points the regularizers of the surface reconstruction compare. *)
From Coq Require Import List Arith Bool Lia.
From Verif Require Import ModelField ModelDistributed ModelReconstruction SpecReconstruction ModelRegularization ProofsRegularization.
Import ListNotations.
Local Open Scope nat_scope.

(** C110: for every group and every number of processes of the group, the regularizers on a process compare the present control
    points of heliostats with the control points the same heliostats had before the reconstruction; every heliostat with samples
    is regularized on exactly one process, once, and no heliostat without samples is. *)
Theorem C110_own_originals : forall {A} mask test_of_count (current original : nat -> A) members,
  usable_mask test_of_count mask -> 1 <= mask_active mask -> 1 <= members ->
  exists heliostats : nat -> list nat,
  (forall rank, rank < members ->
     regularized_pairs mask test_of_count current original members rank = Ok (map (fun i => (current i, original i)) (heliostats rank)))
  /\ (forall rank, NoDup (heliostats rank) /\ forall i, In i (heliostats rank) -> i < length mask /\ nth i mask 0 <> 0)
  /\ (forall i, i < length mask -> nth i mask 0 <> 0 ->
        exists rank, rank < members /\ In i (heliostats rank) /\ forall rank', In i (heliostats rank') -> rank' = rank).
Proof. intros A. exact regularizers_own. Qed.
Print Assumptions C110_own_originals.

(** Three of five heliostats with four samples each, of which one is kept for testing, on two processes. *)
Example C110_case : usable_mask (fun _ => 1) [0; 4; 4; 0; 4]
  /\ regularized_pairs [0; 4; 4; 0; 4] (fun _ => 1) (fun i => 10 + i) (fun i => 20 + i) 2 0 = Ok [(11, 21); (14, 24)]
  /\ regularized_pairs [0; 4; 4; 0; 4] (fun _ => 1) (fun i => 10 + i) (fun i => 20 + i) 2 1 = Ok [(12, 22)].
Proof.
  split; [|split; reflexivity]. exists 4. split; [lia|]. split; [lia|]. intros m [<-|[<-|[<-|[<-|[<-|[]]]]]]; auto.
Qed.
