(** C115: test losses of the reconstructions. *)
From Coq Require Import List Arith Reals Lia Bool.
From Verif Require Import ModelField ModelDistributed ModelOptimization ModelReconstruction ModelValidation SpecReconstruction SpecValidation ProofsValidation.
Import ListNotations.

(** C115 (full statement: on every rank, for all groups, the test loss of a heliostat is the reduction of the losses of exactly its
    held-out samples, each predicted from its own inputs and compared with its own measurement).  The kinematics reconstruction
    does this on every rank, whatever the distribution; proved for masks in which all heliostats with data have the same number of
    samples. *)
Theorem C115_kinematics_partial : forall (I P M : Type) (predict : nat -> I -> P) unwritten (loss_definition : P -> M -> R) reduction input measured mask test_of_count,
  usable_mask test_of_count mask -> (exists i, nth i mask 0 <> 0) ->
  exists losses, validate_kinematics predict unwritten loss_definition reduction input measured mask test_of_count = Ok losses
  /\ length losses = length (heliostats_with_samples mask)
  /\ forall j i, nth_error (heliostats_with_samples mask) j = Some i ->
     nth_error losses j = Some (reduction (map (fun k => loss_definition (predict i (input i k)) (measured i k)) (held_out test_of_count (nth i mask 0)))).
Proof. intros I P M. exact validation_single. Qed.
Print Assumptions C115_kinematics_partial.

(** The surface reconstruction does so where a group is handled by one rank. *)
Theorem C115_surfaces_partial : forall (I P M : Type) (predict : nat -> I -> P) unwritten (loss_definition : P -> M -> R) reduction input measured mask test_of_count,
  usable_mask test_of_count mask -> (exists i, nth i mask 0 <> 0) ->
  exists losses, validate_surfaces predict unwritten loss_definition reduction input measured mask test_of_count 1 0 = Ok losses
  /\ length losses = length (heliostats_with_samples mask)
  /\ forall j i, nth_error (heliostats_with_samples mask) j = Some i ->
     nth_error losses j = Some (reduction (map (fun k => loss_definition (predict i (input i k)) (measured i k)) (held_out test_of_count (nth i mask 0)))).
Proof. intros I P M. exact validation_single. Qed.
Print Assumptions C115_surfaces_partial.

(** Where ranks share a group with at least two heliostats, the validation of surfaces fails with two or more held-out samples per
    heliostat, ... *)
Theorem C115_shared_refuted : forall (I P M : Type) (predict : nat -> I -> P) unwritten (loss_definition : P -> M -> R) reduction input measured mask test_of_count,
  usable_mask test_of_count mask -> (exists i, nth i mask 0 <> 0) -> 2 <= length (heliostats_with_samples mask) ->
  (forall m, In m mask -> m <> 0 -> 2 <= test_of_count m) -> forall members rank, 2 <= members ->
  exists e, validate_surfaces predict unwritten loss_definition reduction input measured mask test_of_count members rank = Err e.
Proof. intros I P M. exact validation_shared_fails. Qed.
Print Assumptions C115_shared_refuted.

(** ... and with one held-out sample it can compare a heliostat with the measurement of another one: here rank 1 of two ranks returns
    a loss for heliostat 0 that depends on uninitialised memory and on the measurement of heliostat 1, for all predictions and measurements. *)
Theorem C115_silent_refuted : forall (I P M : Type) (predict : nat -> I -> P) unwritten (loss_definition : P -> M -> R) input measured,
  validate_surfaces predict unwritten loss_definition (fun l => nth 0 l 0%R) input measured [2; 2] (fun n => n / 3) 2 1
  = Ok [loss_definition (unwritten 0) (measured 1 1); loss_definition (predict 1 (input 1 1)) (measured 1 1)].
Proof. reflexivity. Qed.
Print Assumptions C115_silent_refuted.

Example C115_case : let mask := [4; 0; 4] in let tc n := n / 2 in
  usable_mask tc mask /\ (exists i, nth i mask 0 <> 0) /\ heliostats_with_samples mask = [0; 2] /\ held_out tc 4 = [2; 3]
  /\ validate_kinematics (fun i x => INR (i + x)) (fun _ => 0%R) (fun p m => (p - m)%R) (fun l => nth 1 l 0%R) (fun i k => 10 * i + k) (fun i k => INR k) mask tc
     = Ok [(INR 3 - INR 3)%R; (INR 25 - INR 3)%R]
  /\ (forall m, In m mask -> m <> 0 -> 2 <= tc m).
Proof.
  split; [exists 4; cbn; intuition lia|]. split; [exists 0; cbn; lia|]. do 3 (split; [reflexivity|]). intros m [<-|[<-|[<-|[]]]] N; cbn; lia.
Qed.
