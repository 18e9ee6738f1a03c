(** C69, C86: results of the kinematics and surface reconstructions. *)
From Coq Require Import List Arith Reals Lia Bool.
From Verif Require Import ModelField ModelDistributed ModelOptimization ModelReconstruction SpecOptimization SpecReconstruction ProofsReconstruction.
Import ListNotations.

(** C69 (full statement: for all activation masks and all world sizes).  Proved for masks in which all heliostats with data have
    the same number of samples, and at most as many ranks as groups.  The loss of a sample compares the prediction and the
    measurement of the same training sample of the same heliostat. *)
Theorem C69_reported_losses_partial : forall (P M : Type) masks test_of_count (loss_definition : P -> M -> R) reduction prediction garbage measured,
  (forall mask, In mask masks -> usable_mask test_of_count mask) -> forall world, 1 <= world <= length masks ->
  exists losses, reconstruct masks test_of_count loss_definition reduction prediction garbage measured world = Ok losses
  /\ length losses = list_sum (map (@length nat) masks)
  /\ forall g i, g < length masks -> i < length (nth g masks []) ->
       nth_error losses (field_index (map (@length nat) masks) g i)
       = Some (reported test_of_count reduction (fun k => loss_definition (prediction g i k) (measured g i k)) (nth i (nth g masks []) 0)).
Proof. intros P M. exact reported_losses. Qed.
Print Assumptions C69_reported_losses_partial.

(** With more ranks than groups a reconstruction of groups with at least two trained heliostats fails. *)
Theorem C69_nested_refuted : forall (P M : Type) masks test_of_count (loss_definition : P -> M -> R) reduction prediction garbage measured world,
  1 <= length masks < world -> (forall mask, In mask masks -> usable_mask test_of_count mask) ->
  (forall mask, In mask masks -> 2 <= length (filter (fun m => 0 <? m) mask)) ->
  exists e, reconstruct masks test_of_count loss_definition reduction prediction garbage measured world = Err e.
Proof. intros P M. exact nested_reconstruction_fails. Qed.
Print Assumptions C69_nested_refuted.

(** The reconstruction from alignments does not combine the results: a rank reports the losses of its own groups and infinity for
    all others, trained or not. *)
Theorem C69_alignment_partial : forall (P M : Type) masks test_of_count (loss_definition : P -> M -> R) reduction prediction measured,
  (forall mask, In mask masks -> usable_mask test_of_count mask) -> forall world rank, 1 <= world -> 1 <= length masks -> rank < world ->
  exists losses, reconstruct_alignment masks test_of_count loss_definition reduction prediction measured world rank = Ok losses
  /\ length losses = list_sum (map (@length nat) masks)
  /\ forall g i, g < length masks -> i < length (nth g masks []) ->
     (In g (groups_of_rank world (length masks) rank) -> nth_error losses (field_index (map (@length nat) masks) g i)
        = Some (reported test_of_count reduction (fun k => loss_definition (prediction g i k) (measured g i k)) (nth i (nth g masks []) 0)))
     /\ (~ In g (groups_of_rank world (length masks) rank) -> nth_error losses (field_index (map (@length nat) masks) g i) = Some None).
Proof. intros P M. exact alignment_losses. Qed.
Print Assumptions C69_alignment_partial.

Example C69_case : let masks := [[3; 0; 3]; [2; 2]] in let tc n := n / 4 in let loss (a b : R) := (a - b)%R in
  (forall mask, In mask masks -> usable_mask tc mask)
  /\ reported tc (fun l => nth 1 l 0%R) (fun k => INR k) 3 = Some 1%R /\ reported tc (fun l => nth 1 l 0%R) (fun k => INR k) 0 = None
  /\ field_index (map (@length nat) masks) 1 1 = 4
  /\ reconstruct masks tc loss (fun l => nth 0 l 0%R) (fun g i k => INR (g + i + k)) (fun _ _ _ => 0%R) (fun g i k => INR k) 2
     = Ok [Some (INR 0 - INR 0)%R; None; Some (INR 2 - INR 0)%R; Some (INR 1 - INR 0)%R; Some (INR 2 - INR 0)%R]
  /\ reconstruct_alignment masks tc loss (fun l => nth 0 l 0%R) (fun g i k => INR (g + i + k)) (fun g i k => INR k) 2 1
     = Ok [None; None; None; Some (INR 1 - INR 0)%R; Some (INR 2 - INR 0)%R].
Proof.
  split; [|repeat split; reflexivity]. intros mask [<-|[<-|[]]]; [exists 3|exists 2]; (split; [lia|]); (split; [cbn; lia|]); cbn; intuition.
Qed.

(** C86. After a distributed reconstruction from fluxes or of surfaces every rank holds, for every group, the parameters of one
    rank that trained the group. *)
Theorem C86_same_parameters_partial : forall (A : Type) world groups (initial : nat -> A) trained g, 1 <= world -> 1 <= groups -> g < groups ->
  exists source, source < world /\ In g (groups_of_rank world groups source)
  /\ forall rank, rank < world -> broadcast_parameters world groups (local_parameters world groups initial trained) rank g = Ok (trained source g).
Proof. intros A. exact parameters_everywhere. Qed.
Print Assumptions C86_same_parameters_partial.

(** The reconstruction from alignments has no broadcast: in every run with at least two ranks and two groups there are, for each
    group, ranks that keep its initial parameters. *)
Theorem C86_alignment_refuted : forall world groups g, 2 <= world -> 2 <= groups -> g < groups ->
  exists rank, rank < world
  /\ forall (A : Type) (initial : nat -> A) trained, local_parameters world groups initial trained rank g = initial g.
Proof. exact initial_somewhere. Qed.
Print Assumptions C86_alignment_refuted.

Example C86_case : broadcast_parameters 3 2 (local_parameters 3 2 (fun _ => 0) (fun r g => 10 * r + g + 1)) 2 0 = Ok 1
  /\ broadcast_parameters 2 3 (local_parameters 2 3 (fun _ => 0) (fun r g => 10 * r + g + 1)) 0 1 = Ok 12.
Proof. split; reflexivity. Qed.
