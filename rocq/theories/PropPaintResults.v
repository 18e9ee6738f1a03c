(** C148: stored results of the kinematics reconstruction. *)
From Coq Require Import List Arith String Reals Lia.
From Verif Require Import ModelField ModelHdf5 ModelDistributed ModelOptimization ModelReconstruction ModelPaintResults
  SpecOptimization SpecReconstruction SpecPaintResults ProofsPaintResults.
Import ListNotations.
Local Open Scope string_scope.

(** C148 (full statement: the results of the kinematics reconstruction hold under the name of every heliostat its position and, for both ways of finding
    focal spots, the loss reported for it).  Proved: all positions are those of their heliostats, and the losses of all heliostats of the first group are their own; a
    loss is the one of C69, a reduction over the training samples of the heliostat.  Refuted: every heliostat of another group gets the loss of a different
    heliostat, for positions that the first group has too the loss of the heliostat at the same position of the first group. *)
Theorem C148_first_group_partial : forall (P M X : Type) masks test_of_count (loss_definition : string -> P -> M -> R) reduction prediction garbage measured
  world (groups : list (list (string * X))),
  (forall mask, In mask masks -> usable_mask test_of_count mask) -> 1 <= world <= List.length masks ->
  map (@List.length (string * X)) groups = map (@List.length nat) masks -> NoDup (map fst (List.concat groups)) ->
  exists results, generate_reconstruction_results
    (fun c => reconstruct masks test_of_count (loss_definition c) reduction (prediction c) (garbage c) (measured c) world) groups = Ok results
  /\ (forall g i name position, heliostat_at groups g i (name, position) -> lookup results name "Position" = Some (StoredPosition position))
  /\ forall i name position, heliostat_at groups 0 i (name, position) -> forall c, In c ["UTIS"; "HeliOS"] ->
     lookup results name c = Some (StoredLoss
       (reported test_of_count reduction (fun k => loss_definition c (prediction c 0 i k) (measured c 0 i k)) (nth i (nth 0 masks []) 0))).
Proof.
  intros P M X masks tc ld red pr ga me world groups HU HW HL N. destruct (study_results masks tc ld red pr ga me world groups HU HW HL N) as (r & E & V1 & V2).
  exists r. split; [assumption|]. split; [exact V1|]. intros i n p A c I. apply (V2 0 i n p 0 i A); auto; apply (group_length groups masks 0 i (n, p)); auto.
Qed.
Print Assumptions C148_first_group_partial.

Theorem C148_other_groups_refuted : forall (P M X : Type) masks test_of_count (loss_definition : string -> P -> M -> R) reduction prediction garbage measured
  world (groups : list (list (string * X))),
  (forall mask, In mask masks -> usable_mask test_of_count mask) -> 1 <= world <= List.length masks ->
  map (@List.length (string * X)) groups = map (@List.length nat) masks -> NoDup (map fst (List.concat groups)) ->
  exists results, generate_reconstruction_results
    (fun c => reconstruct masks test_of_count (loss_definition c) reduction (prediction c) (garbage c) (measured c) world) groups = Ok results
  /\ (forall g i name position, 1 <= g -> 1 <= List.length (nth 0 masks []) -> heliostat_at groups g i (name, position) -> exists g' i' other, heliostat_at groups g' i' other
      /\ (g', i') <> (g, i) /\ forall c, In c ["UTIS"; "HeliOS"] -> lookup results name c = Some (StoredLoss
       (reported test_of_count reduction (fun k => loss_definition c (prediction c g' i' k) (measured c g' i' k)) (nth i' (nth g' masks []) 0))))
  /\ forall g i name position other, heliostat_at groups g i (name, position) -> heliostat_at groups 0 i other -> forall c, In c ["UTIS"; "HeliOS"] ->
     lookup results name c = Some (StoredLoss
       (reported test_of_count reduction (fun k => loss_definition c (prediction c 0 i k) (measured c 0 i k)) (nth i (nth 0 masks []) 0))).
Proof.
  intros P M X masks tc ld red pr ga me world groups HU HW HL N. destruct (study_results masks tc ld red pr ga me world groups HU HW HL N) as (r & E & V1 & V2).
  exists r. split; [assumption|]. split.
  - intros g i n p Hg H0 A. destruct (group_length groups masks g i (n, p) HL A) as [Lg Li].
    destruct (field_index_onto (map (@List.length nat) masks) i) as (g' & i' & Lg' & Li' & F).
    { pose proof (length_le_sum (map (@List.length nat) masks) g ltac:(now rewrite map_length)) as LS. change 0 with (List.length (@nil nat)) in LS at 1. rewrite (map_nth (@List.length nat) masks [] g) in LS. lia. }
    rewrite map_length in Lg'. change 0 with (List.length (@nil nat)) in Li'. rewrite (map_nth (@List.length nat) masks [] g') in Li'. destruct (heliostat_exists groups masks g' i' HL Lg' Li') as (o & B).
    exists g', i', o. split; [assumption|]. split.
    + intros D. inversion D; subst g' i'. unfold field_index in F. destruct masks as [|m masks]; [cbn in Lg; lia|]. cbn in H0. destruct g as [|g]; [lia|].
      cbn [map firstn] in F. change (list_sum (List.length m :: firstn g (map (@List.length nat) masks))) with (List.length m + list_sum (firstn g (map (@List.length nat) masks))) in F. lia.
    + intros c I. apply (V2 g i n p g' i' A); auto.
  - intros g i n p o A B c I. apply (V2 g i n p 0 i A); auto; apply (group_length groups masks 0 i o); auto.
Qed.
Print Assumptions C148_other_groups_refuted.

(** Two groups with predictions that differ by heliostat: the losses of the second group are those of the first. *)
Example C148_case : let masks := [[3; 3]; [2]] in let groups := [[("AA31", 1); ("AA32", 2)]; [("BB45", 3)]] in
  (forall mask, In mask masks -> usable_mask (fun n => n / 4) mask) /\ map (@List.length (string * nat)) groups = map (@List.length nat) masks
  /\ NoDup (map fst (List.concat groups)) /\ heliostat_at groups 1 0 ("BB45", 3) /\ heliostat_at groups 0 0 ("AA31", 1)
  /\ exists results, generate_reconstruction_results (fun c => reconstruct masks (fun n => n / 4) (fun (a b : R) => a) (fun l => nth 0 l 0%R)
       (fun g i k => INR (10 * g + i + k)) (fun _ _ _ => 0%R) (fun g i k => 0%R) 2) groups = Ok results
     /\ map (fun name => lookup results name "UTIS") ["AA31"; "AA32"; "BB45"] = [Some (StoredLoss (Some (INR 0))); Some (StoredLoss (Some (INR 1))); Some (StoredLoss (Some (INR 0)))].
Proof.
  split; [intros mask [<-|[<-|[]]]; [exists 3|exists 2]; (split; [lia|]); (split; [cbn; lia|]); cbn; intuition|].
  split; [reflexivity|]. split; [repeat (constructor; [cbn; intuition discriminate|]); constructor|].
  split; [eexists; split; reflexivity|]. split; [eexists; split; reflexivity|]. eexists. split; reflexivity.
Qed.
