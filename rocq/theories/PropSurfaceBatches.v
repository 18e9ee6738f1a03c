(** C149: surfaces reconstructed in batches of heliostats. *)
From Coq Require Import List Arith Reals String Lia.
From Verif Require Import ModelField ModelOptimization ModelSurfaceBatches ProofsSurfaceBatches.
Import ListNotations.

(** C149. If the surfaces of a field are reconstructed in batches, for all batch sizes, data and training histories: the batches contain the data in its order, none is empty or too
    large, every heliostat with data is in exactly one of them, it enters that batch with the control points it had at the beginning, it leaves the loop with those it has
    after that batch, and heliostats without data keep their control points. *)
Theorem C149_once : forall F height width name_of epochs batch_size (data : list (string * F)) control_points, 1 <= batch_size -> NoDup (map fst data) ->
  exists batches result, reconstruct_in_batches height width name_of epochs batch_size data control_points = Ok result
  /\ List.concat batches = data /\ Forall (fun batch => 1 <= List.length batch <= batch_size) batches
  /\ (forall h, In (name_of h) (map fst data) -> exists before batch after, batches = before ++ batch :: after /\ In (name_of h) (map fst batch)
      /\ (forall other, In other (before ++ after) -> ~ In (name_of h) (map fst other))
      /\ exists control_points', control_points' = fold_left (train_batch height width name_of epochs) before control_points
         /\ forall f i j c, control_points' h f i j c = control_points h f i j c
            /\ result h f i j c = train_batch height width name_of epochs control_points' batch h f i j c)
  /\ forall h, ~ In (name_of h) (map fst data) -> forall f i j c, result h f i j c = control_points h f i j c.
Proof.
  intros F height width name_of epochs size data cp HS N.
  destruct (reconstruct_in_batches height width name_of epochs size data cp) as [result|e] eqn:E.
  2:{ unfold reconstruct_in_batches, outer_batches in E. destruct (Nat.eqb_spec size 0); [lia|discriminate]. }
  destruct (trained_once height width name_of epochs size data cp result HS N E) as (batches & B1 & B2 & B3 & B4). exists batches, result. split; [reflexivity|].
  split; [assumption|]. split; [assumption|]. split; [|assumption]. intros h I. destruct (B3 h I) as (before & batch & after & E1 & E2 & E3 & cp' & C1 & C2 & C3).
  exists before, batch, after. split; [assumption|]. split; [assumption|]. split; [assumption|]. exists cp'. auto.
Qed.
Print Assumptions C149_once.

Theorem C149_zero : forall F height width name_of epochs (data : list (string * F)) control_points,
  reconstruct_in_batches height width name_of epochs 0 data control_points = Err ValueError.
Proof. reflexivity. Qed.
Print Assumptions C149_zero.

(** Three heliostats with data and one without in batches of two. *)
Example C149_case : let name_of h := nth h ["AA31"; "AA32"; "AA33"; "AA34"]%string EmptyString in let data := [("AA34", 1); ("AA31", 2); ("AA33", 3)]%string in
  NoDup (map fst data) /\ outer_batches 2 data = Ok [[("AA34", 1); ("AA31", 2)]; [("AA33", 3)]]%string
  /\ In (name_of 2) (map fst data) /\ ~ In (name_of 1) (map fst data).
Proof. repeat split; try (repeat (constructor; [cbn; intuition discriminate|]); constructor); cbn; intuition discriminate. Qed.
