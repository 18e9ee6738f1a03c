(** C119: every configured heliostat is loaded. *)
From Coq Require Import List Bool String Permutation Reals Lra Lia.
From Verif Require Import ModelField ModelHdf5 SpecHdf5 ModelScenario SpecScenario SpecDuplicates ProofsScenario ProofsDuplicates.
Import ListNotations.
Local Open Scope string_scope.

(** C119 (full statement: the loaded scenario has each configured heliostat once, or the configuration is rejected).  It has if all
    heliostats have different names, which [valid] contains. *)
Theorem C119_all_loaded_partial : forall c, valid c -> kinematics_available c -> exists file s,
  generate_scenario c = Ok file /\ load_scenario file = Ok s /\ Permutation (all_heliostats s) (map (expected c) (sc_heliostats c)).
Proof. exact all_loaded. Qed.
Print Assumptions C119_all_loaded_partial.

(** A second heliostat of the same name silently replaces the first: whatever the first one is and wherever it stands, the scenario is
    loaded as if it had not been configured. *)
Theorem C119_lost_refuted : forall c l1 x l2 y l3, h_name x = h_name y ->
  (forall f, h_surface x = Some f -> List.length f = List.length (pr_surface (sc_prototype c))) ->
  valid (with_heliostats c (l1 ++ y :: l2 ++ l3)) -> kinematics_available (with_heliostats c (l1 ++ y :: l2 ++ l3)) ->
  exists file file' s,
    generate_scenario (with_heliostats c (l1 ++ y :: l2 ++ l3)) = Ok file /\ load_scenario file = Ok s
    /\ generate_scenario (with_heliostats c (l1 ++ x :: l2 ++ y :: l3)) = Ok file' /\ load_scenario file' = Ok s.
Proof.
  intros c l1 x l2 y l3 EN FX V O. destruct (duplicate_lost c l1 x l2 y l3 EN FX V O) as (file & file' & s & G & L & G' & L' & _). exists file, file', s. auto.
Qed.
Print Assumptions C119_lost_refuted.

(** The lost heliostat still counts for the number of groups in the file: if it was the only one of its type, the file announces more
    groups than are loaded. *)
Theorem C119_count_refuted : forall c l1 x l2 y l3, h_name x = h_name y ->
  (forall f, h_surface x = Some f -> List.length f = List.length (pr_surface (sc_prototype c))) ->
  valid (with_heliostats c (l1 ++ y :: l2 ++ l3)) -> kinematics_available (with_heliostats c (l1 ++ y :: l2 ++ l3)) ->
  (exists p, In p (type_pairs (sc_prototype c) x) /\ forall h, In h (l1 ++ y :: l2 ++ l3) -> ~ In p (type_pairs (sc_prototype c) h)) ->
  exists file s n, generate_scenario (with_heliostats c (l1 ++ x :: l2 ++ y :: l3)) = Ok file /\ load_scenario file = Ok s
  /\ stored_number_of_groups file = Ok (INR n) /\ List.length (s_groups s) < n.
Proof. exact duplicate_counted. Qed.
Print Assumptions C119_count_refuted.

(** Two heliostats "A", the first with ideal actuators, and one "B". *)
Example C119_case :
  let c := sample [sample_planar] [sample_cylindrical] [sample_facet "facet_1" 2] [] in
  let x := sample_heliostat "A" None (Some sample_kinematics) (Some (sample_actuators "ideal")) in
  let y := sample_heliostat "A" None None None in
  let z := sample_heliostat "B" None None None in
  h_name x = h_name y /\ valid (with_heliostats c ([] ++ y :: [z] ++ [])) /\ kinematics_available (with_heliostats c ([] ++ y :: [z] ++ []))
  /\ In ("rigid_body", "ideal") (type_pairs (sc_prototype c) x)
  /\ forall h, In h ([] ++ y :: [z] ++ []) -> ~ In ("rigid_body", "ideal") (type_pairs (sc_prototype c) h).
Proof.
  cbv zeta. split; auto. split; [|split; [|split]].
  - change (valid (sample [sample_planar] [sample_cylindrical] [sample_facet "facet_1" 2] [sample_heliostat "A" None None None; sample_heliostat "B" None None None])).
    apply sample_valid; try discriminate.
    + apply sample_facets_one. repeat split; discriminate.
    + split; [repeat (constructor; [cbn; intuition discriminate|]); constructor|intros x [<-|[<-|[]]]; repeat split; discriminate].
    + intros x [<-|[<-|[]]]; cbn; repeat split; discriminate.
  - apply available_own; intros x [<-|[<-|[]]]; cbn; congruence.
  - left. auto.
  - intros x [<-|[<-|[]]]; cbn; intuition discriminate.
Qed.
