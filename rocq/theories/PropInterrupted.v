(** Interrupted scenario generation: C132. *)
From Coq Require Import List Arith Lia Bool String Reals.
From Verif Require Import ModelField ModelHdf5 SpecHdf5 ProofsHdf5 ModelScenario SpecScenario ProofsScenario ModelInterrupted SpecInterrupted ProofsInterrupted.
Import ListNotations.
Local Open Scope string_scope.
Local Open Scope nat_scope.

(** C132 (full statement: a scenario file that was left behind by a generation that did not come to its end is not loaded as a scenario).  False once the first heliostat has been written: the
    loader takes the heliostats it finds, and parts that were not written come from the prototype.  The stored number of groups reveals it only if a group is missing. *)
Theorem C132_nothing_missing : forall c, writable c -> interrupted c (List.length (datasets c)) = generate_scenario c.
Proof. exact nothing_missing. Qed.
Print Assumptions C132_nothing_missing.

Theorem C132_no_heliostat_partial : forall c k file s,
  k <= List.length (datasets_before c) -> interrupted c k = Ok file -> load_scenario file <> Ok s.
Proof. exact nothing_without_heliostats. Qed.
Print Assumptions C132_no_heliostat_partial.

Theorem C132_heliostats_missing_refuted : forall c written missing,
  valid c -> sc_heliostats c = (written ++ missing)%list -> written <> [] -> missing <> [] -> kinematics_available (with_heliostats c written) ->
  exists k file s, k < List.length (datasets c) /\ interrupted c k = Ok file /\ load_scenario file = Ok s
  /\ (forall g l, In g (s_groups s) -> In l (g_heliostats g) -> exists h, In h written /\ l = expected c h)
  /\ (forall h, In h written -> exists g, In g (s_groups s) /\ In (expected c h) (g_heliostats g))
  /\ (stored_number_of_groups file = Ok (INR (List.length (s_groups s)))
      <-> number_of_heliostat_groups (with_heliostats c written) = number_of_heliostat_groups c).
Proof. exact heliostats_missing. Qed.
Print Assumptions C132_heliostats_missing_refuted.

Theorem C132_parts_missing_refuted : forall c written h missing,
  valid c -> sc_heliostats c = (written ++ h :: missing)%list ->
  h_surface h <> None \/ h_kinematics h <> None \/ h_actuators h <> None ->
  let c' := with_heliostats c (written ++ [without_parts h]) in valid c' -> kinematics_available c' ->
  exists k file s, k < List.length (datasets c) /\ interrupted c k = Ok file /\ load_scenario file = Ok s
  /\ exists g l, In g (s_groups s) /\ In l (g_heliostats g) /\ l_name l = h_name h /\ l_position l = h_position h
     /\ l_facets l = map as_loaded (in_order f_key (pr_surface (sc_prototype c)))
     /\ l_kinematics_type l = k_type (pr_kinematics (sc_prototype c)) /\ l_orientation l = k_orientation (pr_kinematics (sc_prototype c)).
Proof. exact parts_missing. Qed.
Print Assumptions C132_parts_missing_refuted.

(** Two heliostats, the second with a surface of its own: the file can be loaded with one heliostat, or with both on the surface of the prototype, and in both cases the stored number of groups is right. *)
Definition own_surface : heliostat_config := sample_heliostat "B" (Some [sample_facet "facet_9" 3]) None None.
Definition two_heliostats : scenario_config :=
  sample [sample_planar] [sample_cylindrical] [sample_facet "facet_1" 2] [sample_heliostat "A" None None None; own_surface].
Example C132_case : valid two_heliostats
  /\ (exists k file s, k < List.length (datasets two_heliostats) /\ interrupted two_heliostats k = Ok file /\ load_scenario file = Ok s
      /\ forall g l, In g (s_groups s) -> In l (g_heliostats g) -> l_name l = "A")
  /\ (exists k file s g l, k < List.length (datasets two_heliostats) /\ interrupted two_heliostats k = Ok file /\ load_scenario file = Ok s
      /\ In g (s_groups s) /\ In l (g_heliostats g) /\ l_name l = "B" /\ l_facets l = [as_loaded (sample_facet "facet_1" 2)])
  /\ forall k file s, k <= 34 -> interrupted two_heliostats k = Ok file -> load_scenario file <> Ok s.
Proof.
  assert (N2 : forall h, h_name h = "B" -> named h_name [sample_heliostat "A" None None None; h]).
  { intros h E. split; [|intros x [<-|[<-|[]]]; cbn; try rewrite E; repeat split; discriminate].
    cbn [map]. rewrite E. constructor; [intros [X|[]]; discriminate|]. constructor; [intros []|constructor]. }
  assert (SF : forall k d, k <> "" -> k <> "." -> has_slash k = false -> sample_facets [sample_facet k d]) by (intros; apply sample_facets_one; repeat split; auto).
  assert (V : valid two_heliostats).
  { apply sample_valid; try discriminate; [apply SF; auto; discriminate|apply N2; auto|]. intros h [<-|[<-|[]]]; (split; [|split]); try discriminate. intros s E. injection E as <-. split; auto. apply SF; auto; discriminate. }
  assert (KA : forall hs, (forall h, In h hs -> h_actuators h = None) -> kinematics_available (with_heliostats two_heliostats hs)).
  { intros hs H. apply available_own. intros h I X. elim X. apply H, I. }
  split; auto. split; [|split].
  - destruct (heliostats_missing two_heliostats [sample_heliostat "A" None None None] [own_surface] V) as (k & file & s & K & I & L & A & _); try reflexivity; try discriminate.
    { apply KA. intros h [<-|[]]; auto. }
    exists k, file, s. repeat split; auto. intros g l G J. destruct (A g l G J) as (h & [<-|[]] & ->). reflexivity.
  - destruct (parts_missing two_heliostats [sample_heliostat "A" None None None] own_surface [] V) as (k & file & s & K & I & L & g & l & G & J & E1 & _ & E2 & _); try reflexivity; try (left; discriminate).
    { apply sample_valid; try discriminate; [apply SF; auto; discriminate|apply N2; auto|]. intros h [<-|[<-|[]]]; (split; [|split]); discriminate. }
    { apply KA. intros h [<-|[<-|[]]]; auto. }
    exists k, file, s, g, l. repeat split; auto.
  - intros k file s K. apply nothing_without_heliostats. eapply Nat.le_trans; [exact K|]. apply Nat.leb_le. vm_compute. reflexivity.
Qed.
