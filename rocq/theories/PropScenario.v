(** C59, C67, C79-C81: scenario files. *)
From Coq Require Import List Arith Bool String Ascii Permutation Reals Lra Lia.
From Verif Require Import ModelField ModelHdf5 SpecHdf5 ProofsHdf5 ModelScenario SpecScenario ProofsScenario ProofsFacetOrder.
Import ListNotations.
Local Open Scope string_scope.

(** C59: a nested dictionary written under a new name is found in the file, path by path, and nothing else changes. *)
Theorem C59_nested_configuration : forall file prefix d, proper_name prefix -> proper (Node d) -> complete (Node d) -> tidy (Group file) -> ~ In prefix (map fst file) ->
  exists file', include_parameters file prefix (flatten d) = Ok file' /\ tidy (Group file')
    /\ (forall path, stored_at (Group file') (prefix :: path) = parameter_at (Node d) path)
    /\ (forall k path, k <> prefix -> stored_at (Group file') (k :: path) = stored_at (Group file) (k :: path)).
Proof. exact include_all. Qed.
Print Assumptions C59_nested_configuration.

(** A whole scenario file: besides the number of groups, it holds exactly the configured parameters. *)
Theorem C59_scenario_file : forall c, writable c -> exists file, generate_scenario c = Ok file
  /\ (forall k path, k <> "number_of_heliostat_groups" -> stored_at file (k :: path) = parameter_at (configured c) (k :: path)).
Proof. exact scenario_file. Qed.
Print Assumptions C59_scenario_file.

Example C59_case :
  let d := [("a", Node [("x", Leaf (Text "one")); ("empty", Node [])]); ("b", Leaf (Flag true))] in
  proper (Node d) /\ complete (Node d)
  /\ exists file, include_parameters [] "root" (flatten d) = Ok file
     /\ stored_at (Group file) ["root"; "a"; "x"] = Some (Text "one") /\ stored_at (Group file) ["root"; "b"] = Some (Flag true)
     /\ stored_at (Group file) ["root"; "a"] = None /\ has_key (Group file) "empty" = false.
Proof.
  split; [repeat split; try discriminate; repeat (constructor; [cbn; intuition discriminate|]); constructor|]. split; [cbn; repeat split; discriminate|].
  eexists. split; [reflexivity|]. repeat split.
Qed.

(** C79: a valid configuration is written, and loading the file gives back what was configured. *)
Theorem C79_round_trip_partial : forall c, valid c -> kinematics_available c -> exists file s,
  generate_scenario c = Ok file /\ load_scenario file = Ok s
  /\ s_position s = sc_position c
  /\ s_planar s = map (fun t => (tp_key t, tp_center t, tp_normal t, tp_plane_e t, tp_plane_u t)) (in_order tp_key (sc_planar c))
  /\ s_cylindrical s = map (fun t => (tc_key t, tc_radius t, tc_center t, tc_height t, tc_axis t, tc_normal t, tc_opening t)) (in_order tc_key (sc_cylindrical c))
  /\ map (fun '(rays, m, v) => (rays, Some m, Some v)) (s_light_sources s) = map (fun l => (INR (ls_rays l), ls_mean l, ls_covariance l)) (in_order ls_key (sc_light_sources c))
  /\ (forall h, In h (sc_heliostats c) -> exists g, In g (s_groups s) /\ In (expected c h) (g_heliostats g))
  /\ (forall g l, In g (s_groups s) -> In l (g_heliostats g) -> exists h, In h (sc_heliostats c) /\ l = expected c h).
Proof. exact round_trip_contents. Qed.
Print Assumptions C79_round_trip_partial.

(** Without planar or without cylindrical target areas the file is written but cannot be loaded, whatever else is configured. *)
Theorem C79_every_file_loads_refuted : forall c, writable c -> sc_planar c = [] \/ sc_cylindrical c = [] ->
  exists file, generate_scenario c = Ok file /\ load_scenario file = Err KeyError.
Proof. exact targets_needed. Qed.
Print Assumptions C79_every_file_loads_refuted.

(** Facets come back in the alphabetical order of their keys, not in the configured order. *)
Theorem C79_facet_order_refuted : exists c h file s g, valid c /\ kinematics_available c /\ sc_heliostats c = [h] /\ generate_scenario c = Ok file /\ load_scenario file = Ok s
  /\ s_groups s = [g] /\ exists l, g_heliostats g = [l] /\ map lf_translation (l_facets l) <> map f_translation (facets_of c h).
Proof. exact facets_reordered. Qed.
Print Assumptions C79_facet_order_refuted.
(** ... and so for every heliostat with two facets whose names are not in alphabetical order, as facet_2 and facet_10 of ten or more numbered facets. *)
Theorem C79_facets_out_of_order_refuted : forall c h i j fi fj, valid c -> kinematics_available c -> In h (sc_heliostats c) ->
  nth_error (facets_of c h) i = Some fi -> nth_error (facets_of c h) j = Some fj -> (i < j)%nat -> String.compare (f_key fj) (f_key fi) = Lt ->
  NoDup (map f_translation (facets_of c h)) ->
  exists file s g l, generate_scenario c = Ok file /\ load_scenario file = Ok s /\ In g (s_groups s) /\ In l (g_heliostats g) /\ l_name l = h_name h
    /\ Permutation (map lf_translation (l_facets l)) (map f_translation (facets_of c h))
    /\ map lf_translation (l_facets l) <> map f_translation (facets_of c h).
Proof. exact facets_out_of_order. Qed.
Print Assumptions C79_facets_out_of_order_refuted.
Example C79_numbered_case : valid numbered /\ kinematics_available numbered /\ exists h fi fj, In h (sc_heliostats numbered)
  /\ nth_error (facets_of numbered h) 0 = Some fi /\ nth_error (facets_of numbered h) 1 = Some fj /\ String.compare (f_key fj) (f_key fi) = Lt
  /\ NoDup (map f_translation (facets_of numbered h)).
Proof. exact numbered_case. Qed.

(** C67: own parts first, the prototype's otherwise ([expected], via [facets_of], [kinematics_of] and [actuators_of]); one
    group for every pair of kinematics and actuator types that occurs; alphabetical order of heliostats kept in every group. *)
Theorem C67_prototypes_and_groups_partial : forall c, valid c -> kinematics_available c -> exists file s,
  generate_scenario c = Ok file /\ load_scenario file = Ok s
  /\ NoDup (map g_key (s_groups s))
  /\ (forall g, In g (s_groups s) -> g_heliostats g <> []
        /\ g_heliostats g = map (expected c) (filter (fun h => String.eqb (key_of (expected c h)) (g_key g)) (in_order h_name (sc_heliostats c))))
  /\ (forall h, In h (sc_heliostats c) -> exists g, In g (s_groups s) /\ g_key g = key_of (expected c h) /\ In (expected c h) (g_heliostats g)).
Proof. exact round_trip_groups. Qed.
Print Assumptions C67_prototypes_and_groups_partial.

(** Every other valid configuration is written but cannot be loaded: a heliostat with actuators of its own and the prototype's
    kinematics needs a heliostat with kinematics of its own before it. *)
Theorem C67_own_actuators_refuted : forall c, valid c -> ~ kinematics_available c ->
  exists file, generate_scenario c = Ok file /\ load_scenario file = Err UnboundLocalError.
Proof. intros c V N. destruct (loads_exactly c V) as (file & G & L & _). exists file. auto. Qed.
Print Assumptions C67_own_actuators_refuted.

(** C80: the number of groups stored in the file, used to plan the ranks before loading, is that of the loaded field. *)
Theorem C80_number_of_groups : forall c, valid c -> kinematics_available c -> exists file s,
  generate_scenario c = Ok file /\ load_scenario file = Ok s /\ stored_number_of_groups file = Ok (INR (List.length (s_groups s))).
Proof. exact round_trip_count. Qed.
Print Assumptions C80_number_of_groups.

(** C81 (full statement: every surface is evaluated with its own degrees).  Proved: if all facets of the power plant have the same
    degrees, every group uses them. *)
Theorem C81_degrees_partial : forall c d, valid c -> kinematics_available c ->
  (forall h f, In h (sc_heliostats c) -> In f (facets_of c h) -> f_degrees f = d) ->
  exists file s, generate_scenario c = Ok file /\ load_scenario file = Ok s /\ forall g, In g (s_groups s) -> g_degrees g = Some d.
Proof. exact round_trip_degrees. Qed.
Print Assumptions C81_degrees_partial.

(** With different degrees some facet is evaluated with those of another one. *)
Theorem C81_own_degrees_refuted : exists c file s g l f, valid c /\ kinematics_available c /\ generate_scenario c = Ok file /\ load_scenario file = Ok s
  /\ In g (s_groups s) /\ In l (g_heliostats g) /\ In f (l_facets l) /\ g_degrees g <> Some (lf_degrees f).
Proof. exact degrees_mixed. Qed.
Print Assumptions C81_own_degrees_refuted.

(** The same for every power plant in which two facets differ in their degrees: all groups get the degrees of one facet. *)
Theorem C81_mixed_degrees_refuted : forall c h1 f1 h2 f2, valid c -> kinematics_available c ->
  In h1 (sc_heliostats c) -> In f1 (facets_of c h1) -> In h2 (sc_heliostats c) -> In f2 (facets_of c h2) -> f_degrees f1 <> f_degrees f2 ->
  exists file s, generate_scenario c = Ok file /\ load_scenario file = Ok s
  /\ (exists h f, In h (sc_heliostats c) /\ In f (facets_of c h) /\ forall g, In g (s_groups s) -> g_degrees g = Some (f_degrees f))
  /\ exists g l f, In g (s_groups s) /\ In l (g_heliostats g) /\ In f (l_facets l) /\ g_degrees g <> Some (lf_degrees f).
Proof. exact two_degrees. Qed.
Print Assumptions C81_mixed_degrees_refuted.

(** Three heliostats: two of the prototype's type in alphabetical order, of which the second has actuators of its own, and between
    them one with everything of its own. *)
Definition three_heliostats : scenario_config :=
  sample [sample_planar] [sample_cylindrical] [sample_facet "facet_1" 2]
    [sample_heliostat "C" None None (Some (sample_actuators "linear")); sample_heliostat "B" (Some [sample_facet "facet_9" 3]) (Some sample_kinematics) (Some (sample_actuators "ideal"));
     sample_heliostat "A" None None None].
Example C67_case : valid three_heliostats /\ kinematics_available three_heliostats
  /\ exists file s g, generate_scenario three_heliostats = Ok file /\ load_scenario file = Ok s /\ In g (s_groups s) /\ map l_name (g_heliostats g) = ["A"; "C"]
     /\ stored_number_of_groups file = Ok 2%R.
Proof.
  assert (V : valid three_heliostats).
  { apply sample_valid; try discriminate.
    - apply sample_facets_one. repeat split; discriminate.
    - split; [repeat (constructor; [cbn; intuition discriminate|]); constructor|intros x [<-|[<-|[<-|[]]]]; repeat split; discriminate].
    - intros x [<-|[<-|[<-|[]]]]; cbn; (split; [|split]); try discriminate.
      + intros a E. injection E as <-. eauto.
      + intros s E. injection E as <-. split; auto. apply sample_facets_one. repeat split; discriminate.
      + intros k E. congruence.
      + intros a E. injection E as <-. eauto. }
  assert (O : kinematics_available three_heliostats).
  { intros before h after E A. change (in_order h_name (sc_heliostats three_heliostats)) with
      [sample_heliostat "A" None None None; sample_heliostat "B" (Some [sample_facet "facet_9" 3]) (Some sample_kinematics) (Some (sample_actuators "ideal"));
       sample_heliostat "C" None None (Some (sample_actuators "linear"))] in E.
    exists (sample_heliostat "B" (Some [sample_facet "facet_9" 3]) (Some sample_kinematics) (Some (sample_actuators "ideal"))). split; [|discriminate].
    destruct before as [|b [|b' [|b'' [|? ?]]]]; injection E; intros; subst; cbn in *; try congruence; auto; discriminate. }
  split; auto. split; auto. destruct (round_trip three_heliostats V O) as (file & s & G & L & _ & _ & _ & _ & ND & GS & GC & _ & N).
  destruct (GC (sample_heliostat "A" None None None)) as (g & I & J); [cbn; auto|].
  assert (K : g_key g = "rigid_body_linear").
  { destruct (GS g I) as (_ & E). rewrite E in J. apply in_map_iff in J. destruct J as (x & Ex & J). apply filter_In in J. destruct J as (J & Q). apply String.eqb_eq in Q. rewrite <- Q, Ex. reflexivity. }
  exists file, s, g. split; auto. split; auto. split; auto. split; [destruct (GS g I) as (_ & ->); rewrite K; reflexivity|].
  destruct (load_before_field three_heliostats V) as (file' & h6 & G' & _ & _ & _ & _ & _ & _ & _ & LN). rewrite G in G'. injection G' as <-. rewrite LN. cbn. f_equal.
Qed.

(** One heliostat with a facet of degree two; the hypotheses of C79, C80 and C81. *)
Definition one_heliostat : scenario_config :=
  sample [sample_planar] [sample_cylindrical] [sample_facet "facet_1" 2] [sample_heliostat "A" None (Some sample_kinematics) (Some (sample_actuators "linear"))].
Example C81_case : valid one_heliostat /\ kinematics_available one_heliostat
  /\ (forall h f, In h (sc_heliostats one_heliostat) -> In f (facets_of one_heliostat h) -> f_degrees f = Rows [Scalar 2; Scalar 2])
  /\ l_optimizable (expected one_heliostat (sample_heliostat "A" None (Some sample_kinematics) (Some (sample_actuators "linear")))) = [[(2 - PI / 2)%R; 0%R]; [2%R; 0%R]].
Proof.
  split.
  { apply sample_valid; try discriminate.
    - apply sample_facets_one. repeat split; discriminate.
    - split; [repeat (constructor; [cbn; intuition discriminate|]); constructor|intros x [<-|[]]; repeat split; discriminate].
    - intros x [<-|[]]; cbn; (split; [|split]); try discriminate.
      + intros k E. congruence.
      + intros a E. injection E as <-. eauto. }
  split; [apply available_own; intros x [<-|[]]; cbn; congruence|]. split; [|reflexivity]. intros h f [<-|[]] [<-|[]]. reflexivity.
Qed.

(** Configurations that are written but cannot be loaded: two heliostats of which the first has actuators of its own only, and one
    without a cylindrical target area. *)
Definition first_actuators : scenario_config :=
  sample [sample_planar] [sample_cylindrical] [sample_facet "facet_1" 2]
    [sample_heliostat "B" None (Some sample_kinematics) (Some (sample_actuators "ideal")); sample_heliostat "A" None None (Some (sample_actuators "ideal"))].
Example C67_refuted_case : valid first_actuators /\ ~ kinematics_available first_actuators.
Proof.
  split.
  - apply sample_valid; try discriminate.
    + apply sample_facets_one. repeat split; discriminate.
    + split; [repeat (constructor; [cbn; intuition discriminate|]); constructor|intros x [<-|[<-|[]]]; repeat split; discriminate].
    + intros x [<-|[<-|[]]]; cbn; (split; [|split]); try discriminate; try (intros k E; congruence); intros a E; injection E as <-; eauto.
  - intros A. destruct (A [] (sample_heliostat "A" None None (Some (sample_actuators "ideal"))) [sample_heliostat "B" None (Some sample_kinematics) (Some (sample_actuators "ideal"))])
      as (h' & [<-|[]] & K); [reflexivity|discriminate|]. apply K. reflexivity.
Qed.
Definition without_cylinder : scenario_config := sample [sample_planar] [] [sample_facet "facet_1" 2] [sample_heliostat "AA31" None None None].
Example C79_case : writable without_cylinder /\ sc_planar without_cylinder <> [] /\ sc_cylindrical without_cylinder = [].
Proof.
  split; [|split; [discriminate|reflexivity]].
  assert (V : valid (sample [sample_planar] [sample_cylindrical] [sample_facet "facet_1" 2] [sample_heliostat "AA31" None None None])).
  { apply sample_valid; try discriminate.
    - apply sample_facets_one. repeat split; discriminate.
    - split; [repeat (constructor; [cbn; intuition discriminate|]); constructor|intros x [<-|[]]; repeat split; discriminate].
    - intros h [<-|[]]. cbn. repeat split; discriminate. }
  destruct (valid_writable _ V) as [A B C D E F]. constructor; auto. split; [constructor|intros x []].
Qed.
