(** Model of generating a scenario file from a configuration ([artist/util/config.py],
    [artist/scenario/h5_scenario_generator.py]) and of loading it again ([artist/scenario/scenario.py],
    [artist/io/h5_scenario_parser.py], [artist/field/heliostat_field.py], [artist/field/solar_tower.py],
    [artist/field/tower_target_areas_planar.py], [artist/field/tower_target_areas_cylindrical.py],
    [artist/scene/light_source_array.py], [artist/scene/sun.py]).  The names are those of [artist/util/constants.py]. *)
From Coq Require Import List Arith Bool String Reals.
From Verif Require Import ModelField ModelVectors ModelTransforms ModelHdf5.
Import ListNotations.
Local Open Scope string_scope.

(** ** Configurations, util/config.py *)

(** [FacetConfig], config.py:424-492. *)
Record facet_config := { f_key : string; f_control_points : array; f_degrees : array; f_translation : array; f_canting : array }.
(** The thirteen optional members of [KinematicsDeviations], config.py:556-720. *)
Inductive deviation := FirstTranslationE | FirstTranslationN | FirstTranslationU | FirstTiltN | FirstTiltU
  | SecondTranslationE | SecondTranslationN | SecondTranslationU | SecondTiltE | SecondTiltN
  | ConcentratorTranslationE | ConcentratorTranslationN | ConcentratorTranslationU.
Definition deviation_name (d : deviation) : string :=
  match d with
  | FirstTranslationE => "first_joint_translation_e" | FirstTranslationN => "first_joint_translation_n"
  | FirstTranslationU => "first_joint_translation_u" | FirstTiltN => "first_joint_tilt_n" | FirstTiltU => "first_joint_tilt_u"
  | SecondTranslationE => "second_joint_translation_e" | SecondTranslationN => "second_joint_translation_n"
  | SecondTranslationU => "second_joint_translation_u" | SecondTiltE => "second_joint_tilt_e" | SecondTiltN => "second_joint_tilt_n"
  | ConcentratorTranslationE => "concentrator_translation_e" | ConcentratorTranslationN => "concentrator_translation_n"
  | ConcentratorTranslationU => "concentrator_translation_u"
  end.
(** The order of [create_kinematics_deviations_dict]. *)
Definition deviations_in_order : list deviation := [FirstTranslationE; FirstTranslationN; FirstTranslationU; FirstTiltN; FirstTiltU;
  SecondTranslationE; SecondTranslationN; SecondTranslationU; SecondTiltE; SecondTiltN;
  ConcentratorTranslationE; ConcentratorTranslationN; ConcentratorTranslationU].
(** [KinematicsConfig], config.py:722-782. *)
Record kinematics_config := { k_type : string; k_orientation : array; k_deviations : option (deviation -> option R) }.
(** The five optional members of [ActuatorParameters], config.py:819-901, and [ActuatorConfig], config.py:903-977. *)
Inductive parameter := Increment | InitialStrokeLength | Offset | PivotRadius | InitialAngle.
Definition parameter_name (p : parameter) : string :=
  match p with Increment => "increment" | InitialStrokeLength => "initial_stroke_length" | Offset => "offset"
  | PivotRadius => "pivot_radius" | InitialAngle => "initial_angle" end.
Record actuator_config := { ac_key : string; ac_type : string; ac_clockwise : bool; ac_min : R; ac_max : R;
  ac_parameters : option (parameter -> option R) }.
(** [HeliostatConfig], config.py:1106-1196. *)
Record heliostat_config := { h_name : string; h_id : nat; h_position : array; h_surface : option (list facet_config);
  h_kinematics : option kinematics_config; h_actuators : option (list actuator_config) }.
(** [TargetAreaPlanarConfig], config.py:52-121. *)
Record planar_config := { tp_key : string; tp_center : array; tp_normal : array; tp_plane_e : R; tp_plane_u : R }.
(** [TargetAreaCylindricalConfig], config.py:165-248. *)
Record cylindrical_config := { tc_key : string; tc_radius : R; tc_center : array; tc_height : R; tc_axis : array; tc_normal : array; tc_opening : R }.
(** [LightSourceConfig], config.py:292-381. *)
Record light_source_config := { ls_key : string; ls_type : string; ls_rays : nat; ls_distribution : string; ls_mean : option R; ls_covariance : option R }.
(** [PrototypeConfig], config.py:1049-1104. *)
Record prototype_config := { pr_surface : list facet_config; pr_kinematics : kinematics_config; pr_actuators : list actuator_config }.
(** The arguments of [H5ScenarioGenerator], h5_scenario_generator.py:50-106. *)
Record scenario_config := { sc_position : array; sc_planar : list planar_config; sc_cylindrical : list cylindrical_config;
  sc_light_sources : list light_source_config; sc_prototype : prototype_config; sc_heliostats : list heliostat_config }.

(** ** Dictionaries of configurations, the [create_..._dict] methods of util/config.py *)
Definition number (x : R) : tree := Leaf (Array (Scalar x)).
Definition facet_dict (f : facet_config) : tree :=
  Node [("control_points", Leaf (Array (f_control_points f))); ("degrees", Leaf (Array (f_degrees f)));
        ("position", Leaf (Array (f_translation f))); ("canting", Leaf (Array (f_canting f)))].
Definition surface_dict (facets : list facet_config) : tree :=
  Node [("facets", Node (dict_of (map (fun f => (f_key f, facet_dict f)) facets)))].
(** Only the members that are not [None]. *)
Definition members {D} (name : D -> string) (all : list D) (values : D -> option R) : list (string * tree) :=
  flat_map (fun d => match values d with Some x => [(name d, number x)] | None => [] end) all.
Definition kinematics_dict (k : kinematics_config) : tree :=
  Node ([("type", Leaf (Text (k_type k))); ("initial_orientation", Leaf (Array (k_orientation k)))]
        ++ match k_deviations k with Some d => [("deviations", Node (members deviation_name deviations_in_order d))] | None => [] end)%list.
Definition actuator_dict (a : actuator_config) : tree :=
  Node ([("type", Leaf (Text (ac_type a))); ("clockwise_axis_movement", Leaf (Flag (ac_clockwise a)));
         ("min_max_motor_positions", Leaf (Array (Rows [Scalar (ac_min a); Scalar (ac_max a)])))]
        ++ match ac_parameters a with Some p => [("parameters", Node (members parameter_name [Increment; InitialStrokeLength; Offset; PivotRadius; InitialAngle] p))] | None => [] end)%list.
Definition actuator_list_dict (l : list actuator_config) : tree := Node (dict_of (map (fun a => (ac_key a, actuator_dict a)) l)).
Definition heliostat_dict (h : heliostat_config) : tree :=
  Node ([("id", number (INR (h_id h))); ("position", Leaf (Array (h_position h)))]
        ++ match h_surface h with Some s => [("surface", surface_dict s)] | None => [] end
        ++ match h_kinematics h with Some k => [("kinematics", kinematics_dict k)] | None => [] end
        ++ match h_actuators h with Some a => [("actuator", actuator_list_dict a)] | None => [] end)%list.
Definition planar_dict (t : planar_config) : tree :=
  Node [("position_center", Leaf (Array (tp_center t))); ("normal_vector", Leaf (Array (tp_normal t)));
        ("plane_e", number (tp_plane_e t)); ("plane_u", number (tp_plane_u t))].
Definition cylindrical_dict (t : cylindrical_config) : tree :=
  Node [("cylinder_radius", number (tc_radius t)); ("cylinder_center", Leaf (Array (tc_center t))); ("cylinder_height", number (tc_height t));
        ("cylinder_axis", Leaf (Array (tc_axis t))); ("cylinder_normal", Leaf (Array (tc_normal t))); ("cylinder_opening_angle", number (tc_opening t))].
Definition optional (x : option R) : tree := match x with Some x => number x | None => Leaf NoValue end.
Definition light_source_dict (l : light_source_config) : tree :=
  Node [("type", Leaf (Text (ls_type l))); ("number_of_rays", number (INR (ls_rays l)));
        ("distribution_parameters", Node [("distribution_type", Leaf (Text (ls_distribution l))); ("mean", optional (ls_mean l)); ("covariance", optional (ls_covariance l))])].

(** ** Generation, h5_scenario_generator.py *)

(** [_get_number_of_heliostat_groups], 108-141. *)
Definition pair_dec : forall a b : string * string, {a = b} + {a <> b}.
Proof. decide equality; apply string_dec. Defined.
Definition type_pairs (proto : prototype_config) (h : heliostat_config) : list (string * string) :=
  let kinematics_type := match h_kinematics h with Some k => k_type k | None => k_type (pr_kinematics proto) end in
  let actuators := match h_actuators h with Some l => l | None => pr_actuators proto end in
  map (fun a => (kinematics_type, ac_type a)) actuators.
Definition number_of_heliostat_groups (c : scenario_config) : nat :=
  List.length (nodup pair_dec (flat_map (type_pairs (sc_prototype c)) (sc_heliostats c))).
(** [_check_equal_facet_numbers], 143-163. *)
Definition check_equal_facet_numbers (c : scenario_config) : bool :=
  forallb (fun h => match h_surface h with Some s => Nat.eqb (List.length s) (List.length (pr_surface (sc_prototype c))) | None => true end) (sc_heliostats c).
(** [generate_scenario], 220-301, after the constructors of the generator and of the light sources (config.py:354-355). *)
Definition generate_scenario (c : scenario_config) : res h5 :=
  if negb (forallb (fun l => String.eqb (ls_distribution l) "normal") (sc_light_sources c)) then Err ValueError
  else if negb (check_equal_facet_numbers c) then Err ValueError
  else
    bind (put [] ["number_of_heliostat_groups"] (Array (Scalar (INR (number_of_heliostat_groups c))))) (fun f0 =>
    bind (include_parameters f0 "power_plant" (flatten [("position", Leaf (Array (sc_position c)))])) (fun f1 =>
    bind (include_parameters f1 "target_areas_planar" (flatten (dict_of (map (fun t => (tp_key t, planar_dict t)) (sc_planar c))))) (fun f2 =>
    bind (include_parameters f2 "target_areas_cylindrical" (flatten (dict_of (map (fun t => (tc_key t, cylindrical_dict t)) (sc_cylindrical c))))) (fun f3 =>
    bind (include_parameters f3 "lightsources" (flatten (dict_of (map (fun l => (ls_key l, light_source_dict l)) (sc_light_sources c))))) (fun f4 =>
    let proto := sc_prototype c in
    bind (include_parameters f4 "prototypes" (flatten [("surface", surface_dict (pr_surface proto));
      ("kinematics", kinematics_dict (pr_kinematics proto)); ("actuator", actuator_list_dict (pr_actuators proto))])) (fun f5 =>
    bind (include_parameters f5 "heliostats" (flatten (dict_of (map (fun h => (h_name h, heliostat_dict h)) (sc_heliostats c))))) (fun f6 =>
    Ok (Group f6)))))))).

(** ** Reading parameters *)
Definition read (h : h5) (k : string) : res value := bind (item h k) contents.
(** [...[()].decode("utf-8")]; other types have no [decode]. *)
Definition read_text (h : h5) (k : string) : res string := bind (read h k) (fun v => match v with Text s => Ok s | _ => Err TypeError end).
(** [torch.tensor(...[()])]. *)
Definition read_array (h : h5) (k : string) : res array := bind (read h k) (fun v => match v with Array a => Ok a | _ => Err TypeError end).
(** [float(...[()])]. *)
Definition read_number (h : h5) (k : string) : res R := bind (read h k) (fun v => match v with Array (Scalar x) => Ok x | _ => Err TypeError end).
Definition read_flag (h : h5) (k : string) : res bool := bind (read h k) (fun v => match v with Flag b => Ok b | _ => Err TypeError end).
(** [group.get(path)], and zero if there is nothing. *)
Definition read_optional (h : h5) (path : list string) : res R :=
  match get h path with
  | None => Ok 0%R
  | Some (Dataset (Array (Scalar x))) => Ok x
  | Some _ => Err TypeError
  end.
Fixpoint map_res {A B} (f : A -> res B) (l : list A) : res (list B) :=
  match l with
  | [] => Ok []
  | a :: l' => bind (f a) (fun b => bind (map_res f l') (fun bs => Ok (b :: bs)))
  end.

(** ** Loading, io/h5_scenario_parser.py *)

(** [surface_config], 12-76, from the group that holds the key "surface" (given already opened). *)
Record facet := { lf_control_points : array; lf_degrees : array; lf_translation : array; lf_canting : array }.
Definition load_facet (h : h5) : res facet :=
  bind (read_array h "control_points") (fun c =>
  bind (read_array h "degrees") (fun d =>
  bind (match d with Rows (Scalar u :: Scalar v :: _) => Ok (Rows [Scalar u; Scalar v]) | _ => Err IndexError end) (fun d =>
  bind (read_array h "position") (fun t =>
  bind (read_array h "canting") (fun a =>
  Ok {| lf_control_points := c; lf_degrees := d; lf_translation := t; lf_canting := a |}))))).
Definition surface_config (surface : h5) : res (list facet) :=
  bind (item surface "facets") (fun facets => map_res (fun k => bind (item facets k) load_facet) (keys facets)).

(** [rigid_body_deviations], 146-370; the positions of the parameters are those of util/indices.py:21-46. *)
Definition translation_order : list deviation := [FirstTranslationE; FirstTranslationN; FirstTranslationU;
  SecondTranslationE; SecondTranslationN; SecondTranslationU; ConcentratorTranslationE; ConcentratorTranslationN; ConcentratorTranslationU].
Definition rotation_order : list deviation := [FirstTiltN; FirstTiltU; SecondTiltE; SecondTiltN].
(** [kinematics_deviations], 79-143. *)
Definition kinematics_deviations (kinematics_type : string) (kinematics : h5) : res (list R * list R * nat) :=
  if String.eqb kinematics_type "rigid_body"
  then
    bind (map_res (fun d => read_optional kinematics ["deviations"; deviation_name d]) translation_order) (fun translation =>
    bind (map_res (fun d => read_optional kinematics ["deviations"; deviation_name d]) rotation_order) (fun rotation =>
    Ok (translation, rotation, 2)))
  else Err ValueError.

(** The shift of the first actuator's initial angle, 618-642. *)
Definition delta_angle : R :=
  let '(axis, angle) := rotation_angle_and_axis (vec 0 (-1) 0) (vec 0 0 1) in (pe axis * angle)%R.
(** [linear_actuators], 449-644, and [ideal_actuators], 647-723: one column of parameters per actuator, in the order of
    the keys. *)
Definition common_column (actuator_int : R) (a : h5) : res (list R) :=
  bind (read_flag a "clockwise_axis_movement") (fun clockwise =>
  bind (read_array a "min_max_motor_positions") (fun m =>
  match m with
  | Rows (Scalar lo :: Scalar hi :: _) => Ok [actuator_int; if clockwise then 1%R else 0%R; lo; hi]
  | _ => Err IndexError
  end)).
Definition linear_column (a : h5) : res (list R * list R) :=
  bind (common_column 0 a) (fun c =>
  bind (read_optional a ["parameters"; "increment"]) (fun increment =>
  bind (read_optional a ["parameters"; "initial_stroke_length"]) (fun stroke =>
  bind (read_optional a ["parameters"; "offset"]) (fun offset =>
  bind (read_optional a ["parameters"; "pivot_radius"]) (fun pivot =>
  bind (read_optional a ["parameters"; "initial_angle"]) (fun initial =>
  Ok ((c ++ [increment; offset; pivot])%list, [initial; stroke]))))))).
Definition add_to_first_angle (delta : R) (columns : list (list R)) : list (list R) :=
  match columns with (angle :: rest) :: others => ((angle + delta)%R :: rest) :: others | _ => columns end.
(** [actuator_parameters], 373-446: non-optimizable and optimizable columns. *)
Definition actuator_parameters (actuators : h5) (actuator_type : string) (number_of_actuators : nat) : res (list (list R) * list (list R)) :=
  if String.eqb actuator_type "linear" then
    if negb (Nat.eqb (List.length (keys actuators)) number_of_actuators) then Err ValueError
    else bind (map_res (fun k => bind (item actuators k) linear_column) (keys actuators)) (fun columns =>
         Ok (map fst columns, add_to_first_angle delta_angle (map snd columns)))
  else if String.eqb actuator_type "ideal" then
    if negb (Nat.eqb (List.length (keys actuators)) number_of_actuators) then Err ValueError
    else bind (map_res (fun k => bind (item actuators k) (common_column 1)) (keys actuators)) (fun columns => Ok (columns, []))
  else Err ValueError.

(** ** The heliostat field, field/heliostat_field.py:81-435 *)

(** What a group holds for one heliostat.  Surface points and normals are functions of the facets (C45, C46) and left
    out; [change_number_of_control_points_per_facet] is [None]. *)
Record heliostat := { l_name : string; l_position : array; l_facets : list facet; l_kinematics_type : string; l_orientation : array;
  l_translation : list R; l_rotation : list R; l_actuator_type : string; l_fixed : list (list R); l_optimizable : list (list R) }.
(** The prototypes, scenario.py:165-232. *)
Record prototypes := { p_facets : list facet; p_kinematics_type : string; p_orientation : array; p_translation : list R; p_rotation : list R;
  p_actuator_type : string; p_fixed : list (list R); p_optimizable : list (list R) }.
(** The local variables [number_of_actuators] and [actuator_type], which keep their values from one heliostat to the next. *)
Record locals := { v_number_of_actuators : option nat; v_actuator_type : option string }.
(** Number of entries along every axis of a rectangular array. *)
Fixpoint shape (a : array) : list nat :=
  match a with
  | Scalar _ => []
  | Rows l => List.length l :: match l with [] => [] | a' :: _ => shape a' end
  end.
Definition shape_dec : forall a b : list nat, {a = b} + {a <> b} := list_eq_dec Nat.eq_dec.
(** 164-205. *)
Definition load_kinematics (vars : locals) (proto : prototypes) (config : h5) : res (locals * (string * array * list R * list R)) :=
  if has_key config "kinematics" then
    bind (item config "kinematics") (fun k =>
    bind (read_array k "initial_orientation") (fun orientation =>
    bind (read_text k "type") (fun type =>
    bind (kinematics_deviations type k) (fun '(translation, rotation, n) =>
    Ok ({| v_number_of_actuators := Some n; v_actuator_type := v_actuator_type vars |}, (type, orientation, translation, rotation))))))
  else Ok (vars, (p_kinematics_type proto, p_orientation proto, p_translation proto, p_rotation proto)).
(** 207-256. *)
Definition load_actuators (vars : locals) (proto : prototypes) (kinematics_type : string) (config : h5)
  : res (locals * (string * list (list R) * list (list R))) :=
  if has_key config "actuator" then
    bind (item config "actuator") (fun actuators =>
    bind (map_res (fun k => bind (item actuators k) (fun a => read_text a "type")) (keys actuators)) (fun types =>
    bind (if String.eqb kinematics_type "rigid_body"
          then if Nat.ltb 1 (List.length (nodup string_dec types)) then Err ValueError
               else match types with [] => Err IndexError | t :: _ => Ok (Some t) end
          else Ok (v_actuator_type vars)) (fun actuator_type =>
    match actuator_type, v_number_of_actuators vars with
    | Some t, Some n =>
      bind (actuator_parameters actuators t n) (fun '(fixed, optimizable) =>
      Ok ({| v_number_of_actuators := Some n; v_actuator_type := Some t |}, (t, fixed, optimizable)))
    | _, _ => Err UnboundLocalError
    end)))
  else Ok ({| v_number_of_actuators := v_number_of_actuators vars; v_actuator_type := Some (p_actuator_type proto) |},
           (p_actuator_type proto, p_fixed proto, p_optimizable proto)).
(** One round of the loop 142-366, without the grouping. *)
Definition load_heliostat (vars : locals) (proto : prototypes) (name : string) (config : h5) : res (locals * heliostat) :=
  bind (if has_key config "surface" then bind (item config "surface") surface_config else Ok (p_facets proto)) (fun facets =>
  bind (load_kinematics vars proto config) (fun '(vars, (kinematics_type, orientation, translation, rotation)) =>
  bind (load_actuators vars proto kinematics_type config) (fun '(vars, (actuator_type, fixed, optimizable)) =>
  match facets with
  | [] => Err IndexError
  | first :: _ =>
    if forallb (fun f => if shape_dec (shape (lf_control_points f)) (shape (lf_control_points first)) then true else false) facets
    then bind (read_array config "position") (fun position =>
         Ok (vars, {| l_name := name; l_position := position; l_facets := facets; l_kinematics_type := kinematics_type; l_orientation := orientation;
                      l_translation := translation; l_rotation := rotation; l_actuator_type := actuator_type; l_fixed := fixed; l_optimizable := optimizable |}))
    else Err RuntimeError
  end))).
Fixpoint load_heliostats (vars : locals) (proto : prototypes) (configs : h5) (names : list string) : res (list heliostat) :=
  match names with
  | [] => Ok []
  | name :: names' =>
    bind (item configs name) (fun config =>
    bind (load_heliostat vars proto name config) (fun '(vars', h) =>
    bind (load_heliostats vars' proto configs names') (fun hs => Ok (h :: hs))))
  end.
(** Groups: 310-366.  [grouped_field_data] is a dictionary in order of first use. *)
Definition group_key (h : heliostat) : string := l_kinematics_type h ++ "_" ++ l_actuator_type h.
Fixpoint add_to_group (h : heliostat) (groups : list (string * list heliostat)) : list (string * list heliostat) :=
  match groups with
  | [] => [(group_key h, [h])]
  | (k, hs) :: groups' => if String.eqb (group_key h) k then (k, (hs ++ [h])%list) :: groups' else (k, hs) :: add_to_group h groups'
  end.
Definition grouped (hs : list heliostat) : list (string * list heliostat) := fold_left (fun groups h => add_to_group h groups) hs [].
(** [torch.stack] of the control points, 368-377. *)
Definition stackable (hs : list heliostat) : bool :=
  let size h := List.length (l_facets h) :: match l_facets h with [] => [] | f :: _ => shape (lf_control_points f) end in
  match hs with [] => true | first :: _ => forallb (fun h => if shape_dec (size h) (size first) then true else false) hs end.
Record group := { g_key : string; g_heliostats : list heliostat; g_degrees : option array }.
(** The degrees given to every group are those of the last facet of the last heliostat, 293-294 and 411. *)
Definition last_degrees (hs : list heliostat) : option array :=
  match rev hs with h :: _ => match rev (l_facets h) with f :: _ => Some (lf_degrees f) | [] => None end | [] => None end.
Definition load_field (proto : prototypes) (file : h5) : res (list group) :=
  bind (item file "heliostats") (fun configs =>
  bind (load_heliostats {| v_number_of_actuators := None; v_actuator_type := None |} proto configs (keys configs)) (fun hs =>
  if negb (forallb (fun '(_, members) => stackable members) (grouped hs)) then Err RuntimeError
  else if negb (forallb (fun '(k, _) => String.eqb k "rigid_body_linear" || String.eqb k "rigid_body_ideal") (grouped hs)) then Err KeyError
  else Ok (map (fun '(k, members) => {| g_key := k; g_heliostats := members; g_degrees := last_degrees hs |}) (grouped hs)))).

(** ** Towers, light sources and prototypes *)

(** [TowerTargetAreasPlanar.from_hdf5], tower_target_areas_planar.py:76-143: name, center, normal, east and up size. *)
Definition load_planar (file : h5) : res (list (string * array * array * R * R)) :=
  bind (item file "target_areas_planar") (fun areas =>
  map_res (fun k => bind (item areas k) (fun t =>
    bind (read_array t "position_center") (fun center =>
    bind (read_array t "normal_vector") (fun normal =>
    bind (read_number t "plane_e") (fun e =>
    bind (read_number t "plane_u") (fun u => Ok (k, center, normal, e, u))))))) (keys areas)).
(** [TowerTargetAreasCylindrical.from_hdf5], tower_target_areas_cylindrical.py:104-193: name, radius, center, height,
    axis, normal and opening angle. *)
Definition load_cylindrical (file : h5) : res (list (string * R * array * R * array * array * R)) :=
  bind (item file "target_areas_cylindrical") (fun areas =>
  map_res (fun k => bind (item areas k) (fun t =>
    bind (read_number t "cylinder_radius") (fun radius =>
    bind (read_array t "cylinder_center") (fun center =>
    bind (read_number t "cylinder_height") (fun height =>
    bind (read_array t "cylinder_axis") (fun axis =>
    bind (read_array t "cylinder_normal") (fun normal =>
    bind (read_number t "cylinder_opening_angle") (fun opening => Ok (k, radius, center, height, axis, normal, opening))))))))) (keys areas)).
(** [LightSourceArray.from_hdf5], light_source_array.py:46-98, and [Sun.from_hdf5], sun.py:121-197 with the constructor
    52-119: number of rays, mean and covariance.  A non-positive covariance is rejected by [MultivariateNormal]. *)
Definition load_sun (config : h5) : res (R * R * R) :=
  bind (read_number config "number_of_rays") (fun rays =>
  bind (item config "distribution_parameters") (fun parameters =>
  bind (read_text parameters "distribution_type") (fun type =>
  bind (if has_key parameters "mean" then bind (read_number parameters "mean") (fun x => Ok (Some x)) else Ok None) (fun mean =>
  bind (if has_key parameters "covariance" then bind (read_number parameters "covariance") (fun x => Ok (Some x)) else Ok None) (fun covariance =>
  if negb (String.eqb type "normal") then Err ValueError
  else match mean, covariance with
       | Some m, Some c => if Rlt_dec 0 c then Ok (rays, m, c) else Err ValueError
       | _, _ => Err KeyError
       end))))).
Definition load_light_sources (file : h5) : res (list (R * R * R)) :=
  bind (item file "lightsources") (fun sources =>
  map_res (fun k => bind (item sources k) (fun l => bind (read_text l "type") (fun type =>
    if String.eqb type "sun" then load_sun l else Err KeyError))) (keys sources)).
(** scenario.py:165-232. *)
Definition load_prototypes (file : h5) : res prototypes :=
  bind (item file "prototypes") (fun protos =>
  bind (bind (item protos "surface") surface_config) (fun facets =>
  bind (item protos "kinematics") (fun kinematics =>
  bind (read_array kinematics "initial_orientation") (fun orientation =>
  bind (read_text kinematics "type") (fun type =>
  bind (kinematics_deviations type kinematics) (fun '(translation, rotation, n) =>
  bind (item protos "actuator") (fun actuators =>
  bind (map_res (fun k => bind (item actuators k) (fun a => read_text a "type")) (keys actuators)) (fun types =>
  match types with
  | [] => Err ValueError
  | t :: _ =>
    if Nat.ltb 1 (List.length (nodup string_dec types)) then Err ValueError
    else bind (actuator_parameters actuators t n) (fun '(fixed, optimizable) =>
         Ok {| p_facets := facets; p_kinematics_type := type; p_orientation := orientation; p_translation := translation; p_rotation := rotation;
               p_actuator_type := t; p_fixed := fixed; p_optimizable := optimizable |})
  end)))))))).

(** [Scenario.load_scenario_from_hdf5], scenario.py:104-259, and [get_number_of_heliostat_groups_from_hdf5], 86-102. *)
Record scenario := { s_position : array; s_planar : list (string * array * array * R * R);
  s_cylindrical : list (string * R * array * R * array * array * R); s_light_sources : list (R * R * R); s_groups : list group }.
Definition load_scenario (file : h5) : res scenario :=
  bind (bind (item file "power_plant") (fun p => read_array p "position")) (fun position =>
  bind (load_planar file) (fun planar =>
  bind (load_cylindrical file) (fun cylindrical =>
  bind (load_light_sources file) (fun light_sources =>
  bind (load_prototypes file) (fun proto =>
  bind (load_field proto file) (fun groups =>
  Ok {| s_position := position; s_planar := planar; s_cylindrical := cylindrical; s_light_sources := light_sources; s_groups := groups |})))))).
Definition stored_number_of_groups (file : h5) : res R := read_number file "number_of_heliostat_groups".
