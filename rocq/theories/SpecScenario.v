(** Vocabulary of the scenario round trip (C59, C67, C79, C80). *)
From Coq Require Import List Bool String Reals.
From Verif Require Import ModelHdf5 SpecHdf5 ModelScenario.
Import ListNotations.
Local Open Scope string_scope.

(** A list in alphabetical order of its names. *)
Fixpoint insert_by {A} (name : A -> string) (x : A) (l : list A) : list A :=
  match l with
  | [] => [x]
  | y :: l' => match String.compare (name x) (name y) with Gt => y :: insert_by name x l' | _ => x :: l end
  end.
Definition in_order {A} (name : A -> string) (l : list A) : list A := fold_right (insert_by name) [] l.

(** What a heliostat is configured to have: its own parts, or the prototype's. *)
Definition facets_of (c : scenario_config) (h : heliostat_config) : list facet_config :=
  match h_surface h with Some s => s | None => pr_surface (sc_prototype c) end.
Definition kinematics_of (c : scenario_config) (h : heliostat_config) : kinematics_config :=
  match h_kinematics h with Some k => k | None => pr_kinematics (sc_prototype c) end.
Definition actuators_of (c : scenario_config) (h : heliostat_config) : list actuator_config :=
  match h_actuators h with Some a => a | None => pr_actuators (sc_prototype c) end.
(** Optional parameters default to zero. *)
Definition or_zero {D} (values : option (D -> option R)) (d : D) : R :=
  match values with Some v => match v d with Some x => x | None => 0%R end | None => 0%R end.
(** Parameter columns of an actuator. *)
Definition clockwise_number (a : actuator_config) : R := if ac_clockwise a then 1%R else 0%R.
Definition fixed_column (a : actuator_config) : list R :=
  if String.eqb (ac_type a) "linear"
  then [0%R; clockwise_number a; ac_min a; ac_max a; or_zero (ac_parameters a) Increment; or_zero (ac_parameters a) Offset; or_zero (ac_parameters a) PivotRadius]
  else [1%R; clockwise_number a; ac_min a; ac_max a].
(** Linear actuators have an initial angle, shifted by a quarter turn for the first one, and an initial stroke length. *)
Definition optimizable_columns (l : list actuator_config) : list (list R) :=
  match l with
  | [a; b] => if String.eqb (ac_type a) "linear"
              then [[(or_zero (ac_parameters a) InitialAngle - PI / 2)%R; or_zero (ac_parameters a) InitialStrokeLength];
                    [or_zero (ac_parameters b) InitialAngle; or_zero (ac_parameters b) InitialStrokeLength]]
              else []
  | _ => []
  end.
Definition as_loaded (f : facet_config) : facet :=
  {| lf_control_points := f_control_points f; lf_degrees := f_degrees f; lf_translation := f_translation f; lf_canting := f_canting f |}.
Definition expected (c : scenario_config) (h : heliostat_config) : heliostat :=
  let actuators := in_order ac_key (actuators_of c h) in
  {| l_name := h_name h; l_position := h_position h;
     l_facets := map as_loaded (in_order f_key (facets_of c h));
     l_kinematics_type := k_type (kinematics_of c h); l_orientation := k_orientation (kinematics_of c h);
     l_translation := map (or_zero (k_deviations (kinematics_of c h)))
       [FirstTranslationE; FirstTranslationN; FirstTranslationU; SecondTranslationE; SecondTranslationN; SecondTranslationU;
        ConcentratorTranslationE; ConcentratorTranslationN; ConcentratorTranslationU];
     l_rotation := map (or_zero (k_deviations (kinematics_of c h))) [FirstTiltN; FirstTiltU; SecondTiltE; SecondTiltN];
     l_actuator_type := match actuators with a :: _ => ac_type a | [] => "" end;
     l_fixed := map fixed_column actuators; l_optimizable := optimizable_columns actuators |}.

(** ** Configurations that can be written and loaded again *)
Definition named {A} (name : A -> string) (l : list A) : Prop := NoDup (map name l) /\ forall x, In x l -> proper_name (name x).
Definition valid_surface (facets : list facet_config) : Prop := named f_key facets /\ forall f, In f facets -> exists u v, f_degrees f = Rows [Scalar u; Scalar v].
Definition valid_kinematics (k : kinematics_config) : Prop := k_type k = "rigid_body".
Definition valid_actuators (l : list actuator_config) : Prop :=
  named ac_key l /\ List.length l = 2 /\ exists t, (t = "linear" \/ t = "ideal") /\ forall a, In a l -> ac_type a = t.
Definition valid_light_source (l : light_source_config) : Prop :=
  ls_type l = "sun" /\ ls_distribution l = "normal" /\ (exists m, ls_mean l = Some m) /\ exists v, ls_covariance l = Some v /\ (0 < v)%R.
Record valid (c : scenario_config) : Prop := {
  valid_planar : sc_planar c <> [] /\ named tp_key (sc_planar c);
  valid_cylindrical : sc_cylindrical c <> [] /\ named tc_key (sc_cylindrical c);
  valid_light_sources : sc_light_sources c <> [] /\ named ls_key (sc_light_sources c) /\ forall l, In l (sc_light_sources c) -> valid_light_source l;
  valid_heliostats : sc_heliostats c <> [] /\ named h_name (sc_heliostats c);
  valid_prototype : pr_surface (sc_prototype c) <> [] /\ valid_surface (pr_surface (sc_prototype c))
    /\ valid_kinematics (pr_kinematics (sc_prototype c)) /\ valid_actuators (pr_actuators (sc_prototype c));
  (** All facets of all heliostats have the same number of control points and all heliostats the same number of facets. *)
  valid_facets : exists s, forall h f, In h (sc_heliostats c) -> In f (facets_of c h) -> shape (f_control_points f) = s;
  valid_parts : forall h, In h (sc_heliostats c) ->
    (forall s, h_surface h = Some s -> valid_surface s /\ List.length s = List.length (pr_surface (sc_prototype c)))
    /\ (forall k, h_kinematics h = Some k -> valid_kinematics k)
    /\ (forall a, h_actuators h = Some a -> valid_actuators a)
}.
(** Every heliostat with actuators of its own also has kinematics of its own, or comes after a heliostat with kinematics of its own in
    alphabetical order. *)
Definition kinematics_available (c : scenario_config) : Prop :=
  forall before h after, in_order h_name (sc_heliostats c) = (before ++ h :: after)%list -> h_actuators h <> None ->
  exists h', In h' (before ++ [h])%list /\ h_kinematics h' <> None.
(** The key of the group a heliostat belongs to. *)
Definition key_of (h : heliostat) : string := l_kinematics_type h ++ "_" ++ l_actuator_type h.

(** ** Configurations that can be written *)
Record writable (c : scenario_config) : Prop := {
  writable_planar : named tp_key (sc_planar c);
  writable_cylindrical : named tc_key (sc_cylindrical c);
  writable_light_sources : named ls_key (sc_light_sources c)
    /\ forall l, In l (sc_light_sources c) -> ls_distribution l = "normal" /\ ls_mean l <> None /\ ls_covariance l <> None;
  writable_prototype : named f_key (pr_surface (sc_prototype c)) /\ named ac_key (pr_actuators (sc_prototype c));
  writable_heliostats : named h_name (sc_heliostats c);
  writable_parts : forall h, In h (sc_heliostats c) ->
    (forall s, h_surface h = Some s -> named f_key s /\ List.length s = List.length (pr_surface (sc_prototype c)))
    /\ (forall a, h_actuators h = Some a -> named ac_key a)
}.
(** The nested dictionary of a configuration. *)
Definition entries {A} (name : A -> string) (dict : A -> tree) (l : list A) : tree := Node (map (fun x => (name x, dict x)) l).
Definition array_entry (name : string) (a : array) : string * tree := (name, Leaf (Array a)).
Definition facet_entries (f : facet_config) : tree :=
  Node [array_entry "control_points" (f_control_points f); array_entry "degrees" (f_degrees f);
        array_entry "position" (f_translation f); array_entry "canting" (f_canting f)].
Definition surface_entries (s : list facet_config) : tree := Node [("facets", entries f_key facet_entries s)].
Definition optional_entries {D} (name : D -> string) (all : list D) (values : D -> option R) : tree :=
  Node (flat_map (fun d => match values d with Some x => [array_entry (name d) (Scalar x)] | None => [] end) all).
Definition kinematics_entries (k : kinematics_config) : tree :=
  Node (("type", Leaf (Text (k_type k))) :: array_entry "initial_orientation" (k_orientation k)
        :: match k_deviations k with Some v => [("deviations", optional_entries deviation_name deviations_in_order v)] | None => [] end).
Definition actuator_entries (a : actuator_config) : tree :=
  Node (("type", Leaf (Text (ac_type a))) :: ("clockwise_axis_movement", Leaf (Flag (ac_clockwise a)))
        :: array_entry "min_max_motor_positions" (Rows [Scalar (ac_min a); Scalar (ac_max a)])
        :: match ac_parameters a with
           | Some v => [("parameters", optional_entries parameter_name [Increment; InitialStrokeLength; Offset; PivotRadius; InitialAngle] v)]
           | None => [] end).
Definition part {A} (name : string) (dict : A -> tree) (x : option A) : list (string * tree) := match x with Some x => [(name, dict x)] | None => [] end.
Definition heliostat_entries (h : heliostat_config) : tree :=
  Node (array_entry "id" (Scalar (INR (h_id h))) :: array_entry "position" (h_position h)
        :: part "surface" surface_entries (h_surface h) ++ part "kinematics" kinematics_entries (h_kinematics h)
        ++ part "actuator" (entries ac_key actuator_entries) (h_actuators h))%list.
Definition planar_entries (t : planar_config) : tree :=
  Node [array_entry "position_center" (tp_center t); array_entry "normal_vector" (tp_normal t);
        array_entry "plane_e" (Scalar (tp_plane_e t)); array_entry "plane_u" (Scalar (tp_plane_u t))].
Definition cylindrical_entries (t : cylindrical_config) : tree :=
  Node [array_entry "cylinder_radius" (Scalar (tc_radius t)); array_entry "cylinder_center" (tc_center t);
        array_entry "cylinder_height" (Scalar (tc_height t)); array_entry "cylinder_axis" (tc_axis t);
        array_entry "cylinder_normal" (tc_normal t); array_entry "cylinder_opening_angle" (Scalar (tc_opening t))].
Definition light_source_entries (l : light_source_config) : tree :=
  Node [("type", Leaf (Text (ls_type l))); array_entry "number_of_rays" (Scalar (INR (ls_rays l)));
        ("distribution_parameters", Node (("distribution_type", Leaf (Text (ls_distribution l)))
          :: match ls_mean l with Some m => [array_entry "mean" (Scalar m)] | None => [] end
          ++ match ls_covariance l with Some v => [array_entry "covariance" (Scalar v)] | None => [] end)%list)].
(** Everything but the number of groups. *)
Definition configured (c : scenario_config) : tree :=
  Node [("power_plant", Node [array_entry "position" (sc_position c)]);
        ("target_areas_planar", entries tp_key planar_entries (sc_planar c));
        ("target_areas_cylindrical", entries tc_key cylindrical_entries (sc_cylindrical c));
        ("lightsources", entries ls_key light_source_entries (sc_light_sources c));
        ("prototypes", Node [("surface", surface_entries (pr_surface (sc_prototype c)));
                             ("kinematics", kinematics_entries (pr_kinematics (sc_prototype c)));
                             ("actuator", entries ac_key actuator_entries (pr_actuators (sc_prototype c)))]);
        ("heliostats", entries h_name heliostat_entries (sc_heliostats c))].
