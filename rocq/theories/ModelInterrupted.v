(** Model of scenario files that are left behind when [H5ScenarioGenerator.generate_scenario] does not come to its end. *)
From Coq Require Import List String Reals.
From Verif Require Import ModelField ModelHdf5 ModelScenario.
Import ListNotations.
Local Open Scope string_scope.

(** The datasets in the order in which they are written, h5_scenario_generator.py:236-301, up to the heliostats ... *)
Definition section (prefix : string) (parameters : list (string * value)) : list (string * value) :=
  map (fun '(key, v) => (prefix ++ "/" ++ key, v)) parameters.
Definition datasets_before (c : scenario_config) : list (string * value) :=
  (("number_of_heliostat_groups", Array (Scalar (INR (number_of_heliostat_groups c))))
   :: section "power_plant" (flatten [("position", Leaf (Array (sc_position c)))])
   ++ section "target_areas_planar" (flatten (dict_of (map (fun t => (tp_key t, planar_dict t)) (sc_planar c))))
   ++ section "target_areas_cylindrical" (flatten (dict_of (map (fun t => (tc_key t, cylindrical_dict t)) (sc_cylindrical c))))
   ++ section "lightsources" (flatten (dict_of (map (fun l => (ls_key l, light_source_dict l)) (sc_light_sources c))))
   ++ section "prototypes" (flatten [("surface", surface_dict (pr_surface (sc_prototype c)));
        ("kinematics", kinematics_dict (pr_kinematics (sc_prototype c))); ("actuator", actuator_list_dict (pr_actuators (sc_prototype c)))]))%list.
(** ... and those of the heliostats, 293-301. *)
Definition heliostat_datasets (hs : list heliostat_config) : list (string * value) :=
  section "heliostats" (flatten (dict_of (map (fun h => (h_name h, heliostat_dict h)) hs))).
Definition datasets (c : scenario_config) : list (string * value) := (datasets_before c ++ heliostat_datasets (sc_heliostats c))%list.

(** Writing datasets one after the other, h5_scenario_generator.py:215-218 and 242-244. *)
Fixpoint write_datasets (file : list (string * h5)) (l : list (string * value)) : res (list (string * h5)) :=
  match l with
  | [] => Ok file
  | (path, v) :: rest =>
    match v with
    | NoValue => Err TypeError
    | _ => bind (put file (components path) v) (fun file' => write_datasets file' rest)
    end
  end.

(** The file if the generation ends after [k] datasets: [with h5py.File(save_name, "w") as f], h5_scenario_generator.py:236,
    closes the file when an exception leaves the block (an interrupt from the keyboard, a full disk, a value that cannot be stored), so
    that everything written before is kept; nothing is removed or renamed afterwards.  A process that is killed can leave any of these
    files too, or one that cannot be opened at all, which is not modelled. *)
Definition interrupted (c : scenario_config) (k : nat) : res h5 :=
  bind (write_datasets [] (firstn k (datasets c))) (fun links => Ok (Group links)).
