(** Model of loading calibration data ([artist/io/calibration_parser.py], [artist/io/paint_calibration_parser.py]) and of
    collecting files and heliostats from PAINT data ([artist/io/paint_scenario_parser.py]).  The contents of files are
    functions of their paths. *)
From Coq Require Import List Arith Bool String Reals.
From Verif Require Import ModelField ModelVectors ModelTransforms ModelHdf5 ModelScenario ModelCoordinates.
Import ListNotations.
Local Open Scope string_scope.

Section Calibration.
Variables property_path image_path bitmap : Type.

(** [min(len(paths), self.sample_limit or len(paths))]: the limits [None] and [0] both select [len(paths)]. *)
Definition number_of_measurements (sample_limit : option nat) (available : nat) : nat :=
  Nat.min available (match sample_limit with None | Some 0 => available | Some k => k end).
(** [dict(mapping).get(name, [])]. *)
Definition get_or_empty {A} (name : string) (d : list (string * list A)) : list A :=
  match find_link name (dict_of d) with Some l => l | None => [] end.

(** [CalibrationDataParser.load_flux_from_png], calibration_parser.py:112-212.  [decode] reads, resizes and normalizes
    one image.  The preallocated tensor has exactly as many entries as are written. *)
Definition load_flux (sample_limit : option nat) (decode : image_path -> bitmap) (mapping : list (string * list image_path)) (names : list string) : list bitmap :=
  flat_map (fun name => let paths := get_or_empty name mapping in
    map decode (firstn (number_of_measurements sample_limit (List.length paths)) paths)) names.

(** One calibration property file: target, focal spot (latitude, longitude, altitude), sun azimuth and elevation in
    degrees, motor positions. *)
Record properties := { c_target : string; c_focal_spot : R * R * R; c_azimuth : R; c_elevation : R; c_motors : R * R }.
(** What is returned for one measurement: focal spot, incident ray direction, motor positions and index of the target. *)
Record measurement := { m_focal_spot : hvec; m_incident : hvec; m_motors : R * R; m_target : nat }.
(** paint_calibration_parser.py:290-311 for one measurement. *)
Definition convert (power_plant : R * R * R) (target : nat) (p : properties) : measurement :=
  let spot := wgs84_to_enu (c_focal_spot p) power_plant in
  let sun := azimuth_elevation_to_enu 1 true (c_azimuth p) (c_elevation p) in
  {| m_focal_spot := hv (pe spot) (pn spot) (pu spot) 1;
     m_incident := hv (0 - pe sun) (0 - pn sun) (0 - pu sun) (1 - 1);
     m_motors := c_motors p; m_target := target |}.
(** Reading one file, 217-240: an unknown target raises [KeyError]. *)
Definition read_properties (read : property_path -> properties) (target_index : string -> option nat) (power_plant : R * R * R) (path : property_path) : res measurement :=
  match target_index (c_target (read path)) with Some t => Ok (convert power_plant t (read path)) | None => Err KeyError end.
(** [defaultdict(list)]: append to the list of a name. *)
Fixpoint append_to {A} (name : string) (xs : list A) (d : list (string * list A)) : list (string * list A) :=
  match d with
  | [] => [(name, xs)]
  | (k, l) :: d' => if String.eqb name k then (k, (l ++ xs)%list) :: d' else (k, l) :: append_to name xs d'
  end.
(** The loop 211-240. *)
Fixpoint collect (sample_limit : option nat) (read : property_path -> res measurement) (mapping : list (string * list property_path))
  (d : list (string * list measurement)) : res (list (string * list measurement)) :=
  match mapping with
  | [] => Ok d
  | (name, paths) :: mapping' =>
    bind (map_res read (firstn (number_of_measurements sample_limit (List.length paths)) paths)) (fun xs =>
    collect sample_limit read mapping' (append_to name xs d))
  end.
(** [PaintCalibrationDataParser._parse_calibration_data], 172-313: measurements in the order of [names], and how many
    there are per name. *)
Definition parse_calibration_data (sample_limit : option nat) (read : property_path -> res measurement) (mapping : list (string * list property_path))
  (names : list string) : res (list measurement * list nat) :=
  bind (collect sample_limit read mapping []) (fun d =>
  let per_name name := match find_link name d with Some l => l | None => [] end in
  Ok (flat_map per_name names, map (fun name => List.length (per_name name)) names)).
(** [parse_data_for_reconstruction], 70-170. *)
Definition parse_data (sample_limit : option nat) (decode : image_path -> bitmap) (read : property_path -> res measurement)
  (mapping : list (string * list property_path * list image_path)) (names : list string) : res (list bitmap * list measurement * list nat) :=
  let in_group := filter (fun '(name, _, _) => existsb (String.eqb name) names) mapping in
  let fluxes := load_flux sample_limit decode (map (fun '(name, _, images) => (name, images)) in_group) names in
  bind (parse_calibration_data sample_limit read (map (fun '(name, properties, _) => (name, properties)) in_group) names) (fun '(measurements, mask) =>
  Ok (fluxes, measurements, mask)).

(** [build_heliostat_data_mapping], paint_scenario_parser.py:1057-1135.  [listing name] is the shuffled or sorted list of
    property files of a heliostat, [None] without a calibration directory; [image_of] is the image file with the same
    identifier, [None] if it does not exist. *)
Fixpoint select_files (image_of : property_path -> option image_path) (wanted : nat) (files : list property_path)
  (properties : list property_path) (images : list image_path) : list property_path * list image_path :=
  match files with
  | [] => (properties, images)
  | f :: files' =>
    match image_of f with
    | None => select_files image_of wanted files' properties images
    | Some i =>
      let properties := (properties ++ [f])%list in
      let images := (images ++ [i])%list in
      if Nat.eqb (List.length properties) wanted then (properties, images) else select_files image_of wanted files' properties images
    end
  end.
Definition build_mapping (listing : string -> option (list property_path)) (image_of : string -> property_path -> option image_path) (wanted : nat)
  (names : list string) : list (string * list property_path * list image_path) :=
  flat_map (fun name =>
    match listing name with
    | None => []
    | Some files =>
      let '(properties, images) := select_files (image_of name) wanted files [] [] in
      match properties, images with _ :: _, _ :: _ => [(name, properties, images)] | _, _ => [] end
    end) names.
End Calibration.
Arguments load_flux {image_path bitmap}.
Arguments read_properties {property_path}.
Arguments collect {property_path}.
Arguments parse_calibration_data {property_path}.
Arguments parse_data {property_path image_path bitmap}.
Arguments select_files {property_path image_path}.
Arguments build_mapping {property_path image_path}.

(** [_process_heliostats_from_paths], paint_scenario_parser.py:668-802.  [extract] gives everything that is read from the
    files of one heliostat; the heliostat's index in the list of paths is its identifier.  The prototype is that of the
    last heliostat; with no heliostats the variables are not bound. *)
Definition process_heliostats {P} (extract : P -> list facet_config * kinematics_config * list actuator_config * (string * array)) (paths : list P)
  : res (list heliostat_config * prototype_config) :=
  let heliostat i p :=
    let '(facets, kinematics, actuators, (name, position)) := extract p in
    {| h_name := name; h_id := i; h_position := position; h_surface := Some facets; h_kinematics := Some kinematics; h_actuators := Some actuators |} in
  match rev paths with
  | [] => Err UnboundLocalError
  | last :: _ =>
    let '(facets, kinematics, actuators, _) := extract last in
    Ok (map (fun '(i, p) => heliostat i p) (combine (seq 0 (List.length paths)) paths), {| pr_surface := facets; pr_kinematics := kinematics; pr_actuators := actuators |})
  end.
(** [extract_paint_heliostats_mixed_surface], 913-1012; [fitted] holds for tuples with a deflectometry path. *)
Definition mixed_heliostats {P} (fitted : P -> bool) (ideal_surface fitted_surface : P -> list facet_config * kinematics_config * list actuator_config * (string * array))
  (paths : list P) : res (list heliostat_config * prototype_config) :=
  bind (process_heliostats ideal_surface (filter (fun p => negb (fitted p)) paths)) (fun '(ideal, prototype) =>
  bind (process_heliostats fitted_surface (filter fitted paths)) (fun '(others, _) =>
  Ok ((ideal ++ others)%list, prototype))).
