(** C60, C61, C82, C83: calibration data and heliostats from files. *)
From Coq Require Import List Arith Bool String Lia Reals.
From Verif Require Import ModelField ModelVectors ModelTransforms ModelHdf5 ModelScenario ModelCalibration SpecCalibration ProofsScenario ProofsCalibration.
Import ListNotations.
Local Open Scope string_scope.

(** C60: fluxes, measurements and mask are those of one list of samples, in which the name, the property file and the
    image belong together. *)
Theorem C60_paired : forall (P G B : Type) limit (decode : G -> B) (read : P -> res measurement) mapping names,
  NoDup (map (fun '(n, _, _) => n) mapping) ->
  (forall n ps gs, In (n, ps, gs) mapping -> List.length ps = List.length gs) ->
  (forall n ps gs p, In (n, ps, gs) mapping -> In p ps -> exists m, read p = Ok m) ->
  exists limit' fluxes measurements mask, (limit <> Some 0 -> limit' = limit)
    /\ parse_data limit decode read mapping names = Ok (fluxes, measurements, mask)
    /\ fluxes = map (fun s => decode (image_file s)) (samples limit' mapping names)
    /\ map Ok measurements = map (fun s => read (property_file s)) (samples limit' mapping names)
    /\ List.length mask = List.length names
    /\ repeated names mask = map owner (samples limit' mapping names).
Proof. exact paired_any_limit. Qed.
Print Assumptions C60_paired.

(** The first hypothesis is needed. A heliostat listed twice: only its last images are loaded, but the properties of both entries. *)
Theorem C60_without_unique_names : exists (mapping : list (string * list nat * list nat)) (read : nat -> res measurement) fluxes measurements mask,
  (forall n ps gs, In (n, ps, gs) mapping -> List.length ps = List.length gs)
  /\ parse_data None (fun g : nat => g) read mapping ["A"] = Ok (fluxes, measurements, mask) /\ List.length fluxes <> List.length measurements.
Proof.
  exists [("A", [1], [1]); ("A", [2], [2])], (fun p => Ok {| m_focal_spot := hv 0 0 0 1; m_incident := hv 0 0 0 0; m_motors := (0%R, 0%R); m_target := p |}).
  eexists _, _, _. split; [intros n ps gs [I|[I|[]]]; injection I as <- <- <-; auto|]. split; [reflexivity|]. cbn. lia.
Qed.
Print Assumptions C60_without_unique_names.

Example C60_case :
  let mapping := [("B", [4; 5], [40; 50]); ("X", [9], [90]); ("A", [1; 2; 3], [10; 20; 30])] in
  let read p := Ok {| m_focal_spot := hv 0 0 0 1; m_incident := hv 0 0 0 0; m_motors := (0%R, 0%R); m_target := p |} in
  exists measurements, parse_data (Some 2) (fun g : nat => g) read mapping ["A"; "C"; "B"] = Ok ([10; 20; 40; 50], measurements, [2; 0; 2])
    /\ map m_target measurements = [1; 2; 4; 5]
    /\ samples (Some 2) mapping ["A"; "C"; "B"] = [("A", 1, 10); ("A", 2, 20); ("B", 4, 40); ("B", 5, 50)].
Proof. eexists. split; [reflexivity|]. split; reflexivity. Qed.

(** Incident rays come from the sun: the direction of every measurement is opposite to the sun's position. *)
Theorem C60_incident_direction : forall plant t p, let m := convert plant t p in
  hadd4 (m_incident m) (sun_position p) = hv 0 0 0 0 /\ m_motors m = c_motors p /\ m_target m = t.
Proof. exact incident_opposite. Qed.
Print Assumptions C60_incident_direction.

(** C61 (full statement: with a sample limit, at most that many samples per heliostat are loaded, and fluxes, measurements and mask agree
    on their number).  With a positive limit they do. *)
Theorem C61_limit_partial : forall (P G B : Type) (decode : G -> B) (read : P -> res measurement) k mapping names fluxes measurements mask, 0 < k ->
  NoDup (map (fun '(n, _, _) => n) mapping) -> NoDup names -> (forall n ps gs, In (n, ps, gs) mapping -> List.length ps = List.length gs) ->
  (forall s, In s (samples (Some k) mapping names) -> exists m, read (property_file s) = Ok m) ->
  parse_data (Some k) decode read mapping names = Ok (fluxes, measurements, mask) ->
  List.length mask = List.length names /\ (forall n, In n mask -> n <= k)
  /\ List.length fluxes = list_sum mask /\ List.length measurements = list_sum mask.
Proof. exact limited. Qed.
Print Assumptions C61_limit_partial.

(** The limit zero means no limit, for all data. *)
Theorem C61_zero_refuted : forall (P G B : Type) (decode : G -> B) (read : P -> res measurement) mapping names,
  parse_data (Some 0) decode read mapping names = parse_data None decode read mapping names.
Proof. exact zero_is_none. Qed.
Print Assumptions C61_zero_refuted.

Example C61_case : let mapping := [("B", [4; 5], [40; 50]); ("A", [1; 2; 3], [10; 20; 30])] in
  let read p := Ok {| m_focal_spot := hv 0 0 0 1; m_incident := hv 0 0 0 0; m_motors := (0%R, 0%R); m_target := p |} in
  (exists measurements, parse_data (Some 2) (fun g : nat => g) read mapping ["A"; "B"] = Ok ([10; 20; 40; 50], measurements, [2; 2]))
  /\ (exists measurements, parse_data (Some 0) (fun g : nat => g) read mapping ["A"; "B"] = Ok ([10; 20; 30; 40; 50], measurements, [3; 2])).
Proof. split; eexists; reflexivity. Qed.

(** C82: the data mapping built from a directory. *)
Theorem C82_mapping_partial : forall P G (listing : string -> option (list P)) (image_of : string -> P -> option G) wanted names, wanted <> 0 -> NoDup names ->
  NoDup (map (fun '(n, _, _) => n) (build_mapping listing image_of wanted names))
  /\ forall n ps gs, In (n, ps, gs) (build_mapping listing image_of wanted names) ->
     In n names /\ List.length ps = List.length gs /\ 0 < List.length ps <= wanted
     /\ (exists files, listing n = Some files /\ forall p, In p ps -> In p files)
     /\ forall j p g, nth_error ps j = Some p -> nth_error gs j = Some g -> image_of n p = Some g.
Proof. exact build_properties. Qed.
Print Assumptions C82_mapping_partial.

(** As many as wanted: the first [wanted] property files that have an image, in the order of the listing. *)
Theorem C82_first_files_partial : forall P G (listing : string -> option (list P)) (image_of : string -> P -> option G) wanted names, wanted <> 0 ->
  build_mapping listing image_of wanted names
  = flat_map (fun name => match listing name with
      | None => []
      | Some files => match firstn wanted (flat_map (fun f => match image_of name f with Some g => [(f, g)] | None => [] end) files) with
          | [] => []
          | chosen => [(name, map fst chosen, map snd chosen)]
          end
      end) names.
Proof. exact build_ok. Qed.
Print Assumptions C82_first_files_partial.

(** Asking for no measurements returns all of them: every heliostat with a measured image comes back with all of its
    measurements. *)
Theorem C82_zero_refuted : forall P G (listing : string -> option (list P)) (image_of : string -> P -> option G) names name files,
  In name names -> listing name = Some files -> (exists f, In f files /\ image_of name f <> None) ->
  exists ps gs, In (name, ps, gs) (build_mapping listing image_of 0 names)
  /\ forall f, In f ps <-> In f files /\ image_of name f <> None.
Proof. exact zero_is_everything. Qed.
Print Assumptions C82_zero_refuted.

Example C82_zero_case : build_mapping (fun _ => Some [1; 2; 3]) (fun _ p => if Nat.eqb p 2 then None else Some (10 * p)) 0 ["A"] = [("A", [1; 3], [10; 30])].
Proof. reflexivity. Qed.

Example C82_case :
  build_mapping (fun n => if String.eqb n "A" then Some [3; 1; 2; 4] else if String.eqb n "B" then Some [] else None)
    (fun _ p => if Nat.eqb p 1 then None else Some (10 * p)) 2 ["A"; "B"; "C"] = [("A", [3; 2], [30; 20])].
Proof. reflexivity. Qed.

(** C83: heliostats with measured and with ideal surfaces. *)
Theorem C83_mixed_partial : forall P (fitted : P -> bool) (ideal_surface fitted_surface : P -> list facet_config * kinematics_config * list actuator_config * (string * array)) paths,
  (exists p, In p paths /\ fitted p = true) -> (exists p, In p paths /\ fitted p = false) ->
  exists hs proto, mixed_heliostats fitted ideal_surface fitted_surface paths = Ok (hs, proto)
  /\ map (fun h => (h_name h, h_position h, h_surface h, h_kinematics h, h_actuators h)) hs
     = map (fun p => let '(facets, kinematics, actuators, (name, position)) := (if fitted p then fitted_surface p else ideal_surface p) in (name, position, Some facets, Some kinematics, Some actuators))
         (filter (fun p => negb (fitted p)) paths ++ filter fitted paths).
Proof. exact mixed_ok. Qed.
Print Assumptions C83_mixed_partial.

(** With measured surfaces only, or ideal surfaces only, nothing is returned. *)
Theorem C83_only_one_kind_refuted : forall P (fitted : P -> bool) ideal_surface fitted_surface paths,
  (forall p, In p paths -> fitted p = true) \/ (forall p, In p paths -> fitted p = false) ->
  mixed_heliostats fitted ideal_surface fitted_surface paths = Err UnboundLocalError.
Proof. exact mixed_fails. Qed.
Print Assumptions C83_only_one_kind_refuted.

(** Identifiers are given twice, in every field with heliostats of both kinds. *)
Theorem C83_identifiers_refuted : forall P (fitted : P -> bool) ideal_surface fitted_surface paths hs proto,
  mixed_heliostats fitted ideal_surface fitted_surface paths = Ok (hs, proto) -> ~ NoDup (map h_id hs).
Proof. exact mixed_ids_repeat. Qed.
Print Assumptions C83_identifiers_refuted.

Example C83_identifiers_case : exists hs proto,
  mixed_heliostats (Nat.eqb 1) (fun p => ([], sample_kinematics, [], ("A", Scalar 0))) (fun p => ([], sample_kinematics, [], ("B", Scalar 0))) [0; 1] = Ok (hs, proto)
  /\ NoDup (map h_name hs) /\ map h_id hs = [0; 0].
Proof. eexists _, _. split; [reflexivity|]. split; [repeat (constructor; [cbn; intuition discriminate|]); constructor|reflexivity]. Qed.

Example C83_case : exists hs proto, mixed_heliostats (Nat.eqb 1) (fun p => ([], sample_kinematics, [], ("ideal", Scalar 0))) (fun p => ([], sample_kinematics, [], ("fitted", Scalar 0))) [1; 0; 2] = Ok (hs, proto)
  /\ map h_name hs = ["ideal"; "ideal"; "fitted"].
Proof. eexists _, _. split; reflexivity. Qed.
