(** Model of reading PAINT files: [artist/io/paint_scenario_parser.py].  JSON objects are given as records of their optional
    members (a missing member raises [KeyError]) and the tower file, whose key order matters, as the list of its members in
    file order. *)
From Coq Require Import List Arith Bool String Reals.
From Verif Require Import ModelField ModelVectors ModelIntersections ModelCoordinates ModelLBVH.
Import ListNotations.
Local Open Scope R_scope.

(** ** Target areas *)

(** [corner_points_to_plane], paint_scenario_parser.py:1015-1054. *)
Definition corner_points_to_plane (upper_left upper_right lower_left lower_right : point) : R * R :=
  ((Rabs (pe upper_right - pe upper_left) + Rabs (pe lower_right - pe lower_left)) / 2,
   (Rabs (pu upper_left - pu lower_left) + Rabs (pu upper_right - pu lower_right)) / 2).
(** The planar target area of a tower file entry, paint_scenario_parser.py:108-143. *)
Definition plane_of_corners (center normal upper_left lower_left upper_right lower_right : point) : plane :=
  let '(plane_e, plane_u) := corner_points_to_plane upper_left upper_right lower_left lower_right in
  {| plane_center := center; plane_normal := normal; plane_width := plane_e; plane_height := plane_u |}.

(** The distance of the axis from a chord, [torch.sqrt(radius**2 - (torch.norm(chord) / 2) ** 2)],
    paint_scenario_parser.py:199-204; [None] is NaN. *)
Definition distance_to_center (radius : R) (chord : point) : option R :=
  let d := radius ^ 2 - (norm chord / 2) ^ 2 in if Rlt_dec d 0 then None else Some (sqrt d).
(** The cylindrical target area of a tower file entry, paint_scenario_parser.py:176-227; the opening angle is in radians. *)
Definition cylinder_of_corners (radius opening_angle : R) (normal upper_left lower_left upper_right lower_right : point) : option cylinder :=
  let ortho_radius := cross normal (vec 0 0 1) in
  let axis := normalize (cross ortho_radius normal) in
  let midpoint_lower := smul (/ 2) (vadd lower_left lower_right) in
  let midpoint_upper := smul (/ 2) (vadd upper_left upper_right) in
  match distance_to_center radius (vsub lower_right lower_left), distance_to_center radius (vsub upper_right upper_left) with
  | Some d_lower, Some d_upper =>
    let center_lower := vsub midpoint_lower (smul d_lower normal) in
    let center_upper := vsub midpoint_upper (smul d_upper normal) in
    Some {| cyl_center := smul (/ 2) (vadd center_lower center_upper); cyl_axis := axis; cyl_normal := normal; cyl_radius := radius;
            cyl_height := norm (vsub center_lower center_upper); cyl_opening := opening_angle |}
  | _, _ => None
  end.

(** ** The tower file *)

(** One member of the tower file: its type, for the power plant its position, named points (latitude, longitude, altitude),
    normal vector, radius and opening angle in degrees. *)
Record tower_entry := { te_type : option string; te_position : option (R * R * R); te_points : string -> option (R * R * R);
  te_normal : option point; te_radius : option R; te_opening : option R }.
(** [d[key]]. *)
Definition need {A} (o : option A) : res A := match o with Some a => Ok a | None => Err KeyError end.
Fixpoint entry_of (key : string) (file : list (string * tower_entry)) : option tower_entry :=
  match file with [] => None | (k, e) :: file' => if String.eqb k key then Some e else entry_of key file' end.
Definition power_plant_key : string := "power_plant_properties".

(** The corners in local coordinates, paint_scenario_parser.py:86-108 and 147-175. *)
Definition local_corners (reference : R * R * R) (prefix : string) (e : tower_entry) : res (point * point * point * point) :=
  let corner name := bind (need (te_points e (prefix ++ name))) (fun w => Ok (wgs84_to_enu w reference)) in
  bind (corner "upper_left"%string) (fun upper_left => bind (corner "lower_left"%string) (fun lower_left =>
  bind (corner "upper_right"%string) (fun upper_right => bind (corner "lower_right"%string) (fun lower_right =>
  Ok (upper_left, lower_left, upper_right, lower_right))))).
Definition planar_area (reference : R * R * R) (e : tower_entry) : res plane :=
  bind (local_corners reference "" e) (fun '(upper_left, lower_left, upper_right, lower_right) =>
  bind (need (te_points e "center")) (fun center => bind (need (te_normal e)) (fun normal =>
  Ok (plane_of_corners (wgs84_to_enu center reference) normal upper_left lower_left upper_right lower_right)))).
Definition cylindrical_area (reference : R * R * R) (key : string) (e : tower_entry) : res (option cylinder) :=
  bind (local_corners reference (if String.eqb key "receiver" then "receiver_inner_" else "") e) (fun '(upper_left, lower_left, upper_right, lower_right) =>
  bind (need (te_radius e)) (fun radius => bind (need (te_opening e)) (fun opening => bind (need (te_normal e)) (fun normal =>
  Ok (cylinder_of_corners radius (deg2rad opening) normal upper_left lower_left upper_right lower_right))))).

(** The loop over the target areas, paint_scenario_parser.py:84-229. *)
Fixpoint read_areas (reference : R * R * R) (entries : list (string * tower_entry))
  : res (list (string * plane) * list (string * option cylinder)) :=
  match entries with
  | [] => Ok ([], [])
  | (key, e) :: entries' =>
    bind (need (te_type e)) (fun type =>
    bind (if String.eqb type "planar" then bind (planar_area reference e) (fun a => Ok [(key, a)]) else Ok []) (fun planar =>
    bind (if String.eqb type "convex_cylinder" then bind (cylindrical_area reference key e) (fun a => Ok [(key, a)]) else Ok []) (fun cylindrical =>
    bind (read_areas reference entries') (fun '(planars, cylindricals) => Ok (planar ++ planars, cylindrical ++ cylindricals)%list))))
  end.
(** [extract_paint_tower_measurements], paint_scenario_parser.py:39-248: the first key of the file is skipped. *)
Definition read_tower (file : list (string * tower_entry))
  : res ((R * R * R) * list (string * plane) * list (string * option cylinder)) :=
  bind (need (entry_of power_plant_key file)) (fun plant => bind (need (te_position plant)) (fun position =>
  bind (read_areas position (tl file)) (fun '(planars, cylindricals) => Ok (position, planars, cylindricals)))).

(** ** Heliostat files *)

(** The facets of [extract_paint_heliostat_properties], paint_scenario_parser.py:306-355: the loop runs over the number of
    facets in the file and indexes the list of facets.  The scalar members of the file are copied one by one
    (paint_scenario_parser.py:287-304, 356-471) and not modelled. *)
Fixpoint read_listed {A} (facets : list A) (indices : list nat) : res (list A) :=
  match indices with
  | [] => Ok []
  | i :: indices' => match nth_error facets i with
    | None => Err IndexError
    | Some f => bind (read_listed facets indices') (fun fs => Ok (f :: fs))
    end
  end.
Definition read_heliostat_facets {A} (number_of_facets : nat) (facets : list A) : res (list A) := read_listed facets (seq 0 number_of_facets).

(** Rows assigned one after the other to a tensor of [torch.empty(number_of_points, 3)], paint_scenario_parser.py:511-537;
    [None] is a row that was never assigned. *)
Definition assign_rows {A} (number_of_points : nat) (rows : list A) : res (list (option A)) :=
  if (List.length rows <=? number_of_points)%nat then Ok (map Some rows ++ repeat None (number_of_points - List.length rows))%list else Err IndexError.
(** One facet of [extract_paint_deflectometry_data], paint_scenario_parser.py:500-537. *)
Definition deflectometry_facet {A} (points normals : list A) : res (list (option A) * list (option A)) :=
  bind (assign_rows (List.length points) points) (fun ps => bind (assign_rows (List.length points) normals) (fun ns => Ok (ps, ns))).
(** The whole file: group [facetN] for N from 1, here position N - 1 of [file]; a missing group raises [KeyError]. *)
Definition read_deflectometry {A} (number_of_facets : nat) (file : nat -> option (list A * list A)) : res (list (list (option A) * list (option A))) :=
  map_res (fun f => bind (need (file f)) (fun '(points, normals) => deflectometry_facet points normals)) (seq 0 number_of_facets).

(** ** Lists of heliostats *)

(** Name, path of the properties file, and optional path of the deflectometry file. *)
Definition heliostat_path (F : Type) : Type := string * F * option F.
(** [HeliostatConfig], config.py:1100-1180: everything but the surface comes from the properties file. *)
Record heliostat_entry (P S : Type) := { he_name : string; he_id : nat; he_properties : P; he_surface : S }.
Arguments he_name {P S}. Arguments he_id {P S}. Arguments he_properties {P S}. Arguments he_surface {P S}.
Arguments Build_heliostat_entry {P S}.

Section Heliostats.
Context {F P S : Type} (properties : F -> res P) (ideal : P -> res S) (fitted : P -> F -> res S).

(** One heliostat, paint_scenario_parser.py:708-777. *)
Definition process_heliostat (surface : heliostat_path F -> P -> res S) (index : nat) (path : heliostat_path F) : res (heliostat_entry P S) :=
  bind (properties (snd (fst path))) (fun p => bind (surface path p) (fun s => Ok (Build_heliostat_entry (fst (fst path)) index p s))).
Fixpoint process_all (surface : heliostat_path F -> P -> res S) (index : nat) (paths : list (heliostat_path F)) : res (list (heliostat_entry P S)) :=
  match paths with
  | [] => Ok []
  | p :: paths' => bind (process_heliostat surface index p) (fun h => bind (process_all surface (Datatypes.S index) paths') (fun hs => Ok (h :: hs)))
  end.
(** [_process_heliostats_from_paths], paint_scenario_parser.py:668-802: the prototype is taken from the variables left by
    the last round of the loop. *)
Definition process_paths (surface : heliostat_path F -> P -> res S) (paths : list (heliostat_path F)) : res (list (heliostat_entry P S) * (P * S)) :=
  bind (process_all surface 0 paths) (fun hs =>
  match rev hs with [] => Err UnboundLocalError | h :: _ => Ok (hs, (he_properties h, he_surface h)) end).

Definition has_deflectometry (path : heliostat_path F) : bool := match snd path with Some _ => true | None => false end.
(** [_ideal_surface_generator] and [_fitted_surface_generator], paint_scenario_parser.py:545-665. *)
Definition ideal_generator (path : heliostat_path F) (p : P) : res S := ideal p.
Definition fitted_generator (path : heliostat_path F) (p : P) : res S :=
  match snd path with Some d => fitted p d | None => Err IndexError end.
(** [extract_paint_heliostats_ideal_surface], [extract_paint_heliostats_fitted_surface] and
    [extract_paint_heliostats_mixed_surface], paint_scenario_parser.py:805-1012. *)
Definition ideal_heliostats := process_paths ideal_generator.
Definition fitted_heliostats := process_paths fitted_generator.
Definition mixed_heliostats (paths : list (heliostat_path F)) : res (list (heliostat_entry P S) * (P * S)) :=
  let fitted_paths := filter has_deflectometry paths in
  let ideal_paths := filter (fun p => negb (has_deflectometry p)) paths in
  bind (ideal_heliostats ideal_paths) (fun '(ideals, prototype) => bind (fitted_heliostats fitted_paths) (fun '(fitteds, _) =>
  Ok (ideals ++ fitteds, prototype)%list)).
End Heliostats.
