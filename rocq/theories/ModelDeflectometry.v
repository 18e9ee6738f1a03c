(** Model of the choice of deflectometry files in [examples/field_optimizations/generate_scenarios.py] and
    [examples/paint_plots/flux_prediction_scenario.py]. *)
From Coq Require Import List Arith String Ascii Bool.
Import ListNotations.
Local Open Scope string_scope.

(** [sorted] for file names, which Python compares character by character. *)
Fixpoint insert_name (x : string) (l : list string) : list string :=
  match l with
  | [] => [x]
  | y :: l' => match String.compare x y with Gt => y :: insert_name x l' | _ => x :: l end
  end.
Definition sorted_names (l : list string) : list string := fold_right insert_name [] l.

(** The text [s] ends with [tail]. *)
Fixpoint ends_with (tail s : string) : bool :=
  if String.eqb s tail then true else match s with EmptyString => false | String _ s' => ends_with tail s' end.
(** The rest of [s] behind [head], if [s] begins with it. *)
Fixpoint behind (head s : string) : option string :=
  match head, s with
  | EmptyString, _ => Some s
  | String x head', String y s' => if Ascii.eqb x y then behind head' s' else None
  | String _ _, EmptyString => None
  end.
(** A file name matches the pattern [{heliostat_name}-filled*.h5], generate_scenarios.py:51 and flux_prediction_scenario.py:72.
    Simplification: heliostat names contain no wildcard characters. *)
Definition matches (heliostat file : string) : bool :=
  match behind (heliostat ++ "-filled") file with Some rest => ends_with ".h5" rest | None => false end.

(** [find_latest_deflectometry_file], generate_scenarios.py:28-55 and flux_prediction_scenario.py:46-78: [files] are the file names in the
    heliostat's deflectometry directory, empty if there is no such directory.  [None] is the returned None of the former and the
    FileNotFoundError of the latter. *)
Definition find_latest (heliostat : string) (files : list string) : option string :=
  match sorted_names (filter (matches heliostat) files) with
  | [] => None
  | l => Some (last l EmptyString)
  end.

(** [heliostat_files_list], generate_scenarios.py:182-196: name and deflectometry file of the heliostats that have one. *)
Fixpoint fitted_heliostats (directory : string -> list string) (names : list string) : list (string * string) :=
  match names with
  | [] => []
  | name :: names' =>
    match find_latest name (directory name) with
    | Some file => (name, file) :: fitted_heliostats directory names'
    | None => fitted_heliostats directory names'
    end
  end.

(** [heliostat_files_list] with deflectometry, flux_prediction_scenario.py:145-156: [None] if a FileNotFoundError is raised. *)
Fixpoint all_heliostats (directory : string -> list string) (names : list string) : option (list (string * string)) :=
  match names with
  | [] => Some []
  | name :: names' =>
    match find_latest name (directory name), all_heliostats directory names' with
    | Some file, Some files => Some ((name, file) :: files)
    | _, _ => None
    end
  end.
