(** Model of the files of the field optimization study, [examples/field_optimizations/generate_results.py]: how a run picks its number,
    which files it writes and which intermediate results it takes from files. *)
From Coq Require Import List Arith String Ascii Bool Decimal DecimalString.
Import ListNotations.
Local Open Scope string_scope.
Local Open Scope nat_scope.

(** ** Names *)
(** Python's [str] of a natural number, as in the f-strings at 1683, 790, 795, 798 and 402. *)
Definition decimal (n : nat) : string := NilEmpty.string_of_uint (Nat.to_uint n).
Definition digit_value (c : ascii) : option nat :=
  let k := nat_of_ascii c in if (48 <=? k) && (k <=? 57) then Some (k - 48) else None.
(** The rest of a name after a prefix. *)
Fixpoint after (p s : string) : option string :=
  match p, s with
  | EmptyString, _ => Some s
  | String a p', String b s' => if Ascii.eqb a b then after p' s' else None
  | String _ _, EmptyString => None
  end.
(** [(\d+)] followed by the suffix to the end, read from the left with the number so far; only the digits 0 to 9 count here, while [\d] also accepts
    other decimal digits. *)
Fixpoint digits_then (suffix s : string) (value : nat) : option nat :=
  if String.eqb s suffix then Some value else
  match s with
  | EmptyString => None
  | String c s' => match digit_value c with None => None | Some v => digits_then suffix s' (10 * value + v) end
  end.
(** The number that a file name stands for, lines 60-73: stem, then nothing or an underscore and at least one digit, then the suffix.
    A suffix starts with a dot, so that it cannot be mistaken for a digit; the line break that [$] admits at the end is left out. *)
Definition file_number (stem suffix name : string) : option nat :=
  match after stem name with
  | None => None
  | Some tail =>
    if String.eqb tail suffix then Some 0 else
    match after "_" tail with
    | Some (String c tail') => match digit_value c with None => None | Some v => digits_then suffix tail' v end
    | _ => None
    end
  end.
Definition existing_numbers (stem suffix : string) (names : list string) : list nat :=
  flat_map (fun name => match file_number stem suffix name with Some k => [k] | None => [] end) names.
(** The loop in lines 75-77; the fuel is the number of existing numbers, which is enough. *)
Fixpoint next_number (fuel candidate : nat) (existing : list nat) : nat :=
  match fuel with
  | 0 => candidate
  | S fuel' => if existsb (Nat.eqb candidate) existing then next_number fuel' (S candidate) existing else candidate
  end.
(** [get_incremented_path_number], lines 43-78. *)
Definition incremented_number (stem suffix : string) (names : list string) : nat :=
  let existing := existing_numbers stem suffix names in next_number (List.length existing) 0 existing.

(** ** Files *)
Inductive directory := ResultsDirectory | StralDirectory.
Definition file : Type := directory * string.
Definition file_eqb (f g : file) : bool :=
  match fst f, fst g with ResultsDirectory, ResultsDirectory | StralDirectory, StralDirectory => String.eqb (snd f) (snd g) | _, _ => false end.
(** The file of the results, line 1683; the checkpoints, lines 789-799; the data for STRAL, line 402. *)
Inductive stage := KinematicsIdealSurfaces | Surfaces | KinematicsReconstructedSurfaces.
Definition results_file (n : nat) : file := (ResultsDirectory, "results_" ++ decimal n ++ ".pt").
Definition checkpoint_file (s : stage) (n : nat) : file :=
  (ResultsDirectory, match s with
    | KinematicsIdealSurfaces => "reconstructed_rotation_deviations_ideal_surface_"
    | Surfaces => "reconstructed_nurbs_control_points_"
    | KinematicsReconstructedSurfaces => "reconstructed_rotation_deviations_" end ++ decimal n ++ ".pt").
Definition stral_file (n : nat) : file := (StralDirectory, "reconstructed_heliostats_data_" ++ decimal n ++ ".pt").

Section Study.
(** Values of a study: tensors, tables, losses. *)
Context {V : Type}.
(** What a file holds: an intermediate result or the dictionary of results. *)
Inductive content := Value (v : V) | Dictionary (entries : list (string * list V)).
Definition files : Type := list (file * content).
Definition read (fs : files) (f : file) : option content := option_map snd (find (fun x => file_eqb (fst x) f) fs).
Definition write (fs : files) (f : file) (c : content) : files := (f, c) :: filter (fun x => negb (file_eqb (fst x) f)) fs.
Definition remove (fs : files) (f : file) : files := filter (fun x => negb (file_eqb (fst x) f)) fs.
Definition results_names (fs : files) : list string :=
  flat_map (fun x => match fst (fst x) with ResultsDirectory => [snd (fst x)] | StralDirectory => [] end) fs.
Definition study_number (fs : files) : nat := incremented_number "results" ".pt" (results_names fs).

(** What the study computes from its inputs: the distributions (create_distributions), the fluxes of the deflectometry surfaces, the positions, the
    reconstruction of the kinematics with ideal surfaces, of the surfaces, of the kinematics with given surfaces, the losses of each
    reconstruction, and the optimized aim points and the heliostat model from surfaces and kinematics. *)
Record study := { distributions : V; deflectometry : V; positions : V; reconstructed_ideal : V; reconstructed_surfaces : V;
  reconstructed_kinematics : V -> V; losses : stage -> V; aim_points : V -> V -> V; heliostat_model : V -> V -> V; run_info : V }.

(** A stage with a checkpoint, lines 908-980, 1068-1119 and 1172-1240: computed and saved if there is no file, else taken from it, with no
    losses.  A checkpoint that cannot be used as a value is taken as the given value here; there the loading fails. *)
Definition do_stage (n : nat) (s : stage) (v loss : V) (fs : files) : files * V * list V :=
  match read fs (checkpoint_file s n) with
  | None => (write fs (checkpoint_file s n) (Value v), v, [loss])
  | Some (Value w) => (fs, w, [])
  | Some (Dictionary _) => (fs, v, [])
  end.
(** The entries of the results file; no file is an empty dictionary (lines 105-113), and so is here one that is not a dictionary. *)
Definition entries_of (fs : files) (f : file) : list (string * list V) := match read fs f with Some (Dictionary d) => d | _ => [] end.
Definition add_entry (fs : files) (f : file) (k : string) (v : list V) : files := write fs f (Dictionary (entries_of fs f ++ [(k, v)])%list).

(** The files after every write of a run, [main] in lines 1679-1794 with [full_field_optimizations] (738-1398), for one case and one process, and the stages that are
    computed.  A file is written at once.  Of the entries, only those named here are kept apart.  The number [n] was picked before. *)
Definition run_numbered (n : nat) (p : study) (fs : files) : list files * list stage :=
  let f1 := add_entry fs (results_file n) "distributions" [distributions p] in
  let f2 := add_entry f1 (results_file n) "deflectometry_fluxes" [deflectometry p] in
  let f3 := add_entry f2 (results_file n) "heliostat_positions" [positions p] in
  let '(f4, ideal, l1) := do_stage n KinematicsIdealSurfaces (reconstructed_ideal p) (losses p KinematicsIdealSurfaces) f3 in
  let '(f5, surfaces, l2) := do_stage n Surfaces (reconstructed_surfaces p) (losses p Surfaces) f4 in
  let '(f6, kinematics, l3) := do_stage n KinematicsReconstructedSurfaces (reconstructed_kinematics p surfaces) (losses p KinematicsReconstructedSurfaces) f5 in
  let f7 := write f6 (stral_file n) (Value (heliostat_model p surfaces kinematics)) in
  let f8 := write f7 (results_file n) (Dictionary (entries_of f3 (results_file n)
    ++ [("kinematics_reconstruction_with_ideal_surfaces", l1); ("surface_reconstruction", l2);
        ("kinematics_reconstruction_with_reconstructed_surfaces", l3); ("aim_point_optimization_reconstructed_model", [aim_points p surfaces kinematics])])%list) in
  let f9 := add_entry f8 (results_file n) "run_info" [run_info p] in
  let computed := ((if l1 then [] else [KinematicsIdealSurfaces]) ++ (if l2 then [] else [Surfaces]) ++ (if l3 then [] else [KinematicsReconstructedSurfaces]))%list in
  ([f1; f2; f3; f4; f5; f6; f7; f8; f9], computed).
(** A run picks its number from the files there are and goes on. *)
Definition run (p : study) (fs : files) : list files * list stage := run_numbered (study_number fs) p fs.
(** The files when a run ends. *)
Definition finished (p : study) (fs : files) : files := last (fst (run p fs)) fs.
Definition computed (p : study) (fs : files) : list stage := snd (run p fs).
(** The files when a run is stopped after some writes. *)
Definition stopped (p : study) (fs : files) (writes : nat) : files := last (firstn writes (fst (run p fs))) fs.
End Study.
Arguments content : clear implicits.
Arguments files : clear implicits.
Arguments study : clear implicits.
