(** Model of the runtime log: [track_runtime], artist/util/__init__.py:177-207, the lines that examples/field_optimizations/generate_results.py
    writes to it (76, 737, 1537, 1765-1770, 1797-1800), and [parse_runtimes], generate_results.py:1487-1534.  A log is the list of the messages of its lines; the
    time stamp, the name of the logger and the level in front of each message are left out (they contain none of the words that are searched for). *)
From Coq Require Import List Arith String Ascii Bool.
From Verif Require Import ModelResults.
Import ListNotations.
Local Open Scope string_scope.
Local Open Scope nat_scope.

(** ** Tracked functions *)
(** A call of a tracked function: the tracked calls that it makes, in their order, how it ends if all of them return (an exception or a
    value), and its duration as it is printed. *)
Inductive call (A : Type) := Call (name : string) (inner : list (call A)) (outcome : option A) (duration : string).
Arguments Call {A}.
(** [wrapper], artist/util/__init__.py:196-203: exceptions are not caught, so that they end the calling functions as well. *)
Fixpoint run_call {A} (c : call A) : list string * option A :=
  match c with
  | Call name inner outcome duration =>
    let fix run_all (cs : list (call A)) : list string * bool :=
      match cs with
      | [] => ([], true)
      | c' :: cs' =>
        match run_call c' with
        | (lines, Some _) => let '(lines', ok) := run_all cs' in (lines ++ lines', ok)%list
        | (lines, None) => (lines, false)
        end
      end in
    let '(lines, ok) := run_all inner in
    match ok, outcome with
    | true, Some a => ((((name ++ " started")%string :: lines) ++ [(name ++ " finished in " ++ duration ++ "s")%string])%list, Some a)
    | _, _ => ((name ++ " started")%string :: lines, None)
    end
  end.

(** ** Reading the log *)
(** Python's [in] for strings. *)
Fixpoint contains (needle s : string) : bool :=
  match after needle s with
  | Some _ => true
  | None => match s with EmptyString => false | String _ s' => contains needle s' end
  end.
(** [\s*] and [(\d+)], which take as much as they can. *)
Fixpoint skip_spaces (s : string) : string :=
  match s with
  | String c s' => if existsb (Ascii.eqb c) [" "; "009"; "010"; "011"; "012"; "013"]%char then skip_spaces s' else s
  | EmptyString => EmptyString
  end.
Fixpoint more_digits (s : string) (value : nat) : nat :=
  match s with
  | String c s' => match digit_value c with Some v => more_digits s' (10 * value + v) | None => value end
  | EmptyString => value
  end.
Definition leading_number (s : string) : option nat :=
  match s with
  | String c s' => match digit_value c with Some v => Some (more_digits s' v) | None => None end
  | EmptyString => None
  end.
(** [re.search(prefix + r"\s*(\d+)", line)] as an [int]. *)
Fixpoint search_number (prefix s : string) : option nat :=
  match match after prefix s with Some tail => leading_number (skip_spaces tail) | None => None end with
  | Some v => Some v
  | None => match s with EmptyString => None | String _ s' => search_number prefix s' end
  end.
(** [re.search(r"finished in ([\d\.]+)s", line)]; the text is kept instead of its [float].  [[\d\.]+] contains no [s], so that it ends at the first
    other character. *)
Fixpoint leading_float (s : string) : string * string :=
  match s with
  | String c s' => if match digit_value c with Some _ => true | None => Ascii.eqb c "." end then let '(a, b) := leading_float s' in (String c a, b) else (EmptyString, s)
  | EmptyString => (EmptyString, EmptyString)
  end.
Fixpoint search_duration (s : string) : option string :=
  match match after "finished in " s with
        | Some tail => match leading_float tail with (String c a, String "s" _) => Some (String c a) | _ => None end
        | None => None end with
  | Some v => Some v
  | None => match s with EmptyString => None | String _ s' => search_duration s' end
  end.

(** The lines from the last one with "main started" on, 1503-1509; without such a line [lines[None:]] is the whole log. *)
Fixpoint from_last_start (lines : list string) : option (list string) :=
  match lines with
  | [] => None
  | line :: lines' => match from_last_start lines' with Some r => Some r | None => if contains "main started" line then Some lines else None end
  end.
Record run_info := { r_runtimes : list string; r_number : option nat; r_heliostats : option nat }.
(** One line of the loop, 1514-1529; without a match the values stay. *)
Definition read_line (info : run_info) (line : string) : run_info :=
  if contains "Results_file_number:" line then
    match search_number "Results_file_number:" line with
    | Some k => {| r_runtimes := r_runtimes info; r_number := Some k; r_heliostats := r_heliostats info |}
    | None => info
    end
  else if contains "Number of heliostats:" line then
    match search_number "Number of heliostats:" line with
    | Some k => {| r_runtimes := r_runtimes info; r_number := r_number info; r_heliostats := Some k |}
    | None => info
    end
  else if contains "ablation_study finished in" line then
    match search_duration line with
    | Some t => {| r_runtimes := (r_runtimes info ++ [t])%list; r_number := r_number info; r_heliostats := r_heliostats info |}
    | None => info
    end
  else info.
Definition parse_runtimes (lines : list string) : run_info :=
  fold_left read_line (match from_last_start lines with Some r => r | None => lines end) {| r_runtimes := []; r_number := None; r_heliostats := None |}.

(** ** The lines of a study *)
(** What a study has written when it reads the log, 1797, 1537, 76, 1765-1770, 737: [settings] are the texts of the three configurations. *)
Definition study_lines (number heliostats : nat) (surface kinematics aim_points duration : string) : list string :=
  (["-----------------"; "main started"; "Results_file_number: " ++ decimal number; "Number of heliostats: " ++ decimal heliostats;
    "surface reconstruction: " ++ surface; "kinematics reconstruction: " ++ kinematics; "aim point optimization: " ++ aim_points]%string
   ++ fst (run_call (Call "full_field_optimizations" [] (Some tt) duration)))%list.
