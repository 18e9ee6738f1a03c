(** Vocabulary of the properties about the runtime log (C146, C147). *)
From Coq Require Import List Arith String Ascii Bool.
From Verif Require Import ModelResults ModelRuntimes.
Import ListNotations.
Local Open Scope string_scope.

(** ** Runs of functions, without any tracking *)
(** What a function returns: nothing as soon as one of the functions it calls raises. *)
Fixpoint returns {A} (c : call A) : option A :=
  match c with Call _ inner outcome _ => if forallb (fun c' => match returns c' with Some _ => true | None => false end) inner then outcome else None end.
(** The functions that are running when a failing call raises, innermost first. *)
Fixpoint running {A} (c : call A) : list string :=
  match c with
  | Call name inner _ _ =>
    ((fix first_failing (cs : list (call A)) : list string :=
        match cs with [] => [] | c' :: cs' => match returns c' with None => running c' | Some _ => first_failing cs' end end) inner ++ [name])%list
  end.
(** The functions that have returned until the end of a call, in the order in which they returned, with their durations. *)
Fixpoint completed {A} (c : call A) : list (string * string) :=
  match c with
  | Call name inner _ duration =>
    ((fix until_failure (cs : list (call A)) : list (string * string) :=
        match cs with [] => [] | c' :: cs' => completed c' ++ match returns c' with None => [] | Some _ => until_failure cs' end end) inner
     ++ match returns c with Some _ => [(name, duration)] | None => [] end)%list
  end.
(** Names of functions contain no space. *)
Fixpoint no_space (s : string) : bool := match s with EmptyString => true | String c s' => negb (Ascii.eqb c " ") && no_space s' end.
Fixpoint names_ok {A} (c : call A) : bool := match c with Call name inner _ _ => no_space name && forallb names_ok inner end.

(** ** Readers of a log *)
(** The first word of a line and what follows. *)
Fixpoint words (line : string) : string * string :=
  match line with
  | EmptyString => (EmptyString, EmptyString)
  | String c line' => if Ascii.eqb c " " then (EmptyString, line') else let '(w, r) := words line' in (String c w, r)
  end.
(** Whoever reads a log from the top keeps the functions that have started and not finished, innermost first; [None] if a function
    finishes that is not the innermost one, or a line says something else. *)
Definition next_line (unfinished : option (list string)) (line : string) : option (list string) :=
  match unfinished with
  | None => None
  | Some names =>
    let '(name, rest) := words line in
    if String.eqb rest "started" then Some (name :: names)
    else if prefix "finished in " rest then match names with inner :: others => if String.eqb inner name then Some others else None | [] => None end
    else None
  end.
Definition unfinished (lines : list string) : option (list string) := fold_left next_line lines (Some []).
(** The lines about finished functions. *)
Definition finish_lines (lines : list string) : list string := filter (fun line => prefix "finished in " (snd (words line))) lines.

(** ** Studies *)
(** Settings that contain none of the words that the log is searched for. *)
Definition no_keyword (text : string) : Prop :=
  contains "main started" text = false /\ contains "Results_file_number:" text = false /\ contains "Number of heliostats:" text = false
  /\ contains "ablation_study finished in" text = false.
(** A printed duration: digits and dots. *)
Fixpoint printed_duration (s : string) : bool :=
  match s with EmptyString => true | String c s' => (Ascii.eqb c "." || match digit_value c with Some _ => true | None => false end) && printed_duration s' end.
(** What a second study writes when it starts. *)
Definition starting_lines (number : nat) : list string := ["-----------------"; "main started"; "Results_file_number: " ++ decimal number]%string.
