(** Properties about the runtime log. *)
From Coq Require Import List Arith String Ascii Bool.
From Verif Require Import ModelResults ModelRuntimes SpecRuntimes ProofsRuntimes.
Import ListNotations.
Local Open Scope string_scope.

(** C146 (full statement: the run information stored with the results of a study holds the number and the number of heliostats of that study and
    its runtimes).  Proved: whatever the log held before, and for all settings that do not contain the words searched for, the number and the number of
    heliostats of the latest study are read.  Refuted: the list of runtimes is empty for every study, because the log is searched for a
    function that does not exist; and if another study starts in the meantime, its number is read and the number of heliostats is missing. *)
Theorem C146_run_id_partial : forall before number heliostats surface kinematics aim_points duration,
  no_keyword surface -> no_keyword kinematics -> no_keyword aim_points -> printed_duration duration = true ->
  r_number (parse_runtimes (before ++ study_lines number heliostats surface kinematics aim_points duration)) = Some number
  /\ r_heliostats (parse_runtimes (before ++ study_lines number heliostats surface kinematics aim_points duration)) = Some heliostats.
Proof. intros. now rewrite study_read. Qed.
Print Assumptions C146_run_id_partial.

Theorem C146_runtimes_refuted : forall before number heliostats surface kinematics aim_points duration,
  no_keyword surface -> no_keyword kinematics -> no_keyword aim_points -> printed_duration duration = true ->
  In ("full_field_optimizations finished in " ++ duration ++ "s") (study_lines number heliostats surface kinematics aim_points duration)
  /\ r_runtimes (parse_runtimes (before ++ study_lines number heliostats surface kinematics aim_points duration)) = [].
Proof. intros. split; [cbn; tauto|]. now rewrite study_read. Qed.
Print Assumptions C146_runtimes_refuted.

Theorem C146_concurrent_refuted : forall before lines other duration, printed_duration duration = true ->
  r_number (parse_runtimes (before ++ lines ++ starting_lines other ++ ["full_field_optimizations finished in " ++ duration ++ "s"]%string)) = Some other
  /\ r_heliostats (parse_runtimes (before ++ lines ++ starting_lines other ++ ["full_field_optimizations finished in " ++ duration ++ "s"]%string)) = None.
Proof. intros. now rewrite study_read_concurrent. Qed.
Print Assumptions C146_concurrent_refuted.

Example C146_case : no_keyword "{'max_epoch': 100}" /\ printed_duration "1234.567" = true
  /\ parse_runtimes (study_lines 3 5 "{}" "{}" "{}" "7.250" ++ study_lines 12 40 "{'max_epoch': 100}" "{}" "{}" "1234.567")
     = {| r_runtimes := []; r_number := Some 12; r_heliostats := Some 40 |}
  /\ parse_runtimes ["main started"; "Results_file_number: 4"; "ablation_study finished in 1.250s"] = {| r_runtimes := ["1.250"]; r_number := Some 4; r_heliostats := None |}.
Proof. repeat split; vm_compute; reflexivity. Qed.

(** C147.  Tracking does not change what a function returns; reading the log from the top shows exactly the functions that were running when
    an exception ended the run, and none if the run ended normally; and the finish lines are those of the functions that returned, with their durations,
    in the order in which they returned. *)
Theorem C147_same_result : forall {A} (c : call A), snd (run_call c) = returns c.
Proof. intros A. exact run_returns. Qed.
Print Assumptions C147_same_result.

Theorem C147_failure_shown : forall {A} (c : call A), names_ok c = true ->
  unfinished (fst (run_call c)) = Some match returns c with Some _ => [] | None => running c end.
Proof. intros A. exact log_shows_failure. Qed.
Print Assumptions C147_failure_shown.

Theorem C147_durations : forall {A} (c : call A), names_ok c = true ->
  finish_lines (fst (run_call c)) = map (fun '(name, duration) => name ++ " finished in " ++ duration ++ "s") (completed c).
Proof. intros A. exact log_durations. Qed.
Print Assumptions C147_durations.

Example C147_case : let c := Call "main" [Call "load" [] (Some 1) "0.100"; Call "train" [Call "step" [] (Some 1) "0.200"; Call "step" [] None "0"; Call "step" [] (Some 2) "0"] (Some 3) "0"] (Some 4) "9.000" in
  names_ok c = true /\ returns c = None /\ running c = ["step"; "train"; "main"] /\ completed c = [("load", "0.100"); ("step", "0.200")]
  /\ fst (run_call c) = ["main started"; "load started"; "load finished in 0.100s"; "train started"; "step started"; "step finished in 0.200s"; "step started"].
Proof. repeat split; vm_compute; reflexivity. Qed.
