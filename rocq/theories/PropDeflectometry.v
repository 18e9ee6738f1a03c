(** C151: deflectometry measurements. *)
From Coq Require Import List Arith String Ascii Lia.
From Verif Require Import ModelDeflectometry SpecDeflectometry ProofsDeflectometry.
Import ListNotations.
Local Open Scope string_scope.

(** C151.  The file chosen among dated measurements is the latest one. *)
Theorem C151_latest : forall heliostat files file, only_measurements heliostat files -> find_latest heliostat files = Some file ->
  latest heliostat files file.
Proof. exact latest_measurement. Qed.
Print Assumptions C151_latest.

(** No file is chosen exactly if there is none to choose. *)
Theorem C151_none : forall heliostat files, find_latest heliostat files = None <-> forall file, In file files -> ~ fits_pattern heliostat file.
Proof. exact no_measurement. Qed.
Print Assumptions C151_none.

(** The fitted scenario of the field study has the heliostats with measurements, in the given order, each with its latest one. *)
Theorem C151_field_study : forall directory names has_measurement,
  (forall n, has_measurement n = true <-> exists f, In f (directory n) /\ fits_pattern n f) ->
  map fst (fitted_heliostats directory names) = filter has_measurement names
  /\ forall n f, In (n, f) (fitted_heliostats directory names) -> only_measurements n (directory n) -> latest n (directory n) f.
Proof. exact field_study. Qed.
Print Assumptions C151_field_study.

(** The flux prediction study has all heliostats with their latest measurements, or fails because one of them has none. *)
Theorem C151_flux_study : forall directory names,
  match all_heliostats directory names with
  | Some l => map fst l = names /\ forall n f, In (n, f) l -> only_measurements n (directory n) -> latest n (directory n) f
  | None => exists n, In n names /\ forall f, In f (directory n) -> ~ fits_pattern n f
  end.
Proof. exact flux_study. Qed.
Print Assumptions C151_flux_study.

(** The directory must hold nothing else the pattern fits: a file named AA39-filled_old.h5 would be chosen before every measurement. *)
Theorem C151_other_files : forall heliostat files x rest file, nat_of_ascii x > nat_of_ascii "-" ->
  In (heliostat ++ "-filled" ++ String x (rest ++ ".h5")) files -> find_latest heliostat files = Some file ->
  forall s, file <> measurement heliostat s.
Proof. exact shadowed. Qed.
Print Assumptions C151_other_files.

(** Two measurements of one heliostat; the older one was taken in the ninth month, the other in the tenth. *)
Definition september := {| year := 2023; month := 9; day := 18; hour := 8; minute := 49; second := 9 |}.
Definition october := {| year := 2023; month := 10; day := 2; hour := 7; minute := 3; second := 0 |}.
Example C151_case :
  measurement "AA39" september = "AA39-filled-2023-09-18Z08-49-09Z-deflectometry.h5"
  /\ let files := [measurement "AA39" october; measurement "AA39" september; "AA39-raw-2024-01-01Z00-00-00Z-deflectometry.h5"] in
     find_latest "AA39" files = Some (measurement "AA39" october) /\ only_measurements "AA39" files
     /\ fitted_heliostats (fun n => if String.eqb n "AA39" then files else []) ["AA40"; "AA39"] = [("AA39", measurement "AA39" october)]
     /\ all_heliostats (fun n => if String.eqb n "AA39" then files else []) ["AA40"; "AA39"] = None.
Proof.
  split; [vm_compute; reflexivity|]. cbv zeta. split; [vm_compute; reflexivity|]. split; [|split; vm_compute; reflexivity].
  assert (V : valid_stamp october /\ valid_stamp september).
  { unfold valid_stamp. cbn [year month day hour minute second october september].
    repeat split; try (apply Nat.ltb_lt; vm_compute; reflexivity). }
  intros file [<-|[<-|[<-|[]]]] F; [exists october; split; [apply V|auto]|exists september; split; [apply V|auto]|].
  apply matches_spec in F. vm_compute in F. discriminate.
Qed.
