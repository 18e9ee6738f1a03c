(** Properties of the files of a field optimization study (C140, C141). *)
From Coq Require Import List Arith String Lia Decimal DecimalString.
From Verif Require Import ModelResults SpecResults ProofsResults.
Import ListNotations.
Local Open Scope string_scope.

(** C140 (full statement: a new study takes a number that no study has, and neither it nor another study started at any time changes a file of an earlier one).
    Proved: the number is the smallest that no results file stands for, whatever the files are called; wherever the study is stopped, every file that was in the
    results directory is still there with its content; and a study started after another one wrote its first file takes another number.  Refuted: data for STRAL of
    the same number are replaced; and two studies that look for a number before either writes take the same one, and then the second
    computes nothing and reports its results for what the first reconstructed. *)
Theorem C140_number_partial : forall V (fs : files V), ~ taken fs (study_number fs) /\ forall k, k < study_number fs -> taken fs k.
Proof. intros V. exact number_free. Qed.
Print Assumptions C140_number_partial.

Theorem C140_kept_partial : forall V (p : study V) (fs : files V) name c, read fs (ResultsDirectory, name) = Some c ->
  forall writes, read (stopped p fs writes) (ResultsDirectory, name) = Some c.
Proof. intros V. exact run_keeps. Qed.
Print Assumptions C140_kept_partial.

Theorem C140_next_partial : forall V (p : study V) (fs : files V) writes, 1 <= writes -> study_number (stopped p fs writes) <> study_number fs.
Proof. intros V. exact next_study_number. Qed.
Print Assumptions C140_next_partial.

Theorem C140_stral_refuted : forall V (p : study V) (fs : files V) old, no_checkpoints fs (study_number fs) -> read fs (stral_file (study_number fs)) = Some (Value old) ->
  heliostat_model p (reconstructed_surfaces p) (reconstructed_kinematics p (reconstructed_surfaces p)) <> old ->
  read (finished p fs) (stral_file (study_number fs)) <> Some (Value old).
Proof. intros V. exact stral_replaced. Qed.
Print Assumptions C140_stral_refuted.

Theorem C140_concurrent_refuted : forall V (p q : study V) (fs : files V), no_checkpoints fs (study_number fs) ->
  let n := study_number fs in let first := last (fst (run_numbered n p fs)) fs in let second := run_numbered n q first in
  snd second = []
  /\ read (last (fst second) first) (stral_file n) = Some (Value (heliostat_model q (reconstructed_surfaces p) (reconstructed_kinematics p (reconstructed_surfaces p))))
  /\ says (last (fst second) first) (results_file n) "aim_point_optimization_reconstructed_model" [aim_points q (reconstructed_surfaces p) (reconstructed_kinematics p (reconstructed_surfaces p))].
Proof. intros V. exact same_number. Qed.
Print Assumptions C140_concurrent_refuted.

(** A results directory with results 0 (without a number), 2 and 3, and old data for STRAL of number 1: the next study is number 1. *)
Definition earlier : files nat :=
  [((ResultsDirectory, "results.pt"), Dictionary []); ((ResultsDirectory, "results_2.pt"), Dictionary []); ((ResultsDirectory, "results_03.pt"), Dictionary []);
   ((ResultsDirectory, "results_1.txt"), Dictionary []); ((StralDirectory, "reconstructed_heliostats_data_1.pt"), Value 7)].
Definition some_study : study nat :=
  {| distributions := 1; deflectometry := 2; positions := 3; reconstructed_ideal := 10; reconstructed_surfaces := 20; reconstructed_kinematics := fun s => s + 1;
     losses := fun _ => 5; aim_points := fun s k => s + k; heliostat_model := fun s k => 100 * s + k; run_info := 0 |}.
Example C140_case : study_number earlier = 1 /\ no_checkpoints earlier 1 /\ read earlier (stral_file 1) = Some (Value 7)
  /\ read (finished some_study earlier) (stral_file 1) = Some (Value 2021) /\ study_number (finished some_study earlier) = 4
  /\ taken earlier 0 /\ taken earlier 3.
Proof.
  split; [reflexivity|]. split; [intros [] H; apply H; reflexivity|]. split; [reflexivity|]. split; [reflexivity|]. split; [reflexivity|].
  split; [exists "results.pt"; split; [discriminate|left; auto]|]. exists "results_03.pt". split; [discriminate|]. right. exists (D0 (D3 Nil)). split; [discriminate|]. split; reflexivity.
Qed.

(** C141 (full statement: a study that was stopped and is started again goes on where it stopped: reconstructions that were finished are taken from their files,
    those that were not are computed, from the study's own data, and the results are those of a study that was not stopped).  Refuted: the results file is written before any
    reconstruction, so that a second start takes another number and computes everything again; and intermediate results that are there for the number are taken
    whatever data they came from.  Proved: if the results file of the stopped study is removed before the second start, the number is the
    same, exactly the missing reconstructions are computed, and the reconstructions, the aim points and the data for STRAL end up as
    in a study that was not stopped; the losses of the reconstructions taken from files are missing. *)
Theorem C141_resumed_partial : forall V (p : study V) (fs : files V) writes, no_checkpoints fs (study_number fs) ->
  let n := study_number fs in let again := remove (stopped p fs writes) (results_file n) in
  study_number again = n
  /\ computed p again = skipn (writes - 3) all_stages
  /\ (forall s, read (finished p again) (checkpoint_file s n) = read (finished p fs) (checkpoint_file s n))
  /\ read (finished p again) (stral_file n) = read (finished p fs) (stral_file n)
  /\ exists v, says (finished p again) (results_file n) "aim_point_optimization_reconstructed_model" [v]
              /\ says (finished p fs) (results_file n) "aim_point_optimization_reconstructed_model" [v].
Proof. intros V. exact resumed. Qed.
Print Assumptions C141_resumed_partial.

Theorem C141_restart_refuted : forall V (p q : study V) (fs : files V) writes, 1 <= writes -> no_checkpoints fs (study_number (stopped p fs writes)) ->
  study_number (stopped p fs writes) <> study_number fs /\ computed q (stopped p fs writes) = all_stages.
Proof. intros V. exact restart_computes. Qed.
Print Assumptions C141_restart_refuted.

Theorem C141_stale_refuted : forall V (p : study V) (fs : files V) values, (forall s, read fs (checkpoint_file s (study_number fs)) = Some (Value (values s))) ->
  computed p fs = []
  /\ read (finished p fs) (stral_file (study_number fs)) = Some (Value (heliostat_model p (values Surfaces) (values KinematicsReconstructedSurfaces)))
  /\ says (finished p fs) (results_file (study_number fs)) "aim_point_optimization_reconstructed_model" [aim_points p (values Surfaces) (values KinematicsReconstructedSurfaces)]
  /\ says (finished p fs) (results_file (study_number fs)) "surface_reconstruction" [].
Proof. intros V. exact stale_used. Qed.
Print Assumptions C141_stale_refuted.

(** Stopped after the surfaces were reconstructed: started again, all is computed anew; without the results file, only the last reconstruction is. *)
Definition stopped_study : files nat := stopped some_study earlier 5.
Example C141_case : no_checkpoints earlier (study_number stopped_study) /\ study_number stopped_study = 4
  /\ computed some_study stopped_study = all_stages
  /\ computed some_study (remove stopped_study (results_file 1)) = [KinematicsReconstructedSurfaces]
  /\ (let fs := remove (finished some_study earlier) (results_file 1) in study_number fs = 1 /\ forall s, exists v, read fs (checkpoint_file s 1) = Some (Value v)).
Proof.
  split; [intros [] H; apply H; reflexivity|]. split; [reflexivity|]. split; [reflexivity|]. split; [reflexivity|]. split; [reflexivity|]. intros []; eexists; reflexivity.
Qed.
