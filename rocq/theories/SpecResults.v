(** Vocabulary of the properties about the files of a study (C140, C141). *)
From Coq Require Import List Arith String Decimal DecimalString.
From Verif Require Import ModelResults.
Import ListNotations.
Local Open Scope string_scope.

(** A file name stands for a number: [results.pt] for zero, [results_], digits and [.pt] for what the digits say. *)
Definition stands_for (name : string) (n : nat) : Prop :=
  (name = "results.pt" /\ n = 0) \/ exists digits, digits <> Nil /\ name = "results_" ++ NilEmpty.string_of_uint digits ++ ".pt" /\ Nat.of_uint digits = n.
Definition exists_file {V} (fs : files V) (f : file) : Prop := read fs f <> None.
(** A number is taken if there is a results file that stands for it. *)
Definition taken {V} (fs : files V) (n : nat) : Prop := exists name, exists_file fs (ResultsDirectory, name) /\ stands_for name n.
(** There are no intermediate results of this number. *)
Definition no_checkpoints {V} (fs : files V) (n : nat) : Prop := forall s, ~ exists_file fs (checkpoint_file s n).
(** The stages before the one whose checkpoint is the [k]-th write. *)
Definition all_stages : list stage := [KinematicsIdealSurfaces; Surfaces; KinematicsReconstructedSurfaces].
(** What the results of a study say under a name. *)
Definition says {V} (fs : files V) (f : file) (k : string) (v : list V) : Prop := exists entries, read fs f = Some (Dictionary entries) /\ In (k, v) entries.
