(** Vocabulary of the properties about images that are stored by the names of heliostats (C142, C143). *)
From Coq Require Import List Arith String Bool.
Import ListNotations.
Local Open Scope string_scope.

(** The entries of a list that belong to a heliostat, if [owners] names the heliostat of each entry. *)
Definition own_entries {A} (name : string) (owners : list string) (l : list A) : list A :=
  map fst (filter (fun '(_, owner) => String.eqb owner name) (combine l owners)).
(** How many of the samples before sample [i] belong to the heliostat. *)
Definition earlier (name : string) (owners : list string) (i : nat) : nat := count_occ string_dec (firstn i owners) name.
(** The wanted heliostats in the order of a group. *)
Definition group_order (names wanted : list string) : list string := filter (fun name => existsb (String.eqb name) wanted) names.
