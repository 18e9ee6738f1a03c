(** Vocabulary of the property about stored reconstruction results (C148). *)
From Coq Require Import List Arith String.
From Verif Require Import ModelHdf5.
Import ListNotations.

(** What the results hold for a heliostat under a key. *)
Definition lookup {A} (results : list (string * list (string * A))) (name key : string) : option A :=
  match find_link name results with Some entry => find_link key entry | None => None end.
(** Heliostat [i] of group [g]. *)
Definition heliostat_at {A} (groups : list (list A)) (g i : nat) (h : A) : Prop := exists group, nth_error groups g = Some group /\ nth_error group i = Some h.
