(** Vocabulary of C133. *)
From Coq Require Import List Permutation.
From Verif Require Import ModelField.
Import ListNotations.

(** [l'] lists the things of [l] in another order: the one at place [k] of [l'] is the one at place [nth k perm 0] of [l]. *)
Definition relisted {A} (perm : list nat) (l l' : list A) : Prop :=
  Permutation perm (seq 0 (List.length l)) /\ List.length l' = List.length l
  /\ forall k j, nth_error perm k = Some j -> nth_error l' k = nth_error l j.
(** The same samples, their heliostats being numbered in the other order. *)
Definition renumbered {S} (perm : list nat) (samples samples' : list (S * nat)) : Prop :=
  Forall2 (fun '(s, owner) '(s', owner') => s' = s /\ nth_error perm owner' = Some owner) samples samples'.
