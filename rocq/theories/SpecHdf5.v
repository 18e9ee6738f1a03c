(** Vocabulary of the scenario file properties (C59). *)
From Coq Require Import List Bool String Ascii Sorted.
From Verif Require Import ModelField ModelHdf5.
Import ListNotations.
Local Open Scope string_scope.

(** A name that HDF5 takes as it is: not empty, not ".", without "/". *)
Fixpoint has_slash (s : string) : bool :=
  match s with EmptyString => false | String c s' => Ascii.eqb c "/" || has_slash s' end.
Definition proper_name (k : string) : Prop := k <> "" /\ k <> "." /\ has_slash k = false.
(** Proper and different names on every level of a nested dictionary. *)
Fixpoint proper (t : tree) : Prop :=
  match t with
  | Leaf _ => True
  | Node d => NoDup (map fst d)
    /\ (fix all (d : list (string * tree)) : Prop := match d with [] => True | (k, t') :: d' => proper_name k /\ proper t' /\ all d' end) d
  end.
(** No parameter is [None]. *)
Fixpoint complete (t : tree) : Prop :=
  match t with
  | Leaf v => v <> NoValue
  | Node d => (fix all (d : list (string * tree)) : Prop := match d with [] => True | (_, t') :: d' => complete t' /\ all d' end) d
  end.
(** The parameter of a nested dictionary under a path of keys. *)
Fixpoint parameter_at (t : tree) (path : list string) : option value :=
  match path with
  | [] => match t with Leaf v => Some v | Node _ => None end
  | k :: rest =>
    match t with
    | Leaf _ => None
    | Node d => match find (fun '(k', _) => String.eqb k k') d with Some (_, t') => parameter_at t' rest | None => None end
    end
  end.
(** The dataset of a file under a path of names. *)
Fixpoint stored_at (h : h5) (path : list string) : option value :=
  match path with
  | [] => match h with Dataset v => Some v | Group _ => None end
  | k :: rest =>
    match h with
    | Dataset _ => None
    | Group links => match find (fun '(k', _) => String.eqb k k') links with Some (_, h') => stored_at h' rest | None => None end
    end
  end.
(** Alphabetical order. *)
Definition before (a b : string) : Prop := String.compare a b = Lt.
(** A file as [h5py] keeps it after writing datasets only: names in alphabetical order and no empty group below the top. *)
Fixpoint tidy (h : h5) : Prop :=
  match h with
  | Dataset _ => True
  | Group links => StronglySorted before (map fst links)
    /\ (fix all (l : list (string * h5)) : Prop := match l with [] => True | (_, h') :: l' => h' <> Group [] /\ tidy h' /\ all l' end) links
  end.
