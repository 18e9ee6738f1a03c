(** Model of scenario files: the flattening of nested dictionaries and the writing of parameters in
    [artist/scenario/h5_scenario_generator.py], and the part of [h5py] that the generator and the scenario parsers use. *)
From Coq Require Import List Arith Bool String Ascii Reals.
From Verif Require Import ModelField.
Import ListNotations.
Local Open Scope string_scope.

(** Values stored in datasets.  Tensors and lists of numbers are nested arrays over the reals; a torch tensor, a NumPy
    array and a Python number with the same entries are the same value, and the conversions between float64 and float32
    are not modelled. *)
Inductive array := Scalar (x : R) | Rows (l : list array).
Inductive value := Text (s : string) | Array (a : array) | Flag (b : bool) | NoValue.

(** ** Dictionaries *)

(** Nested Python dictionaries as lists of pairs in insertion order. *)
Inductive tree := Leaf (v : value) | Node (d : list (string * tree)).

(** [d[k] = v] of Python dictionaries: an existing key keeps its place and gets the new value. *)
Fixpoint dict_set {A} (k : string) (v : A) (d : list (string * A)) : list (string * A) :=
  match d with
  | [] => [(k, v)]
  | (k', v') :: d' => if String.eqb k k' then (k, v) :: d' else (k', v') :: dict_set k v d'
  end.
(** [dict(pairs)] and dictionary comprehensions. *)
Definition dict_of {A} (pairs : list (string * A)) : list (string * A) :=
  fold_left (fun d '(k, v) => dict_set k v d) pairs [].

(** [H5ScenarioGenerator._flatten_dict_gen], h5_scenario_generator.py:187-197, with the separator "/". *)
Fixpoint flatten_gen (parent : string) (t : tree) {struct t} : list (string * value) :=
  match t with
  | Leaf _ => []
  | Node d =>
    (fix items (d : list (string * tree)) : list (string * value) :=
       match d with
       | [] => []
       | (k, t') :: d' =>
         let new_key := if String.eqb parent "" then k else parent ++ "/" ++ k in
         (match t' with Leaf v => [(new_key, v)] | Node _ => flatten_gen new_key t' end ++ items d')%list
       end) d
  end.
(** [H5ScenarioGenerator._flatten_dict], h5_scenario_generator.py:165-185. *)
Definition flatten (d : list (string * tree)) : list (string * value) := dict_of (flatten_gen "" (Node d)).

(** ** Files *)

(** HDF5 objects.  The links of a group are kept in the order in which [h5py] iterates over them: by name. *)
Inductive h5 := Dataset (v : value) | Group (links : list (string * h5)).

Fixpoint find_link {A} (k : string) (links : list (string * A)) : option A :=
  match links with
  | [] => None
  | (k', h) :: links' => if String.eqb k k' then Some h else find_link k links'
  end.
Fixpoint set_link {A} (k : string) (h : A) (links : list (string * A)) : list (string * A) :=
  match links with
  | [] => [(k, h)]
  | (k', h') :: links' =>
    match String.compare k k' with
    | Lt => (k, h) :: links
    | Eq => (k, h) :: links'
    | Gt => (k', h') :: set_link k h links'
    end
  end.

(** The names of a path: HDF5 skips empty components and ".". *)
Fixpoint components_from (current s : string) : list string :=
  let done := if String.eqb current "" || String.eqb current "." then [] else [current] in
  match s with
  | EmptyString => done
  | String c s' =>
    if Ascii.eqb c "/" then (done ++ components_from "" s')%list else components_from (current ++ String c "") s'
  end.
Definition components (path : string) : list string := components_from "" path.

(** [file[path] = value] for a new dataset: missing groups on the way are created; existing names and datasets on the
    way are errors. *)
Fixpoint put (links : list (string * h5)) (path : list string) (v : value) {struct path} : res (list (string * h5)) :=
  match path with
  | [] => Err ValueError
  | k :: rest =>
    match rest with
    | [] => match find_link k links with Some _ => Err ValueError | None => Ok (set_link k (Dataset v) links) end
    | _ :: _ =>
      match find_link k links with
      | Some (Dataset _) => Err ValueError
      | Some (Group sub) => bind (put sub rest v) (fun sub' => Ok (set_link k (Group sub') links))
      | None => bind (put [] rest v) (fun sub' => Ok (set_link k (Group sub') links))
      end
    end
  end.

(** [H5ScenarioGenerator._include_parameters], h5_scenario_generator.py:199-218.  [h5py] cannot store [None]. *)
Fixpoint include_parameters (file : list (string * h5)) (prefix : string) (parameters : list (string * value))
  : res (list (string * h5)) :=
  match parameters with
  | [] => Ok file
  | (key, v) :: rest =>
    match v with
    | NoValue => Err TypeError
    | _ => bind (put file (components (prefix ++ "/" ++ key)) v) (fun file' => include_parameters file' prefix rest)
    end
  end.

(** [file[k]] with a single name, and [k in group.keys()]. *)
Definition item (h : h5) (k : string) : res h5 :=
  match h with
  | Group links => match find_link k links with Some h' => Ok h' | None => Err KeyError end
  | Dataset _ => Err TypeError
  end.
Definition has_key (h : h5) (k : string) : bool :=
  match h with Group links => match find_link k links with Some _ => true | None => false end | Dataset _ => false end.
(** [group.keys()]. *)
Definition keys (h : h5) : list string := match h with Group links => map fst links | Dataset _ => [] end.
(** [group.get(path)] for a path of several names: the dataset, if there is one. *)
Fixpoint get (h : h5) (path : list string) : option h5 :=
  match path with
  | [] => Some h
  | k :: rest => match h with Group links => match find_link k links with Some h' => get h' rest | None => None end | Dataset _ => None end
  end.
(** [dataset[()]]. *)
Definition contents (h : h5) : res value := match h with Dataset v => Ok v | Group _ => Err TypeError end.
