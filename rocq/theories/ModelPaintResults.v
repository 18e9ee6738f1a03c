(** Model of [generate_reconstruction_results], examples/paint_plots/reconstruction_generate_results.py:49-174: the losses and positions of the
    kinematics reconstruction are stored by the names of heliostats. *)
From Coq Require Import List Arith String Bool.
From Verif Require Import ModelField ModelHdf5.
Import ListNotations.
Local Open Scope string_scope.

Section Results.
Variables loss position : Type.
(** What is stored for a heliostat under a key. *)
Inductive stored := StoredLoss (l : loss) | StoredPosition (p : position).
Definition results := list (string * list (string * stored)).
(** [results_dict.setdefault(name, {})] and [results_dict[name][key] = value]; the position is only stored for names that are there already,
    which all of them are. *)
Definition store_value (name key : string) (value : stored) (r : results) : results :=
  dict_set name (dict_set key value (match find_link name r with Some e => e | None => [] end)) r.
(** The loop over a group, 159-165: [losses[index]] with the index within the group. *)
Fixpoint store_group_losses (centroid : string) (losses : list loss) (index : nat) (names : list string) (r : results) : res results :=
  match names with
  | [] => Ok r
  | name :: names' =>
    match nth_error losses index with
    | None => Err IndexError
    | Some l => store_group_losses centroid losses (S index) names' (store_value name centroid (StoredLoss l) r)
    end
  end.
(** The loop over the groups, 158-165. *)
Fixpoint store_losses (centroid : string) (losses : list loss) (groups : list (list string)) (r : results) : res results :=
  match groups with
  | [] => Ok r
  | names :: groups' => bind (store_group_losses centroid losses 0 names r) (store_losses centroid losses groups')
  end.
(** The loop over the positions, 168-170. *)
Definition store_positions (groups : list (list (string * position))) (r : results) : results :=
  fold_left (fun r names => fold_left (fun r '(name, p) => store_value name "Position" (StoredPosition p) r) names r) groups r.
(** The whole function.  [reconstruct centroid]: the losses that a reconstruction of a copy of the loaded scenario reports (ModelReconstruction); the
    copy (132) makes both reconstructions start from the same parameters. *)
Definition generate_reconstruction_results (reconstruct : string -> res (list loss)) (groups : list (list (string * position))) : res results :=
  let names := map (map fst) groups in
  bind (reconstruct "UTIS") (fun utis =>
  bind (store_losses "UTIS" utis names []) (fun r =>
  bind (reconstruct "HeliOS") (fun helios =>
  bind (store_losses "HeliOS" helios names r) (fun r =>
  Ok (store_positions groups r))))).
End Results.
Arguments StoredLoss {loss position}. Arguments StoredPosition {loss position}.
Arguments generate_reconstruction_results {loss position}. Arguments store_losses {loss position}. Arguments store_group_losses {loss position}.
Arguments store_positions {loss position}. Arguments store_value {loss position}.
