(** Model of the reconstruction of surfaces in batches of heliostats, examples/field_optimizations/generate_results.py:1066-1107, for the heliostats of
    one group: every batch is a reconstruction of its own (ModelOptimization) that starts from the control points the previous ones left. *)
From Coq Require Import List Arith Reals Bool String.
From Verif Require Import ModelField ModelOptimization.
Import ListNotations.

(** [for i in range(0, len(data), batch_size): batch = data[i : i + batch_size]], 1075-1076: a batch size of zero raises. *)
Definition outer_batches {A} (batch_size : nat) (data : list A) : res (list (list A)) :=
  if batch_size =? 0 then Err ValueError
  else Ok (map (fun i => firstn batch_size (skipn i data)) (arange_step (List.length data) batch_size)).

Section Batches.
Context {F : Type}.
(** [name_of]: names of the heliostats of the group; [epochs batch control_points]: learning rate, momentum and the derivatives on all ranks of
    each epoch of a reconstruction with this data, arbitrary. *)
Variables (height width : nat) (name_of : nat -> string) (epochs : list (string * F) -> gradients -> list (R * R * list gradients)).
Definition listed (batch : list (string * F)) (h : nat) : bool := existsb (fun '(name, _) => String.eqb name (name_of h)) batch.
(** Heliostats without measurements in the batch do not occur in the loss (surface_reconstructor.py:423-425, 517-526, 716-730 read the control points of active
    heliostats only), their derivatives are zero. *)
Definition active_gradients (batch : list (string * F)) (g : gradients) : gradients :=
  fun h f i j c => if listed batch h then g h f i j c else 0%R.
(** One [SurfaceReconstructor], 1083-1098: a new optimizer for each (surface_reconstructor.py:452-454). *)
Definition train_batch (control_points : gradients) (batch : list (string * F)) : gradients :=
  train_control_points height width control_points
    (map (fun '(lr, beta, members) => (lr, beta, map (active_gradients batch) members)) (epochs batch control_points)).
(** The whole loop. *)
Definition reconstruct_in_batches (batch_size : nat) (data : list (string * F)) (control_points : gradients) : res gradients :=
  bind (outer_batches batch_size data) (fun batches => Ok (fold_left train_batch batches control_points)).
End Batches.
