(** Model of [FocalSpotLoss.__call__] of [artist/optim/loss.py] and [_compute_measured_normals] of
    [artist/optim/kinematics_reconstructor.py]. *)
From Coq Require Import List Arith Reals Bool.
From Verif Require Import ModelField ModelVectors ModelTransforms ModelLBVH ModelIntersections ModelActuators ModelNurbs ModelBitmap ModelCoordinates.
Import ListNotations.
Local Open Scope R_scope.

(** [bitmap_coordinates_to_target_coordinates], artist/geometry/coordinates.py:119-249, for one row: planar areas come
    first.  Out of range is an IndexError.  Only the first three components are used by the loss (loss.py:244-248). *)
Definition target_position (planar : list plane) (cylindrical : list cylinder) (width height : nat) (index : nat) (e u : R) : res point :=
  if (index <? length planar)%nat then
    match nth_error planar index with Some p => Ok (euclidean (planar_target_coordinates width height p e u)) | None => Err IndexError end
  else
    match nth_error cylindrical (index - length planar) with
    | Some c => Ok (euclidean (cylindrical_target_coordinates width height c e u)) | None => Err IndexError end.

(** One bitmap: rows, columns, values. *)
Record image := { rows : nat; columns : nat; value : nat -> nat -> R }.
(** One sample of loss.py:202-248: both centres of mass are converted with the resolution of the prediction
    ([prediction.shape[2]] is the width, [prediction.shape[1]] the height).  [None] stands for not-a-number. *)
Definition focal_spot_distance (planar : list plane) (cylindrical : list cylinder) (index : nat) (prediction truth : image) : res (option R) :=
  match center_of_mass (rows prediction) (columns prediction) (value prediction), center_of_mass (rows truth) (columns truth) (value truth) with
  | Some (e, u), Some (e', u') =>
      bind (target_position planar cylindrical (columns prediction) (rows prediction) index e u) (fun x =>
      bind (target_position planar cylindrical (columns prediction) (rows prediction) index e' u') (fun y =>
      Ok (Some (norm (vsub x y)))))
  | _, _ => bind (target_position planar cylindrical (columns prediction) (rows prediction) index 0 0) (fun _ => Ok None)
  end.
(** [FocalSpotLoss.__call__], loss.py:152-248: missing keyword arguments are an error; the masks of the indices must fit
    the numbers of bitmaps. *)
Definition focal_spot_loss (planar : list plane) (cylindrical : list cylinder) (device_given : bool) (indices : option (list nat))
  (predictions truths : list image) : res (list (option R)) :=
  match device_given, indices with
  | true, Some indices =>
      if (length predictions =? length indices)%nat && (length truths =? length indices)%nat
      then map_res (fun '(index, (prediction, truth)) => focal_spot_distance planar cylindrical index prediction truth)
                   (combine indices (combine predictions truths))
      else Err IndexError
  | _, _ => Err ValueError
  end.

(** Element-wise operations on tensors with rows: equal numbers of rows, or one row on either side. *)
Definition broadcast {A B C} (f : A -> B -> C) (xs : list A) (ys : list B) : res (list C) :=
  if (length xs =? length ys)%nat then Ok (map (fun '(x, y) => f x y) (combine xs ys))
  else match xs, ys with
       | [x], _ => Ok (map (f x) ys)
       | _, [y] => Ok (map (fun x => f x y) xs)
       | _, _ => Err RuntimeError
       end.
(** [_compute_measured_normals], kinematics_reconstructor.py:421-470.  [positions] are the positions of all heliostats
    of the group, [mask] the numbers of samples of each of them; all in three dimensions. *)
Definition measured_normals (positions : list point) (mask : list nat) (focal_spots incidents : list point) : res (list hvec) :=
  bind (repeat_interleave positions mask) (fun positions =>
  bind (broadcast (fun f p => normalize (vsub f p)) focal_spots positions) (fun reflections =>
  bind (broadcast (fun r i => normalize (vsub r i)) reflections incidents) (fun normals =>
  Ok (map (fun n => hv (pe n) (pn n) (pu n) 0) normals)))).
