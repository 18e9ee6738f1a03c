(** Model of how traced images are stored by the names of heliostats in the example scripts:
    [kinematics_evaluation], [surface_evaluation] and [create_deflectometry_fluxes] of examples/field_optimizations/generate_results.py and [generate_flux_images] of
    examples/paint_plots/flux_prediction_raytracing.py. *)
From Coq Require Import List Arith String Bool.
From Verif Require Import ModelField ModelHdf5 ModelCalibration.
Import ListNotations.
Local Open Scope string_scope.

(** ** Data for the evaluation of a reconstruction *)

(** [l[start : start + number]]. *)
Definition python_slice {A} (start number : nat) (l : list A) : list A := firstn number (skipn start l).
(** What is stored for a heliostat, generate_results.py:497-501, 608-611 and 321-326 (both without target areas): traced images, measured images, numbers of target areas. *)
Record evaluation (B F T : Type) := { e_traced : list B; e_measured : list F; e_targets : list T }.
Arguments e_traced {B F T}. Arguments e_measured {B F T}. Arguments e_targets {B F T}.
(** The loop over the mask, 489-502, 600-612 and 313-327: heliostats without samples are left out, others get their slice and move the offset. *)
Fixpoint evaluation_data {B F T} (offset : nat) (names : list string) (mask : list nat) (traced : list B) (measured : list F) (targets : list T)
  (data : list (string * evaluation B F T)) : list (string * evaluation B F T) :=
  match names, mask with
  | name :: names', number :: mask' =>
    if Nat.eqb number 0 then evaluation_data offset names' mask' traced measured targets data
    else evaluation_data (offset + number) names' mask' traced measured targets
           (dict_set name {| e_traced := python_slice offset number traced; e_measured := python_slice offset number measured;
                             e_targets := python_slice offset number targets |} data)
  | _, _ => data
  end.

(** ** Predicted fluxes *)

Section Prediction.
Variables property_path bitmap surface : Type.
(** Entries of the results of one heliostat: images under a key, or the surface. *)
Inductive prediction := Image (b : bitmap) | Surface (s : surface).
(** [read]: reading a calibration file (ModelCalibration).  [trace]: the image of a heliostat that is aligned and traced for a
    measurement (C124, C125).  [load_utis]: the measured image of a heliostat. *)
Variables (read : property_path -> res measurement) (trace : string -> measurement -> bitmap) (load_utis : string -> bitmap).

(** One row per active sample, in the order of the group: [torch.repeat_interleave] of the heliostats by the mask. *)
Definition traced_rows (names : list string) (mask : list nat) (measurements : list measurement) : list bitmap :=
  map (fun '(name, m) => trace name m) (combine (flat_map (fun '(name, number) => repeat name number) (combine names mask)) measurements).

(** The body of the loop, flux_prediction_raytracing.py:410-470.  [surfaces]: the surfaces of all heliostats of the group.  The surface is
    stored for the key "deflectometry" and if there is none yet; it is rotated back by the cantings found under the name (ModelCanting). *)
Definition store_heliostat (result_key : string) (flux : list bitmap) (surfaces : list surface) (uncanted : string -> surface -> surface)
  (i : nat) (name : string) (results : list (string * list (string * prediction))) : res (list (string * list (string * prediction))) :=
  let entry := match find_link name results with Some e => e | None => [] end in
  let entry := match find_link "utis" entry with Some _ => entry | None => dict_set "utis" (Image (load_utis name)) entry end in
  match nth_error flux i with
  | None => Err IndexError
  | Some b =>
    let entry := dict_set result_key (Image b) entry in
    if String.eqb result_key "deflectometry" && match find_link "surface" entry with Some _ => false | None => true end then
      match nth_error surfaces i with
      | None => Err IndexError
      | Some s => Ok (dict_set name (dict_set "surface" (Surface (uncanted name s)) entry) results)
      end
    else Ok (dict_set name entry results)
  end.
Fixpoint store_all (result_key : string) (flux : list bitmap) (surfaces : list surface) (uncanted : string -> surface -> surface)
  (i : nat) (keys : list string) (results : list (string * list (string * prediction))) : res (list (string * list (string * prediction))) :=
  match keys with
  | [] => Ok results
  | name :: keys' => bind (store_heliostat result_key flux surfaces uncanted i name results) (store_all result_key flux surfaces uncanted (S i) keys')
  end.
(** [generate_flux_images], 291-475.  [names]: the heliostats of the first group; [heliostats]: the names with their calibration files;
    [results]: what the results file holds before. *)
Definition generate_flux_images (result_key : string) (names : list string) (surfaces : list surface) (uncanted : string -> surface -> surface)
  (heliostats : list (string * property_path)) (results : list (string * list (string * prediction))) : res (list (string * list (string * prediction))) :=
  let mapping := filter (fun '(name, _) => existsb (String.eqb name) names) (map (fun '(name, path) => (name, [path])) heliostats) in
  bind (parse_calibration_data None read mapping names) (fun '(measurements, mask) =>
  store_all result_key (traced_rows names mask measurements) surfaces uncanted 0 (map fst heliostats) results).
End Prediction.
Arguments Image {bitmap surface}. Arguments Surface {bitmap surface}.
Arguments generate_flux_images {property_path bitmap surface}.
Arguments store_all {bitmap surface}. Arguments store_heliostat {bitmap surface}. Arguments traced_rows {bitmap}.
