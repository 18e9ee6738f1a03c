(** Vocabulary of the calibration data properties (C60, C61, C82, C83). *)
From Coq Require Import List Arith Bool String Reals.
From Verif Require Import ModelVectors ModelTransforms ModelCoordinates ModelCalibration.
Import ListNotations.
Local Open Scope string_scope.

Section Samples.
Variables P G : Type.
(** The first [k] of the files of a heliostat for a limit of [k], all of them without a limit. *)
Definition within (limit : option nat) {A} (l : list A) : list A := match limit with None => l | Some k => firstn k l end.
(** The samples of a mapping, heliostat by heliostat: name, property file and image belong together. *)
Definition samples (limit : option nat) (mapping : list (string * list P * list G)) (names : list string) : list (string * P * G) :=
  flat_map (fun name => flat_map (fun '(n, ps, gs) => if String.eqb n name then map (fun '(p, g) => (name, p, g)) (within limit (combine ps gs)) else []) mapping) names.
Definition owner (s : string * P * G) : string := fst (fst s).
Definition property_file (s : string * P * G) : P := snd (fst s).
Definition image_file (s : string * P * G) : G := snd s.
(** The heliostats of the samples according to an activation mask, [torch.repeat_interleave(names, mask)]. *)
Definition repeated (names : list string) (mask : list nat) : list string := flat_map (fun '(n, k) => repeat n k) (combine names mask).
End Samples.
Arguments within limit {A}.
Arguments samples {P G}.
Arguments owner {P G}.
Arguments property_file {P G}.
Arguments image_file {P G}.

(** The position of the sun at unit distance, and sums of homogeneous vectors. *)
Definition sun_position (p : properties) : hvec :=
  let s := azimuth_elevation_to_enu 1 true (c_azimuth p) (c_elevation p) in hv (pe s) (pn s) (pu s) 0.
Definition hadd4 (a b : hvec) : hvec := hv (he a + he b) (hn a + hn b) (hu a + hu b) (hw a + hw b).
