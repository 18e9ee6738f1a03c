(** Specification of measurement files (C151). *)
From Coq Require Import List Arith String Ascii.
Import ListNotations.
Local Open Scope string_scope.

(** A number as [width] decimal digits. *)
Definition digit (d : nat) : ascii := ascii_of_nat (48 + d).
Fixpoint padded (width n : nat) : string :=
  match width with
  | O => EmptyString
  | S w => String (digit (n / 10 ^ w)) (padded w (n mod 10 ^ w))
  end.

(** The time of a measurement. *)
Record stamp := { year : nat; month : nat; day : nat; hour : nat; minute : nat; second : nat }.
Definition valid_stamp (s : stamp) : Prop :=
  year s < 10000 /\ month s < 100 /\ day s < 100 /\ hour s < 100 /\ minute s < 100 /\ second s < 100.
(** [s] is not later than [s']: the first component in which they differ is smaller. *)
Fixpoint not_larger (l l' : list nat) : Prop :=
  match l, l' with
  | x :: l, y :: l' => x < y \/ x = y /\ not_larger l l'
  | _, _ => True
  end.
Definition components (s : stamp) : list nat := [year s; month s; day s; hour s; minute s; second s].
Definition not_later (s s' : stamp) : Prop := not_larger (components s) (components s').

(** The name of a measurement's file in the PAINT database, as in AA39-filled-2023-09-18Z08-49-09Z-deflectometry.h5. *)
Definition stamp_text (s : stamp) : string :=
  padded 4 (year s) ++ "-" ++ padded 2 (month s) ++ "-" ++ padded 2 (day s) ++ "Z" ++ padded 2 (hour s) ++ "-" ++ padded 2 (minute s) ++ "-"
  ++ padded 2 (second s) ++ "Z".
Definition measurement (heliostat : string) (s : stamp) : string := heliostat ++ "-filled-" ++ stamp_text s ++ "-deflectometry.h5".
(** Measurements of the heliostat in a directory: all files the pattern of the script finds are measurements. *)
Definition fits_pattern (heliostat file : string) : Prop := exists rest, file = heliostat ++ "-filled" ++ rest ++ ".h5".
Definition only_measurements (heliostat : string) (files : list string) : Prop :=
  forall file, In file files -> fits_pattern heliostat file -> exists s, valid_stamp s /\ file = measurement heliostat s.
(** The latest measurement among the files. *)
Definition latest (heliostat : string) (files : list string) (file : string) : Prop :=
  exists s, valid_stamp s /\ file = measurement heliostat s /\ In file files
    /\ forall s', valid_stamp s' -> In (measurement heliostat s') files -> not_later s' s.
