(** Vocabulary of the PAINT file properties (C83, C95-C98). *)
From Coq Require Import List Bool String Reals.
From Verif Require Import ModelField ModelVectors ModelIntersections ModelPaint.
Import ListNotations.
Local Open Scope R_scope.

(** The heliostat belongs to the path: its name, its own properties, a surface fitted to its own deflectometry file if there
    is one and an ideal surface otherwise. *)
Definition built_from {F P S} (properties : F -> res P) (ideal : P -> res S) (fitted : P -> F -> res S)
  (path : heliostat_path F) (h : heliostat_entry P S) : Prop :=
  let '(name, file, deflectometry) := path in
  he_name h = name /\ properties file = Ok (he_properties h)
  /\ match deflectometry with Some d => fitted (he_properties h) d | None => ideal (he_properties h) end = Ok (he_surface h).

(** The corner of a cylindrical area on side [side] (1 or -1) at the upper (1) or lower (-1) rim. *)
Definition cylinder_corner (c : cylinder) (side level : R) : point :=
  vadd (cyl_center c) (vadd (smul (level * (cyl_height c / 2)) (cyl_axis c))
    (smul (cyl_radius c) (vadd (smul (cos (cyl_opening c / 2)) (cyl_normal c))
      (smul (side * sin (cyl_opening c / 2)) (cross (cyl_axis c) (cyl_normal c)))))).

(** The point of a rectangle with half sides [a] and [b]. *)
Definition rectangle (center a b : point) (s t : R) : point := vadd center (vadd (smul s a) (smul t b)).

(** The members a target area of the given type must have. *)
Definition complete (key : string) (e : tower_entry) : Prop :=
  te_normal e <> None /\
  ((te_type e = Some "planar"%string /\ forall n, In n ["upper_left"; "lower_left"; "upper_right"; "lower_right"; "center"]%string -> te_points e n <> None)
   \/ (te_type e = Some "convex_cylinder"%string /\ te_radius e <> None /\ te_opening e <> None
       /\ forall n, In n ["upper_left"; "lower_left"; "upper_right"; "lower_right"]%string ->
          te_points e ((if String.eqb key "receiver" then "receiver_inner_" else "") ++ n) <> None)).
Definition of_type (type : string) (x : string * tower_entry) : bool :=
  match te_type (snd x) with Some t => String.eqb t type | None => false end.
(** The target area [y] carries the key of the entry [x] and the geometry given by this entry. *)
Definition reads_planar ref (x : string * tower_entry) (y : string * plane) : Prop := fst y = fst x /\ planar_area ref (snd x) = Ok (snd y).
Definition reads_cylindrical ref (x : string * tower_entry) (y : string * option cylinder) : Prop :=
  fst y = fst x /\ cylindrical_area ref (fst x) (snd x) = Ok (snd y).
