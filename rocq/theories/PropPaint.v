(** C83, C95-C98: reading PAINT files. *)
From Coq Require Import List Arith Bool String Reals Lra Lia Permutation.
From Verif Require Import ModelField ModelVectors ProofsVectors ModelIntersections SpecIntersections ModelPaint SpecPaint ProofsPaint.
Import ListNotations.
Local Open Scope R_scope.

(** C83, with unreadable files. If a mixed list of heliostats is read, every path gives exactly one heliostat with its own name and properties,
    a fitted surface exactly if it has a deflectometry file; the prototype has an ideal surface. *)
Theorem C83_read_surfaces : forall (F P S : Type) (properties : F -> res P) (ideal : P -> res S) (fitted : P -> F -> res S) paths hs proto,
  mixed_heliostats properties ideal fitted paths = Ok (hs, proto) ->
  exists order, Permutation order paths /\ Forall2 (built_from properties ideal fitted) order hs /\ ideal (fst proto) = Ok (snd proto).
Proof. exact (@mixed_built). Qed.
Print Assumptions C83_read_surfaces.

(** Lists of one kind keep the order of the paths and number the heliostats. *)
Theorem C83_read_one_kind : forall (F P S : Type) (properties : F -> res P) (ideal : P -> res S) (fitted : P -> F -> res S) paths hs proto,
  ((forall p, In p paths -> snd p = None) /\ ideal_heliostats properties ideal paths = Ok (hs, proto))
  \/ ((forall p, In p paths -> snd p <> None) /\ fitted_heliostats properties fitted paths = Ok (hs, proto)) ->
  Forall2 (built_from properties ideal fitted) paths hs /\ map he_id hs = seq 0 (List.length paths).
Proof. exact (@one_kind_built). Qed.
Print Assumptions C83_read_one_kind.

(** Reading succeeds if there is a heliostat of each kind and every file can be read ... *)
Theorem C83_read_partial : forall (F P S : Type) (properties : F -> res P) (ideal : P -> res S) (fitted : P -> F -> res S) paths,
  (exists p, In p paths /\ snd p = None) -> (exists p d, In p paths /\ snd p = Some d) ->
  (forall name file d, In (name, file, d) paths -> exists p s, properties file = Ok p /\ match d with Some d' => fitted p d' | None => ideal p end = Ok s) ->
  exists hs proto, mixed_heliostats properties ideal fitted paths = Ok (hs, proto).
Proof. exact (@mixed_succeeds). Qed.
Print Assumptions C83_read_partial.

(** ... but never if all heliostats are of the same kind, ... *)
Theorem C83_read_one_kind_refuted : forall (F P S : Type) (properties : F -> res P) (ideal : P -> res S) (fitted : P -> F -> res S) paths x,
  (forall p, In p paths -> snd p = None) \/ (forall p, In p paths -> snd p <> None) ->
  mixed_heliostats properties ideal fitted paths <> Ok x.
Proof. exact (@mixed_one_kind). Qed.
Print Assumptions C83_read_one_kind_refuted.

(** ... and the ids of a mixed list are never unique. *)
Theorem C83_read_identifiers_refuted : forall (F P S : Type) (properties : F -> res P) (ideal : P -> res S) (fitted : P -> F -> res S) paths hs proto,
  mixed_heliostats properties ideal fitted paths = Ok (hs, proto) -> ~ NoDup (map he_id hs).
Proof. exact (@mixed_ids). Qed.
Print Assumptions C83_read_identifiers_refuted.

Example C83_read_case : let paths := [("A"%string, 10%nat, None); ("B"%string, 20%nat, Some 21%nat); ("C"%string, 30%nat, None)] in
  mixed_heliostats (fun f => Ok f) (fun p => Ok (p, 0%nat)) (fun p d => Ok (p, d)) paths
  = Ok ([Build_heliostat_entry "A"%string 0%nat 10%nat (10, 0)%nat; Build_heliostat_entry "C"%string 1%nat 30%nat (30, 0)%nat;
         Build_heliostat_entry "B"%string 0%nat 20%nat (20, 21)%nat], (30, (30, 0)))%nat.
Proof. reflexivity. Qed.

(** C95. A cylindrical target area opening at most half way whose corners are in the tower file is reconstructed exactly,
    if it does not lean sideways; either side may be called left. *)
Theorem C95_cylinders_partial : forall c side, proper_cylinder c -> cyl_opening c <= PI -> pu (cross (cyl_axis c) (cyl_normal c)) = 0 ->
  / 10 ^ 12 <= pu (cyl_axis c) -> side = 1 \/ side = -1 ->
  cylinder_of_corners (cyl_radius c) (cyl_opening c) (cyl_normal c) (cylinder_corner c side 1) (cylinder_corner c side (-1))
    (cylinder_corner c (- side) 1) (cylinder_corner c (- side) (-1)) = Some c.
Proof. exact cylinder_areas. Qed.
Print Assumptions C95_cylinders_partial.

(** The centre of an area opening further is on the wrong side of the corners, ... *)
Theorem C95_wide_refuted : forall c side, proper_cylinder c -> PI < cyl_opening c < 2 * PI -> side = 1 \/ side = -1 ->
  exists c', cylinder_of_corners (cyl_radius c) (cyl_opening c) (cyl_normal c) (cylinder_corner c side 1) (cylinder_corner c side (-1))
      (cylinder_corner c (- side) 1) (cylinder_corner c (- side) (-1)) = Some c'
    /\ norm (vsub (cyl_center c') (cyl_center c)) = 2 * cyl_radius c * - cos (cyl_opening c / 2) /\ cos (cyl_opening c / 2) < 0.
Proof. exact wide_cylinders. Qed.
Print Assumptions C95_wide_refuted.

(** ... and the axis of an area that leans sideways is wrong. *)
Theorem C95_leaning_refuted : forall c side, proper_cylinder c -> pu (cross (cyl_axis c) (cyl_normal c)) <> 0 -> side = 1 \/ side = -1 ->
  exists c', cylinder_of_corners (cyl_radius c) (cyl_opening c) (cyl_normal c) (cylinder_corner c side 1) (cylinder_corner c side (-1))
      (cylinder_corner c (- side) 1) (cylinder_corner c (- side) (-1)) = Some c' /\ cyl_axis c' <> cyl_axis c.
Proof. exact leaning_cylinders. Qed.
Print Assumptions C95_leaning_refuted.

(** A receiver tilted by a 3-4-5 triangle towards the field, and an upright one leaning east. *)
Example C95_case :
  let c := {| cyl_center := vec 0 0 55; cyl_axis := vec 0 (3/5) (4/5); cyl_normal := vec 0 (4/5) (-3/5); cyl_radius := 4; cyl_height := 5; cyl_opening := PI / 3 |} in
  let e := {| cyl_center := vec 0 0 55; cyl_axis := vec (3/5) 0 (4/5); cyl_normal := vec 0 1 0; cyl_radius := 4; cyl_height := 5; cyl_opening := PI / 3 |} in
  (proper_cylinder c /\ cyl_opening c <= PI /\ pu (cross (cyl_axis c) (cyl_normal c)) = 0 /\ / 10 ^ 12 <= pu (cyl_axis c))
  /\ proper_cylinder e /\ pu (cross (cyl_axis e) (cyl_normal e)) <> 0.
Proof.
  intros c e. pose proof PI_RGT_0 as PI0. unfold c, e, proper_cylinder, unit. cbn [cyl_center cyl_axis cyl_normal cyl_radius cyl_height cyl_opening].
  repeat split; try (vunfold; lra).
Qed.

(** C96. The points of a rectangular target area with horizontal upper edge that faces exactly north or south, tilted or not,
    are exactly those within the area computed from its corners. *)
Theorem C96_planar_partial : forall center normal a b s t, pu a = 0 -> pe b = 0 -> pe a <> 0 -> pu b <> 0 -> let r := rectangle center a b in
  within_area (plane_of_corners center normal (r (-1) 1) (r (-1) (-1)) (r 1 1) (r 1 (-1))) (r s t) <-> Rabs s <= 1 /\ Rabs t <= 1.
Proof. exact planar_areas. Qed.
Print Assumptions C96_planar_partial.

(** The area of a rectangle whose sides also run east, as those of a tilted area turned away from north, lacks one of its corners. *)
Theorem C96_turned_refuted : forall center normal a b, pe b <> 0 -> let r := rectangle center a b in
  exists s t, (s = 1 \/ s = -1) /\ (t = 1 \/ t = -1)
  /\ ~ within_area (plane_of_corners center normal (r (-1) 1) (r (-1) (-1)) (r 1 1) (r 1 (-1))) (r s t).
Proof. exact turned_areas. Qed.
Print Assumptions C96_turned_refuted.

(** A target tilted towards the field, and one facing north east and tilted. *)
Example C96_case : (pu (vec 4 0 0) = 0 /\ pe (vec 0 1 3) = 0 /\ pe (vec 4 0 0) <> 0 /\ pu (vec 0 1 3) <> 0)
  /\ dot (vec 4 4 0) (vec 1 (-1) 3) = 0 /\ pe (vec 1 (-1) 3) <> 0.
Proof. vunfold. repeat split; lra. Qed.

(** C97. A tower file that starts with the power plant and lists complete planar and cylindrical areas gives exactly these
    areas, in order. *)
Theorem C97_tower_partial : forall plant position entries, te_position plant = Some position ->
  Forall (fun x => complete (fst x) (snd x)) entries ->
  exists planars cylindricals, read_tower ((power_plant_key, plant) :: entries) = Ok (position, planars, cylindricals)
  /\ Forall2 (reads_planar position) (filter (of_type "planar") entries) planars
  /\ Forall2 (reads_cylindrical position) (filter (of_type "convex_cylinder") entries) cylindricals.
Proof. exact tower_files. Qed.
Print Assumptions C97_tower_partial.

(** A file in which the power plant does not come first is never read, although the order of keys has no meaning in JSON. *)
Theorem C97_order_refuted : forall first entries plant x, In (power_plant_key, plant) entries -> te_type plant = None ->
  read_tower (first :: entries) <> Ok x.
Proof. exact plant_not_first. Qed.
Print Assumptions C97_order_refuted.

(** Areas of any other type are dropped without notice. *)
Theorem C97_types_refuted : forall plant key e t before after, te_type e = Some t -> t <> "planar"%string -> t <> "convex_cylinder"%string ->
  read_tower ((power_plant_key, plant) :: before ++ (key, e) :: after)%list = read_tower ((power_plant_key, plant) :: before ++ after)%list.
Proof. exact unknown_types. Qed.
Print Assumptions C97_types_refuted.

Example C97_case :
  let plant := {| te_type := None; te_position := Some (51, 6, 87); te_points := fun _ => None; te_normal := None; te_radius := None; te_opening := None |} in
  let planar := {| te_type := Some "planar"%string; te_position := None; te_points := fun _ => Some (51, 6, 130); te_normal := Some (vec 0 1 0); te_radius := None; te_opening := None |} in
  let receiver := {| te_type := Some "convex_cylinder"%string; te_position := None;
    te_points := fun n => if String.prefix "receiver_inner_" n then Some (51, 6, 130) else None; te_normal := Some (vec 0 1 0); te_radius := Some 4; te_opening := Some 60 |} in
  te_position plant = Some (51, 6, 87) /\ complete "multi_focus_tower" planar /\ complete "receiver" receiver
  /\ read_tower [("multi_focus_tower"%string, planar); (power_plant_key, plant)] = Err KeyError.
Proof.
  intros plant planar receiver. split; [reflexivity|]. split; [|split; [|reflexivity]].
  - split; [discriminate|]. left. split; [reflexivity|]. intros n _. discriminate.
  - split; [discriminate|]. right. split; [reflexivity|]. split; [discriminate|]. split; [discriminate|].
    intros n I. cbn in I. repeat (destruct I as [<-|I]; [discriminate|]). destruct I.
Qed.

(** C98. As many facets are read as the heliostat file says; it must list that many, and further ones are ignored. *)
Theorem C98_facets : forall A (facets : list A) number,
  read_heliostat_facets number facets = if (number <=? List.length facets)%nat then Ok (firstn number facets) else Err IndexError.
Proof. exact facets_read. Qed.
Print Assumptions C98_facets.

(** Deflectometry data with as many normals as points are read unchanged; additional normals are rejected, ... *)
Theorem C98_deflectometry_partial : forall A (points normals : list A),
  (List.length normals = List.length points -> deflectometry_facet points normals = Ok (map Some points, map Some normals))
  /\ ((List.length points < List.length normals)%nat -> deflectometry_facet points normals = Err IndexError).
Proof. intros A points normals. split; [exact (deflectometry_complete A points normals)|exact (deflectometry_excess A points normals)]. Qed.
Print Assumptions C98_deflectometry_partial.

(** ... and the facets of the file are returned in order, ... *)
Theorem C98_deflectometry_file_partial : forall A n (file : nat -> option (list A * list A)),
  (forall f, (f < n)%nat -> exists points normals, file f = Some (points, normals) /\ List.length normals = List.length points) ->
  exists out, read_deflectometry n file = Ok out /\ List.length out = n
  /\ forall f points normals, (f < n)%nat -> file f = Some (points, normals) -> nth_error out f = Some (map Some points, map Some normals).
Proof. exact deflectometry_file. Qed.
Print Assumptions C98_deflectometry_file_partial.

(** ... but if normals are missing, unset memory is returned as normals. *)
Theorem C98_deflectometry_refuted : forall A (points normals : list A), (List.length normals < List.length points)%nat ->
  exists rows, deflectometry_facet points normals = Ok (map Some points, rows) /\ In None rows.
Proof. exact deflectometry_unset. Qed.
Print Assumptions C98_deflectometry_refuted.

Example C98_case : read_heliostat_facets 2 [1; 2; 3]%nat = Ok [1; 2]%nat /\ read_heliostat_facets 4 [1; 2; 3]%nat = Err IndexError
  /\ read_deflectometry 2 (fun f => nth_error [([1; 2], [3; 4]); ([5; 6], [7])]%nat f)
     = Ok [([Some 1; Some 2], [Some 3; Some 4]); ([Some 5; Some 6], [Some 7; None])]%nat.
Proof. repeat split; reflexivity. Qed.
