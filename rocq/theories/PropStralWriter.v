(** C145: exported STRAL files. *)
From Coq Require Import List Arith NArith Reals Lra Lia String Strings.Byte.
From Verif Require Import RealSums ModelField ModelVectors ModelHdf5 ModelStral ModelStralWriter SpecStral SpecStralWriter ProofsStral ProofsStralWriter.
Import ListNotations.

(** C145 (full statement: the STRAL file that is written for a heliostat holds the facets of that heliostat, so that reading it gives back their
    translations, cantings, points and normals, and the power coefficients of its points add up to its mirror area).
    Proved: the first part, and for heliostats of four equal facets the second up to a margin of one centimetre on each side length.
    Refuted: the second for a heliostat of a single facet: the coefficients always add up to more than four times its area. *)
Theorem C145_read_back_partial : forall (F : Type) (encode : F -> list byte) (decode : list byte -> F) of_real, four_byte_floats encode decode ->
  forall groups name h, NoDup (map fst (List.concat groups)) -> In (name, h) (List.concat groups) -> exportable h ->
  exists file, find_link name (stral_inputs encode of_real groups) = Some file /\ extract_stral decode file = Some (map facet_read (gh_facets h)).
Proof. intros F encode decode of_real CODE groups name h N I X. eexists. split; [apply own_file; eauto|]. apply export_read_back; auto. Qed.
Print Assumptions C145_read_back_partial.

Local Open Scope R_scope.
Theorem C145_power_partial : forall F (h : group_heliostat F) c_e c_n, gh_facets h <> [] -> (forall f, In f (gh_facets h) -> b_points f <> []) ->
  gh_cantings h = repeat (c_e, c_n) 4 ->
  total_power (export_heliostat h) = mirror_area h + / 25 * (norm c_e + norm c_n) + / 10000.
Proof. exact power_of_four. Qed.
Print Assumptions C145_power_partial.

Theorem C145_power_refuted : forall F (h : group_heliostat F) c_e c_n, gh_facets h <> [] -> (forall f, In f (gh_facets h) -> b_points f <> []) ->
  gh_cantings h = [(c_e, c_n)] ->
  4 * mirror_area h < total_power (export_heliostat h).
Proof. exact power_of_one. Qed.
Print Assumptions C145_power_refuted.

(** Two heliostats in two groups; floats of one significant byte. *)
Example C145_case :
  let encode := fun b : byte => [b; x00; x00; x00] in
  let decode := fun l : list byte => hd x00 l in
  let facet x := {| b_translation := (x, x02, x03); b_canting_e := (x04, x05, x06); b_canting_n := (x07, x08, x09);
    b_points := [(x0a, x0b, x0c); (x11, x12, x13)]; b_normals := [(x0d, x0e, x0f); (x14, x15, x16)] |} in
  let heliostat x := {| gh_position := (1, 2, 3); gh_cantings := [(vec 1 0 0, vec 0 1 0)]; gh_mirror_offset := 0; gh_facets := [facet x] |} in
  let files := stral_inputs encode (fun _ => x10) [[("A", heliostat x00)]; [("B", heliostat x01)]]%string in
  four_byte_floats encode decode /\ exportable (heliostat x00)
  /\ option_map (fun file => List.length file) (find_link "B"%string files) = Some 181%nat
  /\ option_map (extract_stral decode) (find_link "B"%string files) = Some (Some [facet_read (facet x01)]).
Proof.
  cbv zeta. split; [intros x; split; reflexivity|]. split; [split; [reflexivity|intros f [<-|[]]; split; reflexivity]|]. split; vm_compute; reflexivity.
Qed.
