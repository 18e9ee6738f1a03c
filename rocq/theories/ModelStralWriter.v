(** Model of the export of heliostats to STRAL files: [save_heliostat_model], examples/field_optimizations/generate_results.py:333-402, and
    [save_binp_from_artist_data] with the loop of the script, examples/field_optimizations/generate_stral_inputs.py:28-162 and 225-249. *)
From Coq Require Import List Arith NArith Reals String Strings.Byte.
From Verif Require Import ModelField ModelVectors ModelHdf5.
Import ListNotations.

(** [np.uint32] packed as format [I], and [to_bytes(4, byteorder="little")].  Integers that do not fit are cut off. *)
Definition uint_bytes (n : N) : list byte :=
  map (fun k => match Byte.of_N (n / 256 ^ k mod 256) with Some b => b | None => x00 end) [0; 1; 2; 3]%N.
Definition ascii_bytes (s : string) : list byte := list_byte_of_string s.

Section Writer.
(** Single precision numbers: [encode] packs one as format [f], [of_real] rounds. *)
Context {F : Type} (encode : F -> list byte) (of_real : R -> F).

(** One facet as it is handed over: translation, canting vectors, points and normals, each with its first three coordinates. *)
Record binp_facet := { b_translation : F * F * F; b_canting_e : F * F * F; b_canting_n : F * F * F; b_points : list (F * F * F); b_normals : list (F * F * F) }.
Definition pack3 (t : F * F * F) : list byte := let '(x, y, z) := t in encode x ++ encode y ++ encode z.

(** The power coefficient, generate_stral_inputs.py:141-143. *)
Definition power_coefficient (width height : R) (points facets : nat) : R := (width * height / (INR points * INR facets))%R.
(** The rays of a facet, 132-145; [zip] stops with the shorter list. *)
Definition pack_rays (width height : R) (facets : nat) (f : binp_facet) : list byte :=
  List.concat (map (fun '(p, n) => pack3 p ++ pack3 n ++ encode (of_real (power_coefficient width height (List.length (b_points f)) facets)))
    (combine (b_points f) (b_normals f))).
(** The loop over the facets, 88-145: format =i9fI and the rays in format =7f. *)
Definition pack_facet (width height : R) (facets : nat) (f : binp_facet) : list byte :=
  uint_bytes 0 ++ pack3 (b_translation f) ++ pack3 (b_canting_e f) ++ pack3 (b_canting_n f) ++ uint_bytes (N.of_nat (List.length (b_points f)))
  ++ pack_rays width height facets f.

(** What [save_heliostat_model] keeps of a heliostat. *)
Record exported := { x_position : R * R * R; x_width : R; x_height : R; x_columns : nat; x_lines : nat; x_axis_offset : R; x_mirror_offset : R; x_facets : list binp_facet }.
(** [save_binp_from_artist_data], 28-162. *)
Definition binp_file (x : exported) : list byte :=
  let '(e, n, u) := x_position x in
  encode (of_real n) ++ encode (of_real (- e)%R) ++ encode (of_real u) ++ encode (of_real (x_width x)) ++ encode (of_real (x_height x))
  ++ uint_bytes (N.of_nat (x_columns x)) ++ uint_bytes (N.of_nat (x_lines x)) ++ encode (of_real (x_axis_offset x)) ++ encode (of_real (x_mirror_offset x))
  ++ List.concat (map (pack_facet (x_width x) (x_height x) (List.length (x_facets x))) (x_facets x))
  ++ encode (of_real 0%R) ++ encode (of_real 0%R)
  ++ uint_bytes 16 ++ ascii_bytes "STJ_HELIOKON.DLL" ++ uint_bytes 13 ++ ascii_bytes "TrackingBasic".

(** A heliostat of a group: position, canting vectors of the facets, mirror offset, and its facets in single precision. *)
Record group_heliostat := { gh_position : R * R * R; gh_cantings : list (point * point); gh_mirror_offset : R; gh_facets : list binp_facet }.
(** [save_heliostat_model] for one heliostat, generate_results.py:363-398: the size is taken from the first facet, and facets stand in one
    line.  A group has at least one facet. *)
Definition export_heliostat (h : group_heliostat) : exported :=
  let first := match gh_cantings h with c :: _ => c | [] => (vec 0%R 0%R 0%R, vec 0%R 0%R 0%R) end in
  {| x_position := gh_position h; x_width := ((norm (fst first) - - norm (fst first)) * 2 + 1 / 100)%R; x_height := ((norm (snd first) - - norm (snd first)) * 2 + 1 / 100)%R;
     x_columns := List.length (gh_facets h); x_lines := 1; x_axis_offset := 0%R; x_mirror_offset := gh_mirror_offset h; x_facets := gh_facets h |}.
(** All groups, one after the other, and the loop of the script: one file per name, an existing file is replaced. *)
Definition stral_inputs (groups : list (list (string * group_heliostat))) : list (string * list byte) :=
  fold_left (fun files '(name, h) => dict_set name (binp_file (export_heliostat h)) files) (List.concat groups) [].
End Writer.
Arguments binp_facet : clear implicits. Arguments exported : clear implicits. Arguments group_heliostat : clear implicits.
