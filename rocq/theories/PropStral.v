(** C93: reading STRAL files. *)
From Coq Require Import List Arith NArith Strings.Byte Lia.
From Verif Require Import ModelStral SpecStral ProofsStral.
Import ListNotations.

(** C93. A complete file is read back exactly, whatever follows it. *)
Theorem C93_round_trip : forall (F : Type) (encode : F -> list byte) (decode : list byte -> F), four_byte_floats encode decode ->
  forall s rest, fits_format s -> extract_stral decode (put_surface encode s ++ rest) = Some (map whole_facet (m_facets s)).
Proof. exact (@stral_round_trip). Qed.
Print Assumptions C93_round_trip.

(** A file that breaks off anywhere is rejected, unless it breaks off between two points of the last facet: then the points
    and normals that are missing are returned unset. *)
Theorem C93_truncated_partial : forall (F : Type) (encode : F -> list byte) (decode : list byte -> F), four_byte_floats encode decode ->
  forall s k, fits_format s -> k < length (put_surface encode s) ->
  forall out, extract_stral decode (firstn k (put_surface encode s)) = Some out <->
    exists front last j, m_facets s = front ++ [last] /\ j < length (m_rows last)
      /\ k + 28 * (length (m_rows last) - j) = length (put_surface encode s)
      /\ out = map whole_facet front ++ [facet_with j last].
Proof. exact (@stral_truncated). Qed.
Print Assumptions C93_truncated_partial.

(** Every surface has a truncated file that is accepted, with unset memory as measurements. *)
Theorem C93_truncated_refuted : forall (F : Type) (encode : F -> list byte) (decode : list byte -> F), four_byte_floats encode decode ->
  forall s front last, fits_format s -> m_facets s = front ++ [last] -> m_rows last <> [] ->
  exists k out, k < length (put_surface encode s) /\ extract_stral decode (firstn k (put_surface encode s)) = Some out
    /\ exists d, In d out /\ In None (fd_points d) /\ In None (fd_normals d).
Proof. exact (@stral_cut_accepted). Qed.
Print Assumptions C93_truncated_refuted.

(** Two facets with one and two points; floats of one significant byte. *)
Example C93_case :
  let encode := fun b : byte => [b; x00; x00; x00] in
  let decode := fun l : list byte => hd x00 l in
  let f1 := {| m_number := [x00; x00; x00; x00]; m_translation := (x01, x02, x03); m_canting_e := (x04, x05, x06); m_canting_n := (x07, x08, x09);
    m_rows := [((x0a, x0b, x0c), (x0d, x0e, x0f), x10)] |} in
  let f2 := {| m_number := [x01; x00; x00; x00]; m_translation := (x11, x02, x03); m_canting_e := (x04, x05, x06); m_canting_n := (x07, x08, x09);
    m_rows := [((x1a, x1b, x1c), (x1d, x1e, x1f), x10); ((x2a, x2b, x2c), (x2d, x2e, x2f), x10)] |} in
  let s := {| m_header := repeat x33 20; m_columns := 2; m_lines := 1; m_trailer := repeat x44 8; m_facets := [f1; f2] |} in
  four_byte_floats encode decode /\ fits_format s
  /\ option_map (map (@fd_points byte)) (extract_stral decode (firstn 180 (put_surface encode s)))
     = Some [[Some (x0a, x0b, x0c)]; [Some (x1a, x1b, x1c); None]]
  /\ length (put_surface encode s) = 208 /\ extract_stral decode (firstn 179 (put_surface encode s)) = None.
Proof.
  split; [intros x; split; reflexivity|]. split; [|split; [|split]; vm_compute; reflexivity].
  unfold fits_format. cbn [m_header m_trailer m_columns m_lines m_facets]. repeat split; try reflexivity.
  repeat constructor.
Qed.
