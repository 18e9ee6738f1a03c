(** The STRAL file format, seen from the program that writes the files. *)
From Coq Require Import List Arith NArith Strings.Byte.
From Verif Require Import ModelStral.
Import ListNotations.

(** What was measured on one facet: position, the two canting vectors, and for each point its coordinates, its normal and a
    seventh number that is not read. *)
Record measured_facet (F : Type) := { m_number : list byte; m_translation : F * F * F; m_canting_e : F * F * F; m_canting_n : F * F * F;
  m_rows : list ((F * F * F) * (F * F * F) * F) }.
Arguments m_number {F}. Arguments m_translation {F}. Arguments m_canting_e {F}. Arguments m_canting_n {F}. Arguments m_rows {F}.
Record measured_surface (F : Type) := { m_header : list byte; m_columns : N; m_lines : N; m_trailer : list byte; m_facets : list (measured_facet F) }.
Arguments m_header {F}. Arguments m_columns {F}. Arguments m_lines {F}. Arguments m_trailer {F}. Arguments m_facets {F}.

(** Unsigned integers as four bytes, least significant first. *)
Definition byte_of (n : N) : byte := match Byte.of_N (n mod 256) with Some b => b | None => x00 end.
Definition put_u32 (n : N) : list byte := [byte_of n; byte_of (n / 256); byte_of (n / 256 / 256); byte_of (n / 256 / 256 / 256)].

Section Encode.
Context {F : Type} (encode : F -> list byte).
Definition put_triple (t : F * F * F) : list byte := let '(a, b, c) := t in encode a ++ encode b ++ encode c.
Definition put_row (r : (F * F * F) * (F * F * F) * F) : list byte := let '(p, n, x) := r in put_triple p ++ put_triple n ++ encode x.
Definition put_facet (f : measured_facet F) : list byte :=
  m_number f ++ put_triple (m_translation f) ++ put_triple (m_canting_e f) ++ put_triple (m_canting_n f)
  ++ put_u32 (N.of_nat (length (m_rows f))) ++ concat (map put_row (m_rows f)).
Definition put_surface (s : measured_surface F) : list byte :=
  m_header s ++ put_u32 (m_columns s) ++ put_u32 (m_lines s) ++ m_trailer s ++ concat (map put_facet (m_facets s)).
End Encode.

(** A surface that fits the format: five floats before and two after the numbers of facets, whose product is the number of
    facets. *)
Definition fits_format {F} (s : measured_surface F) : Prop :=
  length (m_header s) = 20 /\ length (m_trailer s) = 8 /\ (m_columns s < 2 ^ 32)%N /\ (m_lines s < 2 ^ 32)%N
  /\ (m_columns s * m_lines s = N.of_nat (length (m_facets s)))%N
  /\ Forall (fun f => length (m_number f) = 4 /\ (N.of_nat (length (m_rows f)) < 2 ^ 32)%N) (m_facets s).
(** Floats are written as four bytes and read back unchanged. *)
Definition four_byte_floats {F} (encode : F -> list byte) (decode : list byte -> F) : Prop :=
  forall x, length (encode x) = 4 /\ decode (encode x) = x.

(** What the reader should return for a facet of which [present] rows are in the file. *)
Definition known {A} (present : nat) (l : list A) : list (option A) := map Some (firstn present l) ++ repeat None (length l - present).
Definition facet_with {F} (present : nat) (f : measured_facet F) : facet_data F :=
  {| fd_translation := m_translation f; fd_canting_e := m_canting_e f; fd_canting_n := m_canting_n f;
     fd_points := known present (map (fun r => fst (fst r)) (m_rows f)); fd_normals := known present (map (fun r => snd (fst r)) (m_rows f)) |}.
Definition whole_facet {F} (f : measured_facet F) : facet_data F :=
  {| fd_translation := m_translation f; fd_canting_e := m_canting_e f; fd_canting_n := m_canting_n f;
     fd_points := map (fun r => Some (fst (fst r))) (m_rows f); fd_normals := map (fun r => Some (snd (fst r))) (m_rows f) |}.
