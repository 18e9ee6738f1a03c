(** Model of reading a STRAL deflectometry file: [extract_stral_deflectometry_data],
    [artist/io/stral_scenario_parser.py]:15-132, with the indices of [artist/util/indices.py]:63-96.
    A file is a list of bytes.  The decoding of four bytes as a float is an argument [decode]; a row of a tensor made by
    [torch.empty] that has not been assigned is [None].  Simplified: the fourth component 0 appended to translations and
    cantings (stral_scenario_parser.py:120-123, see C54) is left out; integers are little endian (the format [=] uses the
    order of the machine). *)
From Coq Require Import List Arith NArith Bool Strings.Byte.
Import ListNotations.

(** Four bytes of format [I], little endian. *)
Definition u32 (b : list byte) : N :=
  match b with
  | [b0; b1; b2; b3] => (Byte.to_N b0 + 256 * (Byte.to_N b1 + 256 * (Byte.to_N b2 + 256 * Byte.to_N b3)))%N
  | _ => 0%N
  end.
(** Field number [i] of an unpacked record; all formats consist of four byte fields without padding ("="),
    stral_scenario_parser.py:49-51. *)
Definition field_bytes (i : nat) (record : list byte) : list byte := firstn 4 (skipn (4 * i) record).
(** Sizes of the formats =5f2I2f, =i9fI and =7f. *)
Definition surface_header_size : nat := 4 * 9.
Definition facet_header_size : nat := 4 * 11.
Definition point_size : nat := 4 * 7.

(** [struct.unpack_from(file.read(size))]: reading stops at the end of the file and fewer than [size] bytes raise
    [struct.error], here [None]. *)
Definition read_record (size : nat) (file : list byte) : option (list byte * list byte) :=
  let data := firstn size file in if length data <? size then None else Some (data, skipn size file).
(** [iter_unpack], stral_scenario_parser.py:100-102: the buffer must be a multiple of the record size. *)
Definition iter_unpack (size : nat) (data : list byte) : option (list (list byte)) :=
  if length data mod size =? 0 then Some (map (fun i => firstn size (skipn (size * i) data)) (seq 0 (length data / size))) else None.

Record facet_data (F : Type) := { fd_translation : F * F * F; fd_canting_e : F * F * F; fd_canting_n : F * F * F;
  fd_points : list (option (F * F * F)); fd_normals : list (option (F * F * F)) }.
Arguments fd_translation {F}. Arguments fd_canting_e {F}. Arguments fd_canting_n {F}. Arguments fd_points {F}. Arguments fd_normals {F}.

Section Decode.
Context {F : Type} (decode : list byte -> F).

Definition float_at (i : nat) (record : list byte) : F := decode (field_bytes i record).
Definition triple_at (i : nat) (record : list byte) : F * F * F := (float_at i record, float_at (i + 1) record, float_at (i + 2) record).

(** A tensor of [n] unassigned rows after assigning the first ones, stral_scenario_parser.py:93-115. *)
Definition fill_rows {A} (n : nat) (rows : list A) : list (option A) := map Some rows ++ repeat None (n - length rows).

(** One round of the loop over the facets, stral_scenario_parser.py:69-117. *)
Definition read_facet (file : list byte) : option (facet_data F * list byte) :=
  match read_record facet_header_size file with
  | None => None
  | Some (header, rest) =>
    let n := N.to_nat (u32 (field_bytes 10 header)) in
    match iter_unpack point_size (firstn (point_size * n) rest) with
    | None => None
    | Some rows =>
      Some ({| fd_translation := triple_at 1 header; fd_canting_e := triple_at 4 header; fd_canting_n := triple_at 7 header;
               fd_points := fill_rows n (map (triple_at 0) rows); fd_normals := fill_rows n (map (triple_at 3) rows) |},
            skipn (point_size * n) rest)
    end
  end.
Fixpoint read_facets (n : nat) (file : list byte) : option (list (facet_data F)) :=
  match n with
  | 0 => Some []
  | S n' => match read_facet file with
    | None => None
    | Some (f, rest) => match read_facets n' rest with None => None | Some fs => Some (f :: fs) end
    end
  end.

(** [extract_stral_deflectometry_data]. *)
Definition extract_stral (file : list byte) : option (list (facet_data F)) :=
  match read_record surface_header_size file with
  | None => None
  | Some (header, rest) => read_facets (N.to_nat (u32 (field_bytes 5 header) * u32 (field_bytes 6 header))) rest
  end.
End Decode.
