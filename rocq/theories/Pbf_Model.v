(** Contract of github.com/flywave/go-pbf, the wire primitives used by mvt/ (not in the
    repository; see DESIGN.md, trusted base).  A reader is a byte buffer and a position; a writer
    appends to a byte list. *)
From Coq Require Import ZArith List Lia Bool.
From Verif Require Import GoBase.
Import ListNotations.
Open Scope Z_scope.

Notation bytes := (list Z) (only parsing).

(** Wire types *)
Definition wVarint : Z := 0.
Definition wBytes : Z := 2.

(** ** Writer *)

(** EncodeVarint: LEB128 of a uint64 *)
Fixpoint leb (fuel : nat) (v : Z) : bytes :=
  match fuel with
  | O => [v mod 128]
  | S f => if v <? 128 then [v] else (128 + v mod 128) :: leb f (v / 128)
  end.
Definition EncodeVarint (v : Z) : bytes := leb 9 (u64 v).

(** WriteTag(t, w); also mvt/write_layer.go:218-220 tagAndType: one byte. *)
Definition tag_byte (t w : Z) : Z := u8 (Z.lor (Z.shiftl t 3) w).
Definition WriteTag (t w : Z) : bytes := [tag_byte t w].
Definition WriteString (t : Z) (s : bytes) : bytes := WriteTag t wBytes ++ EncodeVarint (zlen s) ++ s.
Definition WriteUInt64 (t v : Z) : bytes := WriteTag t wVarint ++ EncodeVarint v.
Definition WriteVarint (t v : Z) : bytes := WriteTag t wVarint ++ EncodeVarint v.
Definition packed (vs : list Z) : bytes := flat_map EncodeVarint vs.
Definition WritePackedUInt32 (t : Z) (vs : list Z) : bytes :=
  WriteTag t wBytes ++ EncodeVarint (zlen (packed vs)) ++ packed vs.
Definition WriteMessage (t : Z) (m : bytes) : bytes := WriteTag t wBytes ++ EncodeVarint (zlen m) ++ m.

(** Little-endian bytes: FloatVal32 (n = 4) and FloatVal64 (n = 8) of the bit pattern. *)
Fixpoint le_bytes (n : nat) (v : Z) : bytes :=
  match n with O => [] | S n => v mod 256 :: le_bytes n (v / 256) end.

(** ** Reader *)

(** ReadTag: at or past the end (100, 100) without moving. *)
Definition ReadTag (buf : bytes) (pos : Z) : res (Z * Z * Z) :=
  if zlen buf <=? pos then Ok (100, 100, pos)
  else let! b := nth_res buf pos in Ok (Z.shiftr b 3, Z.land b 7, pos + 1).

(** The bytes of a varint: up to and including the first byte below 128; [None] if there is none. *)
Fixpoint varint_bytes (l : bytes) : option bytes :=
  match l with
  | [] => None
  | b :: r => if b <? 128 then Some [b] else option_map (cons b) (varint_bytes r)
  end.
Fixpoint varint_val (l : bytes) : Z :=
  match l with [] => 0 | b :: r => Z.land b 127 + 128 * varint_val r end.

(** Varint: the raw bytes; reading past the end of the buffer panics. *)
Definition Varint (buf : bytes) (pos : Z) : res (bytes * Z) :=
  if pos <? 0 then Panic else
  match varint_bytes (skipn (Z.to_nat pos) buf) with
  | None => Panic
  | Some l => Ok (l, pos + zlen l)
  end.
Definition ReadUInt64 (buf : bytes) (pos : Z) : res (Z * Z) :=
  let! (l, pos) := Varint buf pos in Ok (u64 (varint_val l), pos).
(** ReadVarint returns int, ReadInt64 int64 *)
Definition ReadVarint (buf : bytes) (pos : Z) : res (Z * Z) :=
  let! (l, pos) := Varint buf pos in Ok (wrap64 (varint_val l), pos).
Definition ReadInt64 := ReadVarint.

(** buf[a:b] *)
Definition slice_res (buf : bytes) (a b : Z) : res bytes :=
  if (0 <=? a) && (a <=? b) && (b <=? zlen buf)
  then Ok (firstn (Z.to_nat (b - a)) (skipn (Z.to_nat a) buf)) else Panic.

Definition ReadString (buf : bytes) (pos : Z) : res (bytes * Z) :=
  let! (size, pos) := ReadVarint buf pos in
  let! s := slice_res buf pos (wrap64 (pos + size)) in Ok (s, wrap64 (pos + size)).

(** ReadPackedUInt32: varints while the position is before the end of the field. *)
Fixpoint packed_loop (fuel : nat) (buf : bytes) (pos endpos : Z) : res (list Z * Z) :=
  if pos <? endpos then
    match fuel with
    | O => NoFuel
    | S f =>
        let! (v, pos) := ReadUInt64 buf pos in
        let! (vs, pos) := packed_loop f buf pos endpos in Ok (u32 v :: vs, pos)
    end
  else Ok ([], pos).
Definition ReadPackedUInt32 (buf : bytes) (pos : Z) : res (list Z * Z) :=
  let! (size, pos) := ReadVarint buf pos in
  packed_loop (S (length buf)) buf pos (wrap64 (pos + size)).

Definition ReadBool (buf : bytes) (pos : Z) : res (bool * Z) :=
  let! b := nth_res buf pos in Ok (negb (b =? 0), pos + 1).

Fixpoint le_val (l : bytes) : Z := match l with [] => 0 | b :: r => b + 256 * le_val r end.
(** ReadFloat, ReadDouble: the bit pattern of 4 or 8 bytes *)
Definition ReadLE (n : Z) (buf : bytes) (pos : Z) : res (Z * Z) :=
  let! l := slice_res buf pos (pos + n) in Ok (le_val l, pos + n).
