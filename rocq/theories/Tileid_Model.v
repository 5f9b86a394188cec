(** tileid/tileid.go: the integer and string parts. *)
From Coq Require Import ZArith List Lia Bool String Ascii.
From Verif Require Import GoBase GoStr.
Import ListNotations.
Open Scope string_scope.
Open Scope Z_scope.

(** tileid/tileid.go:19-23.  X, Y int64; Z uint64. *)
Record TileID := mkTile { tX : Z; tY : Z; tZ : Z }.

(** The values a Go [TileID] can hold. *)
Definition tile_wf (t : TileID) : Prop := in_i64 (tX t) /\ in_i64 (tY t) /\ in_u64 (tZ t).

(** Common body of tileid/tileid.go:70-73 and 107-110 ([fmt.Sprintf] with one separator). *)
Definition tile_print (sep : ascii) (t : TileID) : string :=
  itoa (tX t) ++ String sep (itoa (tY t) ++ String sep (itoa (wrap64 (tZ t)))).

(** tileid/tileid.go:70-73 Tilestr *)
Definition Tilestr (t : TileID) : string := tile_print "/" t.
(** tileid/tileid.go:107-110 TilestrFile *)
Definition TilestrFile (t : TileID) : string := tile_print "-" t.

(** tileid/tileid.go:78-81 and 128-131: three ParseInt calls with the error dropped;
    indexing past the pieces panics. *)
Definition tile_of_pieces (vals : list string) : res TileID :=
  let! a := nth_res vals 0 in
  let! b := nth_res vals 1 in
  let! c := nth_res vals 2 in
  Ok (mkTile (fst (parse_int0 a)) (fst (parse_int0 b)) (u64 (fst (parse_int0 c)))).

(** tileid/tileid.go:76-82 Strtile *)
Definition Strtile (s : string) : res TileID := tile_of_pieces (split_char "/" s).

(** tileid/tileid.go:114-132 TileFromString; [vals] stays nil when no delimiter occurs. *)
Definition TileFromString (s : string) : res TileID :=
  let vals :=
    if contains_char "-" s then split_char "-" s
    else if contains_char "/" s then split_char "/" s
    else if contains_char "_" s then split_char "_" s
    else if contains_char "," s then split_char "," s
    else if contains_char " " s then split_char " " s
    else [] in
  tile_of_pieces vals.

(** tileid/tileid.go:85-91 Children; int64 multiplication and uint64 addition wrap. *)
Definition Children (t : TileID) : list TileID :=
  let x2 := wrap64 (tX t * 2) in
  let y2 := wrap64 (tY t * 2) in
  let z1 := u64 (tZ t + 1) in
  [ mkTile x2 y2 z1;
    mkTile (wrap64 (x2 + 1)) y2 z1;
    mkTile (wrap64 (x2 + 1)) (wrap64 (y2 + 1)) z1;
    mkTile x2 (wrap64 (y2 + 1)) z1 ].

(** tileid/tileid.go:150-152 IsEqual (int conversions of int64 are the identity,
    of uint64 wrap). *)
Definition IsEqual (a b : TileID) : bool :=
  (tX a =? tX b) && (tY a =? tY b) && (wrap64 (tZ a) =? wrap64 (tZ b)).

(** tileid/tileid.go:169 and 188: [1 << uint64(i)] as an int; wraps to the sign bit at 63
    and to 0 from 64 on. *)
Definition go_mask (i : nat) : Z := wrap64 (2 ^ Z.of_nat i).

(** tileid/tileid.go:168-176: the digit produced for mask position [i] (= loop variable - 1). *)
Definition qk_digit (x y : Z) (i : nat) : ascii :=
  digit_char ((if Z.land x (go_mask i) >? 0 then 1 else 0)
              + (if Z.land y (go_mask i) >? 0 then 2 else 0)).

(** tileid/tileid.go:165-179 QuadKey; loop from int(Z) down to 1. *)
Fixpoint quadkey_loop (n : nat) (x y : Z) : string :=
  match n with
  | O => ""
  | S m => String (qk_digit x y m) (quadkey_loop m x y)
  end.

Definition QuadKey (t : TileID) : string :=
  quadkey_loop (Z.to_nat (wrap64 (tZ t))) (tX t) (tY t).

(** tileid/tileid.go:155-161 reverse (bytes). *)
Fixpoint sreverse (s : string) : string :=
  match s with
  | EmptyString => ""
  | String a r => sreverse r ++ String a ""
  end.

(** tileid/tileid.go:187-199: loop over the reversed string.  Simplification: the string is
    ASCII, so runes are bytes and positions advance by one. *)
Fixpoint qk_decode (s : string) (pos : nat) (x y outer : Z) : Z * Z * Z :=
  match s with
  | EmptyString => (x, y, outer)
  | String a r =>
      let mask := go_mask pos in
      let x' := if (zascii a =? 49) || (zascii a =? 51) then Z.lor x mask else x in
      let y' := if (zascii a =? 50) || (zascii a =? 51) then Z.lor y mask else y in
      qk_decode r (S pos) x' y' (Z.of_nat pos)
  end.

(** tileid/tileid.go:183-201 QuadkeyToTile *)
Definition QuadkeyToTile (s : string) : TileID :=
  let '(x, y, outer) := qk_decode (sreverse s) 0 0 0 0 in
  mkTile x y (u64 (outer + 1)).
