(** Names of tiles and of sprite files: the parts of tileid/tileid.go and sprite/style_file.go that
    Tileid_Model.v and StyleFile_Model.v leave out. *)
From Coq Require Import ZArith Reals List Bool String Ascii.
From Verif Require Import GoBase GoStr Json Tileid_Model TileR_Model StyleFile_Model.
Import ListNotations.
Open Scope Z_scope.

(** tileid/tileid.go:25-27 ToString; %d prints the uint64 zoom as it is *)
Definition ToString (t : TileID) : string :=
  (itoa (tX t) ++ String "." (itoa (tY t) ++ String "." (utoa (tZ t))))%string.

(** tileid/tileid.go:61-67 Tile_Geohash, in exact real arithmetic as in TileR_Model.v *)
Definition Tile_Geohash (lng lat : R) (zoom : Z) : string :=
  let lat := (lat * (PI / 180))%R in
  let n := pow2 zoom in
  let xtile := Rfloor ((lng + 180) / 360 * n)%R in
  let ytile := Rfloor ((1 - ln (tan lat + 1 / cos lat) / PI) / 2 * n)%R in
  Tilestr (mkTile xtile ytile (u64 zoom)).

(** sprite/style_file.go:20-27 UnmarshalText on the receiver [f]: the new receiver and the outcome *)
Definition UnmarshalText (f : StyleFile) (text : gstr) : StyleFile * out unit :=
  match ParseStyleFile text with
  | Val sf => (sf, Val tt)
  | Err => (f, Err)
  | Crash => (f, Crash)
  end.
(** sprite/style_file.go:29-31 MarshalText *)
Definition MarshalText (f : StyleFile) : out gstr := Val (SFString f).
