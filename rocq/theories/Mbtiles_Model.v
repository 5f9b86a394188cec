(** mbtiles/mbtiles.go: the tile table, opening a database, format names and format detection.
    A database is what the SQL statements of this package can observe of it; SQLite itself is trusted: each statement is
    atomic, INSERT OR REPLACE replaces the row with equal unique key, and the statements of a transaction take effect at its commit. *)
From Coq Require Import String ZArith List Lia Bool.
From Verif Require Import GoBase Json.
Import ListNotations.
Open Scope Z_scope.

(** ** Formats *)

(** mbtiles/mbtiles.go:22-36 *)
Definition UNKNOWN := 0. Definition GZIP := 1. Definition ZLIB := 2. Definition PNG := 3. Definition JPG := 4. Definition PBF := 5.
Definition WEBP := 6. Definition LERC := 7. Definition TIFF := 8. Definition TERRAIN := 9. Definition TIF := 10.
(** mbtiles/mbtiles.go:38-50 *)
Definition formatStrings : list gstr :=
  [B ""; B "pbf"; B "png"; B "jpg"; B "webp"; B "gzib"; B "zlib"; B "lerc"; B "tiff"; B "terrain"; B "tif"].
(** mbtiles/mbtiles.go:52-73 *)
Definition FormatString (t : Z) : gstr :=
  if t =? PNG then B "png" else if t =? JPG then B "jpg" else if t =? PBF then B "pbf" else if t =? WEBP then B "webp" else if t =? LERC then B "lerc"
  else if t =? TIFF then B "tiff" else if t =? TIF then B "tif" else if t =? TERRAIN then B "terrain" else B "".
(** mbtiles/mbtiles.go:75-96 *)
Definition ContentType (t : Z) : gstr :=
  if t =? PNG then B "image/png" else if t =? JPG then B "image/jpeg" else if t =? PBF then B "application/x-protobuf" else if t =? WEBP then B "image/webp" else if t =? LERC then B "image/lerc"
  else if t =? TIF then B "image/tif" else if t =? TIFF then B "image/tiff" else if t =? TERRAIN then B "application/vnd.quantized-mesh" else B "".
(** mbtiles/metadata.go:131-139, from index [i] on *)
Fixpoint index_of (s : gstr) (l : list gstr) (i : Z) : option Z :=
  match l with [] => None | k :: l' => if seqb k s then Some i else index_of s l' (i + 1) end.
Definition StringToTileFormat (s : gstr) : Z := match index_of s formatStrings 0 with Some i => i | None => UNKNOWN end.
(** mbtiles/metadata.go:141-143; the format is a uint8, an index beyond the table panics *)
Definition TileFormatToString (t : Z) : out gstr := match nth_error formatStrings (Z.to_nat t) with Some s => Val s | None => Crash end.

(** ** Tiles *)

(** mbtiles/mbtiles.go:225-228: a row of the table tiles; the data of a nil slice is NULL *)
Record row := mkRow { rZ : Z; rX : Z; rY : Z; rData : option gstr }.
Definition same_key (z x y : Z) (r : row) : bool := (rZ r =? z) && (rX r =? x) && (rY r =? y).
(** database/sql refuses uint64 parameters with the high bit set *)
Definition bindable (x : Z) : bool := x <? 2 ^ 63.
(** mbtiles/mbtiles.go:268-277 StoreTile *)
Definition StoreTile (t : list row) (z x y : Z) (data : option gstr) : out (list row) :=
  if bindable x && bindable y then Val (filter (fun r => negb (same_key z x y r)) t ++ [mkRow z x y data]) else Err.
(** mbtiles/mbtiles.go:279-289 ReadTile *)
Definition ReadTile (t : list row) (z x y : Z) : out (option gstr) :=
  if bindable x && bindable y then
    match find (same_key z x y) t with Some r => Val (rData r) | None => Val None end
  else Err.

(** ** Detection *)

Fixpoint is_prefix (p s : gstr) : bool :=
  match p, s with
  | [], _ => true
  | a :: p', b :: s' => (a =? b) && is_prefix p' s'
  | _, [] => false
  end.
(** mbtiles/mbtiles.go:508-516 *)
Definition patterns : list (Z * list gstr) :=
  [ (GZIP, [[31; 139]]);
    (ZLIB, [[120; 156]]);
    (PNG, [[137; 80; 78; 71; 13; 10; 26; 10]]);
    (JPG, [[255; 216; 255]]);
    (WEBP, [[82; 73; 70; 70; 192; 0; 0; 0; 87; 69; 66; 80; 86; 80]]);
    (LERC, [[67; 110; 116; 90; 73; 109; 97; 103; 101; 32]; [76; 101; 114; 99; 50; 32]]);
    (TIFF, [[77; 77]; [73; 73]]) ].
(** mbtiles/mbtiles.go:518-524; [order] is the map iteration order *)
Fixpoint match_patterns (order : list (Z * list gstr)) (data : gstr) : option Z :=
  match order with
  | [] => None
  | (f, ps) :: order' => if existsb (fun p => is_prefix p data) ps then Some f else match_patterns order' data
  end.
(** The 64 bits of a little-endian field at offset [o] *)
Fixpoint le (l : gstr) : Z := match l with [] => 0 | b :: l' => b + 256 * le l' end.
Definition field64 (data : gstr) (o : nat) : Z := le (firstn 8 (skipn o data)).
(** == of float64 values given by their bits: NaN differs from everything, the zeros are equal *)
Definition f64_nan (b : Z) : bool := 2047 * 2 ^ 52 <? b mod 2 ^ 63.
Definition f64_eq (a b : Z) : bool :=
  negb (f64_nan a) && negb (f64_nan b) && ((a =? b) || ((a mod 2 ^ 63 =? 0) && (b mod 2 ^ 63 =? 0))).
(** mbtiles/mbtiles.go:526-542: a QuantizedMeshHeader (of package go-quantized-mesh) is three float64 (the centre), two
    float32, four float64 (bounding sphere centre and radius) and three float64: 88 bytes *)
Definition detectTileFormat (order : list (Z * list gstr)) (data : gstr) : out Z :=
  match match_patterns order data with
  | Some f => Val f
  | None =>
      if Nat.ltb (length data) 88 then Err
      else if f64_eq (field64 data 0) (field64 data 32) && f64_eq (field64 data 8) (field64 data 40) && f64_eq (field64 data 16) (field64 data 48) then Val TERRAIN
      else Err
  end.
(** mbtiles/mbtiles.go:156-184 NewDB: the format, from the data of the tile that "limit 1" returns.  No row is an error;
    a NULL is scanned as nil. The UTFGrid part is in Grid_Model. *)
Definition NewDB (order : list (Z * list gstr)) (first : option row) : out Z :=
  match first with
  | None => Err
  | Some r => obind (detectTileFormat order (match rData r with Some d => d | None => [] end)) (fun f => Val (if f =? GZIP then PBF else f))
  end.

(** ** Metadata updates as statements *)

(** What happens at a statement: it succeeds, it fails, or the process ends before it *)
Inductive event := Done | Fails | Ends.
(** How the call ends *)
Inductive ending := RetNil | RetErr | Ended | Panicked.
(** mbtiles/mbtiles.go:475-483: the insertions inside the transaction; [k] is the number of statements before *)
Fixpoint inserts (ev : nat -> event) (k : nat) (rows : list (gstr * gstr)) : ending + nat :=
  match rows with
  | [] => inr k
  | _ :: rows' => match ev k with Done => inserts ev (S k) rows' | Fails => inl RetErr | Ends => inl Ended end
  end.
(** mbtiles/mbtiles.go:449-478 UpdateMetadata: how it ends and the metadata table afterwards.  [old] is the table before,
    [new] the rows of md.ToMap() in map iteration order, None if ToMap panics.  log.Fatal ends the process. *)
Definition UpdateMetadata (ev : nat -> event) (old : list (gstr * gstr)) (new : option (list (gstr * gstr))) : ending * list (gstr * gstr) :=
  match ev 0%nat with
  | Fails => (RetErr, old) | Ends => (Ended, old)
  | Done =>
      match ev 1%nat with
      | Fails => (RetErr, []) | Ends => (Ended, [])
      | Done =>
          match ev 2%nat with
          | Fails => (Ended, []) | Ends => (Ended, [])
          | Done =>
              match new with
              | None => (Panicked, [])
              | Some rows =>
                  match inserts ev 3 rows with
                  | inl e => (e, [])
                  | inr k => match ev k with Done => (RetNil, rows) | Fails => (RetNil, []) | Ends => (Ended, []) end
                  end
              end
          end
      end
  end.
