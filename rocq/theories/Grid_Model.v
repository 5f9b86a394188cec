(** mbtiles/mbtiles.go: UTF grids and the JSON form of layer types.
    Trusted as in Mbtiles_Model: SQLite.  Parameters: the compression and JSON text codecs of Go's standard library. *)
From Coq Require Import String ZArith Reals List Lia Bool.
From Verif Require Import GoBase Json Mbtiles_Model Meta_Model.
Import ListNotations.
Open Scope Z_scope.

(** ** Layer types *)

(** mbtiles/mbtiles.go:111-113 String: an index outside the table panics *)
Definition LayerTypeString (t : Z) : out gstr :=
  if t <? 0 then Crash else match nth_error layerTypeStrings (Z.to_nat t) with Some s => Val s | None => Crash end.
(** mbtiles/mbtiles.go:115-117 MarshalJSON *)
Definition LayerTypeMarshalJSON (t : Z) : out json := obind (LayerTypeString t) (fun s => Val (JStr s)).
(** What encoding/json writes for a LayerType: MarshalJSON has a pointer receiver, so it is called only for a value whose
    address can be taken (a field reached through a pointer, a slice element); otherwise the integer is written. *)
Definition encode_layer_type (addressable : bool) (t : Z) : out json :=
  if addressable then LayerTypeMarshalJSON t else Val (JNum (IZR t)).
(** mbtiles/mbtiles.go:119-134 UnmarshalJSON; null decodes into a string as the empty string *)
Definition LayerTypeUnmarshalJSON (j : json) : out Z :=
  match j with
  | JStr s => match index_of s layerTypeStrings 0 with Some i => Val i | None => Err end
  | JNull => match index_of [] layerTypeStrings 0 with Some i => Val i | None => Err end
  | _ => Err
  end.
(** ** UTF grids *)

(** What the grid statements see: whether all five names are in sqlite_master, the value that "limit 1" returns from
    grid_utfgrid, the grid at a position, the key rows at a position.  NULL is None. *)
Record griddb := mkGrid {
  gTables : bool;
  gSample : option (option gstr);
  gGrid : Z -> Z -> Z -> option (option gstr);
  gKeys : Z -> Z -> Z -> list (option gstr * option gstr) }.

Definition blob (d : option gstr) : gstr := match d with Some b => b | None => [] end.

(** mbtiles/mbtiles.go:192-214, the grid part of NewDB: utfgridCompression when hasUTFGrid is set *)
Definition NewDBGrid (order : list (Z * list gstr)) (db : griddb) : out (option Z) :=
  if gTables db then
    match gSample db with
    | None => Val None
    | Some d => obind (detectTileFormat order (blob d)) (fun f => Val (Some f))
    end
  else Val None.

Section Codecs.
  (** zlib.NewReader and gzip.NewReader: None when the header is bad, else the bytes that can be read *)
  Variables unzlib ungzip : gstr -> option gstr.
  (** zlib.NewWriter and gzip.NewWriter *)
  Variables zlib gzip : gstr -> gstr.
  (** json.Unmarshal of a whole text, and Decode of the first value of a stream, into an interface{}: None on an error *)
  Variables unmarshal decode : gstr -> option json.
  (** json.Encoder.Encode of a map *)
  Variable encode : list (gstr * json) -> gstr.

  (** mbtiles/mbtiles.go:319-322: json.Unmarshal into a map that was made: an error leaves it empty, null makes it nil *)
  Definition key_value (v : option gstr) : json :=
    match unmarshal (blob v) with Some (JObj l) => JObj l | Some JNull => JNull | _ => JObj [] end.
  (** Assignment to a map: an existing key keeps its place *)
  Fixpoint jput (k : gstr) (v : json) (m : list (gstr * json)) : list (gstr * json) :=
    match m with
    | [] => [(k, v)]
    | (k', v') :: r => if seqb k k' then (k, v) :: r else (k', v') :: jput k v r
    end.
  (** A decoded object as a map: later duplicates of a key win *)
  Definition jmap (l : list (gstr * json)) : list (gstr * json) := fold_left (fun m e => jput (fst e) (snd e) m) l [].

  (** mbtiles/mbtiles.go:302-323: the key rows into keydata; NULL does not scan into a string *)
  Fixpoint key_rows (rows : list (option gstr * option gstr)) (m : list (gstr * json)) : out (list (gstr * json)) :=
    match rows with
    | [] => Val m
    | (None, _) :: _ => Err
    | (Some k, v) :: r => key_rows r (jput k (key_value v) m)
    end.

  (** mbtiles/mbtiles.go:290-369 ReadGrid: the data the caller gets without an error; [comp] is what NewDBGrid found.
      Assigning into the nil map left by a failed Decode panics (line 354).  The statements fail on a position with the
      high bit set.  Not modelled: what is left in *data on an error. *)
  Definition ReadGrid (comp : option Z) (db : griddb) (z x y : Z) : out (option gstr) :=
    match comp with
    | None => Err
    | Some c =>
        if negb (bindable x && bindable y) then Err else
        match gGrid db z x y with
        | None => Val None
        | Some d =>
            obind (key_rows (gKeys db z x y) []) (fun keydata =>
            match keydata with
            | [] => Val d
            | _ =>
                match (if c =? ZLIB then unzlib (blob d) else ungzip (blob d)) with
                | None => Err
                | Some s =>
                    match decode s with
                    | Some (JObj l) =>
                        let text := encode (jput (B "data") (JObj keydata) (jmap l)) in
                        Val (Some (if c =? ZLIB then zlib text else gzip text))
                    | _ => Crash
                    end
                end
            end)
        end
    end.
End Codecs.
