(** mvt/: whole layers and tiles as bytes.  Writer: write_feature.go, write_layer.go; readers:
    read_tile.go, read_layer.go, read_feature_lazy.go.  Strings are byte lists. *)
From Coq Require Import ZArith List Lia Bool.
From Verif Require Import GoBase Pbf_Model MvtGeom_Model.
Import ListNotations.
Open Scope Z_scope.

(** ** mvt/proto.go *)

(** mvt/proto.go:14-50 Proto and its parts *)
Record proto := mkProto {
  pLayers : Z;
  pVersion : Z; pName : Z; pFeatures : Z; pKeys : Z; pValues : Z; pExtent : Z;
  pID : Z; pTags : Z; pType : Z; pGeometry : Z;
  pString : Z; pFloat : Z; pDouble : Z; pInt : Z; pUInt : Z; pSInt : Z; pBool : Z }.

(** mvt/proto.go:52-54 *)
Definition MapboxProto : proto := mkProto 3 15 1 2 3 4 5 1 2 3 4 1 2 3 4 5 6 7.
(** mvt/proto.go:56-58 *)
Definition LKProto : proto := mkProto 2 15 1 2 4 5 6 1 7 6 2 1 2 3 4 5 6 7.
(** mvt/proto.go:63-71 getProto; PROTO_MAPBOX = 0, PROTO_LK = 1 *)
Definition getProto (p : Z) : proto :=
  if p =? 0 then MapboxProto else if p =? 1 then LKProto else MapboxProto.

(** ** Property values *)

(** A value stored in an interface{}; [ty] identifies its dynamic type (Go compares it when the value
    is a map key).  Floats are bit patterns. [VOther] is any other comparable value, [VUnhash] a
    value that cannot be a map key. *)
Inductive gval :=
| VFloat32 (ty bits : Z)
| VFloat64 (ty bits : Z)
| VInt (ty z : Z)
| VUInt (ty z : Z)
| VBool (ty : Z) (b : bool)
| VString (ty : Z) (s : list Z)
| VOther (ty id : Z)
| VUnhash.

Fixpoint bytes_eqb (a b : list Z) : bool :=
  match a, b with
  | [], [] => true
  | x :: a, y :: b => (x =? y) && bytes_eqb a b
  | _, _ => false
  end.

(** Go's == on floats given by their bits, [w] the width: not NaN, and equal bits or both zeros. *)
Definition f_eqb (w : Z) (inf : Z) (a b : Z) : bool :=
  (a mod 2 ^ (w - 1) <=? inf) && (b mod 2 ^ (w - 1) <=? inf) &&
  ((a =? b) || ((a mod 2 ^ (w - 1) =? 0) && (b mod 2 ^ (w - 1) =? 0))).
Definition inf32 : Z := 255 * 2 ^ 23.
Definition inf64 : Z := 2047 * 2 ^ 52.

(** == of two interface values *)
Definition veqb (a b : gval) : bool :=
  match a, b with
  | VFloat32 t x, VFloat32 u y => (t =? u) && f_eqb 32 inf32 x y
  | VFloat64 t x, VFloat64 u y => (t =? u) && f_eqb 64 inf64 x y
  | VInt t x, VInt u y => (t =? u) && (x =? y)
  | VUInt t x, VUInt u y => (t =? u) && (x =? y)
  | VBool t x, VBool u y => (t =? u) && Bool.eqb x y
  | VString t x, VString u y => (t =? u) && bytes_eqb x y
  | VOther t x, VOther u y => (t =? u) && (x =? y)
  | _, _ => false
  end.

(** mvt/write_layer.go:91-121 WriteValue.  The conversion of a float32 through float64 is the
    identity on its bits (signalling NaNs aside). *)
Definition WriteValue (v : gval) (P : proto) : Z * bytes :=
  match v with
  | VFloat32 _ bits => (pFloat P, le_bytes 4 bits)
  | VFloat64 _ bits => (pDouble P, le_bytes 8 bits)
  | VInt _ z => (pInt P, EncodeVarint z)
  | VUInt _ z => (pUInt P, EncodeVarint z)
  | VBool _ b => (pBool P, [if b then 1 else 0])
  | VString _ s => (pString P, if 0 <? zlen s then EncodeVarint (zlen s) ++ s else EncodeVarint 0)
  | _ => (pString P, EncodeVarint 0)
  end.

(** ** Writer *)

(** mvt/write_layer.go:13-29 LayerWrite: the fields that reach the output. *)
Record layerw := mkLW {
  lwKeysMap : list (list Z * Z);
  lwValuesMap : list (gval * Z);
  lwFeatures : bytes; lwKeys : bytes; lwValues : bytes }.
Definition layerw0 : layerw := mkLW [] [] [] [] [].

(** mvt/write_layer.go:82-89 AddKey *)
Definition AddKey (P : proto) (s : layerw) (key : list Z) : Z * layerw :=
  let i := u32 (zlen (lwKeysMap s)) in
  (i, mkLW (lwKeysMap s ++ [(key, i)]) (lwValuesMap s) (lwFeatures s)
           (lwKeys s ++ WriteString (pKeys P) key) (lwValues s)).

(** mvt/write_layer.go:123-134 AddValue; called only for values not found in the map (so NaN adds
    an entry every time). *)
Definition AddValue (P : proto) (s : layerw) (v : gval) : Z * layerw :=
  let '(tag, vals) := WriteValue v P in
  let i := u32 (zlen (lwValuesMap s)) in
  (i, mkLW (lwKeysMap s) (lwValuesMap s ++ [(v, i)]) (lwFeatures s) (lwKeys s)
           (lwValues s ++ WriteMessage (pValues P) (WriteTag tag wBytes ++ vals))).

(** mvt/write_layer.go:136-153 GetTags; the property map in its iteration order. *)
Fixpoint GetTags (P : proto) (s : layerw) (props : list (list Z * gval)) : res (list Z * layerw) :=
  match props with
  | [] => Ok ([], s)
  | (k, v) :: r =>
      let '(kt, s) := match assoc bytes_eqb k (lwKeysMap s) with Some t => (t, s) | None => AddKey P s k end in
      let! (vt, s) :=
        match v with
        | VUnhash => Panic
        | _ => match assoc veqb v (lwValuesMap s) with Some t => Ok (t, s) | None => Ok (AddValue P s v) end
        end in
      let! (tags, s) := GetTags P s r in Ok (kt :: vt :: tags, s)
  end.

(** A geom.Geometry by its GetType(): [XOther] is any other type name. *)
Inductive geometry (Pt : Type) :=
| XPoint (p : Pt)
| XLineString (l : list Pt)
| XPolygon (rs : list (list Pt))
| XMultiPoint (ps : list Pt)
| XMultiLineString (ls : list (list Pt))
| XMultiPolygon (ps : list (list (list Pt)))
| XOther.
Arguments XPoint {Pt}. Arguments XLineString {Pt}. Arguments XPolygon {Pt}.
Arguments XMultiPoint {Pt}. Arguments XMultiLineString {Pt}. Arguments XMultiPolygon {Pt}. Arguments XOther {Pt}.

(** The value of feature.ID: nil, a signed integer, an unsigned integer, anything else. *)
Inductive fid := IDNil | IDInt (z : Z) | IDUint (z : Z) | IDOther.

Record feature (Pt : Type) := mkFeat { fID : fid; fProps : list (list Z * gval); fGeom : option (geometry Pt) }.
Arguments mkFeat {Pt}. Arguments fID {Pt}. Arguments fProps {Pt}. Arguments fGeom {Pt}.

Section Writer.
  Context {Pt : Type} (proj : Pt -> Z * Z) (peq : Pt -> Pt -> bool).

  (** mvt/write_feature.go:34-41 *)
  Definition geom_code (g : geometry Pt) : Z :=
    match g with
    | XPoint _ | XMultiPoint _ => 1
    | XLineString _ | XMultiLineString _ => 2
    | XPolygon _ | XMultiPolygon _ => 3
    | XOther => 0
    end.

  (** mvt/write_feature.go:45-64: the command list, from a fresh cursor (RefreshCursor,
      mvt/write_layer.go:155-160); [None] when nothing is written. *)
  Definition geom_cmds (g : geometry Pt) : res (option (list Z)) :=
    match g with
    | XPoint p => Ok (Some (geo (MakePointFloat proj cursor0 p)))
    | XLineString l => let! c := MakeLineFloat proj cursor0 l in Ok (Some (geo c))
    | XPolygon rs => let! c := MakePolygonFloat proj peq cursor0 rs in Ok (Some (geo c))
    | XMultiPoint ps => Ok (Some (geo (MakeMultiPointFloat proj cursor0 ps)))
    | XMultiLineString ls => let! c := MakeMultiLineFloat proj cursor0 ls in Ok (Some (geo c))
    | XMultiPolygon ps => let! c := MakeMultiPolygonFloat proj peq cursor0 ps in Ok (Some (geo c))
    | XOther => Ok None
    end.

  (** mvt/write_feature.go:11-72 AddFeature: [vv.Int()] panics on an unsigned ID.  The nil-geometry
      case is after the GeometryData conversion of lines 16-18. *)
  Definition AddFeature (P : proto) (s : layerw) (f : feature Pt) : res layerw :=
    let! idb :=
      match fID f with
      | IDInt z => Ok (WriteUInt64 (pID P) z)
      | IDUint _ => Panic
      | _ => Ok []
      end in
    let! (tagb, s) :=
      match fProps f with
      | [] => Ok ([], s)
      | props => let! (tags, s) := GetTags P s props in Ok (WritePackedUInt32 (pTags P) tags, s)
      end in
    let typeb := match fGeom f with None => [] | Some g => WriteVarint (pType P) (geom_code g) end in
    let! geomb :=
      match fGeom f with
      | None => Ok []
      | Some g => let! oc := geom_cmds g in
                  Ok (match oc with None => [] | Some cmds => WritePackedUInt32 (pGeometry P) cmds end)
      end in
    let allbyte := idb ++ tagb ++ typeb ++ geomb in
    Ok (mkLW (lwKeysMap s) (lwValuesMap s)
             (lwFeatures s ++ (tag_byte (pFeatures P) wBytes :: EncodeVarint (zlen allbyte) ++ allbyte))
             (lwKeys s) (lwValues s)).

  (** mvt/write_feature.go:74-98 AddFeatureRaw *)
  Definition AddFeatureRaw (P : proto) (s : layerw) (id geomtype : Z) (geometry : list Z)
             (props : list (list Z * gval)) : res layerw :=
    let idb := if 0 <? id then WriteUInt64 (pID P) id else [] in
    let! (tagb, s) :=
      match props with
      | [] => Ok ([], s)
      | _ => let! (tags, s) := GetTags P s props in Ok (WritePackedUInt32 (pTags P) tags, s)
      end in
    let typeb := if geomtype =? 0 then [] else WriteVarint (pType P) geomtype in
    let geomb := match geometry with [] => [] | _ => WritePackedUInt32 (pGeometry P) geometry end in
    let allbyte := idb ++ tagb ++ typeb ++ geomb in
    Ok (mkLW (lwKeysMap s) (lwValuesMap s)
             (lwFeatures s ++ (tag_byte (pFeatures P) wBytes :: EncodeVarint (zlen allbyte) ++ allbyte))
             (lwKeys s) (lwValues s)).

  (** mvt/write_layer.go:194-216 Flush (and 172-191 of WriteLayer): the bytes of one layer *)
  Definition layer_body (P : proto) (name : list Z) (extent version : Z) (s : layerw) : bytes :=
    (match name with [] => [] | _ => WriteString (pName P) name end) ++
    lwFeatures s ++ lwKeys s ++ lwValues s ++
    WriteUInt64 (pExtent P) extent ++ WriteVarint (pVersion P) version.
  Definition Flush (P : proto) (name : list Z) (extent version : Z) (s : layerw) : bytes :=
    let total := layer_body P name extent version s in
    tag_byte (pLayers P) wBytes :: EncodeVarint (zlen total) ++ total.

  (** mvt/write_layer.go:31-40 Config, 54-80 NewLayerConfig: defaults for extent and version *)
  Record config := mkConfig { cName : list Z; cExtent : Z; cVersion : Z; cProto : Z }.
  Definition cfgExtent (c : config) : Z := if cExtent c =? 0 then 4096 else cExtent c.
  Definition cfgVersion (c : config) : Z := if cVersion c =? 0 then 2 else cVersion c.

  (** mvt/write_layer.go:162-192 WriteLayer *)
  Definition WriteLayer (features : list (feature Pt)) (c : config) : res bytes :=
    let P := getProto (cProto c) in
    let! s := fold_res (AddFeature P) features layerw0 in
    Ok (Flush P (cName c) (cfgExtent c) (cfgVersion c) s).
End Writer.

(** ** Readers *)

(** A value read from a layer's table *)
Inductive wval :=
| WString (s : list Z) | WFloat (bits : Z) | WDouble (bits : Z) | WInt (z : Z) | WUInt (z : Z) | WBool (b : bool).

(** mvt/read_layer.go:43-61, one value (the wire type is ignored, a signed value is read without
    zig-zag decoding, an unknown field adds nothing). *)
Definition read_value (P : proto) (buf : bytes) (pos : Z) : res (list wval * Z) :=
  let! (_, pos) := ReadVarint buf pos in
  let! (newkey, _, pos) := ReadTag buf pos in
  if newkey =? pString P then let! (s, pos) := ReadString buf pos in Ok ([WString s], pos)
  else if newkey =? pFloat P then let! (b, pos) := ReadLE 4 buf pos in Ok ([WFloat b], pos)
  else if newkey =? pDouble P then let! (b, pos) := ReadLE 8 buf pos in Ok ([WDouble b], pos)
  else if newkey =? pInt P then let! (z, pos) := ReadInt64 buf pos in Ok ([WInt z], pos)
  else if newkey =? pUInt P then let! (z, pos) := ReadUInt64 buf pos in Ok ([WUInt z], pos)
  else if newkey =? pSInt P then let! (z, pos) := ReadUInt64 buf pos in Ok ([WUInt z], pos)
  else if newkey =? pBool P then let! (b, pos) := ReadBool buf pos in Ok ([WBool b], pos)
  else Ok ([], pos).

(** Loop state: the tag just read and the position after it. *)
Record cur := mkC { cKey : Z; cVal : Z; cPos : Z }.
Definition next_tag (buf : bytes) (pos : Z) : res cur :=
  let! (k, v, p) := ReadTag buf pos in Ok (mkC k v p).

(** mvt/read_layer.go:32-38 *)
Fixpoint feats_loop (fuel : nat) (P : proto) (buf : bytes) (c : cur) : res (list Z * cur) :=
  if (cKey c =? pFeatures P) && (cVal c =? wBytes) then
    match fuel with
    | O => NoFuel
    | S f =>
        let! (size, pos) := ReadVarint buf (cPos c) in
        let! c' := next_tag buf (wrap64 (pos + size)) in
        let! (fs, c'') := feats_loop f P buf c' in Ok (cPos c :: fs, c'')
    end
  else Ok ([], c).
(** mvt/read_layer.go:39-42 *)
Fixpoint keys_loop (fuel : nat) (P : proto) (buf : bytes) (c : cur) : res (list (list Z) * cur) :=
  if (cKey c =? pKeys P) && (cVal c =? wBytes) then
    match fuel with
    | O => NoFuel
    | S f =>
        let! (k, pos) := ReadString buf (cPos c) in
        let! c' := next_tag buf pos in
        let! (ks, c'') := keys_loop f P buf c' in Ok (k :: ks, c'')
    end
  else Ok ([], c).
(** mvt/read_layer.go:43-63; [chk] is whether the wire type is tested (read_tile.go:99 does not) *)
Fixpoint values_loop (chk : bool) (fuel : nat) (P : proto) (buf : bytes) (c : cur) : res (list wval * cur) :=
  if (cKey c =? pValues P) && (negb chk || (cVal c =? wBytes)) then
    match fuel with
    | O => NoFuel
    | S f =>
        let! (v, pos) := read_value P buf (cPos c) in
        let! c' := next_tag buf pos in
        let! (vs, c'') := values_loop chk f P buf c' in Ok (v ++ vs, c'')
    end
  else Ok ([], c).

(** What the layer loop collects *)
Record layerr := mkLR {
  lrName : list Z; lrNames : list (list Z); lrFeats : list Z; lrKeys : list (list Z); lrVals : list wval;
  lrExtent : Z; lrVersion : Z }.
Definition layerr0 : layerr := mkLR [] [] [] [] [] 0 0.

(** mvt/read_layer.go:26-73 (also read_tile.go:85-132, 338-385): the layer loop *)
Fixpoint layer_loop (chk : bool) (fuel : nat) (P : proto) (buf : bytes) (endpos : Z) (c : cur) (s : layerr) : res layerr :=
  if cPos c <? endpos then
    match fuel with
    | O => NoFuel
    | S f =>
        let! (s, c) :=
          if (cKey c =? pName P) && (cVal c =? wBytes) then
            let! (n, pos) := ReadString buf (cPos c) in
            let! c := next_tag buf pos in
            Ok (mkLR n (lrNames s ++ [n]) (lrFeats s) (lrKeys s) (lrVals s) (lrExtent s) (lrVersion s), c)
          else Ok (s, c) in
        let! (fs, c) := feats_loop f P buf c in
        let! (ks, c) := keys_loop f P buf c in
        let! (vs, c) := values_loop chk f P buf c in
        let s := mkLR (lrName s) (lrNames s) (lrFeats s ++ fs) (lrKeys s ++ ks) (lrVals s ++ vs) (lrExtent s) (lrVersion s) in
        let! (s, c) :=
          if (cKey c =? pExtent P) && (cVal c =? wVarint) then
            let! (e, pos) := ReadVarint buf (cPos c) in
            let! c := next_tag buf pos in
            Ok (mkLR (lrName s) (lrNames s) (lrFeats s) (lrKeys s) (lrVals s) e (lrVersion s), c)
          else Ok (s, c) in
        let! (s, c) :=
          if (cKey c =? pVersion P) && (cVal c =? wVarint) then
            let! (v, pos) := ReadVarint buf (cPos c) in
            let! c := next_tag buf pos in
            Ok (mkLR (lrName s) (lrNames s) (lrFeats s) (lrKeys s) (lrVals s) (lrExtent s) v, c)
          else Ok (s, c) in
        layer_loop chk f P buf endpos c s
    end
  else Ok s.

(** mvt/read_layer.go:7-20 Layer *)
Record layer := mkLayer {
  lName : list Z; lExtent : Z; lVersion : Z; lKeys : list (list Z); lVals : list wval;
  lFeats : list Z; lStart : Z; lEnd : Z }.

(** mvt/read_tile.go:13-19 Tile: the names in order of appearance and the layer map. *)
Record tile := mkTileV { tNames : list (list Z); tMap : list (list Z * layer) }.

(** Assignment m[k] = v: an existing key keeps its place. *)
Fixpoint mput {V} (k : list Z) (v : V) (m : list (list Z * V)) : list (list Z * V) :=
  match m with
  | [] => [(k, v)]
  | (k', v') :: r => if bytes_eqb k k' then (k, v) :: r else (k', v') :: mput k v r
  end.
Definition mget {V} (k : list Z) (m : list (list Z * V)) : option V := assoc bytes_eqb k m.

(** mvt/read_layer.go:22-82 NewLayer: the layer starting at [pos]; the caller continues at [endpos]. *)
Definition NewLayer (fuel : nat) (P : proto) (buf : bytes) (pos endpos : Z) (t : tile) : res tile :=
  let! c := next_tag buf pos in
  let! s := layer_loop true fuel P buf endpos c layerr0 in
  let ext := if lrExtent s =? 0 then 4096 else lrExtent s in
  let l := mkLayer (lrName s) ext (lrVersion s) (lrKeys s) (lrVals s) (lrFeats s) pos endpos in
  Ok (mkTileV (tNames t ++ lrNames s) (mput (lrName s) l (tMap t))).

(** mvt/read_tile.go:35-44: the tile loop *)
Fixpoint tile_loop (fuel : nat) (P : proto) (buf : bytes) (pos : Z) (t : tile) : res tile :=
  if pos <? zlen buf then
    match fuel with
    | O => NoFuel
    | S f =>
        let! (k, v, pos) := ReadTag buf pos in
        if (k =? pLayers P) && (v =? wBytes) then
          let! (size, pos) := ReadVarint buf pos in
          if size =? 0 then tile_loop f P buf pos t
          else
            let endpos := wrap64 (pos + size) in
            let! t := NewLayer f P buf pos endpos t in tile_loop f P buf endpos t
        else tile_loop f P buf pos t
    end
  else Ok t.
(** mvt/read_tile.go:21-46 NewTile: [Panic] is turned into an error by the deferred function. *)
Definition NewTile (fuel : nat) (pt : Z) (buf : bytes) : res tile :=
  tile_loop fuel (getProto pt) buf 0 (mkTileV [] []).

(** mvt/read_feature_lazy.go:82-98: the tags of a feature against the layer's tables; an index out
    of range gives the empty string, an odd number of tags panics. *)
Fixpoint tag_props (keys : list (list Z)) (vals : list wval) (tags : list Z) (m : list (list Z * wval)) : res (list (list Z * wval)) :=
  match tags with
  | [] => Ok m
  | [_] => Panic
  | kt :: vt :: r =>
      let k := match nth_error keys (Z.to_nat kt) with Some k => k | None => [] end in
      let v := match nth_error vals (Z.to_nat vt) with Some v => v | None => WString [] end in
      tag_props keys vals r (mput k v m)
  end.

(** mvt/read_feature_lazy.go:13-21 the type Feature *)
Record rfeat := mkRF { rfID : Z; rfType : Z; rfProps : list (list Z * wval); rfGeomPos : Z }.

(** mvt/read_feature_lazy.go:73-119 (also read_tile.go:153-190, 403-440 with [extra] = 0, 1): the fields
    of one feature, updating the values found so far. *)
Fixpoint feat_loop (fuel : nat) (extra : Z) (P : proto) (buf : bytes) (keys : list (list Z)) (vals : list wval)
         (pos endpos : Z) (f : rfeat) : res rfeat :=
  if pos <? endpos then
    match fuel with
    | O => NoFuel
    | S n =>
        let! (k, v, pos) := ReadTag buf pos in
        let! (f, pos) :=
          if (k =? pID P) && (v =? wVarint) then
            let! (z, pos) := ReadUInt64 buf pos in Ok (mkRF (wrap64 z) (rfType f) (rfProps f) (rfGeomPos f), pos)
          else Ok (f, pos) in
        let! (f, pos) :=
          if (k =? pTags P) && (v =? wBytes) then
            let! (tags, pos) := ReadPackedUInt32 buf pos in
            let! m := tag_props keys vals tags (rfProps f) in
            Ok (mkRF (rfID f) (rfType f) m (rfGeomPos f), pos)
          else Ok (f, pos) in
        let! (f, pos) :=
          if (k =? pType P) && (v =? wVarint) then
            let! (l, pos) := Varint buf pos in
            Ok (mkRF (rfID f) (hd 0 l) (rfProps f) (rfGeomPos f), pos)
          else Ok (f, pos) in
        let! (f, pos) :=
          if (k =? pGeometry P) && (v =? wBytes) then
            let! (size, p1) := ReadVarint buf pos in
            Ok (mkRF (rfID f) (rfType f) (rfProps f) pos, wrap64 (p1 + size + extra))
          else Ok (f, pos) in
        feat_loop n extra P buf keys vals pos endpos f
    end
  else Ok f.

(** mvt/read_feature_lazy.go:61-124 Layer.Feature for the feature number [i] *)
Definition Feature (fuel : nat) (P : proto) (buf : bytes) (l : layer) (i : nat) : res rfeat :=
  match nth_error (lFeats l) i with
  | None => Panic
  | Some p =>
      let! (size, pos) := ReadVarint buf p in
      feat_loop fuel 0 P buf (lKeys l) (lVals l) pos (wrap64 (pos + size)) (mkRF 0 0 [] 0)
  end.

(** mvt/read_feature_lazy.go:126-136 LoadGeometryRaw *)
Definition LoadGeometryRaw (buf : bytes) (f : rfeat) : res (list Z) :=
  let! (g, _) := ReadPackedUInt32 buf (rfGeomPos f) in Ok g.
(** mvt/read_feature_lazy.go:138-251 LoadGeometry *)
Definition LoadGeometry (buf : bytes) (f : rfeat) : res geomdata :=
  let! g := LoadGeometryRaw buf f in LoadGeometryCmds (rfType f) g.

(** ** ReadTile and ReadRawTile *)

(** A feature as ReadTile returns it, in tile coordinates: [ofID] is 0 when feature.ID is nil.
    Not modelled here: the projection of the coordinates (see MvtProj_Model). *)
Record ofeat := mkOF { ofID : Z; ofProps : list (list Z * wval); ofGeom : geomdata }.

Definition str_layer : list Z := [108; 97; 121; 101; 114].

(** mvt/read_tile.go:146-301: the features of a layer.  [id], [gt] and [gp] are declared before
    the loop and keep their values from one feature to the next. *)
Fixpoint read_feats (fuel : nat) (extra : Z) (P : proto) (buf : bytes) (keys : list (list Z)) (vals : list wval)
         (name : list Z) (positions : list Z) (id gt gp : Z) : res (list ofeat) :=
  match positions with
  | [] => Ok []
  | p :: r =>
      let! (size, pos) := ReadVarint buf p in
      let! f := feat_loop fuel extra P buf keys vals pos (wrap64 (pos + size)) (mkRF id gt [] gp) in
      let! (cmds, _) := ReadPackedUInt32 buf (rfGeomPos f) in
      let! g := LoadGeometryCmds (rfType f) cmds in
      let! fs := read_feats fuel extra P buf keys vals name r (rfID f) (rfType f) (rfGeomPos f) in
      Ok (mkOF (rfID f) (mput str_layer (WString name) (rfProps f)) g :: fs)
  end.

(** mvt/read_tile.go:74-306 (chk = false, extra = 0) and 327-543 (chk = true, extra = 1): the tile
    loop of ReadTile and ReadRawTile; [acc] are the features read so far. *)
Fixpoint read_loop (fuel : nat) (chk : bool) (extra : Z) (P : proto) (buf : bytes) (pos : Z) (acc : list ofeat) : res (list ofeat) :=
  if pos <? zlen buf then
    match fuel with
    | O => NoFuel
    | S f =>
        let! (k, v, pos) := ReadTag buf pos in
        if (k =? pLayers P) && (v =? wBytes) then
          let! (size, pos) := ReadVarint buf pos in
          let endpos := wrap64 (pos + size) in
          let! s :=
            if size =? 0 then Ok layerr0
            else let! c := next_tag buf pos in layer_loop chk f P buf endpos c layerr0 in
          let! fs := read_feats f extra P buf (lrKeys s) (lrVals s) (lrName s) (lrFeats s) 0 0 0 in
          read_loop f chk extra P buf endpos (acc ++ fs)
        else read_loop f chk extra P buf pos acc
    end
  else Ok acc.

(** mvt/read_tile.go:59-311 ReadTile; the error for an empty result is in [ReadTile_outcome]. *)
Definition ReadTile (fuel : nat) (pt : Z) (buf : bytes) : res (list ofeat) :=
  read_loop fuel false 0 (getProto pt) buf 0 [].
(** mvt/read_tile.go:313-562 ReadRawTile *)
Definition ReadRawTile (fuel : nat) (pt : Z) (buf : bytes) : res (list ofeat) :=
  read_loop fuel true 1 (getProto pt) buf 0 [].

(** mvt/read_tile.go:48-57 Render: the layers in some iteration order of the map; slicing
    Pbf[StartPos:EndPos] panics when EndPos is outside the buffer. *)
Definition Render (buf : bytes) (order : list layer) : res bytes :=
  fold_res (fun acc l =>
    let! bs := slice_res buf (lStart l) (lEnd l) in
    Ok (acc ++ (26 :: EncodeVarint (zlen bs) ++ bs))) order [].

(** ** What a caller sees *)

(** A value and a nil error; an error; a nil result with a nil error; no return at all.  With a
    deferred recover, a panic gives an error only when the error result is named. *)
Inductive outcome (A : Type) := OValue (a : A) | OError | ONilNoError | ONever.
Arguments OValue {A}. Arguments OError {A}. Arguments ONilNoError {A}. Arguments ONever {A}.

(** mvt/read_tile.go:21-26: named results *)
Definition NewTile_outcome (fuel : nat) (pt : Z) (buf : bytes) : outcome tile :=
  match NewTile fuel pt buf with Ok t => OValue t | Panic => OError | NoFuel => ONever end.
(** mvt/read_tile.go:59-65, 307-310: named results, an error when no feature was read *)
Definition ReadTile_outcome (fuel : nat) (pt : Z) (buf : bytes) : outcome (list ofeat) :=
  match ReadTile fuel pt buf with Ok [] => OError | Ok l => OValue l | Panic => OError | NoFuel => ONever end.
(** mvt/read_tile.go:313-319, 558-561: unnamed results; the closure sets a local variable *)
Definition ReadRawTile_outcome (fuel : nat) (pt : Z) (buf : bytes) : outcome (list ofeat) :=
  match ReadRawTile fuel pt buf with Ok [] => OError | Ok l => OValue l | Panic => ONilNoError | NoFuel => ONever end.
(** mvt/read_feature_lazy.go:253-296 ToGeoJSON: unnamed results; LoadGeometry recovers its own panics
    (lines 139-143); a nil geometry panics at line 268.  Not modelled: the projection. *)
Definition ToGeoJSON_outcome (buf : bytes) (f : rfeat) : outcome geomdata :=
  match LoadGeometry buf f with Ok GNil => ONilNoError | Ok g => OValue g | Panic => OError | NoFuel => ONever end.
