(** JSON documents other than styles: mbtiles/metadata.go LayerData, tilejson/tilejson.go, client/client.go and the
    languages of font/cover.go.  As in StyleJson_Model.v the text codec is not modelled. *)
From Coq Require Import String ZArith Reals List Lia Bool.
From Verif Require Import GoBase Num Json StyleJson_Model Client_Model Font_Model.
Import ListNotations.
Open Scope Z_scope.

(** ** Encoding *)
(** json.Marshal of a struct: its fields in order; a field tagged omitempty is left out when it is empty.  The values
    are taken to be encodable (no NaN in an interface, strings in UTF-8); the entries of a map stand in the order of
    their keys, as json.Marshal writes them. *)
Definition emit (l : list (gstr * option json)) : json :=
  JObj (flat_map (fun '(n, x) => match x with Some j => [(n, j)] | None => [] end) l).
Definition estr (s : gstr) : json := JStr s.
Definition eint (n : Z) : json := JNum (IZR n).
Definition eptr {A} (e : A -> json) (o : option A) : json := match o with Some x => e x | None => JNull end.
Definition eslice {A} (e : A -> json) (o : option (list A)) : json := match o with Some l => JArr (map e l) | None => JNull end.
Definition emap {A} (e : A -> json) (o : option (list (gstr * A))) : json := match o with Some l => JObj (map (fun kx => (fst kx, e (snd kx))) l) | None => JNull end.
(** omitempty *)
Definition ostr (s : gstr) : option json := match s with [] => None | _ => Some (estr s) end.
Definition oint (n : Z) : option json := if n =? 0 then None else Some (eint n).
Definition oslice {A} (e : A -> json) (o : option (list A)) : option json := match o with None | Some [] => None | Some l => Some (JArr (map e l)) end.
Definition optr {A} (e : A -> json) (o : option A) : option json := match o with Some x => Some (e x) | None => None end.

(** ** Decoded values *)
Definition slice_opt (v : gv) : option (list gv) := match v with GSlice l => Some l | _ => None end.
Definition map_opt (v : gv) : option (list (gstr * gv)) := match v with GMap l => Some l | _ => None end.
Definition any_of (v : gv) : json := match v with GAny j => j | _ => JNull end.
Definition float_of (v : gv) : R := match v with GFloat r => r | _ => 0%R end.
(** The n elements of an array *)
Definition floats_of (n : nat) (v : gv) : list R := map (fun i => float_of (nth i (slice_of v) GZero)) (seq 0 n).
Definition strings_of (v : gv) : option (list gstr) := option_map (map string_of) (slice_opt v).
Definition string_ptr (v : gv) : option gstr := option_map string_of (ptr_of v).
(** time.Time's UnmarshalJSON: null leaves it alone, anything but a string that [is_time] accepts is an error *)
Section Time.
Variable is_time : gstr -> bool.
Definition doc_custom (c : cty) (j : json) : out gv :=
  match c with
  | KTime => match j with JNull => Val GZero | JStr s => if is_time s then Val (GTime s) else Err | _ => Err end
  | _ => Crash
  end.
End Time.
(** None is the zero time *)
Definition time_of (v : gv) : option gstr := match v with GTime s => Some s | _ => None end.

(** ** mbtiles/metadata.go:96-127; slices, maps and pointers may be nil *)
Record Attribute := mkAt { atName : gstr; atCount : Z; atType : gstr; atValues : option (list json) }.
Record Layer := mkLy { lyName : gstr; lyCount : Z; lyGeometry : gstr; lyAttributeCount : Z; lyAttributes : option (list Attribute) }.
Record TileStats := mkTS { tsLayerCount : Z; tsLayers : option (list Layer) }.
Record MVectorLayer := mkMV { mvID : gstr; mvFields : option (list (gstr * json)); mvDescription : gstr; mvMinZoom : Z; mvMaxZoom : Z }.
(** VectorLayers is a pointer to a slice *)
Record LayerData := mkLD { ldVectorLayers : option (option (list MVectorLayer)); ldTileStats : option TileStats }.

Definition AttributeT : ty := TStruct [(B "attribute", TString); (B "count", TInt64); (B "type", TString); (B "values", TSlice TAny)].
Definition StatLayerT : ty := TStruct [(B "layer", TString); (B "count", TInt64); (B "geometry", TString); (B "attributeCount", TInt64); (B "attributes", TSlice AttributeT)].
Definition TileStatsT : ty := TStruct [(B "layerCount", TInt64); (B "layers", TSlice StatLayerT)].
Definition MVectorLayerT : ty := TStruct [(B "id", TString); (B "fields", TMap TAny); (B "description", TString); (B "minzoom", TInt64); (B "maxzoom", TInt64)].
Definition LayerDataT : ty := TStruct [(B "vector_layers", TPtr (TSlice MVectorLayerT)); (B "tilestats", TPtr TileStatsT)].

Definition encAttribute (a : Attribute) : json :=
  emit [(B "attribute", Some (estr (atName a))); (B "count", Some (eint (atCount a))); (B "type", Some (estr (atType a))); (B "values", Some (eslice (fun x => x) (atValues a)))].
Definition encLayer (l : Layer) : json :=
  emit [(B "layer", Some (estr (lyName l))); (B "count", Some (eint (lyCount l))); (B "geometry", Some (estr (lyGeometry l)));
    (B "attributeCount", Some (eint (lyAttributeCount l))); (B "attributes", oslice encAttribute (lyAttributes l))].
Definition encTileStats (t : TileStats) : json := emit [(B "layerCount", Some (eint (tsLayerCount t))); (B "layers", Some (eslice encLayer (tsLayers t)))].
Definition encMVectorLayer (v : MVectorLayer) : json :=
  emit [(B "id", Some (estr (mvID v))); (B "fields", Some (emap (fun x => x) (mvFields v))); (B "description", ostr (mvDescription v));
    (B "minzoom", oint (mvMinZoom v)); (B "maxzoom", oint (mvMaxZoom v))].
Definition encLayerData (d : LayerData) : json :=
  emit [(B "vector_layers", optr (eslice encMVectorLayer) (ldVectorLayers d)); (B "tilestats", optr encTileStats (ldTileStats d))].

Definition attribute_of (v : gv) : Attribute :=
  mkAt (string_of (gfield (B "attribute") v)) (int_of (gfield (B "count") v)) (string_of (gfield (B "type") v))
    (option_map (map any_of) (slice_opt (gfield (B "values") v))).
Definition layer_of (v : gv) : Layer :=
  mkLy (string_of (gfield (B "layer") v)) (int_of (gfield (B "count") v)) (string_of (gfield (B "geometry") v))
    (int_of (gfield (B "attributeCount") v)) (option_map (map attribute_of) (slice_opt (gfield (B "attributes") v))).
Definition tilestats_of (v : gv) : TileStats :=
  mkTS (int_of (gfield (B "layerCount") v)) (option_map (map layer_of) (slice_opt (gfield (B "layers") v))).
Definition mvectorlayer_of (v : gv) : MVectorLayer :=
  mkMV (string_of (gfield (B "id") v)) (option_map (map (fun kx => (fst kx, any_of (snd kx)))) (map_opt (gfield (B "fields") v)))
    (string_of (gfield (B "description") v)) (int_of (gfield (B "minzoom") v)) (int_of (gfield (B "maxzoom") v)).
Definition layerdata_of (v : gv) : LayerData :=
  mkLD (option_map (fun p => option_map (map mvectorlayer_of) (slice_opt p)) (ptr_of (gfield (B "vector_layers") v)))
    (option_map tilestats_of (ptr_of (gfield (B "tilestats") v))).
(** No type here has an UnmarshalJSON method *)
Definition no_custom (c : cty) (j : json) : out gv := Crash.
(** mbtiles/mbtiles.go:409: json.Unmarshal into a nil *LayerData *)
Definition decLayerData (j : json) : out (option LayerData) :=
  obind (Unmarshal no_custom (TPtr LayerDataT) j) (fun v => Val (option_map layerdata_of (ptr_of v))).

(** ** tilejson/tilejson.go:80-115 *)
Record VectorLayer := mkVL { vlVersion : Z; vlExtent : Z; vlID : gstr; vlSource : gstr; vlName : gstr; vlFields : option (list (gstr * gstr));
  vlFeatureTags : option (list gstr); vlGeometryType : gstr; vlMinZoom : Z; vlMaxZoom : Z; vlTiles : option (list gstr) }.
Record TileJSON := mkTJ { tjId : gstr; tjAttribution : option gstr; tjBounds : list R; tjCenter : list R; tjFormat : gstr; tjMinZoom : Z; tjMaxZoom : Z;
  tjName : option gstr; tjDescription : option gstr; tjScheme : gstr; tjTileJSON : gstr; tjTiles : option (list gstr); tjGrids : option (list gstr);
  tjData : option (list gstr); tjVersion : gstr; tjTemplate : option gstr; tjLegend : option gstr; tjVectorLayers : option (list VectorLayer);
  tjType : gstr; tjTileSize : Z }.
Definition VectorLayerT : ty := TStruct
  [(B "version", TInt64); (B "extent", TInt64); (B "id", TString); (B "source", TString); (B "source_name", TString); (B "fields", TMap TString);
   (B "feature_tags", TSlice TString); (B "geometry_type", TString); (B "minzoom", TUint); (B "maxzoom", TUint); (B "tiles", TSlice TString)].
Definition TileJSONT : ty := TStruct
  [(B "id", TString); (B "attribution", TPtr TString); (B "bounds", TArray 4 TFloat); (B "center", TArray 3 TFloat); (B "format", TString);
   (B "minzoom", TUint); (B "maxzoom", TUint); (B "name", TPtr TString); (B "description", TPtr TString); (B "scheme", TString);
   (B "tilejson", TString); (B "tiles", TSlice TString); (B "grids", TSlice TString); (B "data", TSlice TString); (B "version", TString);
   (B "template", TPtr TString); (B "legend", TPtr TString); (B "vector_layers", TSlice VectorLayerT); (B "type", TString); (B "tileSize", TUint32)].
Definition encVectorLayer (v : VectorLayer) : json :=
  emit [(B "version", Some (eint (vlVersion v))); (B "extent", Some (eint (vlExtent v))); (B "id", Some (estr (vlID v))); (B "source", Some (estr (vlSource v)));
    (B "source_name", Some (estr (vlName v))); (B "fields", Some (emap estr (vlFields v))); (B "feature_tags", oslice estr (vlFeatureTags v));
    (B "geometry_type", ostr (vlGeometryType v)); (B "minzoom", Some (eint (vlMinZoom v))); (B "maxzoom", Some (eint (vlMaxZoom v)));
    (B "tiles", Some (eslice estr (vlTiles v)))].
Definition encTileJSON (t : TileJSON) : json :=
  emit [(B "id", Some (estr (tjId t))); (B "attribution", Some (eptr estr (tjAttribution t))); (B "bounds", Some (JArr (map JNum (tjBounds t))));
    (B "center", Some (JArr (map JNum (tjCenter t)))); (B "format", Some (estr (tjFormat t))); (B "minzoom", Some (eint (tjMinZoom t)));
    (B "maxzoom", Some (eint (tjMaxZoom t))); (B "name", Some (eptr estr (tjName t))); (B "description", Some (eptr estr (tjDescription t)));
    (B "scheme", Some (estr (tjScheme t))); (B "tilejson", Some (estr (tjTileJSON t))); (B "tiles", Some (eslice estr (tjTiles t)));
    (B "grids", Some (eslice estr (tjGrids t))); (B "data", Some (eslice estr (tjData t))); (B "version", Some (estr (tjVersion t)));
    (B "template", Some (eptr estr (tjTemplate t))); (B "legend", Some (eptr estr (tjLegend t)));
    (B "vector_layers", oslice encVectorLayer (tjVectorLayers t)); (B "type", Some (estr (tjType t))); (B "tileSize", Some (eint (tjTileSize t)))].
Definition vectorlayer_of (v : gv) : VectorLayer :=
  mkVL (int_of (gfield (B "version") v)) (int_of (gfield (B "extent") v)) (string_of (gfield (B "id") v)) (string_of (gfield (B "source") v))
    (string_of (gfield (B "source_name") v)) (option_map (map (fun kx => (fst kx, string_of (snd kx)))) (map_opt (gfield (B "fields") v)))
    (strings_of (gfield (B "feature_tags") v)) (string_of (gfield (B "geometry_type") v)) (int_of (gfield (B "minzoom") v))
    (int_of (gfield (B "maxzoom") v)) (strings_of (gfield (B "tiles") v)).
Definition tilejson_of (v : gv) : TileJSON :=
  mkTJ (string_of (gfield (B "id") v)) (string_ptr (gfield (B "attribution") v)) (floats_of 4 (gfield (B "bounds") v)) (floats_of 3 (gfield (B "center") v))
    (string_of (gfield (B "format") v)) (int_of (gfield (B "minzoom") v)) (int_of (gfield (B "maxzoom") v)) (string_ptr (gfield (B "name") v))
    (string_ptr (gfield (B "description") v)) (string_of (gfield (B "scheme") v)) (string_of (gfield (B "tilejson") v)) (strings_of (gfield (B "tiles") v))
    (strings_of (gfield (B "grids") v)) (strings_of (gfield (B "data") v)) (string_of (gfield (B "version") v)) (string_ptr (gfield (B "template") v))
    (string_ptr (gfield (B "legend") v)) (option_map (map vectorlayer_of) (slice_opt (gfield (B "vector_layers") v)))
    (string_of (gfield (B "type") v)) (int_of (gfield (B "tileSize") v)).
(** json.Unmarshal into a new TileJSON *)
Definition decTileJSON (j : json) : out TileJSON := obind (Unmarshal no_custom TileJSONT j) (fun v => Val (tilejson_of v)).
(** tilejson/tilejson.go:57-65 NewTileBounds and NewTileCenter *)
Definition NewTileBounds (minLon minLat maxLon maxLat : R) : list R := [minLon; minLat; maxLon; maxLat].
Definition NewTileCenter (lon lat zoom : R) : list R := [lon; lat; zoom].

(** ** client/client.go *)
(** tilejson/tilejson.go:67-78, client/types.go:5-12 *)
Record Tileset := mkTl { tlType : gstr; tlCenter : list R; tlCreated : option gstr; tlDescription : gstr; tlFilesize : Z; tlID : gstr; tlModified : option gstr;
  tlName : gstr; tlVisibility : gstr; tlStatus : gstr }.
Record ListStyle := mkLS { lsVersion : Z; lsName : gstr; lsCreated : option gstr; lsID : gstr; lsModified : option gstr; lsOwner : gstr }.
Definition TilesetT : ty := TStruct
  [(B "type", TString); (B "center", TArray 3 TFloat); (B "created", TCustom KTime); (B "description", TString); (B "filesize", TInt64); (B "id", TString);
   (B "modified", TCustom KTime); (B "name", TString); (B "visibility", TString); (B "status", TString)].
Definition ListStyleT : ty := TStruct
  [(B "version", TInt64); (B "name", TString); (B "created", TCustom KTime); (B "id", TString); (B "modified", TCustom KTime); (B "owner", TString)].
Definition tileset_of (v : gv) : Tileset :=
  mkTl (string_of (gfield (B "type") v)) (floats_of 3 (gfield (B "center") v)) (time_of (gfield (B "created") v)) (string_of (gfield (B "description") v))
    (int_of (gfield (B "filesize") v)) (string_of (gfield (B "id") v)) (time_of (gfield (B "modified") v)) (string_of (gfield (B "name") v))
    (string_of (gfield (B "visibility") v)) (string_of (gfield (B "status") v)).
Definition liststyle_of (v : gv) : ListStyle :=
  mkLS (int_of (gfield (B "version") v)) (string_of (gfield (B "name") v)) (time_of (gfield (B "created") v)) (string_of (gfield (B "id") v))
    (time_of (gfield (B "modified") v)) (string_of (gfield (B "owner") v)).

(** A response: status, the Link header, and the first JSON value of the body, None when there is none *)
Record response := mkResp { rStatus : Z; rLink : gstr; rBody : option json }.
Section Client.
(** Sending a GET request; None is a request that fails *)
Variable send : url -> option response.
Variable token : gstr.
(** client/client.go:42-61 do: the decoded value and the response *)
Definition do (custom : cty -> json -> out gv) (t : ty) (u : url) : out (gv * response) :=
  match send (addAuthentication token u) with
  | None => Err
  | Some resp => match rBody resp with None => Err | Some j => obind (Unmarshal custom t j) (fun v => Val (v, resp)) end
  end.
(** client/client.go:118-134 GetStyle *)
Definition GetStyle (username id : gstr) (draft : bool) : out gv :=
  obind (do style_custom StyleT (mkURL (base (stylePath username id draft)) [])) (fun '(s, _) => Val s).
(** client/client.go:174-188 GetTileJSON *)
Definition GetTileJSON (ids : list gstr) : out TileJSON :=
  obind (do no_custom TileJSONT (mkURL (base (tileJSONPath ids)) [])) (fun '(v, _) => Val (tilejson_of v)).
End Client.

(** client/client.go:104-115 and 160-171: one page of a listing and its Link header; [reply] is the answer to the n-th request *)
Definition page_of {A} (is_time : gstr -> bool) (t : ty) (f : gv -> A) (reply : nat -> url -> option response) (n : nat) (u : url) : option (list A * gstr) :=
  match reply n u with
  | None => None
  | Some resp =>
      match rBody resp with
      | None => None
      | Some j => match Unmarshal (doc_custom is_time) (TSlice t) j with Val v => Some (map f (slice_of v), rLink resp) | _ => None end
      end
  end.

(** ** font/cover.go *)
(** font/cover.go:33-44 *)
Record Language := mkLang { lgId : gstr; lgName : gstr; lgExemplar : option (list Z); lgAuxiliary : option (list Z); lgIndex : option (list Z); lgPunctuation : option (list Z) }.
Definition CodePointsT : ty := TStruct
  [(B "exemplarCharacters", TSlice TUint32); (B "auxiliary", TSlice TUint32); (B "index", TSlice TUint32); (B "punctuation", TSlice TUint32)].
Definition LanguageT : ty := TStruct [(B "id", TString); (B "name", TString); (B "codepoints", CodePointsT)].
Definition ints_of (v : gv) : option (list Z) := option_map (map int_of) (slice_opt v).
Definition language_of (v : gv) : Language :=
  let c := gfield (B "codepoints") v in
  mkLang (string_of (gfield (B "id") v)) (string_of (gfield (B "name") v)) (ints_of (gfield (B "exemplarCharacters") c)) (ints_of (gfield (B "auxiliary") c))
    (ints_of (gfield (B "index") c)) (ints_of (gfield (B "punctuation") c)).
(** font/cover.go:110-121 NewFontCoverage; [data] is the first JSON value of the bytes; a nil language is None *)
Definition NewFontCoverage (data : option json) : out (list (option Language)) :=
  match data with
  | None => Err
  | Some j => obind (Unmarshal no_custom (TSlice (TPtr LanguageT)) j) (fun v => Val (map (fun p => option_map language_of (ptr_of p)) (slice_of v)))
  end.
(** font/cover.go:25-31 *)
Record NamedCoverage := mkNC { ncName : gstr; ncId : gstr; ncCoverage : LanguageCoverage }.
(** font/cover.go:50-82: a nil language panics *)
Fixpoint coverage_langs (languages : list (option Language)) (points : list (list Z)) : out (list NamedCoverage) :=
  match languages with
  | [] => Val []
  | None :: _ => Crash
  | Some l :: rest =>
      let exemplars := match lgExemplar l with Some e => e | None => [] end in
      obind (coverage_langs rest points) (fun r => Val (mkNC (lgName l) (lgId l) (cover_language exemplars points) :: r))
  end.
Section Fonts.
Context {F : Type}.
(** truetype.Parse and Font.Unicodes *)
Variable parse : list Z -> option F.
Variable unicodes : F -> list Z.
(** font/cover.go:99-108 CoverageTTFS *)
Definition CoverageTTFS (languages : list (option Language)) (ttfs : list F) : out (list NamedCoverage) := coverage_langs languages (map unicodes ttfs).
(** font/cover.go:84-97 Coverage *)
Fixpoint parse_all (ttfs : list (list Z)) : out (list (list Z)) :=
  match ttfs with
  | [] => Val []
  | ttf :: rest => match parse ttf with None => Err | Some f => obind (parse_all rest) (fun ps => Val (unicodes f :: ps)) end
  end.
Definition Coverage (languages : list (option Language)) (ttfs : list (list Z)) : out (list NamedCoverage) :=
  obind (parse_all ttfs) (coverage_langs languages).
End Fonts.
