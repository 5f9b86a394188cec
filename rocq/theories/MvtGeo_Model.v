(** mvt/: layers written from and read to longitude/latitude: the writer of write_layer.go and write_feature.go with the
    cursor of write_geometry.go, and ToGeoJSON and ReadTile with their projection.  float64 values are reals. *)
From Coq Require Import ZArith List Bool Reals.
From Verif Require Import GoBase Tileid_Model TileR_Model Pbf_Model MvtGeom_Model MvtLayer_Model Num.
From Verif Require MvtProj_Model.
Import ListNotations.
Open Scope Z_scope.

Notation lnglat := (R * R)%type.
(** == on the two coordinates of points, mvt/write_geometry.go:28 *)
Definition peqR (a b : lnglat) : bool := Reqb (fst a) (fst b) && Reqb (snd a) (snd b).

(** mvt/write_layer.go:31-40 Config.  Not modelled: ReduceBool and Tolerance, which nothing reads. *)
Record Config := mkCfg { gTile : TileID; gName : list Z; gExtent : Z; gVersion : Z; gExtentBool : bool; gProto : Z }.
(** mvt/write_layer.go:50-52 NewConfig *)
Definition NewConfig (name : list Z) (t : TileID) (pt : Z) : Config := mkCfg t name 0 0 true pt.
(** The part of the configuration that WriteLayer of MvtLayer_Model has *)
Definition cfg_of (c : Config) : config := mkConfig (gName c) (gExtent c) (gVersion c) (gProto c).
(** mvt/write_layer.go:54-66 and 163-166: the cursor of the layer *)
Definition cursor_of (c : Config) : MvtProj_Model.PCursor := MvtProj_Model.NewCursorExtent (gTile c) (cfgExtent (cfg_of c)) (gExtentBool c).
(** mvt/write_layer.go:162-192 WriteLayer *)
Definition WriteLayerGeo (features : list (feature lnglat)) (c : Config) : res bytes :=
  WriteLayer (MvtProj_Model.SinglePoint (cursor_of c)) peqR features (cfg_of c).
(** mvt/write_layer.go:42-48 NewLayer, AddFeature for every feature, 194-216 Flush: the Extent and Version of the layer are
    zero, the extent of its cursor is 4096 (mvt/write_geometry.go:61-68) and it does not clamp *)
Definition NewLayerFlush (t : TileID) (name : list Z) (pt : Z) (features : list (feature lnglat)) : res bytes :=
  let! s := fold_res (AddFeature (MvtProj_Model.SinglePoint (MvtProj_Model.NewCursorExtent t 4096 false)) peqR (getProto pt)) features layerw0 in
  Ok (Flush (getProto pt) name 0 0 s).

(** mvt/read_feature_lazy.go:50-59 Project at the parameters of ToGeoJSON (260-263) or ReadTile (read_tile.go:138-140) *)
Definition unproject (t : TileID) (extent : Z) (p : Z * Z) : lnglat := MvtProj_Model.ToLngLat t extent (IZR (fst p), IZR (snd p)).
(** mvt/read_feature_lazy.go:268-288 and read_tile.go:263-298: the geometry in longitude/latitude *)
Definition geo_of (t : TileID) (extent : Z) (g : geomdata) : geometry lnglat :=
  let u := unproject t extent in
  match g with
  | GPoint p => XPoint (u p)
  | GMultiPoint ps => XMultiPoint (map u ps)
  | GLineString l => XLineString (map u l)
  | GMultiLineString ls => XMultiLineString (map (map u) ls)
  | GPolygon rs => XPolygon (map (map u) rs)
  | GMultiPolygon ps => XMultiPolygon (map (map (map u)) ps)
  | GNil => XOther
  end.
(** A geom.Feature as the readers return it; the id 0 is nil in ReadTile *)
Record gfeat := mkGF { gfID : Z; gfProps : list (list Z * wval); gfGeom : geometry lnglat }.

(** mvt/read_feature_lazy.go:253-296 ToGeoJSON of a feature of the layer [l] (feature.extent is the extent of the layer, line 119) *)
Definition ToGeoJSON (buf : bytes) (l : layer) (f : rfeat) (t : TileID) : outcome gfeat :=
  match ToGeoJSON_outcome buf f with
  | OValue g => OValue (mkGF (rfID f) (rfProps f) (geo_of t (lExtent l) g))
  | OError => OError | ONilNoError => ONilNoError | ONever => ONever
  end.

(** mvt/read_tile.go:74-306: [read_loop] of MvtLayer_Model for ReadTile with the projection of lines 138-140, 268-272 and the
    default extent of 132-134 (the one of 142-144 comes too late and does nothing) *)
Fixpoint read_geo (fuel : nat) (t : TileID) (P : proto) (buf : bytes) (pos : Z) (acc : list gfeat) : res (list gfeat) :=
  if pos <? zlen buf then
    match fuel with
    | O => NoFuel
    | S f =>
        let! (k, v, pos) := ReadTag buf pos in
        if (k =? pLayers P) && (v =? wBytes) then
          let! (size, pos) := ReadVarint buf pos in
          let endpos := wrap64 (pos + size) in
          let! s :=
            if size =? 0 then Ok layerr0
            else let! c := next_tag buf pos in layer_loop false f P buf endpos c layerr0 in
          let extent := if size =? 0 then 0 else if lrExtent s =? 0 then 4096 else lrExtent s in
          let! fs := read_feats f 0 P buf (lrKeys s) (lrVals s) (lrName s) (lrFeats s) 0 0 0 in
          read_geo f t P buf endpos (acc ++ map (fun o => mkGF (ofID o) (ofProps o) (geo_of t extent (ofGeom o))) fs)
        else read_geo f t P buf pos acc
    end
  else Ok acc.
(** mvt/read_tile.go:59-311 ReadTile: an error when there is no feature or on a panic *)
Definition ReadTileGeo (fuel : nat) (pt : Z) (buf : bytes) (t : TileID) : outcome (list gfeat) :=
  match read_geo fuel t (getProto pt) buf 0 [] with Ok [] => OError | Ok l => OValue l | Panic => OError | NoFuel => ONever end.
