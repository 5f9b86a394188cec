(** mvt/: layers written from and read to longitude/latitude as in MvtGeo_Model, in IEEE-754 binary64: the cursor and the
    projections of MvtProj64_Model, the geometry decoder of Decode64_Model.  The orientation tests of the writer are those of
    MvtGeom_Model; C123 shows that they agree with float64 for rings of up to 2^22 points. *)
From Coq Require Import ZArith List Bool.
From Flocq Require Import Core BinarySingleNaN.
From Verif Require Import GoBase Tileid_Model TileF64_Model F64 Tile64_Model MvtProj64_Model Pbf_Model MvtGeom_Model MvtLayer_Model MvtGeo_Model Decode64_Model MvtAgain64_Model.
Import ListNotations.
Open Scope Z_scope.

Notation lnglat64 := (f64 * f64)%type (only parsing).
Section WithLib.
Variable m : libm.
Variable mExp : f64 -> f64.

(** mvt/write_layer.go:54-66 and 163-166: the cursor of the layer *)
Definition cursor64_of (c : Config) : PCursor64 := NewCursorExtent64 m (gTile c) (cfgExtent (cfg_of c)) (gExtentBool c).
(** mvt/write_layer.go:162-192 WriteLayer *)
Definition WriteLayer64 (features : list (feature (f64 * f64))) (c : Config) : res bytes :=
  WriteLayer (SinglePoint64 m (cursor64_of c)) peq64 features (cfg_of c).
(** mvt/write_layer.go:42-48 NewLayer, AddFeature for every feature, 194-216 Flush, as in MvtGeo_Model *)
Definition NewLayerFlush64 (t : TileID) (name : list Z) (pt : Z) (features : list (feature (f64 * f64))) : res bytes :=
  let! s := fold_res (AddFeature (SinglePoint64 m (NewCursorExtent64 m t 4096 false)) peq64 (getProto pt)) features layerw0 in
  Ok (Flush (getProto pt) name 0 0 s).

(** A geom.Feature as ToGeoJSON returns it *)
Record gfeat64 := mkGF64 { g6ID : Z; g6Props : list (list Z * wval); g6Geom : geometry (f64 * f64) }.
(** mvt/read_feature_lazy.go:253-296 ToGeoJSON; LoadGeometry recovers its own panics (lines 139-143), a nil geometry panics
    at line 268 *)
Definition ToGeoJSON64 (buf : bytes) (l : layer) (f : rfeat) (t : TileID) : outcome gfeat64 :=
  match (let! g := LoadGeometryRaw buf f in LoadGeometry64 (rfType f) g) with
  | Ok GNil64 => ONilNoError
  | Ok g => OValue (mkGF64 (rfID f) (rfProps f) (geo64_of m mExp t (lExtent l) g))
  | Panic => OError
  | NoFuel => ONever
  end.
End WithLib.
