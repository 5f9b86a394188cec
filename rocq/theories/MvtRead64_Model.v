(** mvt/read_tile.go: ReadTile as in MvtGeo_Model, in IEEE-754 binary64: the geometry decoder of Decode64_Model (the code of
    read_tile.go:187-262 is that of LoadGeometry) and the projection of MvtProj64_Model. *)
From Coq Require Import ZArith List Bool.
From Flocq Require Import Core BinarySingleNaN.
From Verif Require Import GoBase Tileid_Model TileF64_Model F64 Tile64_Model MvtProj64_Model Pbf_Model MvtGeom_Model MvtLayer_Model MvtGeo_Model Decode64_Model MvtAgain64_Model MvtGeo64_Model.
Import ListNotations.
Open Scope Z_scope.

Section WithLib.
Variable m : libm.
Variable mExp : f64 -> f64.

(** mvt/read_tile.go:141-300 (ReadTile, extra = 0) and 390-541 (ReadRawTile, extra = 1): the features of a layer with the
    coordinates [proj] makes of the decoded ones; [id], [gt] and [gp] are declared before the loop and keep their values from one
    feature to the next *)
Fixpoint read_feats64 (fuel : nat) (extra : Z) (proj : geomdata64 -> geometry (f64 * f64)) (P : proto) (buf : bytes) (keys : list (list Z)) (vals : list wval)
         (name : list Z) (positions : list Z) (id gt gp : Z) : res (list gfeat64) :=
  match positions with
  | [] => Ok []
  | p :: r =>
      let! (size, pos) := ReadVarint buf p in
      let! f := feat_loop fuel extra P buf keys vals pos (wrap64 (pos + size)) (mkRF id gt [] gp) in
      let! (cmds, _) := ReadPackedUInt32 buf (rfGeomPos f) in
      let! g := LoadGeometry64 (rfType f) cmds in
      let! fs := read_feats64 fuel extra proj P buf keys vals name r (rfID f) (rfType f) (rfGeomPos f) in
      Ok (mkGF64 (rfID f) (mput str_layer (WString name) (rfProps f)) (proj g) :: fs)
  end.
(** mvt/read_tile.go:74-306, as [read_geo] of MvtGeo_Model *)
Fixpoint read_geo64 (fuel : nat) (t : TileID) (P : proto) (buf : bytes) (pos : Z) (acc : list gfeat64) : res (list gfeat64) :=
  if pos <? zlen buf then
    match fuel with
    | O => NoFuel
    | S f =>
        let! (k, v, pos) := ReadTag buf pos in
        if (k =? pLayers P) && (v =? wBytes) then
          let! (size, pos) := ReadVarint buf pos in
          let endpos := wrap64 (pos + size) in
          let! s :=
            if size =? 0 then Ok layerr0
            else let! c := next_tag buf pos in layer_loop false f P buf endpos c layerr0 in
          let extent := if size =? 0 then 0 else if lrExtent s =? 0 then 4096 else lrExtent s in
          let! fs := read_feats64 f 0 (geo64_of m mExp t extent) P buf (lrKeys s) (lrVals s) (lrName s) (lrFeats s) 0 0 0 in
          read_geo64 f t P buf endpos (acc ++ fs)
        else read_geo64 f t P buf pos acc
    end
  else Ok acc.
(** mvt/read_tile.go:59-311 ReadTile: an error when there is no feature or on a panic *)
Definition ReadTile64 (fuel : nat) (pt : Z) (buf : bytes) (t : TileID) : outcome (list gfeat64) :=
  match read_geo64 fuel t (getProto pt) buf 0 [] with Ok [] => OError | Ok l => OValue l | Panic => OError | NoFuel => ONever end.

(** mvt/read_tile.go:517-536: the geometry in tile coordinates *)
Definition geo_raw (g : geomdata64) : geometry (f64 * f64) :=
  match g with
  | GPoint64 p => XPoint p
  | GMultiPoint64 ps => XMultiPoint ps
  | GLineString64 l => XLineString l
  | GMultiLineString64 ls => XMultiLineString ls
  | GPolygon64 rs => XPolygon rs
  | GMultiPolygon64 ps => XMultiPolygon ps
  | GNil64 => XOther
  end.
(** mvt/read_tile.go:325-547: the features and the extent, which is declared before the loop and keeps its value from one layer
    to the next *)
Fixpoint read_raw64 (fuel : nat) (P : proto) (buf : bytes) (pos ext : Z) (acc : list gfeat64) : res (list gfeat64 * Z) :=
  if pos <? zlen buf then
    match fuel with
    | O => NoFuel
    | S f =>
        let! (k, v, pos) := ReadTag buf pos in
        if (k =? pLayers P) && (v =? wBytes) then
          let! (size, pos) := ReadVarint buf pos in
          let endpos := wrap64 (pos + size) in
          let s0 := mkLR [] [] [] [] [] ext 0 in
          let! s :=
            if size =? 0 then Ok s0
            else let! c := next_tag buf pos in layer_loop true f P buf endpos c s0 in
          let ext := if lrExtent s =? 0 then 4096 else lrExtent s in
          let! fs := read_feats64 f 1 geo_raw P buf (lrKeys s) (lrVals s) (lrName s) (lrFeats s) 0 0 0 in
          read_raw64 f P buf endpos ext (acc ++ fs)
        else read_raw64 f P buf pos ext acc
    end
  else Ok (acc, ext).
(** mvt/read_tile.go:313-562 ReadRawTile: the features and the two corners of lines 550-557 (their third coordinate is dropped
    by Project); an error with the corners when there is no feature, nil results on a panic *)
Definition ReadRawTile64 (fuel : nat) (pt : Z) (buf : bytes) (t : TileID) : outcome (list gfeat64 * ((f64 * f64) * (f64 * f64))) :=
  match read_raw64 fuel (getProto pt) buf 0 0 [] with
  | Ok ([], _) => OError
  | Ok (l, ext) =>
      let ext := if ext =? 0 then 4096 else ext in
      OValue (l, (unproject64 m mExp t ext (fint 0, fint 0), unproject64 m mExp t ext (fint ext, fint ext)))
  | Panic => ONilNoError
  | NoFuel => ONever
  end.
End WithLib.
