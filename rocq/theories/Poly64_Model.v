(** tile_cover/tile_cover.go: the cover of a polygon in IEEE-754 binary64 (no fused multiply-add),
    on top of Tile64_Model and Pip64_Model. *)
From Coq Require Import ZArith List Bool.
From Flocq Require Import Core BinarySingleNaN.
From Verif Require Import GoBase Tileid_Model Cover_Model TileF64_Model F64 ColorF64_Model Tile64_Model Pip64_Model.
Import ListNotations.

(** tile_cover/tile_cover.go:113-131 BoundingBoxPoints *)
Definition bbox_step64 (b : Ext64) (p : f64 * f64) : Ext64 :=
  let '(x, y) := p in
  let '(w, e) := if Bltb x (e6W b) then (x, e6E b) else if Bltb (e6E b) x then (e6W b, x) else (e6W b, e6E b) in
  let '(s, n) := if Bltb y (e6S b) then (y, e6N b) else if Bltb (e6N b) y then (e6S b, y) else (e6S b, e6N b) in
  mkExt64 w e n s.
Definition BoundingBoxPoints64 (pts : list (f64 * f64)) : Ext64 :=
  fold_left bbox_step64 pts (mkExt64 (fint 180) (fint (-180)) (fint (-90)) (fint 90)).

(** tile_cover/tile_cover.go:11-21 RunPolygon *)
Definition RunPolygon64 (m : libm) (polygon : list (list (f64 * f64))) (tile : TileID) : bool :=
  existsb (fun cont => existsb (fun pt =>
    let t := Tile64 m (fst pt) (snd pt) (wrap64 (tZ tile)) in
    (tX t =? tX tile)%Z && (tY t =? tY tile)%Z) cont) polygon.

(** tile_cover/tile_cover.go:23-36 TilePolygon *)
Definition TilePolygon64 (m : libm) (polygon : list (list (f64 * f64))) (pb : Ext64) (t : TileID) : res bool :=
  let b := Bounds64 m t in
  if Bltb (e6N pb) (e6N b) && Bltb (e6S b) (e6S pb) && Bltb (e6E pb) (e6E b) && Bltb (e6W b) (e6W pb) then Ok true
  else or_res (Pip64 polygon (e6W b, e6N b)) (or_res (Pip64 polygon (e6W b, e6S b))
      (or_res (Pip64 polygon (e6E b, e6N b)) (or_res (Pip64 polygon (e6E b, e6S b)) (Ok (RunPolygon64 m polygon t))))).

(** tile_cover/tile_cover.go:143-168 GetTilesPolygon; polygon[0] panics without rings. *)
Definition GetTilesPolygon64 (m : libm) (polygon : list (list (f64 * f64))) (zoom : Z) : res (list TileID) :=
  match polygon with
  | [] => Panic
  | outer :: _ =>
      let bds := BoundingBoxPoints64 outer in
      let tmin := Tile64 m (e6W bds) (e6N bds) zoom in
      let tmax := Tile64 m (e6E bds) (e6S bds) zoom in
      let xs := GetDif (tX tmin) (tX tmax) in
      let ys := GetDif (tY tmin) (tY tmax) in
      let pot := flat_map (fun x => map (fun y => mkTile x y (u64 zoom)) ys) xs in
      filter_res (TilePolygon64 m polygon bds) pot
  end.
