(** mvt/clip.go: clipping to tiles in IEEE-754 binary64, with the tile bounds as the code computes them (Tile64_Model). *)
From Coq Require Import ZArith List Bool.
From Flocq Require Import Core BinarySingleNaN.
From Verif Require Import GoBase Num MvtGeom_Model Tileid_Model TileF64_Model F64 Clip_Model Tile64_Model.
Import ListNotations.
Open Scope Z_scope.

Notation geom64 := (@cgeom f64) (only parsing).
Notation entry64 := (TileID * @cgeom f64)%type (only parsing).

Section Clip64.
Variable m : libm.
(** mvt/clip.go:171 Power7, the value of math.Pow(10, -7) *)
Variable eps : f64.

(** mvt/clip.go:357-367 ClipTile for line and polygon features *)
Definition ClipTile64 (t : TileID) (g : geom64) : res geom64 :=
  let b := Bounds64 m t in
  ClipTileB F64Num eps (e6W b) (e6E b) (e6S b) (e6N b) g.

(** geom.BoundingBoxFromGeometryData of a polygon with one ring, as in ClipFeature_Model *)
Definition fmin (a b : f64) : f64 := if Bltb b a then b else a.
Definition fmax (a b : f64) : f64 := if Bltb a b then b else a.
Definition ring_box64 (f : f64 * f64) (r : list (f64 * f64)) : Ext64 :=
  mkExt64 (fold_left fmin (map fst r) (fst f)) (fold_left fmax (map fst r) (fst f))
          (fold_left fmax (map snd r) (snd f)) (fold_left fmin (map snd r) (snd f)).
(** mvt/clip.go:456-459 DeltaBounds *)
Definition DeltaBounds64 (a b : Ext64) : bool :=
  Bltb (Babs (fsub (e6W a) (e6W b))) eps && Bltb (Babs (fsub (e6E a) (e6E b))) eps &&
  Bltb (Babs (fsub (e6N a) (e6N b))) eps && Bltb (Babs (fsub (e6S a) (e6S b))) eps.
(** mvt/clip.go:398-414 *)
Definition near_square64 (t : TileID) (g : geom64) : bool :=
  match g with
  | CPolygon [f :: r] => ((length r =? 3)%nat || (length r =? 4)%nat) && DeltaBounds64 (ring_box64 f r) (Bounds64 m t)
  | _ => false
  end.
(** mvt/clip.go:338-343 *)
Definition tile_square64 (t : TileID) : list (f64 * f64) :=
  let b := Bounds64 m t in [(e6E b, e6N b); (e6W b, e6N b); (e6W b, e6S b); (e6E b, e6S b); (e6E b, e6N b)].

(** mvt/clip.go:384-439 ClipDownTile.  The whole-tile marker is represented by the square that makefeature makes of it, as
    in ClipFeature_Model. *)
Definition ClipDown64 (t : TileID) (g : geom64) : res (list entry64) :=
  match g with
  | CPolygon [] | CPolygon ([] :: _) => Panic
  | _ =>
    if near_square64 t g then Ok (map (fun c => (c, CPolygon [tile_square64 c])) (Children t))
    else
      let b := Bounds64 m t in
      match Children t with
      | [lut; rut; rdt; ldt] =>
        let cb := Bounds64 m lut in
        let mx := e6E cb in
        let my := e6S cb in
        let! l := clip F64Num eps g (e6W b) mx false in
        let! r := clip F64Num eps g mx (e6E b) false in
        let! ld := clip F64Num eps l (e6S b) my true in
        let! lu := clip F64Num eps l my (e6N b) true in
        let! rd := clip F64Num eps r (e6S b) my true in
        let! ru := clip F64Num eps r my (e6N b) true in
        Ok (filter (fun e => negb (IsEmpty (snd e))) [(lut, lu); (rut, ru); (rdt, rd); (ldt, ld)])
      | _ => Panic
      end
  end.
End Clip64.
