(** tile_cover/tile_cover.go: the entry point TileCover in IEEE-754 binary64. *)
From Coq Require Import ZArith List Bool.
From Flocq Require Import Core BinarySingleNaN.
From Verif Require Import GoBase Tileid_Model Clip_Model Cover_Model TileF64_Model Tile64_Model Line64_Model Poly64_Model.
Import ListNotations.

(** The geometry of a feature, the fields TileCover reads. A MultiPoint feature is read through
    its LineString field (tile_cover.go:191-192). *)
Inductive geom64 :=
| G6Point (p : f64 * f64)
| G6LineString (l : list (f64 * f64))
| G6Polygon (p : list (list (f64 * f64)))
| G6MultiPoint (points line_field : list (f64 * f64))
| G6MultiLineString (ls : list (list (f64 * f64)))
| G6MultiPolygon (ps : list (list (list (f64 * f64))))
| G6Other.

(** tile_cover/tile_cover.go:178-230 TileCover *)
Definition TileCover64 (m : libm) (between : f64 * f64 -> f64 * f64 -> Z -> list TileID) (g : geom64) (zoom : Z) : res (list TileID) :=
  match g with
  | G6Point p => Ok [Tile64 m (fst p) (snd p) zoom]
  | G6LineString l => GetTilesLine64 m between l zoom
  | G6Polygon [] => Panic
  | G6Polygon ((outer :: _) as p) => if (3 <? length outer)%nat then GetTilesPolygon64 m p zoom else Ok []
  | G6MultiPoint _ l => GetTilesLine64 m between l zoom
  | G6MultiLineString ls => cover_multi tile_eqb (map (fun l => GetTilesLine64 m between l zoom) ls)
  | G6MultiPolygon ps => cover_multi tile_eqb (map (fun p => GetTilesPolygon64 m p zoom) ps)
  | G6Other => Ok []
  end.
