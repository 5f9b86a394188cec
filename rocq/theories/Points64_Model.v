(** mvt/clip.go: splitting points by tile, in IEEE-754 binary64.  A point is a pair of float64 numbers
    (a shorter slice panics, the numbers after the second are carried along).  The property map and
    its "TILEID" entry are those of Clip_Model (C31). *)
From Coq Require Import ZArith List.
From Flocq Require Import Core BinarySingleNaN.
From Verif Require Import GoBase Tileid_Model TileF64_Model F64 Tile64_Model Clip_Model.
Import ListNotations.

(** The geometry of a feature, as far as these functions look at it *)
Inductive pgeom := GPoint (p : f64 * f64) | GMultiPoint (ps : list (f64 * f64)) | GOther.

(** mvt/clip.go:261-293 PointClipAboutTile; None is the zero feature. *)
Definition PointClipAboutTile64 (m : libm) (g : pgeom) (t : TileID) : option pgeom :=
  let at_ (p : f64 * f64) := Tile64 m (fst p) (snd p) (wrap64 (tZ t)) in
  match g with
  | GPoint p => if IsEqual (at_ p) t then Some (GPoint p) else None
  | GMultiPoint ps => match keep_points at_ IsEqual t ps with [] => None | l => Some (GMultiPoint l) end
  | GOther => None
  end.
(** mvt/clip.go:295-325 PointClipAboutZoom; the map as a list of its entries *)
Definition PointClipAboutZoom64 (m : libm) (g : pgeom) (zoom : Z) : list (TileID * pgeom) :=
  let at_ (p : f64 * f64) := Tile64 m (fst p) (snd p) zoom in
  match g with
  | GPoint p => [(at_ p, GPoint p)]
  | GMultiPoint ps => map (fun e => (fst e, GMultiPoint (snd e))) (group_points at_ tile_eqb ps)
  | GOther => []
  end.
