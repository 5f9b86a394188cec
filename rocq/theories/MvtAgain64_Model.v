(** mvt/read_feature_lazy.go: the geometry of a feature in longitude/latitude, in the float64 arithmetic the code uses, as
    it is handed to the writer again. *)
From Coq Require Import ZArith List Bool.
From Flocq Require Import Core BinarySingleNaN.
From Verif Require Import GoBase Tileid_Model TileF64_Model F64 Tile64_Model MvtProj64_Model MvtGeom_Model MvtLayer_Model Decode64_Model.
Import ListNotations.

(** mvt/write_geometry.go:28, == on the two coordinates of points: first point, last point *)
Definition peq64 (f l : f64 * f64) : bool := Beqb (fst f) (fst l) && Beqb (snd l) (snd f).

Section WithLib.
Variable m : libm.
Variable mExp : f64 -> f64.
(** mvt/read_feature_lazy.go:50-59 Project with the size and offsets of lines 260-263, one point of the decoded geometry *)
Definition unproject64 (t : TileID) (extent : Z) (p : f64 * f64) : f64 * f64 :=
  let size := fmul (fint extent) (fpow2 (tZ t)) in
  let x0 := fmul (fint extent) (fint (tX t)) in
  let y0 := fmul (fint extent) (fint (tY t)) in
  (ProjLon64 (fst p) x0 size, ProjLat64 m mExp (snd p) y0 size).
(** mvt/read_feature_lazy.go:265-290 *)
Definition geo64_of (t : TileID) (extent : Z) (g : geomdata64) : geometry (f64 * f64) :=
  let u := unproject64 t extent in
  match g with
  | GPoint64 p => XPoint (u p)
  | GMultiPoint64 ps => XMultiPoint (map u ps)
  | GLineString64 l => XLineString (map u l)
  | GMultiLineString64 ls => XMultiLineString (map (map u) ls)
  | GPolygon64 rs => XPolygon (map (map u) rs)
  | GMultiPolygon64 ps => XMultiPolygon (map (map (map u)) ps)
  | GNil64 => XOther
  end.
End WithLib.
