(** mvt/write_geometry.go and mvt/read_feature_lazy.go: projecting longitude/latitude to
    tile coordinates and back, in exact real arithmetic. *)
From Coq Require Import ZArith Reals Lia Lra List Bool.
From Verif Require Import GoBase Tileid_Model TileR_Model.
Import ListNotations.
Open Scope R_scope.

(** mvt/write_geometry.go:9 *)
Definition mercatorPole : R := 2003750834 / 100.

(** mvt/write_geometry.go:79-85 ConvertPoint *)
Definition ConvertPoint (p : R * R) : R * R :=
  let x := mercatorPole / 180 * fst p in
  let y := ln (tan ((90 + snd p) * PI / 360)) / PI * mercatorPole in
  let y := Rmax (- mercatorPole) (Rmin y mercatorPole) in
  (x, y).

(** mvt/write_geometry.go:11-21 Cursor: only the fields used by the projection. *)
Record PCursor := mkPCursor { cB : Extrema; cDX : R; cDY : R; cExtent : Z; cExtentBool : bool }.

(** mvt/write_geometry.go:359-381 ConvertCursor *)
Definition ConvertCursor (cur : PCursor) : PCursor :=
  let b := cB cur in
  let en := ConvertPoint (eE b, eN b) in
  let ws := ConvertPoint (eW b, eS b) in
  let east := fst en in
  let north := snd en in
  let west := fst ws in
  let south := snd ws in
  mkPCursor (mkExt west east north south) (east - west) (north - south) (cExtent cur) (cExtentBool cur).

(** mvt/write_geometry.go:70-77 NewCursorExtent; [eb] is the ExtentBool flag set afterwards
    by WriteLayer (mvt/write_layer.go:164-166). NewCursor (61-68) is the extent 4096. *)
Definition NewCursorExtent (t : TileID) (extent : Z) (eb : bool) : PCursor :=
  let b := Bounds t in
  ConvertCursor (mkPCursor b (eE b - eW b) (eN b - eS b) extent eb).

(** math.Round: nearest integer, halves away from zero. *)
Definition RoundHA (r : R) : Z :=
  if Rle_dec 0 r then Rfloor (r + 1 / 2) else (- Rfloor (- r + 1 / 2))%Z.

(** mvt/write_geometry.go:277-304 SinglePoint. Simplification: int32(f) of an out-of-range
    float, implementation defined in Go, is reduction modulo 2^32. *)
Definition clampExtent (ext v : Z) : Z :=
  let v := (if v >=? ext then ext else v)%Z in
  (if v <? 0 then 0 else v)%Z.

Definition SinglePoint (cur : PCursor) (p : R * R) : Z * Z :=
  let q := ConvertPoint p in
  let factorx := (fst q - eW (cB cur)) / cDX cur in
  let factory := (eN (cB cur) - snd q) / cDY cur in
  let xval := wrap32 (RoundHA (factorx * IZR (cExtent cur))) in
  let yval := wrap32 (RoundHA (factory * IZR (cExtent cur))) in
  if cExtentBool cur
  then (clampExtent (cExtent cur) xval, clampExtent (cExtent cur) yval)
  else (xval, yval).

(** mvt/read_feature_lazy.go:50-59 Project, one point *)
Definition Project1 (x0 y0 size : R) (p : R * R) : R * R :=
  let y2 := 180 - (snd p + y0) * 360 / size in
  ((fst p + x0) * 360 / size - 180, 360 / PI * atan (exp (y2 * PI / 180)) - 90).

Definition Project (line : list (R * R)) (x0 y0 size : R) : list (R * R) :=
  map (Project1 x0 y0 size) line.

(** mvt/read_feature_lazy.go:260-263, 269-270: the parameters ToGeoJSON passes, for a point. *)
Definition ToLngLat (t : TileID) (extent : Z) (p : R * R) : R * R :=
  let size := IZR extent * pow2 (tZ t) in
  let x0 := IZR extent * IZR (tX t) in
  let y0 := IZR extent * IZR (tY t) in
  Project1 x0 y0 size p.
