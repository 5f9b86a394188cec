(** mvt/write_geometry.go and mvt/read_feature_lazy.go: projecting longitude/latitude to tile coordinates and back in
    IEEE-754 binary64, round to nearest even, no fused multiply-add (as compiled for amd64).  Log, Tan, Exp, Atan and Sinh of
    package math are a parameter.  Constant expressions (mercatorPole / 180.0, 360.0 / math.Pi) are rounded once. *)
From Coq Require Import ZArith Reals List.
From Flocq Require Import Core BinarySingleNaN.
From Verif Require Import GoBase Tileid_Model MvtProj_Model TileF64_Model F64 ColorF64_Model Tile64_Model.
Import ListNotations.

(** mvt/write_geometry.go:9 mercatorPole *)
Definition pole64 : f64 := @B754_finite 53 1024 false 5378777688351703 (-28) eq_refl.
Definition npole64 : f64 := @B754_finite 53 1024 true 5378777688351703 (-28) eq_refl.
(** mercatorPole / 180.0 *)
Definition pole180 : f64 := @B754_finite 53 1024 false 7649817156766867 (-36) eq_refl.
(** 360.0 / math.Pi *)
Definition deg2 : f64 := @B754_finite 53 1024 false 8063664102031864 (-46) eq_refl.

Section WithLib.
Variable m : libm.
Variable mExp : f64 -> f64.
(** mvt/write_geometry.go:79-85 ConvertPoint; math.Max and math.Min of numbers *)
Definition Merc64 (lat : f64) : f64 :=
  let y := fmul (fdiv (mLog m (mTan m (fdiv (fmul (fadd (fint 90) lat) pi64) c360))) pi64) pole64 in
  fmax npole64 (fmin y pole64).
Definition ConvertPoint64 (p : f64 * f64) : f64 * f64 := (fmul pole180 (fst p), Merc64 (snd p)).

(** mvt/write_geometry.go:11-21 Cursor: only the fields used by the projection. *)
Record PCursor64 := mkPCursor64 { k6B : Ext64; k6DX : f64; k6DY : f64; k6Extent : Z; k6ExtentBool : bool }.
(** mvt/write_geometry.go:359-381 ConvertCursor *)
Definition ConvertCursor64 (cur : PCursor64) : PCursor64 :=
  let b := k6B cur in
  let en := ConvertPoint64 (e6E b, e6N b) in
  let ws := ConvertPoint64 (e6W b, e6S b) in
  mkPCursor64 (mkExt64 (fst ws) (fst en) (snd en) (snd ws)) (fsub (fst en) (fst ws)) (fsub (snd en) (snd ws)) (k6Extent cur) (k6ExtentBool cur).
(** mvt/write_geometry.go:70-77 NewCursorExtent; [eb] is the ExtentBool flag set afterwards. *)
Definition NewCursorExtent64 (t : TileID) (extent : Z) (eb : bool) : PCursor64 :=
  let b := Bounds64 m t in
  ConvertCursor64 (mkPCursor64 b (fsub (e6E b) (e6W b)) (fsub (e6N b) (e6S b)) extent eb).
(** int32(math.Round(x)); out of range, implementation defined in Go, it is reduction modulo 2^32. *)
Definition round32 (x : f64) : Z := wrap32 (Btrunc (Bnearbyint mode_NA x)).
(** mvt/write_geometry.go:277-304 SinglePoint *)
Definition SinglePoint64 (cur : PCursor64) (p : f64 * f64) : Z * Z :=
  let q := ConvertPoint64 p in
  let factorx := fdiv (fsub (fst q) (e6W (k6B cur))) (k6DX cur) in
  let factory := fdiv (fsub (e6N (k6B cur)) (snd q)) (k6DY cur) in
  let xval := round32 (fmul factorx (fint (k6Extent cur))) in
  let yval := round32 (fmul factory (fint (k6Extent cur))) in
  if k6ExtentBool cur then (clampExtent (k6Extent cur) xval, clampExtent (k6Extent cur) yval) else (xval, yval).

(** mvt/read_feature_lazy.go:50-59 Project, one point *)
Definition ProjLon64 (x x0 size : f64) : f64 := fsub (fdiv (fmul (fadd x x0) c360) size) c180.
Definition ProjLat64 (y y0 size : f64) : f64 :=
  let y2 := fsub c180 (fdiv (fmul (fadd y y0) c360) size) in
  fsub (fmul deg2 (mAtan m (mExp (fdiv (fmul y2 pi64) c180)))) (fint 90).
(** mvt/read_feature_lazy.go:260-263, 269-270: what ToGeoJSON makes of one point of the geometry *)
Definition ToLngLat64 (t : TileID) (extent : Z) (p : Z * Z) : f64 * f64 :=
  let size := fmul (fint extent) (fpow2 (tZ t)) in
  let x0 := fmul (fint extent) (fint (tX t)) in
  let y0 := fmul (fint extent) (fint (tY t)) in
  (ProjLon64 (fint (fst p)) x0 size, ProjLat64 (fint (snd p)) y0 size).
End WithLib.
