(** raster/raster.go: the Terrarium packing and unpacking of elevations in IEEE-754 binary64, without fused multiply-add. *)
From Coq Require Import ZArith.
From Flocq Require Import Core BinarySingleNaN.
From Verif Require Import GoBase TileF64_Model F64 Raster_Model RasterF64_Model.

(** raster/raster.go:32 UNPACK_TERRARIUM: 256, 1, 1/256 and 32768 are exact *)
Definition c_256th : f64 := @B754_finite 53 1024 false 4503599627370496 (-60) eq_refl.

(** raster/raster.go:137 with the Terrarium vector *)
Definition GetT64 (v : px) : f64 :=
  fsub (fadd (fadd (fmul (fint (pR v)) c256) (fmul (fint (pG v)) (fint 1))) (fmul (fint (pB v)) c_256th)) (fint 32768).

(** raster/raster.go:204-215; int(x) is towards zero (values beyond int64, implementation defined in Go, do not wrap here) and
    % truncates *)
Definition PackT64 (h : f64) : px :=
  let val := fadd h (fint 32768) in
  let r := ffloor (fdiv val c256) in
  let g := Z.rem (Btrunc val) 256 in
  let b := Z.rem (Btrunc (fmul val c256)) 25 in
  mkPx (fbyte r) (u8 g) (u8 b) 255.
