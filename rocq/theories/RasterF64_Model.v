(** raster/raster.go: the Mapbox packing and unpacking of elevations in IEEE-754 binary64, without fused multiply-add. *)
From Coq Require Import ZArith Reals Lia.
From Flocq Require Import Core BinarySingleNaN.
From Verif Require Import GoBase TileF64_Model F64 Raster_Model.

(** raster/raster.go:31 UNPACK_MAPBOX: the doubles nearest to 6553.6, 25.6, 0.1 and 10000 *)
Definition c6553_6 : f64 := @B754_finite 53 1024 false 7205759403792794 (-40) eq_refl.
Definition c25_6 : f64 := @B754_finite 53 1024 false 7205759403792794 (-48) eq_refl.
Definition c0_1 : f64 := @B754_finite 53 1024 false 7205759403792794 (-56) eq_refl.
Definition c10000 : f64 := @B754_finite 53 1024 false 5497558138880000 (-39) eq_refl.
Definition c256 : f64 := @B754_finite 53 1024 false 4503599627370496 (-44) eq_refl.

(** raster/raster.go:137 with the Mapbox vector *)
Definition Get64 (v : px) : f64 :=
  fsub (fadd (fadd (fmul (fint (pR v)) c6553_6) (fmul (fint (pG v)) c25_6)) (fmul (fint (pB v)) c0_1)) c10000.

(** raster/raster.go:184-199 *)
Definition Pack64 (h : f64) : px :=
  let val := fdiv (fadd h c10000) c0_1 in
  let r := fmul (fsub (fdiv (ffloor (fdiv (ffloor (fdiv val c256)) c256)) c256)
                      (ffloor (fdiv (ffloor (fdiv (ffloor (fdiv val c256)) c256)) c256))) c256 in
  let g := fmul (fsub (fdiv (ffloor (fdiv val c256)) c256) (ffloor (fdiv (ffloor (fdiv val c256)) c256))) c256 in
  let b := fmul (fsub (fdiv val c256) (ffloor (fdiv val c256))) c256 in
  mkPx (fbyte r) (fbyte g) (fbyte b) 255.
