(** tile_cover/line_corner_case.go: the great-circle distance in IEEE-754 binary64 (no fused
    multiply-add).  math.Sin, math.Cos and math.Atan2 are not exactly rounded and are a parameter;
    math.Sqrt is.  EarthRadius is a variable, so 2.0*EarthRadius is computed at run time. *)
From Coq Require Import ZArith List.
From Flocq Require Import Core BinarySingleNaN.
From Verif Require Import GoBase TileF64_Model F64 ColorF64_Model.
Import ListNotations.

(** package math *)
Record smath := mkSmath { sSin : f64 -> f64; sCos : f64 -> f64; sAtan2 : f64 -> f64 -> f64 }.

(** tile_cover/line_corner_case.go:9-11 *)
Definition deg2rad64 (d : f64) : f64 := fdiv (fmul d pi64) c180.
(** tile_cover/line_corner_case.go:13: 3963.190592 *)
Definition EarthRadius64 : f64 := @B754_finite 53 1024 false 8715148277992898 (-41) eq_refl.

(** tile_cover/line_corner_case.go:15-24, lines 16-21: the square of half the chord *)
Definition hav64 (s : smath) (x1 y1 x2 y2 : f64) : f64 :=
  let dLat := deg2rad64 (fsub y2 y1) in
  let dLng := Babs (deg2rad64 (fsub x2 x1)) in
  let dLat2Sin := sSin s (fdiv dLat (fint 2)) in
  let dLng2Sin := sSin s (fdiv dLng (fint 2)) in
  fadd (fmul dLat2Sin dLat2Sin) (fmul (fmul (fmul (sCos s (deg2rad64 y1)) (sCos s (deg2rad64 y2))) dLng2Sin) dLng2Sin).
(** tile_cover/line_corner_case.go:15-24; indexing a slice that is too short panics *)
Definition Distance64 (s : smath) (pt1 pt2 : list f64) : res f64 :=
  match pt1, pt2 with
  | x1 :: y1 :: _, x2 :: y2 :: _ =>
      let a := hav64 s x1 y1 x2 y2 in
      Ok (fmul (fmul (fint 2) EarthRadius64) (sAtan2 s (fsqrt a) (fsqrt (fsub (fint 1) a))))
  | _, _ => Panic
  end.
