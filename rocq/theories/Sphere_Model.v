(** tile_cover/line_corner_case.go: the great-circle distance.  float64 is modelled by R; a point is a slice of coordinates. *)
From Coq Require Import Reals List.
From Verif Require Import GoBase Num.
Import ListNotations.
Open Scope R_scope.

(** tile_cover/line_corner_case.go:9-11 *)
Definition deg2rad (d : R) : R := d * PI / 180.
(** tile_cover/line_corner_case.go:13 *)
Definition EarthRadius : R := 3963190592 / 1000000.

(** math.Atan2(y, x) *)
Definition atan2 (y x : R) : R :=
  if Rltb 0 x then atan (y / x)
  else if Rltb x 0 then (if Rleb 0 y then atan (y / x) + PI else atan (y / x) - PI)
  else if Rltb 0 y then PI / 2 else if Rltb y 0 then - (PI / 2) else 0.

(** tile_cover/line_corner_case.go:15-24; indexing a slice that is too short panics *)
Definition Distance (pt1 pt2 : list R) : res R :=
  match pt1, pt2 with
  | x1 :: y1 :: _, x2 :: y2 :: _ =>
      let dLat := deg2rad (y2 - y1) in
      let dLng := Rabs (deg2rad (x2 - x1)) in
      let dLat2Sin := sin (dLat / 2) in
      let dLng2Sin := sin (dLng / 2) in
      let a := dLat2Sin * dLat2Sin + cos (deg2rad y1) * cos (deg2rad y2) * dLng2Sin * dLng2Sin in
      Ok (2 * EarthRadius * atan2 (sqrt a) (sqrt (1 - a)))
  | _, _ => Panic
  end.
