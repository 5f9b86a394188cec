(** tileid/tileid.go: the geographic part in IEEE-754 binary64, round to nearest even, no fused
    multiply-add (as compiled for amd64).  The functions of package math that are not exactly
    rounded (Atan, Sinh, Tan, Cos, Log) are a parameter; Pow(2, z) is exact for 0 <= z <= 62.
    Constants: Go evaluates 180.0/math.Pi and math.Pi/180.0 exactly and rounds once.
    int(math.Floor(x)) is the floor, without wrap-around, as in TileF64_Model. *)
From Coq Require Import ZArith Reals List.
From Flocq Require Import Core BinarySingleNaN.
From Verif Require Import GoBase Tileid_Model TileF64_Model F64 ColorF64_Model.
Import ListNotations.

(** package math *)
Record libm := mkLibm { mAtan : f64 -> f64; mSinh : f64 -> f64; mTan : f64 -> f64; mCos : f64 -> f64; mLog : f64 -> f64 }.

(** 180.0 / math.Pi *)
Definition deg64 : f64 := @B754_finite 53 1024 false 8063664102031864 (-47) eq_refl.
(** math.Pi / 180.0 *)
Definition rad64 : f64 := @B754_finite 53 1024 false 5030569068109113 (-58) eq_refl.

(** tileid/tileid.go:37-39, the longitude of Ul *)
Definition ul_lon (x z : Z) : f64 := fsub (fmul (fdiv (fint x) (fpow2 z)) c360) c180.
(** tileid/tileid.go:37-41, the latitude of Ul *)
Definition ul_lat (m : libm) (y z : Z) : f64 :=
  fmul deg64 (mAtan m (mSinh m (fmul pi64 (fsub (fint 1) (fdiv (fmul (fint 2) (fint y)) (fpow2 z)))))).
(** tileid/tileid.go:36-42 Ul *)
Definition Ul64 (m : libm) (t : TileID) : f64 * f64 := (ul_lon (tX t) (tZ t), ul_lat m (tY t) (tZ t)).

Record Ext64 := mkExt64 { e6W : f64; e6E : f64; e6N : f64; e6S : f64 }.
(** tileid/tileid.go:45-49 Bounds; X+1 and Y+1 do not overflow int64. *)
Definition Bounds64 (m : libm) (t : TileID) : Ext64 :=
  let a := Ul64 m t in
  let b := Ul64 m (mkTile (tX t + 1) (tY t + 1) (tZ t)) in
  mkExt64 (fst a) (fst b) (snd a) (snd b).

(** tileid/tileid.go:53-56 ytile *)
Definition tile_row (m : libm) (lat : f64) (z : Z) : Z :=
  let lat := fmul lat rad64 in
  let v := mLog m (fadd (mTan m lat) (fdiv (fint 1) (mCos m lat))) in
  Zfloor (B2R (fmul (fdiv (fsub (fint 1) (fdiv v pi64)) (fint 2)) (fpow2 z))).
(** tileid/tileid.go:52-58 Tile *)
Definition Tile64 (m : libm) (lng lat : f64) (zoom : Z) : TileID :=
  mkTile (tile_col lng zoom) (tile_row m lat zoom) (u64 zoom).

(** tileid/tileid.go:94-97 Center *)
Definition Center64 (m : libm) (t : TileID) : f64 * f64 :=
  let bds := Bounds64 m t in
  (fdiv (fadd (e6W bds) (e6E bds)) (fint 2), fdiv (fadd (e6N bds) (e6S bds)) (fint 2)).
(** tileid/tileid.go:100-103 Parent *)
Definition Parent64 (m : libm) (t : TileID) : TileID :=
  let center := Center64 m t in
  Tile64 m (fst center) (snd center) (wrap64 (tZ t) - 1).
