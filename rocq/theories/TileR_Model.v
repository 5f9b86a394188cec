(** tileid/tileid.go: the geographic part, in exact real arithmetic.
    Simplification: float64 operations, math.Atan, Sinh, Log, Tan, Cos and Pow are the
    exact real functions. *)
From Coq Require Import ZArith Reals Lia Lra List.
From Verif Require Import GoBase Tileid_Model.
Import ListNotations.
Open Scope R_scope.

(** math.Floor followed by a conversion to int (assumed not to overflow int). *)
Definition Rfloor (r : R) : Z := (up r - 1)%Z.

(** tileid/tileid.go:31-34 Point, 11-16 Extrema *)
Record Pt := mkPt { pX : R; pY : R }.
Record Extrema := mkExt { eW : R; eE : R; eN : R; eS : R }.

(** math.Pow(2.0, float64(z)) *)
Definition pow2 (z : Z) : R := powerRZ 2 z.

(** tileid/tileid.go:36-42 Ul *)
Definition Ul (t : TileID) : Pt :=
  let n := pow2 (tZ t) in
  let lon_deg := IZR (tX t) / n * 360 - 180 in
  let lat_rad := atan (sinh (PI * (1 - 2 * IZR (tY t) / n))) in
  let lat_deg := (180 / PI) * lat_rad in
  mkPt lon_deg lat_deg.

(** tileid/tileid.go:45-49 Bounds; X+1, Y+1 are assumed not to overflow int64. *)
Definition Bounds (t : TileID) : Extrema :=
  let a := Ul t in
  let b := Ul (mkTile (tX t + 1) (tY t + 1) (tZ t)) in
  mkExt (pX a) (pX b) (pY a) (pY b).

(** tileid/tileid.go:52-58 Tile *)
Definition Tile (lng lat : R) (zoom : Z) : TileID :=
  let lat := lat * (PI / 180) in
  let n := pow2 zoom in
  let xtile := Rfloor ((lng + 180) / 360 * n) in
  let ytile := Rfloor ((1 - ln (tan lat + 1 / cos lat) / PI) / 2 * n) in
  mkTile xtile ytile (u64 zoom).

(** tileid/tileid.go:94-97 Center *)
Definition Center (t : TileID) : R * R :=
  let bds := Bounds t in
  ((eW bds + eE bds) / 2, (eN bds + eS bds) / 2).

(** tileid/tileid.go:100-103 Parent *)
Definition Parent (t : TileID) : TileID :=
  let center := Center t in
  Tile (fst center) (snd center) (wrap64 (tZ t) - 1).

(** tileid/tileid.go:135-147 PolygonTile *)
Definition PolygonTile (t : TileID) : list (list (R * R)) :=
  let b := Bounds t in
  [[(eE b, eN b); (eE b, eS b); (eW b, eS b); (eW b, eN b); (eE b, eN b)]].
