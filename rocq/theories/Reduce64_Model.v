(** mvt/feature_reduce.go: thinning the features of a tile, in IEEE-754 binary64 (no fused
    multiply-add; see Tile64_Model for the functions of package math). *)
From Coq Require Import ZArith List Bool String Ascii.
From Flocq Require Import Core BinarySingleNaN.
From Verif Require Import GoBase Json Tileid_Model TileF64_Model F64 ColorF64_Model Tile64_Model Reduce_Model.
Import ListNotations.
Open Scope string_scope.
Open Scope list_scope.

(** int(math.Floor(x)) as on amd64: out of range, infinite and not-a-number give the least int *)
Definition go_floor (x : f64) : Z :=
  if is_finite x && (- 2 ^ 63 <=? Zfloor (B2R x))%Z && (Zfloor (B2R x) <? 2 ^ 63)%Z then Zfloor (B2R x) else minInt.
(** tileid/tileid.go:52-58 Tile *)
Definition Cell64 (m : libm) (lng lat : f64) (zoom : Z) : TileID :=
  let lat := fmul lat rad64 in
  let v := mLog m (fadd (mTan m lat) (fdiv (fint 1) (mCos m lat))) in
  mkTile (go_floor (fmul (fdiv (fadd lng c180) c360) (fpow2 zoom)))
         (go_floor (fmul (fdiv (fsub (fint 1) (fdiv v pi64)) (fint 2)) (fpow2 zoom))) (u64 zoom).

(** mvt/feature_reduce.go:10: .005 *)
Definition percent64 : f64 := @B754_finite 53 1024 false 5764607523034235 (-60) eq_refl.

Section Reduce.
Context {A : Type}.
(** go-geom Feature: the part of the geometry that is used here *)
Record rfeat64 := mkRfeat64 { r6Type : gstr; r6Point : list f64; r6Multi : list (list f64); r6Rest : A }.
Variable m : libm.
(** go-geom BoundingBoxFromGeometryData: corner, corner *)
Variable bbox : rfeat64 -> (f64 * f64) * (f64 * f64).

(** mvt/feature_reduce.go:12-21 Reduce_Config; the keys of TileMap *)
Record rcfg64 := mkRcfg64 { c6Percent : f64; c6Map : list TileID; c6DX : f64; c6DY : f64; c6Zoom : Z; c6On : bool }.
(** mvt/feature_reduce.go:23-38 NewReduceConfig; the fields Filter does not read are left out *)
Definition NewReduceConfig64 (t : TileID) : rcfg64 :=
  let bds := Bounds64 m t in
  mkRcfg64 percent64 [] (fsub (e6E bds) (e6W bds)) (fsub (e6N bds) (e6S bds)) (wrap64 (wrap64 (tZ t) + 8)) true.

(** mvt/feature_reduce.go:57-60 *)
Fixpoint sum_points64 (l : list (list f64)) (x y : f64) : res (f64 * f64) :=
  match l with
  | [] => Ok (x, y)
  | (a :: b :: _) :: r => sum_points64 r (fadd x a) (fadd y b)
  | _ :: _ => Panic
  end.

(** mvt/feature_reduce.go:40-81 Filter *)
Definition Filter64 (f : rfeat64) (c : rcfg64) : res (bool * rfeat64 * rcfg64) :=
  if negb (c6On c) then Ok (true, f, c)
  else if seqb (r6Type f) (B "Point") then
    match r6Point f with
    | x :: y :: _ =>
        let tile := Cell64 m x y (c6Zoom c) in
        if existsb (tile_eqb tile) (c6Map c) then Ok (false, f, c)
        else Ok (true, f, mkRcfg64 (c6Percent c) (tile :: c6Map c) (c6DX c) (c6DY c) (c6Zoom c) (c6On c))
    | _ => Panic
    end
  else if seqb (r6Type f) (B "MultiPoint") then
    let! (sx, sy) := sum_points64 (r6Multi f) (fint 0) (fint 0) in
    let size := fint (Z.of_nat (List.length (r6Multi f))) in
    let x := fdiv sx size in
    let y := fdiv sy size in
    let tile := Cell64 m x y (c6Zoom c) in
    if existsb (tile_eqb tile) (c6Map c) then Ok (false, f, c)
    else Ok (true, mkRfeat64 (B "Point") [x; y] [] (r6Rest f), mkRcfg64 (c6Percent c) (tile :: c6Map c) (c6DX c) (c6DY c) (c6Zoom c) (c6On c))
  else if seqb (r6Type f) (B "LineString") || seqb (r6Type f) (B "MultiLineString") || seqb (r6Type f) (B "MultiPolygon") || seqb (r6Type f) (B "Polygon") then
    let '((x0, y0), (x1, y1)) := bbox f in
    let percentx := fdiv (fsub x1 x0) (c6DX c) in
    let percenty := fdiv (fsub y1 y0) (c6DY c) in
    Ok (Bltb (c6Percent c) percentx || Bltb (c6Percent c) percenty, f, c)
  else Ok (false, f, c).

(** Calls with one configuration *)
Fixpoint Filters64 (fs : list rfeat64) (c : rcfg64) : res (list (bool * rfeat64) * rcfg64) :=
  match fs with
  | [] => Ok ([], c)
  | f :: r =>
      let! (b, g, c1) := Filter64 f c in
      let! (l, c2) := Filters64 r c1 in
      Ok ((b, g) :: l, c2)
  end.
End Reduce.
Arguments rfeat64 : clear implicits.
