(** mvt/feature_reduce.go: thinning the features of a tile. *)
From Coq Require Import ZArith Reals List Bool String Ascii.
From Verif Require Import GoBase Json Tileid_Model TileR_Model.
Import ListNotations.
Open Scope string_scope.
Open Scope list_scope.
Open Scope R_scope.

(** A coordinate: [None] is NaN; infinities are left out. *)
Definition coord := option R.
Definition cadd (a b : coord) : coord := match a, b with Some x, Some y => Some (x + y) | _, _ => None end.
(** tileid/tileid.go:52-58 Tile with int(NaN) as on amd64; the logarithm of anything not positive is not a number (or -Inf). *)
Definition minInt : Z := (- 2 ^ 63)%Z.
Definition CellCol (lng : coord) (zoom : Z) : Z := match lng with Some x => tX (Tile x 0 zoom) | None => minInt end.
Definition CellRow (lat : coord) (zoom : Z) : Z :=
  match lat with
  | Some y => if Rlt_dec 0 (tan (y * (PI / 180)) + 1 / cos (y * (PI / 180))) then tY (Tile 0 y zoom) else minInt
  | None => minInt
  end.
Definition Cell (lng lat : coord) (zoom : Z) : TileID := mkTile (CellCol lng zoom) (CellRow lat zoom) (u64 zoom).
Definition tile_eqb (a b : TileID) : bool := (tX a =? tX b)%Z && (tY a =? tY b)%Z && (tZ a =? tZ b)%Z.

Section Reduce.
(** The coordinates that Filter does not look into *)
Context {A : Type}.
(** go-geom Feature: the part of the geometry that is used here *)
Record rfeat := mkRfeat { rType : gstr; rPoint : list coord; rMulti : list (list coord); rRest : A }.
(** go-geom BoundingBoxFromGeometryData: corner, corner *)
Variable bbox : rfeat -> (R * R) * (R * R).

(** mvt/feature_reduce.go:12-21 Reduce_Config; the keys of TileMap *)
Record rcfg := mkRcfg { cSteps : Z; cPercent : R; cTile : TileID; cMap : list TileID; cDX : R; cDY : R; cZoom : Z; cOn : bool }.
(** mvt/feature_reduce.go:23-38 NewReduceConfig *)
Definition NewReduceConfig (t : TileID) : rcfg :=
  let bds := Bounds t in
  mkRcfg 8 (5 / 1000) t [] (eE bds - eW bds) (eN bds - eS bds) (wrap64 (wrap64 (tZ t) + 8)) true.

(** mvt/feature_reduce.go:57-60 *)
Fixpoint sum_points (l : list (list coord)) (x y : coord) : res (coord * coord) :=
  match l with
  | [] => Ok (x, y)
  | (a :: b :: _) :: r => sum_points r (cadd x a) (cadd y b)
  | _ :: _ => Panic
  end.
(** mvt/feature_reduce.go:61-62: the division; with no point it is 0 / 0 *)
Definition avg (s : coord) (n : nat) : coord := match s, n with Some x, S _ => Some (x / INR n) | _, _ => None end.

(** mvt/feature_reduce.go:40-81 Filter *)
Definition Filter (f : rfeat) (c : rcfg) : res (bool * rfeat * rcfg) :=
  if negb (cOn c) then Ok (true, f, c)
  else if seqb (rType f) (B "Point") then
    match rPoint f with
    | x :: y :: _ =>
        let tile := Cell x y (cZoom c) in
        if existsb (tile_eqb tile) (cMap c) then Ok (false, f, c)
        else Ok (true, f, mkRcfg (cSteps c) (cPercent c) (cTile c) (tile :: cMap c) (cDX c) (cDY c) (cZoom c) (cOn c))
    | _ => Panic
    end
  else if seqb (rType f) (B "MultiPoint") then
    let! (sx, sy) := sum_points (rMulti f) (Some 0) (Some 0) in
    let x := avg sx (List.length (rMulti f)) in
    let y := avg sy (List.length (rMulti f)) in
    let tile := Cell x y (cZoom c) in
    if existsb (tile_eqb tile) (cMap c) then Ok (false, f, c)
    else Ok (true, mkRfeat (B "Point") [x; y] [] (rRest f), mkRcfg (cSteps c) (cPercent c) (cTile c) (tile :: cMap c) (cDX c) (cDY c) (cZoom c) (cOn c))
  else if seqb (rType f) (B "LineString") || seqb (rType f) (B "MultiLineString") || seqb (rType f) (B "MultiPolygon") || seqb (rType f) (B "Polygon") then
    let '((x0, y0), (x1, y1)) := bbox f in
    Ok ((if Rlt_dec (cPercent c) ((x1 - x0) / cDX c) then true else false) || (if Rlt_dec (cPercent c) ((y1 - y0) / cDY c) then true else false), f, c)
  else Ok (false, f, c).

(** Calls with one configuration *)
Fixpoint Filters (fs : list rfeat) (c : rcfg) : res (list (bool * rfeat) * rcfg) :=
  match fs with
  | [] => Ok ([], c)
  | f :: r =>
      let! (b, g, c1) := Filter f c in
      let! (l, c2) := Filters r c1 in
      Ok ((b, g) :: l, c2)
  end.
End Reduce.
Arguments rfeat : clear implicits.
