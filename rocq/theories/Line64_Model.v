(** tile_cover: the cover of a line in IEEE-754 binary64 (no fused multiply-add), on top of
    Tile64_Model.  A Go map keyed by float64 identifies keys with ==, here [Beqb] (so 0 and -0 are
    one key and a NaN never equals another); TileID keys are compared field by field.  The order
    of map iteration is not modelled: see BetweenTiles64. *)
From Coq Require Import ZArith Reals List Bool.
From Flocq Require Import Core BinarySingleNaN.
From Verif Require Import GoBase Tileid_Model Clip_Model Cover_Model TileF64_Model F64 ColorF64_Model Tile64_Model.
Import ListNotations.

(** the constant .0000001 *)
Definition eps64 : f64 := @B754_finite 53 1024 false 7555786372591432 (-76) eq_refl.

(** tile_cover/line_corner_case.go:47-57 Interpolate *)
Definition Interpolate64 (pt1 pt2 : f64 * f64) (v : f64) (ybool : bool) : f64 * f64 :=
  if ybool then
    let slope := fdiv (fsub (fst pt2) (fst pt1)) (fsub (snd pt2) (snd pt1)) in
    (fadd (fst pt1) (fmul (fsub v (snd pt1)) slope), v)
  else
    let slope := fdiv (fsub (snd pt2) (snd pt1)) (fsub (fst pt2) (fst pt1)) in
    (v, fadd (snd pt1) (fmul (fsub v (fst pt1)) slope)).

(** tile_cover/line_corner_case.go:59-86 ProduceVals *)
Definition ProduceVals64 (m : libm) (vals : list Z) (constant : Z) (xbool : bool) (size : Z) : list f64 :=
  let ks := flat_map (fun v =>
    if xbool then let b := Bounds64 m (mkTile v constant (u64 size)) in [e6W b; e6E b]
    else let b := Bounds64 m (mkTile constant v (u64 size)) in [e6S b; e6N b]) vals in
  flat_map (fun k => [fsub k eps64; fadd k eps64]) (dedup Beqb ks).

(** m.Tile of a point *)
Definition tile_at (m : libm) (size : Z) (p : f64 * f64) : TileID := Tile64 m (fst p) (snd p) size.

(** tile_cover/line_corner_case.go:89-120 BetweenTiles, up to the order of the result *)
Definition BetweenTiles64 (m : libm) (pt1 pt2 : f64 * f64) (size : Z) : list TileID :=
  let t1 := tile_at m size pt1 in
  let t2 := tile_at m size pt2 in
  if (tX t1 =? tX t2)%Z && (tY t1 =? tY t2)%Z then [t1; t2]
  else
    let xf := ProduceVals64 m (FillVals (tX t1) (tX t2)) (tY t1) true size in
    let yf := ProduceVals64 m (FillVals (tY t1) (tY t2)) (tX t1) false size in
    dedup tile_eqb (t1 :: t2 :: map (fun v => tile_at m size (Interpolate64 pt1 pt2 v false)) xf
                    ++ map (fun v => tile_at m size (Interpolate64 pt1 pt2 v true)) yf).

(** tile_cover/tile_cover.go:78-82, 87: is a segment longer than the tile of the first vertex? *)
Definition far64 (m : libm) (line : list (f64 * f64)) (zoom : Z) (a b : f64 * f64) : bool :=
  match line with
  | [] => false
  | f :: _ =>
      let bds := Bounds64 m (tile_at m zoom f) in
      Bltb (fsub (e6E bds) (e6W bds)) (Babs (fsub (fst b) (fst a))) || Bltb (fsub (e6N bds) (e6S bds)) (Babs (fsub (snd b) (snd a)))
  end.
(** tile_cover/tile_cover.go:77-111 GetTilesLine; [between] is BetweenTiles with its result in
    whatever order the map iteration gives. *)
Definition GetTilesLine64 (m : libm) (between : f64 * f64 -> f64 * f64 -> Z -> list TileID) (line : list (f64 * f64)) (zoom : Z) : res (list TileID) :=
  tiles_line (tile_at m zoom) tile_eqb (far64 m line zoom) (fun a b => between a b zoom) line.
