(** tile_cover/: tiles covered by a geometry.  Coordinates are exact reals. *)
From Coq Require Import ZArith Reals List Bool Lia.
From Verif Require Import GoBase Num Tileid_Model TileR_Model Clip_Model.
Import ListNotations.
Open Scope Z_scope.

(** tile_cover/line_corner_case.go:27-45 FillVals; the differences are assumed not to overflow
    int, so make never gets a negative length. [upfrom n c] is the counting loop: c+1, .., c+n. *)
Fixpoint upfrom (n : nat) (current : Z) : list Z :=
  match n with
  | O => []
  | S n => (current + 1) :: upfrom n (current + 1)
  end.
Definition FillVals (val1 val2 : Z) : list Z :=
  let '(val1, val2) := if val2 <? val1 then (val2, val1) else (val1, val2) in
  if (val1 =? val2) || (val2 - 1 =? val1) then [] else upfrom (Z.to_nat (val2 - 1 - val1)) val1.

(** tile_cover/tile_cover.go:133-141 GetDif *)
Definition GetDif (x1 x2 : Z) : list Z := x1 :: upfrom (Z.to_nat (x2 - x1)) x1.

(** tile_cover/tile_cover.go:113-131 BoundingBoxPoints *)
Definition bbox_step (b : Extrema) (p : R * R) : Extrema :=
  let '(x, y) := p in
  let '(w, e) := if Rltb x (eW b) then (x, eE b) else if Rltb (eE b) x then (eW b, x) else (eW b, eE b) in
  let '(s, n) := if Rltb y (eS b) then (y, eN b) else if Rltb (eN b) y then (eS b, y) else (eS b, eN b) in
  mkExt w e n s.
Definition BoundingBoxPoints (pts : list (R * R)) : Extrema :=
  fold_left bbox_step pts (mkExt 180 (-180) (-90) 90).

(** tile_cover/tile_cover.go:44-70, one edge: is it counted? *)
Definition pip_edge (p curr next : R * R) : bool :=
  let '(bottom, top) := if Rleb (snd next) (snd curr) then (next, curr) else (curr, next) in
  if Rltb (snd p) (snd bottom) || Rleb (snd top) (snd p) then false
  else if Rleb (Rmax (fst curr) (fst next)) (fst p) || Reqb (snd next) (snd curr) then false
  else
    let xint := ((snd p - snd curr) * (fst next - fst curr) / (snd next - snd curr) + fst curr)%R in
    if negb (Reqb (fst curr) (fst next)) && Rleb xint (fst p) then false else true.

(** tile_cover/tile_cover.go:40-71, one ring: lines 41-43 (only the x coordinates are compared
    before closing; an empty ring panics) and the loop over the pairs (c[i], c[i+1 mod len]). *)
Definition pip_ring (c : list (R * R)) (p : R * R) : res nat :=
  match c with
  | [] => Panic
  | f :: _ =>
      let c := if negb (Reqb (fst f) (fst (last c f))) then c ++ [f] else c in
      Ok (length (filter (fun e => pip_edge p (fst e) (snd e)) (combine c (tl c ++ [f]))))
  end.

(** tile_cover/tile_cover.go:38-75 Pip *)
Fixpoint pip_count (cont : list (list (R * R))) (p : R * R) : res nat :=
  match cont with
  | [] => Ok 0%nat
  | c :: r => let! a := pip_ring c p in let! b := pip_count r p in Ok (a + b)%nat
  end.
Definition Pip (cont : list (list (R * R))) (p : R * R) : res bool :=
  let! n := pip_count cont p in Ok (Nat.odd n).

(** tile_cover/tile_cover.go:11-21 RunPolygon *)
Definition RunPolygon (polygon : list (list (R * R))) (tile : TileID) : bool :=
  existsb (fun cont => existsb (fun pt =>
    let t := Tile (fst pt) (snd pt) (wrap64 (tZ tile)) in
    (tX t =? tX tile) && (tY t =? tY tile)) cont) polygon.

(** a || b with Go's short circuit over results *)
Definition or_res (a : res bool) (b : res bool) : res bool :=
  let! x := a in if x then Ok true else b.

(** tile_cover/tile_cover.go:23-36 TilePolygon *)
Definition TilePolygon (polygon : list (list (R * R))) (pb : Extrema) (t : TileID) : res bool :=
  let b := Bounds t in
  if Rltb (eN pb) (eN b) && Rltb (eS b) (eS pb) && Rltb (eE pb) (eE b) && Rltb (eW b) (eW pb) then Ok true
  else or_res (Pip polygon (eW b, eN b)) (or_res (Pip polygon (eW b, eS b))
      (or_res (Pip polygon (eE b, eN b)) (or_res (Pip polygon (eE b, eS b)) (Ok (RunPolygon polygon t))))).

(** tile_cover/tile_cover.go:143-168 GetTilesPolygon; polygon[0] panics without rings. *)
Fixpoint filter_res {A} (f : A -> res bool) (l : list A) : res (list A) :=
  match l with
  | [] => Ok []
  | a :: r => let! b := f a in let! r := filter_res f r in Ok (if b then a :: r else r)
  end.
Definition GetTilesPolygon (polygon : list (list (R * R))) (zoom : Z) : res (list TileID) :=
  match polygon with
  | [] => Panic
  | outer :: _ =>
      let bds := BoundingBoxPoints outer in
      let tmin := Tile (eW bds) (eN bds) zoom in
      let tmax := Tile (eE bds) (eS bds) zoom in
      let xs := GetDif (tX tmin) (tX tmax) in
      let ys := GetDif (tY tmin) (tY tmax) in
      let pot := flat_map (fun x => map (fun y => mkTile x y (u64 zoom)) ys) xs in
      filter_res (TilePolygon polygon bds) pot
  end.

(** tile_cover/line_corner_case.go:47-57 Interpolate; a division by zero is not reached by
    BetweenTiles in exact arithmetic. *)
Definition Interpolate (pt1 pt2 : R * R) (v : R) (ybool : bool) : R * R :=
  if ybool then ((fst pt1 + (v - snd pt1) * ((fst pt2 - fst pt1) / (snd pt2 - snd pt1)))%R, v)
  else (v, (snd pt1 + (v - fst pt1) * ((snd pt2 - snd pt1) / (fst pt2 - fst pt1)))%R).

Definition eps7 : R := (/ 10000000)%R.

(** tile_cover/line_corner_case.go:59-86 ProduceVals.  Keys of a Go map: duplicates removed; the
    order of the result is the map's and is not significant (see BetweenTiles). *)
Fixpoint dedup {A} (eqb : A -> A -> bool) (l : list A) : list A :=
  match l with
  | [] => []
  | a :: r => if existsb (eqb a) r then dedup eqb r else a :: dedup eqb r
  end.
Definition ProduceVals (vals : list Z) (constant : Z) (xbool : bool) (size : Z) : list R :=
  let ks := flat_map (fun v =>
    if xbool then let b := Bounds (mkTile v constant (u64 size)) in [eW b; eE b]
    else let b := Bounds (mkTile constant v (u64 size)) in [eS b; eN b]) vals in
  flat_map (fun k => [(k - eps7)%R; (k + eps7)%R]) (dedup Reqb ks).

(** tile_cover/line_corner_case.go:89-120 BetweenTiles, up to the order of the result: [order] is
    the random iteration order of the tiles map, any permutation. *)
Definition BetweenTiles (pt1 pt2 : R * R) (size : Z) : list TileID :=
  let t1 := Tile (fst pt1) (snd pt1) size in
  let t2 := Tile (fst pt2) (snd pt2) size in
  if (tX t1 =? tX t2) && (tY t1 =? tY t2) then [t1; t2]
  else
    let xf := ProduceVals (FillVals (tX t1) (tX t2)) (tY t1) true size in
    let yf := ProduceVals (FillVals (tY t1) (tY t2)) (tX t1) false size in
    let at_ := fun p : R * R => Tile (fst p) (snd p) size in
    dedup tile_eqb (t1 :: t2 :: map (fun v => at_ (Interpolate pt1 pt2 v false)) xf
                    ++ map (fun v => at_ (Interpolate pt1 pt2 v true)) yf).

(** tile_cover/tile_cover.go:77-111 GetTilesLine.  [between] is BetweenTiles with its result in
    whatever order the map iteration gives; [far] the test of line 87. *)
Section Line.
  Context {P T : Type} (tile : P -> T) (teq : T -> T -> bool) (far : P -> P -> bool) (between : P -> P -> list T).
  (** if the tile is not yet in tilesmap, append it (tilesmap holds exactly the tiles listed) *)
  Definition add_tile (tiles : list T) (t : T) : list T :=
    if existsb (teq t) tiles then tiles else tiles ++ [t].
  Fixpoint line_loop (oldpt : P) (line : list P) (tiles : list T) : list T :=
    match line with
    | [] => tiles
    | pt :: r =>
        let tiles := if far oldpt pt then fold_left add_tile (between oldpt pt) tiles else tiles in
        line_loop pt r (add_tile tiles (tile pt))
    end.
  Definition tiles_line (line : list P) : res (list T) :=
    match line with
    | [] => Panic
    | p :: r => Ok (line_loop p r [tile p])
    end.

  (** tile_cover/tile_cover.go:170-176, 193-209, 210-226 TileCover for the multi-part types: [parts] are the
      results of GetTilesLine / GetTilesPolygon on the parts. *)
  Fixpoint cover_rest (parts : list (res (list T))) (total : list T) : res (list T) :=
    match parts with
    | [] => Ok total
    | r :: rest => let! tmp := r in cover_rest rest (fold_left add_tile tmp total)
    end.
  Definition cover_multi (parts : list (res (list T))) : res (list T) :=
    match parts with
    | [] => Ok []
    | r :: rest => let! tmp := r in cover_rest rest tmp
    end.
End Line.

(** tile_cover/tile_cover.go:83-87: the test that a segment is longer than the first vertex's tile *)
Definition far_seg (line : list (R * R)) (zoom : Z) (a b : R * R) : bool :=
  match line with
  | [] => false
  | f :: _ =>
      let bds := Bounds (Tile (fst f) (snd f) zoom) in
      Rltb (eE bds - eW bds) (Rabs (fst b - fst a)) || Rltb (eN bds - eS bds) (Rabs (snd b - snd a))
  end.
Definition GetTilesLine (between : R * R -> R * R -> Z -> list TileID) (line : list (R * R)) (zoom : Z) : res (list TileID) :=
  tiles_line (fun p => Tile (fst p) (snd p) zoom) tile_eqb (far_seg line zoom) (fun a b => between a b zoom) line.

(** The geometry of a feature, the fields TileCover reads. A MultiPoint feature is read through
    its LineString field (tile_cover.go:191-192). *)
Inductive geomdata :=
| GPoint (p : R * R)
| GLineString (l : list (R * R))
| GPolygon (p : list (list (R * R)))
| GMultiPoint (points line_field : list (R * R))
| GMultiLineString (ls : list (list (R * R)))
| GMultiPolygon (ps : list (list (list (R * R))))
| GOther.

(** tile_cover/tile_cover.go:178-230 TileCover *)
Definition TileCover (between : R * R -> R * R -> Z -> list TileID) (g : geomdata) (zoom : Z) : res (list TileID) :=
  match g with
  | GPoint p => Ok [Tile (fst p) (snd p) zoom]
  | GLineString l => GetTilesLine between l zoom
  | GPolygon [] => Panic
  | GPolygon ((outer :: _) as p) => if (3 <? length outer)%nat then GetTilesPolygon p zoom else Ok []
  | GMultiPoint _ l => GetTilesLine between l zoom
  | GMultiLineString ls => cover_multi tile_eqb (map (fun l => GetTilesLine between l zoom) ls)
  | GMultiPolygon ps => cover_multi tile_eqb (map (fun p => GetTilesPolygon p zoom) ps)
  | GOther => Ok []
  end.
