(** mvt/clip.go: clipping to a band, to a tile and down to the four children. *)
From Coq Require Import ZArith Reals List Bool Lia.
From Verif Require Import GoBase Num MvtGeom_Model Tileid_Model TileR_Model.
Import ListNotations.

Section Clip.
  Context {F : Type} (N : NumOps F).
  Notation pt := (F * F)%type.

  (** [axis] is false for 0 (x) and true for 1 (y); no caller passes another axis. *)
  Definition coord (axis : bool) (p : pt) : F := if axis then snd p else fst p.

  (** mvt/clip.go:34-67 IntersectX/IntersectY/Intersect: the point appended (the returned t is
      never used). *)
  Definition cut (axis : bool) (a b : pt) (v : F) : pt :=
    let '(ax, ay) := a in let '(bx, by_) := b in
    if axis then
      if neqb N (nsub N by_ ay) (nzero N) then (ax, v)
      else (nadd N ax (nmul N (nsub N bx ax) (ndiv N (nsub N v ay) (nsub N by_ ay))), v)
    else
      if neqb N (nsub N bx ax) (nzero N) then (v, ay)
      else (v, nadd N ay (nmul N (nsub N by_ ay) (ndiv N (nsub N v ax) (nsub N bx ax)))).

  (** mvt/clip.go:78-112, one segment: the points appended and [exited]. *)
  Definition emit (axis : bool) (k1 k2 : F) (p q : pt) : list pt * bool :=
    let a := coord axis p in
    let b := coord axis q in
    let l1 :=
      if nleb N a k1 then (if nleb N k1 b then [cut axis p q k1] else [])
      else if nleb N k2 a then (if nleb N b k2 then [cut axis p q k2] else [])
      else [p] in
    let low := nltb N b k1 && nleb N k1 a in
    let high := nltb N k2 b && nleb N a k2 in
    (l1 ++ (if low then [cut axis p q k1] else []) ++ (if high then [cut axis p q k2] else []), low || high).

  (** mvt/clip.go:78-119: the loop over the segments starting at vertex [p]. The state is the
      finished pieces and the current slice (slice.Pos is its length).
      Returns the state and the last vertex. *)
  Fixpoint clip_loop (axis ring : bool) (k1 k2 : F) (p : pt) (l : list pt)
           (done : list (list pt)) (cur : list pt) : list (list pt) * list pt * pt :=
    match l with
    | [] => (done, cur, p)
    | q :: r =>
        let '(em, exited) := emit axis k1 k2 p q in
        let cur := cur ++ em in
        if negb ring && exited
        then clip_loop axis ring k1 k2 q r (done ++ [cur]) []
        else clip_loop axis ring k1 k2 q r done cur
    end.

  Definition pt_neqb (p q : pt) : bool := negb (neqb N (fst p) (fst q)) || negb (neqb N (snd p) (snd q)).

  (** mvt/clip.go:130-133: close a clipped ring of at least four points. *)
  Definition close_slice (ring : bool) (cur : list pt) : list pt :=
    match cur with
    | [] => []
    | f :: _ =>
        if ring && (3 <=? length cur - 1)%nat && pt_neqb (last cur f) f then cur ++ [f] else cur
    end.

  (** mvt/clip.go:74-139 clipLine; an empty geometry panics at Geom[last]. *)
  Definition clipLine (l : list pt) (k1 k2 : F) (axis ring : bool) : res (list (list pt)) :=
    match l with
    | [] => Panic
    | p :: r =>
        let '(done, cur, z) := clip_loop axis ring k1 k2 p r [] [] in
        let a := coord axis z in
        let cur := if nleb N k1 a && nleb N a k2 then cur ++ [z] else cur in
        let cur := close_slice ring cur in
        Ok (match cur with [] => done | _ => done ++ [cur] end)
    end.

  (** mvt/clip.go:147-158 clipLines *)
  Fixpoint clipLines (ls : list (list pt)) (k1 k2 : F) (axis ring : bool) : res (list (list pt)) :=
    match ls with
    | [] => Ok []
    | l :: r =>
        let! a := clipLine l k1 k2 axis ring in
        let! b := clipLines r k1 k2 axis ring in
        Ok (a ++ b)
    end.

  (** mvt/clip.go:160-169 clipMultiPolygon *)
  Fixpoint clipMultiPolygon (ps : list (list (list pt))) (k1 k2 : F) (axis ring : bool) : res (list (list (list pt))) :=
    match ps with
    | [] => Ok []
    | p :: r =>
        let! a := clipLines p k1 k2 axis ring in
        let! b := clipMultiPolygon r k1 k2 axis ring in
        Ok (match a with [] => b | _ => a :: b end)
    end.

  (** mvt/clip.go:171-176 DeltaFirstLast; [eps] is Power7 *)
  Definition DeltaFirstLast (eps : F) (f l : pt) : bool :=
    let dx := nabs N (nsub N (fst f) (fst l)) in
    let dy := nabs N (nsub N (snd f) (snd l)) in
    nltb N eps dx || nltb N eps dy.

  (** mvt/clip.go:178-189 LintPolygon, one ring.  The Go code also updates the caller's ring in
      place; the function is idempotent (C27), so a second pass over the same ring sees the
      same result. *)
  Definition LintRing (eps : F) (line : list pt) : res (list pt) :=
    match line with
    | [] => Panic
    | f :: _ =>
        if DeltaFirstLast eps f (last line f) then Ok (line ++ [f])
        else Ok (removelast line ++ [f])
    end.
  Definition LintPolygon (eps : F) (p : list (list pt)) : res (list (list pt)) := map_res (LintRing eps) p.
  (** mvt/clip.go:191-196 *)
  Definition LintMultiPolygon (eps : F) (ps : list (list (list pt))) := map_res (LintPolygon eps) ps.

  (** geom.GeometryData: the field selected by Type; [CNone] is a value whose Type is neither of
      the four below (in particular the zero value). *)
  Inductive cgeom :=
  | CLine (l : list pt)
  | CMultiLine (ls : list (list pt))
  | CPolygon (rs : list (list pt))
  | CMultiPolygon (ps : list (list (list pt)))
  | CNone.

  (** mvt/clip.go:198-241 clip; a MultiLineString matches no case (the case label is "MultiLine"). *)
  Definition clip (eps : F) (g : cgeom) (k1 k2 : F) (axis : bool) : res cgeom :=
    match g with
    | CLine l =>
        let! lines := clipLine l k1 k2 axis false in
        Ok (match lines with [x] => CLine x | _ => CMultiLine lines end)
    | CMultiLine _ => Ok CNone
    | CPolygon rs =>
        let! rs := LintPolygon eps rs in
        let! lines := clipLines rs k1 k2 axis true in
        Ok (CPolygon lines)
    | CMultiPolygon ps =>
        let! ps := LintMultiPolygon eps ps in
        let! ms := clipMultiPolygon ps k1 k2 axis true in
        Ok (match ms with [m] => CPolygon m | _ => CMultiPolygon ms end)
    | CNone => Ok CNone
    end.

  (** mvt/clip.go:243-259 IsEmpty *)
  Definition IsEmpty (g : cgeom) : bool :=
    match g with
    | CLine [] | CMultiLine [] | CPolygon [] | CMultiPolygon [] => true
    | _ => false
    end.

  (** mvt/clip.go:327-355 makefeature: addgeom.Polygon[0][0] panics when there is no first ring
      or it is empty.  Points have two coordinates, so the eight-coordinate square marker never
      applies; properties, id and bounding box are not modelled. *)
  Definition makefeature (g : cgeom) : res cgeom :=
    match g with
    | CPolygon [] => Panic
    | CPolygon ([] :: _) => Panic
    | _ => Ok g
    end.

  (** mvt/clip.go:357-367 ClipTile for line and polygon features, given the tile's bounds *)
  Definition ClipTileB (eps w e s n : F) (g : cgeom) : res cgeom :=
    let! g := clip eps g w e false in
    let! g := clip eps g s n true in
    makefeature g.
End Clip.
Arguments CLine {F}. Arguments CMultiLine {F}. Arguments CPolygon {F}. Arguments CMultiPolygon {F}. Arguments CNone {F}.

Definition Power7 : R := (/ 10000000)%R.

(** mvt/clip.go:357-367 ClipTile over the reals *)
Definition ClipTile (t : TileID) (g : @cgeom R) : res (@cgeom R) :=
  let b := Bounds t in
  ClipTileB RNum Power7 (eW b) (eE b) (eS b) (eN b) g.

(** mvt/clip.go:384-439 ClipDownTile over the reals: the entries left in the returned map.
    Not modelled: the two shortcuts for a polygon marked as a whole tile by eight-coordinate
    points and for a four- or five-point polygon within 1e-7 of the tile square (lines 388-414);
    the model is the code below them.  Line 389 indexes Polygon[0][0]. *)
Definition ClipDownTile (t : TileID) (g : @cgeom R) : res (list (TileID * @cgeom R)) :=
  match g with
  | CPolygon [] | CPolygon ([] :: _) => Panic
  | _ =>
    let b := Bounds t in
    match Children t with
    | [lut; rut; rdt; ldt] =>
      let cb := Bounds lut in
      let mx := eE cb in
      let my := eS cb in
      let! l := clip RNum Power7 g (eW b) mx false in
      let! r := clip RNum Power7 g mx (eE b) false in
      let! ld := clip RNum Power7 l (eS b) my true in
      let! lu := clip RNum Power7 l my (eN b) true in
      let! rd := clip RNum Power7 r (eS b) my true in
      let! ru := clip RNum Power7 r my (eN b) true in
      Ok (filter (fun e => negb (IsEmpty (snd e))) [(lut, lu); (rut, ru); (rdt, rd); (ldt, ld)])
    | _ => Panic
    end
  end.

(** mvt/clip.go:441-454 GetFirstZoom; the loop from [i] with [n] iterations left.  The corner
    map has more than one key iff some corner's tile differs from the first corner's. *)
Definition corners (b : Extrema) : list (R * R) :=
  [(eE b, eN b); (eE b, eS b); (eW b, eN b); (eW b, eS b)].
Definition tile_eqb (a b : TileID) : bool := (tX a =? tX b)%Z && (tY a =? tY b)%Z && (tZ a =? tZ b)%Z.
Fixpoint first_zoom_loop (n : nat) (i : Z) (b : Extrema) : Z * TileID :=
  match n with
  | O => (30%Z, mkTile 0 0 30)
  | S m =>
      if forallb (fun c => tile_eqb (Tile (fst c) (snd c) i) (Tile (eE b) (eN b) i)) (corners b)
      then first_zoom_loop m (i + 1) b
      else ((i - 1)%Z, Tile (eE b) (eN b) (i - 1))
  end.
Definition GetFirstZoom (b : Extrema) : Z * TileID := first_zoom_loop 30 0 b.

(** mvt/clip.go:295-325 PointClipAboutZoom, MultiPoint case: grouping the points by tile. Maps
    are association lists without order significance; [tile] is m.Tile at the given zoom. *)
Section Points.
  Context {P T V : Type} (tile : P -> T) (teq : T -> T -> bool).

  Fixpoint add_point (t : T) (p : P) (m : list (T * list P)) : list (T * list P) :=
    match m with
    | [] => [(t, [p])]
    | (t', ps) :: r => if teq t t' then (t', ps ++ [p]) :: r else (t', ps) :: add_point t p r
    end.
  Definition group_points (ps : list P) : list (T * list P) :=
    fold_left (fun m p => add_point (tile p) p m) ps [].

  (** Lines 307-322: one feature per group; every feature holds the same property map, in which
      "TILEID" is assigned in iteration order [order] (a permutation of the groups).  Returns
      the features (geometry only) and the final value of the shared "TILEID" entry. *)
  Definition split_features (old : option T) (order : list (T * list P)) : list (T * list P) * option T :=
    fold_left (fun s e => match snd e with [] => s | _ => (fst s ++ [e], Some (fst e)) end) order ([], old).

  (** mvt/clip.go:261-293 PointClipAboutTile, MultiPoint case: the points kept, in order; none
      gives the zero feature. *)
  Definition keep_points (t : T) (ps : list P) : list P := filter (fun p => teq (tile p) t) ps.
End Points.
