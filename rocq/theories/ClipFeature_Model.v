(** mvt/clip.go: ClipFeature, which clips a feature down from its first covering tile to a zoom. *)
From Coq Require Import ZArith Reals List Bool Lia.
From Verif Require Import GoBase Num MvtGeom_Model Tileid_Model TileR_Model Clip_Model.
Import ListNotations.
Open Scope Z_scope.

Notation rgeom := (@cgeom R) (only parsing).
Notation entry := (TileID * @cgeom R)%type (only parsing).

(** geom.BoundingBoxFromGeometryData of a polygon with one ring (go-geom is another repository: taken to be the least and
    greatest coordinates) *)
Definition ring_box (f : R * R) (r : list (R * R)) : Extrema :=
  mkExt (fold_left Rmin (map fst r) (fst f)) (fold_left Rmax (map fst r) (fst f))
        (fold_left Rmax (map snd r) (snd f)) (fold_left Rmin (map snd r) (snd f)).
(** mvt/clip.go:456-459 DeltaBounds *)
Definition DeltaBounds (a b : Extrema) : bool :=
  Rltb (Rabs (eW a - eW b)) Power7 && Rltb (Rabs (eE a - eE b)) Power7 && Rltb (Rabs (eN a - eN b)) Power7 && Rltb (Rabs (eS a - eS b)) Power7.
(** mvt/clip.go:398-414: a polygon with one ring of four or five points whose box is the tile's *)
Definition near_square (t : TileID) (g : rgeom) : bool :=
  match g with
  | CPolygon [f :: r] => ((length r =? 3)%nat || (length r =? 4)%nat) && DeltaBounds (ring_box f r) (Bounds t)
  | _ => false
  end.
(** mvt/clip.go:338-343: the polygon makefeature puts in place of the whole-tile marker *)
Definition tile_square (t : TileID) : list (R * R) :=
  let b := Bounds t in [(eE b, eN b); (eW b, eN b); (eW b, eS b); (eE b, eS b); (eE b, eN b)].
(** mvt/clip.go:384-439 ClipDownTile with its shortcuts.  The whole-tile marker (one point with eight coordinates) is
    represented by the square that makefeature makes of it: like the marker, the square is near_square for its tile, so the
    first shortcut (lines 388-397) gives the same entries as the second. *)
Definition ClipDown (t : TileID) (g : rgeom) : res (list entry) :=
  match g with
  | CPolygon [] | CPolygon ([] :: _) => Panic
  | _ => if near_square t g then Ok (map (fun c => (c, CPolygon [tile_square c])) (Children t)) else ClipDownTile t g
  end.

(** Go maps from tiles: association lists without repeated keys *)
Fixpoint put (m : list entry) (k : TileID) (g : rgeom) : list entry :=
  match m with [] => [(k, g)] | (k', g') :: m' => if tile_eqb k k' then (k, g) :: m' else (k', g') :: put m' k g end.
Definition del (m : list entry) (k : TileID) : list entry := filter (fun e => negb (tile_eqb k (fst e))) m.

(** mvt/clip.go:480-494: the loop over the map.  Entries inserted during the iteration may or may not be visited by Go; they
    have the next zoom and are skipped either way, so the loop is over the entries present at its start.  [last] is lastk.Z.
    Properties and ids are not modelled. *)
Fixpoint visit (keep : bool) (cz : Z) (todo m : list entry) (last : Z) : res (list entry * Z) :=
  match todo with
  | [] => Ok (m, last)
  | (k, g) :: todo' =>
      if wrap64 (tZ k) =? cz then
        let! ch := ClipDown k g in
        let! ch := map_res (fun e : entry => let! g := makefeature (snd e) in Ok (fst e, g)) ch in
        let m' := fold_left (fun m (e : entry) => put m (fst e) (snd e)) ch m in
        let last' := fold_left (fun l (e : entry) => if tZ (fst e) =? 0 then l else tZ (fst e)) ch last in
        visit keep cz todo' (if keep then m' else del m' k) last'
      else visit keep cz todo' m last
  end.

Section Order.
(** The order in which Go ranges over a map *)
Context (order : list entry -> list entry).
(** mvt/clip.go:478-496; [fuel] bounds the number of levels *)
Fixpoint levels (fuel : nat) (keep : bool) (cz endzoom : Z) (m : list entry) : res (list entry) :=
  if endzoom <=? cz then Ok m
  else match fuel with
       | O => NoFuel
       | S f => let! r := visit keep cz (order m) m 0 in levels f keep (wrap64 (snd r)) endzoom (fst r)
       end.
(** mvt/clip.go:471-473 *)
Fixpoint up (fuel : nat) (t : TileID) (endzoom : Z) : res TileID :=
  if wrap64 (tZ t) =? endzoom then Ok t
  else match fuel with O => NoFuel | S f => up f (Parent t) endzoom end.
(** mvt/clip.go:461-501 ClipFeature for line and polygon features with bounding box [bb] *)
Definition ClipFeature (fuel : nat) (bb : Extrema) (g : rgeom) (endzoom : Z) (keep : bool) : res (list entry) :=
  let '(firstzoom, t) := GetFirstZoom bb in
  let m := [(t, g)] in
  if endzoom <=? firstzoom then
    let! t' := up fuel t endzoom in
    let! g' := makefeature g in
    Ok (put m t' g')
  else levels fuel keep firstzoom endzoom m.
End Order.
