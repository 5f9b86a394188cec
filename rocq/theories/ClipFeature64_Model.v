(** mvt/clip.go: ClipFeature in IEEE-754 binary64, over the cuts of ClipTile64_Model and the tiles of Tile64_Model. *)
From Coq Require Import ZArith List Bool.
From Flocq Require Import Core BinarySingleNaN.
From Verif Require Import GoBase Num MvtGeom_Model Tileid_Model TileF64_Model F64 Clip_Model Tile64_Model ClipTile64_Model.
Import ListNotations.
Open Scope Z_scope.

(** Go maps from tiles, as in ClipFeature_Model: association lists without repeated keys *)
Fixpoint put64 (mp : list (TileID * @cgeom f64)) (k : TileID) (g : @cgeom f64) : list (TileID * @cgeom f64) :=
  match mp with [] => [(k, g)] | (k', g') :: mp' => if tile_eqb k k' then (k, g) :: mp' else (k', g') :: put64 mp' k g end.
Definition del64 (mp : list (TileID * @cgeom f64)) (k : TileID) : list (TileID * @cgeom f64) := filter (fun e => negb (tile_eqb k (fst e))) mp.

Section Feature64.
Variable m : libm.
(** mvt/clip.go:171 Power7, the value of math.Pow(10, -7) *)
Variable eps : f64.

(** mvt/clip.go:441-454 GetFirstZoom; the loop from [i] with [n] iterations left *)
Definition corners64 (b : Ext64) : list (f64 * f64) := [(e6E b, e6N b); (e6E b, e6S b); (e6W b, e6N b); (e6W b, e6S b)].
Fixpoint first_zoom_loop64 (n : nat) (i : Z) (b : Ext64) : Z * TileID :=
  match n with
  | O => (30, mkTile 0 0 30)
  | S n' =>
      if forallb (fun c => tile_eqb (Tile64 m (fst c) (snd c) i) (Tile64 m (e6E b) (e6N b) i)) (corners64 b)
      then first_zoom_loop64 n' (i + 1) b
      else (i - 1, Tile64 m (e6E b) (e6N b) (i - 1))
  end.
Definition GetFirstZoom64 (b : Ext64) : Z * TileID := first_zoom_loop64 30 0 b.

(** mvt/clip.go:480-494: the loop over the map, as in ClipFeature_Model *)
Fixpoint visit64 (keep : bool) (cz : Z) (todo mp : list (TileID * @cgeom f64)) (last : Z) : res (list (TileID * @cgeom f64) * Z) :=
  match todo with
  | [] => Ok (mp, last)
  | (k, g) :: todo' =>
      if wrap64 (tZ k) =? cz then
        let! ch := ClipDown64 m eps k g in
        let! ch := map_res (fun e : TileID * @cgeom f64 => let! g := makefeature (snd e) in Ok (fst e, g)) ch in
        let mp' := fold_left (fun mp (e : TileID * @cgeom f64) => put64 mp (fst e) (snd e)) ch mp in
        let last' := fold_left (fun l (e : TileID * @cgeom f64) => if tZ (fst e) =? 0 then l else tZ (fst e)) ch last in
        visit64 keep cz todo' (if keep then mp' else del64 mp' k) last'
      else visit64 keep cz todo' mp last
  end.

Section Order.
(** The order in which Go ranges over a map *)
Context (order : list (TileID * @cgeom f64) -> list (TileID * @cgeom f64)).
(** mvt/clip.go:478-496; [fuel] bounds the number of levels *)
Fixpoint levels64 (fuel : nat) (keep : bool) (cz endzoom : Z) (mp : list (TileID * @cgeom f64)) : res (list (TileID * @cgeom f64)) :=
  if endzoom <=? cz then Ok mp
  else match fuel with
       | O => NoFuel
       | S f => let! r := visit64 keep cz (order mp) mp 0 in levels64 f keep (wrap64 (snd r)) endzoom (fst r)
       end.
(** mvt/clip.go:471-473 *)
Fixpoint up64 (fuel : nat) (t : TileID) (endzoom : Z) : res TileID :=
  if wrap64 (tZ t) =? endzoom then Ok t
  else match fuel with O => NoFuel | S f => up64 f (Parent64 m t) endzoom end.
(** mvt/clip.go:461-501 ClipFeature for line and polygon features with bounding box [bb] *)
Definition ClipFeature64 (fuel : nat) (bb : Ext64) (g : @cgeom f64) (endzoom : Z) (keep : bool) : res (list (TileID * @cgeom f64)) :=
  let '(firstzoom, t) := GetFirstZoom64 bb in
  let mp := [(t, g)] in
  if endzoom <=? firstzoom then
    let! t' := up64 fuel t endzoom in
    let! g' := makefeature g in
    Ok (put64 mp t' g')
  else levels64 fuel keep firstzoom endzoom mp.
End Order.
End Feature64.
