(** mvt/: the readers with the order of evaluation left open.  All three readers compute the end of
    a feature as [Buf.Pos + Buf.ReadVarint()]; the call moves [Buf.Pos], and Go does not say whether
    the operand is read before or after the call ("Order of evaluation" in the language
    specification).  MvtLayer_Model reads it after. *)
From Coq Require Import ZArith List Bool.
From Verif Require Import GoBase Pbf_Model MvtGeom_Model MvtLayer_Model.
Import ListNotations.
Open Scope Z_scope.

(** mvt/read_feature_lazy.go:70, mvt/read_tile.go:147, 396: the length starts at [p], the call leaves
    the position at [pos] and returns [size]; [early] when the operand is read before the call. *)
Definition feat_end (early : bool) (p pos size : Z) : Z := wrap64 ((if early then p else pos) + size).

(** mvt/read_feature_lazy.go:61-124 Layer.Feature *)
Definition FeatureO (early : bool) (fuel : nat) (P : proto) (buf : bytes) (l : layer) (i : nat) : res rfeat :=
  match nth_error (lFeats l) i with
  | None => Panic
  | Some p =>
      let! (size, pos) := ReadVarint buf p in
      feat_loop fuel 0 P buf (lKeys l) (lVals l) pos (feat_end early p pos size) (mkRF 0 0 [] 0)
  end.

(** mvt/read_tile.go:145-300 and 394-542 *)
Fixpoint read_featsO (early : bool) (fuel : nat) (extra : Z) (P : proto) (buf : bytes) (keys : list (list Z)) (vals : list wval)
         (name : list Z) (positions : list Z) (id gt gp : Z) : res (list ofeat) :=
  match positions with
  | [] => Ok []
  | p :: r =>
      let! (size, pos) := ReadVarint buf p in
      let! f := feat_loop fuel extra P buf keys vals pos (feat_end early p pos size) (mkRF id gt [] gp) in
      let! (cmds, _) := ReadPackedUInt32 buf (rfGeomPos f) in
      let! g := LoadGeometryCmds (rfType f) cmds in
      let! fs := read_featsO early fuel extra P buf keys vals name r (rfID f) (rfType f) (rfGeomPos f) in
      Ok (mkOF (rfID f) (mput str_layer (WString name) (rfProps f)) g :: fs)
  end.

(** mvt/read_tile.go:74-306 and 327-543 *)
Fixpoint read_loopO (early : bool) (fuel : nat) (chk : bool) (extra : Z) (P : proto) (buf : bytes) (pos : Z) (acc : list ofeat) : res (list ofeat) :=
  if pos <? zlen buf then
    match fuel with
    | O => NoFuel
    | S f =>
        let! (k, v, pos) := ReadTag buf pos in
        if (k =? pLayers P) && (v =? wBytes) then
          let! (size, pos) := ReadVarint buf pos in
          let endpos := wrap64 (pos + size) in
          let! s :=
            if size =? 0 then Ok layerr0
            else let! c := next_tag buf pos in layer_loop chk f P buf endpos c layerr0 in
          let! fs := read_featsO early f extra P buf (lrKeys s) (lrVals s) (lrName s) (lrFeats s) 0 0 0 in
          read_loopO early f chk extra P buf endpos (acc ++ fs)
        else read_loopO early f chk extra P buf pos acc
    end
  else Ok acc.

(** mvt/read_tile.go:59-311 ReadTile and 313-562 ReadRawTile *)
Definition ReadTileO (early : bool) (fuel : nat) (pt : Z) (buf : bytes) : res (list ofeat) :=
  read_loopO early fuel false 0 (getProto pt) buf 0 [].
Definition ReadRawTileO (early : bool) (fuel : nat) (pt : Z) (buf : bytes) : res (list ofeat) :=
  read_loopO early fuel true 1 (getProto pt) buf 0 [].
