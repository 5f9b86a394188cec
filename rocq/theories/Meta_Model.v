(** mbtiles/metadata.go and the metadata part of mbtiles/mbtiles.go, as strings. *)
From Coq Require Import String ZArith Reals List Lia Bool.
From Flocq Require Import Core.
From Verif Require Import GoBase Num TileF64_Proofs Json Regex StyleFile_Model Mbtiles_Model.
Import ListNotations.
Open Scope Z_scope.

(** ** Numbers and strings *)

(** A float64: a finite value (of binary64 format), an infinity or NaN.  The sign of zero is not represented. *)
Inductive gofloat := Fin (r : R) | Inf (negative : bool) | NaN.
(** A number of a given count of digits, with leading zeros *)
Fixpoint fixed (k : nat) (n : Z) : gstr := match k with O => [] | S k' => fixed k' (n / 10) ++ [48 + n mod 10] end.
(** strconv.FormatFloat(x, 'f', 8, 64): the exact value rounded half to even at the eighth decimal *)
Definition FormatFloat8 (x : gofloat) : gstr :=
  match x with
  | Fin r =>
      let n := ZnearestE (Rabs r * 100000000)%R in
      (if Rltb r 0 then B "-" else []) ++ fmt_pos 400 (n / 100000000) ++ B "." ++ fixed 8 (n mod 100000000)
  | Inf false => B "+Inf"
  | Inf true => B "-Inf"
  | NaN => B "NaN"
  end.
Fixpoint span (p : Z -> bool) (s : gstr) : gstr * gstr :=
  match s with c :: t => if p c then let '(a, b) := span p t in (c :: a, b) else ([], s) | [] => ([], []) end.
(** A sign and the rest *)
Definition signed (s : gstr) : bool * gstr := match s with c :: t => if c =? 45 then (true, t) else if c =? 43 then (false, t) else (false, s) | [] => (false, []) end.
(** Digits with an optional point: the digits read as one number and how many of them follow the point *)
Definition decimal (s : gstr) : option (Z * nat) :=
  let '(i, r) := span digit s in
  match (match r with [] => Some [] | c :: f => if (c =? 46) && forallb digit f then Some f else None end) with
  | None => None
  | Some f => match i ++ f with [] => None | _ => Some (dec (i ++ f), length f) end
  end.
(** strconv.ParseFloat(s, 64): value and whether there is an error.  A syntax error gives 0, a range error an infinity.
    Simplification: exponents, hexadecimal floats and underscores, which Go accepts, are syntax errors here. *)
Definition ParseFloat (s : gstr) : gofloat * bool :=
  let '(neg, u) := signed s in
  if seqb (ToLower u) (B "inf") || seqb (ToLower u) (B "infinity") then (Inf neg, false)
  else if seqb (ToLower s) (B "nan") then (NaN, false)
  else match decimal u with
       | None => (Fin 0, true)
       | Some (n, k) =>
           let v := rnd ((if neg then -1 else 1) * (IZR n / 10 ^ k))%R in
           if Rltb (Rabs v) (bpow radix2 1024) then (Fin v, false) else (Inf neg, true)
       end.
(** strconv.ParseInt(s, 10, 64) and strconv.Atoi: a syntax error gives 0, a range error the nearest int64 *)
Definition ParseInt (s : gstr) : Z * bool :=
  let '(neg, u) := signed s in
  if match u with [] => true | _ => negb (forallb digit u) end then (0, true)
  else if neg then (if dec u <=? 2 ^ 63 then (- dec u, false) else (- 2 ^ 63, true))
  else (if dec u <? 2 ^ 63 then (dec u, false) else (2 ^ 63 - 1, true)).
(** strings.TrimSpace; only ASCII white space *)
Definition wspace (c : Z) : bool := (c =? 32) || ((9 <=? c) && (c <=? 13)).
Definition TrimSpace (s : gstr) : gstr := rev (snd (span wspace (rev (snd (span wspace s))))).
(** strings.Split(s, ",") and strings.Join(l, ",") *)
Fixpoint split_comma (s : gstr) : list gstr :=
  match s with
  | [] => [[]]
  | c :: t => if c =? 44 then [] :: split_comma t else match split_comma t with p :: ps => (c :: p) :: ps | [] => [[c]] end
  end.
Fixpoint join (l : list gstr) : gstr := match l with [] => [] | [a] => a | a :: l' => a ++ B "," ++ join l' end.

(** The loops of mbtiles/metadata.go:146-148, 163-165 and 210-214 over the parts: an array of [cap] more elements, each
    assignment also overwriting the error; an index beyond the array panics *)
Fixpoint parse_parts {A} (zero : A) (parse : gstr -> A * bool) (cap : nat) (parts : list gstr) (err : bool) {struct parts} : out (list A * bool) :=
  match parts with
  | [] => Val (repeat zero cap, err)
  | v :: parts' =>
      match cap with
      | O => Crash
      | S cap' => let '(a, e) := parse (TrimSpace v) in obind (parse_parts zero parse cap' parts' e) (fun '(l, e') => Val (a :: l, e'))
      end
  end.
(** mbtiles/metadata.go:145-151, 162-168 and 207-216: value and error *)
Definition stringToBounds (s : gstr) : out (list gofloat * bool) := parse_parts (Fin 0) ParseFloat 4 (split_comma s) false.
Definition stringToCenter (s : gstr) : out (list gofloat * bool) := parse_parts (Fin 0) ParseFloat 3 (split_comma s) false.
Definition stringToTileSize (s : gstr) : out (list Z * bool) := parse_parts 0 ParseInt 2 (split_comma s) false.
(** mbtiles/metadata.go:153-160 and 170-177 *)
Definition floatsToString (l : list gofloat) : gstr := join (map FormatFloat8 l).
(** mbtiles/metadata.go:198-205 *)
Definition tileSizeToString (l : list Z) : gstr := join (map FormatInt l).

(** ** Metadata *)

(** Dynamic types of ResFactor: nil, string, float64, anything else *)
Inductive resfactor := RNil | RStr (s : gstr) | RFloat (f : gofloat) | ROther.
(** mbtiles/metadata.go:179-187 *)
Definition resFactorToString (r : resfactor) : gstr := match r with RStr s => s | RFloat f => FormatFloat8 f | _ => [] end.
(** mbtiles/metadata.go:189-198 *)
Definition stringToResFactor (s : gstr) : resfactor :=
  if seqb s (B "sqrt2") then RStr s else let '(f, err) := ParseFloat (TrimSpace s) in if err then RNil else RFloat f.
(** mbtiles/mbtiles.go:98-105, 133-141 and 143-151; LayerType is an int *)
Definition layerTypeStrings : list gstr := [B "baselayer"; B "overlay"].
Definition stringToLayerType (s : gstr) : Z := match index_of s layerTypeStrings 0 with Some i => i | None => 0 end.
Definition layerTypeToString (t : Z) : gstr := if t =? 0 then B "baselayer" else if t =? 1 then B "overlay" else [].

(** mbtiles/metadata.go:29-47; [L] stands for the type LayerData, Bounds and Center are lists of 4 and 3 *)
Record Metadata (L : Type) := mkMD {
  mName : gstr; mFormat : Z; mBounds : list gofloat; mCenter : list gofloat; mMinZoom : Z; mMaxZoom : Z; mDescription : gstr; mVersion : gstr; mType : Z;
  mAttribution : gstr; mLayerData : option L; mDirectoryLayout : gstr; mOrigin : gstr; mSrs : gstr; mBoundsSrs : gstr; mResFactor : resfactor; mTileSize : option (list Z) }.
Arguments mkMD {L}. Arguments mName {L}. Arguments mFormat {L}. Arguments mBounds {L}. Arguments mCenter {L}. Arguments mMinZoom {L}. Arguments mMaxZoom {L}. Arguments mDescription {L}. Arguments mVersion {L}. Arguments mType {L}.
Arguments mAttribution {L}. Arguments mLayerData {L}. Arguments mDirectoryLayout {L}. Arguments mOrigin {L}. Arguments mSrs {L}. Arguments mBoundsSrs {L}. Arguments mResFactor {L}. Arguments mTileSize {L}.

Section Codec.
Context {L : Type}.
(** json.Marshal and json.Unmarshal of LayerData; the latter may fail or, for null, give nil *)
Context (enc : L -> gstr) (decj : gstr -> option (option L)).

(** mbtiles/metadata.go:49-95 ToMap: the entries of the map, in some order *)
Definition opt_entry (k v : gstr) : list (gstr * gstr) := match v with [] => [] | _ => [(k, v)] end.
Definition ToMap (m : Metadata L) : out (list (gstr * gstr)) :=
  obind (TileFormatToString (mFormat m)) (fun format =>
  Val (opt_entry (B "name") (mName m) ++ opt_entry (B "description") (mDescription m) ++
       [(B "minzoom", FormatInt (mMinZoom m)); (B "maxzoom", FormatInt (mMaxZoom m));
        (B "center", floatsToString (mCenter m)); (B "bounds", floatsToString (mBounds m));
        (B "type", layerTypeToString (mType m)); (B "format", format)] ++
       (match mLayerData m with Some d => [(B "json", enc d)] | None => [] end) ++
       opt_entry (B "directory_layout") (mDirectoryLayout m) ++ opt_entry (B "origin") (mOrigin m) ++ opt_entry (B "srs") (mSrs m) ++ opt_entry (B "bounds_srs") (mBoundsSrs m) ++
       (match mResFactor m with RNil => [] | r => [(B "res_factor", resFactorToString r)] end) ++
       (match mTileSize m with Some ts => [(B "tile_size", tileSizeToString ts)] | None => [] end))).

Definition md0 : Metadata L := mkMD [] 0 (repeat (Fin 0) 4) (repeat (Fin 0) 3) 0 0 [] [] 0 [] None [] [] [] [] RNil None.
(** mbtiles/mbtiles.go:389-424: one row *)
Definition ok_or_err {A} (r : A * bool) : out A := let '(a, e) := r in if e then Err else Val a.
Definition set_row (m : Metadata L) (key value : gstr) : out (Metadata L) :=
  let '(mkMD name format bounds center minzoom maxzoom description version type attribution layer dir origin srs bsrs res size) := m in
  if seqb key (B "name") then Val (mkMD value format bounds center minzoom maxzoom description version type attribution layer dir origin srs bsrs res size)
  else if seqb key (B "description") then Val (mkMD name format bounds center minzoom maxzoom value version type attribution layer dir origin srs bsrs res size)
  else if seqb key (B "attribution") then Val (mkMD name format bounds center minzoom maxzoom description version type value layer dir origin srs bsrs res size)
  else if seqb key (B "version") then Val (mkMD name format bounds center minzoom maxzoom description value type attribution layer dir origin srs bsrs res size)
  else if seqb key (B "format") then Val (mkMD name (StringToTileFormat value) bounds center minzoom maxzoom description version type attribution layer dir origin srs bsrs res size)
  else if seqb key (B "minzoom") then obind (ok_or_err (ParseInt value)) (fun v => Val (mkMD name format bounds center v maxzoom description version type attribution layer dir origin srs bsrs res size))
  else if seqb key (B "maxzoom") then obind (ok_or_err (ParseInt value)) (fun v => Val (mkMD name format bounds center minzoom v description version type attribution layer dir origin srs bsrs res size))
  else if seqb key (B "center") then obind (stringToCenter value) (fun r => obind (ok_or_err r) (fun v => Val (mkMD name format bounds v minzoom maxzoom description version type attribution layer dir origin srs bsrs res size)))
  else if seqb key (B "bounds") then obind (stringToBounds value) (fun r => obind (ok_or_err r) (fun v => Val (mkMD name format v center minzoom maxzoom description version type attribution layer dir origin srs bsrs res size)))
  else if seqb key (B "type") then Val (mkMD name format bounds center minzoom maxzoom description version (stringToLayerType value) attribution layer dir origin srs bsrs res size)
  else if seqb key (B "json") then match decj value with None => Err | Some v => Val (mkMD name format bounds center minzoom maxzoom description version type attribution v dir origin srs bsrs res size) end
  else if seqb key (B "directory_layout") then Val (mkMD name format bounds center minzoom maxzoom description version type attribution layer value origin srs bsrs res size)
  else if seqb key (B "origin") then Val (mkMD name format bounds center minzoom maxzoom description version type attribution layer dir value srs bsrs res size)
  else if seqb key (B "srs") then Val (mkMD name format bounds center minzoom maxzoom description version type attribution layer dir origin value bsrs res size)
  else if seqb key (B "bounds_srs") then Val (mkMD name format bounds center minzoom maxzoom description version type attribution layer dir origin srs value res size)
  else if seqb key (B "res_factor") then Val (mkMD name format bounds center minzoom maxzoom description version type attribution layer dir origin srs bsrs (stringToResFactor value) size)
  else if seqb key (B "tile_size") then obind (stringToTileSize value) (fun r => obind (ok_or_err r) (fun v => Val (mkMD name format bounds center minzoom maxzoom description version type attribution layer dir origin srs bsrs res (Some v))))
  else Val m.
Fixpoint set_rows (m : Metadata L) (rows : list (gstr * gstr)) : out (Metadata L) :=
  match rows with
  | [] => Val m
  | (k, v) :: rows' => match v with [] => set_rows m rows' | _ => obind (set_row m k v) (fun m' => set_rows m' rows') end
  end.
(** SELECT min(zoom_level), max(zoom_level) FROM tiles; None for no rows, where scanning NULL into a string fails *)
Fixpoint min_max (t : list row) : option (Z * Z) :=
  match t with
  | [] => None
  | r :: t' => match min_max t' with None => Some (rZ r, rZ r) | Some (a, b) => Some (Z.min (rZ r) a, Z.max (rZ r) b) end
  end.
Definition set_zooms (m : Metadata L) (a b : Z) : Metadata L :=
  mkMD (mName m) (mFormat m) (mBounds m) (mCenter m) a b (mDescription m) (mVersion m) (mType m) (mAttribution m) (mLayerData m) (mDirectoryLayout m) (mOrigin m) (mSrs m) (mBoundsSrs m) (mResFactor m) (mTileSize m).
(** mbtiles/mbtiles.go:372-447 GetMetadata; [rows] is the metadata table in the order SQLite returns it.  The WHERE clause
    drops empty values; reading the zooms back from text is the identity and left out. *)
Definition GetMetadata (rows : list (gstr * gstr)) (tiles : list row) : out (Metadata L) :=
  obind (set_rows md0 rows) (fun m =>
  if mMaxZoom m =? 0 then match min_max tiles with None => Err | Some (a, b) => Val (set_zooms m a b) end else Val m).
End Codec.
