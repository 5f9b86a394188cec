(** style/*.go: what encoding/json makes of a style document.  The text codec is not modelled: a document
    is a [json] value with the members of its objects in document order. *)
From Coq Require Import String ZArith Reals List Lia Bool.
From Verif Require Import GoBase Num TileR_Model Raster_Model Json Style_Model Regex Color_Model.
Import ListNotations.
Open Scope Z_scope.

(** The types with an UnmarshalJSON method: numericStopType, colorStop, NumberOrFunctionWrapperType, ColorType,
    FilterContainer, and time.Time *)
Inductive cty := KNumStop | KColStop | KNumber | KColor | KFilter | KTime.
(** The Go types a document is made of.  [TInt lo hi] is an integer type with the values [lo <= n < hi], [TArray n t]
    is [n]t, [TAny] is interface{}, [TIface] an interface with methods (color.Color); struct fields go by their json names. *)
Inductive ty := TString | TFloat | TInt (lo hi : Z) | TAny | TIface | TPtr (t : ty) | TSlice (t : ty) | TMap (t : ty)
  | TStruct (fs : list (gstr * ty)) | TCustom (c : cty) | TArray (n : nat) (t : ty).
(** int and int64; uint; uint32 *)
Notation TInt64 := (TInt (- 2 ^ 63) (2 ^ 63)).
Notation TUint := (TInt 0 (2 ^ 64)).
Notation TUint32 := (TInt 0 (2 ^ 32)).

(** style/numeric_function.go:49-60: the two implementations of numberOfBaseAndStopsType *)
Inductive number := PlainNumber (r : R) | NumFunction (base : option R) (stops : list numStop).
(** style/colors.go:60-66, style/color_function.go:33-36; a stop is a pointer, None is nil *)
Inductive colour := PlainColor (c : gocolor) | ColorStops (base : option R) (stops : list (option colStop)).

(** Decoded values.  [GZero] is the zero value of the type at hand: nil, 0, "" or a struct of zero values.
    A struct lists the fields the document set, a map its entries, both in document order; an array stops at the last
    element the document set; a time is the text it was read from. *)
Inductive gv := GZero | GString (s : gstr) | GFloat (r : R) | GInt (n : Z) | GAny (j : json) | GPtr (v : gv) | GSlice (l : list gv)
  | GMap (l : list (gstr * gv)) | GStruct (l : list (gstr * gv))
  | GNumStop (s : numStop) | GColStop (s : colStop) | GNumber (n : number) | GColor (c : colour) | GFilter (f : filter)
  | GTime (s : gstr).

(** encoding/json matches a key with a field name up to case; U+017F (C5 BF) counts as S and U+212A (E2 84 AA) as K *)
Definition upper_byte (c : Z) : Z := if (97 <=? c) && (c <=? 122) then c - 32 else c.
Fixpoint fold_key (s : gstr) : gstr :=
  match s with
  | 197 :: 191 :: s' => 83 :: fold_key s'
  | 226 :: 132 :: 170 :: s' => 75 :: fold_key s'
  | c :: s' => upper_byte c :: fold_key s'
  | [] => []
  end.
Definition keyeq (name key : gstr) : bool := seqb (fold_key name) (fold_key key).

(** The results of decoding one part after the other: the first error or panic ends the decoding; a value of the
    wrong kind is only noted (the flag) and reported at the end *)
Fixpoint seqm {A} (l : list (out (A * bool))) : out (list A * bool) :=
  match l with
  | [] => Val ([], false)
  | r :: l' => obind r (fun '(a, b) => obind (seqm l') (fun '(l'', b') => Val (a :: l'', b || b')))
  end.
Definition tag {A} (n : gstr) (r : out (A * bool)) : out ((gstr * A) * bool) := obind r (fun '(v, b) => Val ((n, v), b)).
(** The members of an object that name a field, each decoded by the decoder of that field; others are skipped *)
Definition field_results (dec : list (gstr * (json -> out (gv * bool)))) (l : list (gstr * json)) : list (out ((gstr * gv) * bool)) :=
  flat_map (fun '(k, v) => match find (fun nd => keyeq (fst nd) k) dec with Some (n, d) => [tag n (d v)] | None => [] end) l.

Definition is_int (lo hi : Z) (r : R) : bool := Reqb r (IZR (Int_part r)) && (lo <=? Int_part r) && (Int_part r <? hi).

Section Decode.
(** The UnmarshalJSON methods *)
Variable custom : cty -> json -> out gv.
(** encoding/json decodeState.value.  null resets pointers, slices, maps and interfaces and leaves anything else
    alone, but a value with an UnmarshalJSON method is handed the null; elements beyond the length of an array are skipped.  Simplified: an object whose members name
    the same field twice counts as one with the last of them only (encoding/json decodes the second on top of the
    first); numbers outside float64 are not modelled; an integral number counts as written without point or exponent. *)
Fixpoint decode (t : ty) (j : json) : out (gv * bool) :=
  match t with
  | TCustom c => obind (custom c j) (fun v => Val (v, false))
  | TPtr t' => match j with JNull => Val (GZero, false) | _ => obind (decode t' j) (fun '(v, b) => Val (GPtr v, b)) end
  | TString => match j with JNull => Val (GZero, false) | JStr s => Val (GString s, false) | _ => Val (GZero, true) end
  | TFloat => match j with JNull => Val (GZero, false) | JNum r => Val (GFloat r, false) | _ => Val (GZero, true) end
  | TInt lo hi => match j with JNull => Val (GZero, false) | JNum r => if is_int lo hi r then Val (GInt (Int_part r), false) else Val (GZero, true) | _ => Val (GZero, true) end
  | TAny => match j with JNull => Val (GZero, false) | _ => Val (GAny j, false) end
  | TIface => match j with JNull => Val (GZero, false) | _ => Val (GZero, true) end
  | TSlice t' =>
      match j with
      | JNull => Val (GZero, false)
      | JArr l => obind (seqm (map (decode t') l)) (fun '(vs, b) => Val (GSlice vs, b))
      | _ => Val (GZero, true)
      end
  | TArray n t' =>
      match j with
      | JNull => Val (GZero, false)
      | JArr l => obind (seqm (map (decode t') (firstn n l))) (fun '(vs, b) => Val (GSlice vs, b))
      | _ => Val (GZero, true)
      end
  | TMap t' =>
      match j with
      | JNull => Val (GZero, false)
      | JObj l => obind (seqm (map (fun '(k, v) => tag k (decode t' v)) l)) (fun '(vs, b) => Val (GMap vs, b))
      | _ => Val (GZero, true)
      end
  | TStruct fs =>
      let dec := map (fun '(n, t') => (n, decode t')) fs in
      match j with
      | JNull => Val (GZero, false)
      | JObj l => obind (seqm (field_results dec l)) (fun '(vs, b) => Val (GStruct vs, b))
      | _ => Val (GZero, true)
      end
  end.
(** json.Unmarshal: the noted mismatch is the error returned *)
Definition Unmarshal (t : ty) (j : json) : out gv := obind (decode t j) (fun '(v, b) => if b : bool then Err else Val v).
End Decode.

(** The value of a field: the last one set, else the zero value *)
Definition gfield (n : gstr) (v : gv) : gv :=
  match v with
  | GStruct l => match find (fun e => seqb n (fst e)) (rev l) with Some (_, x) => x | None => GZero end
  | _ => GZero
  end.

(** json.Unmarshal into a [2]interface{}: extra elements are dropped, missing ones stay nil *)
Definition unmarshal_pair (j : json) : out (json * json) :=
  match j with
  | JArr (a :: b :: _) => Val (a, b)
  | JArr [a] => Val (a, JNull)
  | JArr [] | JNull => Val (JNull, JNull)
  | _ => Err
  end.
(** style/numeric_stop_type.go:10-23 *)
Definition numericStopUnmarshal (j : json) : out numStop :=
  obind (unmarshal_pair j) (fun '(a, b) =>
  match a with JNum z => match b with JNum v => Val (mkNS z v) | _ => Crash end | _ => Crash end).
(** style/color_function.go:13-31; defaultColorAlpha is 0xff *)
Definition colorStopUnmarshal (j : json) : out colStop :=
  obind (unmarshal_pair j) (fun '(a, b) =>
  match a with
  | JNum z => match b with JStr s => obind (strToColor s 255) (fun c => Val (mkCS z c)) | _ => Crash end
  | _ => Crash
  end).

(** The methods that decode no further struct *)
Definition stop_custom (c : cty) (j : json) : out gv :=
  match c with
  | KNumStop => obind (numericStopUnmarshal j) (fun s => Val (GNumStop s))
  | KColStop => obind (colorStopUnmarshal j) (fun s => Val (GColStop s))
  | _ => Crash
  end.
(** style/numeric_function.go:55-59, style/color_function.go:33-36 *)
Definition NumericFunctionT : ty := TStruct [(B "type", TString); (B "base", TPtr TFloat); (B "stops", TSlice (TCustom KNumStop))].
Definition ColorStopsT : ty := TStruct [(B "stops", TSlice (TPtr (TCustom KColStop))); (B "base", TPtr TFloat)].

Definition float_ptr (v : gv) : option R := match v with GPtr (GFloat r) => Some r | GPtr _ => Some 0%R | _ => None end.
Definition slice_of (v : gv) : list gv := match v with GSlice l => l | _ => [] end.
Definition num_stop_of (v : gv) : numStop := match v with GNumStop s => s | _ => mkNS 0 0 end.
Definition col_stop_of (v : gv) : option colStop := match v with GPtr (GColStop s) => Some s | _ => None end.

(** style/numeric_function.go:22-47 *)
Definition numberUnmarshal (j : json) : out number :=
  match j with
  | JNum r => Val (PlainNumber r)
  | JObj _ => obind (Unmarshal stop_custom NumericFunctionT j) (fun v =>
      Val (NumFunction (float_ptr (gfield (B "base") v)) (map num_stop_of (slice_of (gfield (B "stops") v)))))
  | _ => Crash
  end.
(** style/colors.go:28-58 *)
Definition colorUnmarshal (j : json) : out colour :=
  match j with
  | JStr s => obind (strToColor s 255) (fun c => Val (PlainColor c))
  | JObj _ => obind (Unmarshal stop_custom ColorStopsT j) (fun v =>
      Val (ColorStops (float_ptr (gfield (B "base") v)) (map col_stop_of (slice_of (gfield (B "stops") v)))))
  | _ => Crash
  end.
(** All of them; style/filter.go:169-177 for filters *)
Definition style_custom (c : cty) (j : json) : out gv :=
  match c with
  | KNumber => obind (numberUnmarshal j) (fun n => Val (GNumber n))
  | KColor => obind (colorUnmarshal j) (fun c => Val (GColor c))
  | KFilter => obind (unmarshalFilter j) (fun f => Val (GFilter f))
  | _ => stop_custom c j
  end.

(** style/metadata.go:3 *)
Definition MetadataT : ty := TMap TAny.
Definition NumberT : ty := TPtr (TCustom KNumber).
Definition ColorT : ty := TPtr (TCustom KColor).
(** style/layout.go:3-21 *)
Definition LayoutT : ty := TStruct
  [(B "visibility", TString); (B "line-cap", TString); (B "line-join", TString); (B "text-field", TString);
   (B "text-font", TSlice TString); (B "text-size", NumberT); (B "symbol-placement", TAny); (B "text-letter-spacing", TFloat);
   (B "text-rotation-alignment", TString); (B "text-transform", TString); (B "icon-size", NumberT); (B "text-anchor", TString);
   (B "text-max-width", TFloat); (B "text-offset", TSlice TFloat); (B "symbol-spacing", TFloat); (B "icon-image", TString);
   (B "text-padding", TFloat)].
(** style/paint.go:3-21 *)
Definition PaintT : ty := TStruct
  [(B "background-color", ColorT); (B "fill-color", ColorT); (B "fill-opacity", NumberT); (B "fill-antialias", TAny);
   (B "line-color", ColorT); (B "line-dasharray", TSlice TFloat); (B "line-gap-width", NumberT); (B "line-opacity", NumberT);
   (B "line-offset", TPtr TFloat); (B "line-width", NumberT); (B "fill-outline-color", ColorT); (B "fill-translate", TAny);
   (B "fill-pattern", TAny); (B "text-color", ColorT); (B "text-halo-blur", TPtr TFloat); (B "text-halo-color", ColorT);
   (B "text-halo-width", TPtr TFloat)].
(** style/layer.go:23-34 *)
Definition LayerT : ty := TStruct
  [(B "filter", TCustom KFilter); (B "id", TString); (B "layout", LayoutT); (B "maxzoom", TPtr TFloat); (B "metadata", MetadataT);
   (B "minzoom", TPtr TFloat); (B "paint", TPtr PaintT); (B "source", TString); (B "source-layer", TString); (B "type", TString)].
(** style/layer.go:53-71 *)
Definition LightT : ty := TStruct [(B "anchor", TString); (B "color", TIface); (B "intensity", TFloat); (B "position", TSlice TFloat)].
Definition SourcesT : ty := TMap (TStruct [(B "type", TString); (B "url", TString)]).
Definition TransitionT : ty := TStruct [(B "delay", TInt64); (B "duration", TInt64)].
(** style/style.go:45-60 *)
Definition StyleT : ty := TStruct
  [(B "bearing", TFloat); (B "center", TSlice TFloat); (B "glyphs", TString); (B "layers", TSlice (TPtr LayerT)); (B "light", LightT);
   (B "metadata", MetadataT); (B "name", TString); (B "pitch", TFloat); (B "sources", SourcesT); (B "sprite", TString);
   (B "transition", TransitionT); (B "version", TInt64); (B "zoom", TFloat); (B "id", TString)].

(** style/numeric_function.go:14-19; None is a nil pointer *)
Definition NumberAtZoom (n : option number) (zoom : R) : res R :=
  match n with
  | None => Ok 0%R
  | Some (PlainNumber r) => Ok r
  | Some (NumFunction base stops) => NumGet base stops zoom
  end.
(** style/color_function.go:38-82 with the stops as pointers: a nil one panics when it is looked at *)
Fixpoint colp_loop (base : option R) (zoom : R) (this : colStop) (rest : list (option colStop)) : res gocolor :=
  match rest with
  | [] => Ok (csColor this)
  | None :: _ => Panic
  | Some next :: rest' => if Rleb (csZoom next) zoom then colp_loop base zoom next rest' else color_between this next zoom base
  end.
Definition ColGetP (base : option R) (stops : list (option colStop)) (zoom : R) : res gocolor :=
  match stops with
  | [] => Panic
  | None :: _ => Panic
  | Some s0 :: rest => if Rltb zoom (csZoom s0) then Ok CNil else colp_loop base zoom s0 rest
  end.
(** style/colors.go:21-26; None is a nil pointer *)
Definition ColorAtZoom (c : option colour) (zoom : R) : res gocolor :=
  match c with
  | None => Ok CNil
  | Some (PlainColor c) => Ok c
  | Some (ColorStops base stops) => ColGetP base stops zoom
  end.

(** Fields of a decoded style as the Go code reads them *)
Definition string_of (v : gv) : gstr := match v with GString s => s | _ => [] end.
Definition int_of (v : gv) : Z := match v with GInt n => n | _ => 0 end.
Definition ptr_of (v : gv) : option gv := match v with GPtr v => Some v | _ => None end.
Definition number_of (v : gv) : option number := match v with GPtr (GNumber n) => Some n | _ => None end.
Definition color_of (v : gv) : option colour := match v with GPtr (GColor c) => Some c | _ => None end.
Definition filter_of (v : gv) : option filter := match v with GFilter f => Some f | _ => None end.
Definition Layers (s : gv) : list (option gv) := map ptr_of (slice_of (gfield (B "layers") s)).

(** color.White, or another colour *)
Inductive background := White | Colour (c : gocolor).
Definition of_res {A} (r : res A) : out A := match r with Ok a => Val a | _ => Crash end.
(** style/style.go:27-38 *)
Definition calculateBackgroundColor (s : gv) : out background :=
  match Layers s with
  | [] => Val White
  | None :: _ => Crash
  | Some backgroundLayer :: _ =>
      if negb (seqb (string_of (gfield (B "id") backgroundLayer)) (B "background")) then Val White else
      match ptr_of (gfield (B "paint") backgroundLayer) with
      | None => Crash
      | Some paint => obind (of_res (ColorAtZoom (color_of (gfield (B "background-color") paint)) 0)) (fun c => Val (Colour c))
      end
  end.
(** style/style.go:40-43 *)
Record MapboxGLStyle := mkMGS { msStyle : gv; msBackground : background }.
(** style/style.go:19-25 *)
Definition GetStyleID (m : MapboxGLStyle) : gstr := string_of (gfield (B "id") (msStyle m)).
Definition GetBackground (m : MapboxGLStyle) : background := msBackground m.
(** style/style.go:62-76; the reader holds the document [j] *)
Definition Parse (j : json) : out MapboxGLStyle :=
  obind (Unmarshal style_custom StyleT j) (fun s =>
  obind (calculateBackgroundColor s) (fun bgColor => Val (mkMGS s bgColor))).
(** style/style.go:78-85 *)
Definition StyleValidate (s : gv) : out unit := if negb (int_of (gfield (B "version") s) =? 8) then Err else Val tt.
