(** style/*.go: zoom functions, layer validation, style sets and filters.  float64 values are reals. *)
From Coq Require Import String ZArith Reals List Lia Bool.
From Verif Require Import GoBase Num TileR_Model Raster_Model Json.
Import ListNotations.
Open Scope Z_scope.

(** math.Pow for bases >= 0 and exponents >= 0; negative bases (NaN for fractional exponents) are not modelled *)
Definition gopow (b x : R) : R := if Reqb x 0 then 1%R else if Rltb 0 b then Rpower b x else 0%R.

(** style/function.go:23-39 *)
Definition getExponentialPercentage (zoomLevel lower higher base : R) : R :=
  (let differenceBetweenLevels := higher - lower in
   if Reqb differenceBetweenLevels 0 then 0 else
   let progressThroughStop := zoomLevel - lower in
   if Reqb base 1 then progressThroughStop / differenceBetweenLevels else
   let top := gopow base progressThroughStop - 1 in
   let bottom := gopow base differenceBetweenLevels - 1 in
   top / bottom)%R.

(** style/function.go:16-21 *)
Definition getValueThroughStop (this next progress : R) : R := (fl ((next - this) * progress) + this)%R.

Definition the_base (base : option R) : R := match base with Some b => b | None => 1%R end.

(** style/numeric_stop_type.go:5-8 *)
Record numStop := mkNS { nsZoom : R; nsValue : R }.
(** style/numeric_function.go:91-104 *)
Definition getNumericValueBetweenStops (this next : numStop) (zoom : R) (base : option R) : R :=
  let progress := getExponentialPercentage zoom (nsZoom this) (nsZoom next) (the_base base) in
  (progress * Rabs (nsValue next - nsValue this) + nsValue this)%R.
(** style/numeric_function.go:72-86, the loop from stop [this] on *)
Fixpoint num_loop (base : option R) (zoom : R) (this : numStop) (rest : list numStop) : R :=
  match rest with
  | [] => nsValue this
  | next :: rest' => if Rleb (nsZoom next) zoom then num_loop base zoom next rest' else getNumericValueBetweenStops this next zoom base
  end.
(** style/numeric_function.go:62-89 NumericFunctionType.GetValueAtZoomLevel *)
Definition NumGet (base : option R) (stops : list numStop) (zoom : R) : res R :=
  match stops with
  | [] => Panic
  | s0 :: rest => if Rltb zoom (nsZoom s0) then Ok 0%R else Ok (num_loop base zoom s0 rest)
  end.

(** Values of the color.Color interface that this package produces *)
Inductive gocolor := CNil | CRGBA (r g b a : Z) | CHSL (h s l : R) (a : Z).
Record colStop := mkCS { csZoom : R; csColor : gocolor }.
(** style/color_function.go:84-92 *)
Definition getColorValueBetweenStops (p : R) (this next : Z) : Z := to_byte (getValueThroughStop (IZR this) (IZR next) p).
(** style/color_function.go:63-78: the type assertions panic for anything but color.RGBA *)
Definition color_between (this next : colStop) (zoom : R) (base : option R) : res gocolor :=
  let p := getExponentialPercentage zoom (csZoom this) (csZoom next) (the_base base) in
  match csColor this, csColor next with
  | CRGBA r g b a, CRGBA r' g' b' a' =>
      Ok (CRGBA (getColorValueBetweenStops p r r') (getColorValueBetweenStops p g g') (getColorValueBetweenStops p b b') (getColorValueBetweenStops p a a'))
  | _, _ => Panic
  end.
(** style/color_function.go:48-79 *)
Fixpoint col_loop (base : option R) (zoom : R) (this : colStop) (rest : list colStop) : res gocolor :=
  match rest with
  | [] => Ok (csColor this)
  | next :: rest' => if Rleb (csZoom next) zoom then col_loop base zoom next rest' else color_between this next zoom base
  end.
(** style/color_function.go:38-82 ColorStopsType.GetValueAtZoomLevel *)
Definition ColGet (base : option R) (stops : list colStop) (zoom : R) : res gocolor :=
  match stops with
  | [] => Panic
  | s0 :: rest => if Rltb zoom (csZoom s0) then Ok CNil else col_loop base zoom s0 rest
  end.

(** style/layer.go:35-51 Validate; None is a nil pointer.  && binds tighter than ||, so a nil limit is dereferenced. *)
Definition Validate (maxZoom minZoom : option R) : out unit :=
  if (match maxZoom, minZoom with Some mx, Some mn => Rltb mx mn | _, _ => false end) then Err else
  match maxZoom with
  | None => Crash
  | Some mx =>
      if Rltb mx 0 || Rltb 24 mx then Err else
      match minZoom with
      | None => Crash
      | Some mn => if Rltb mn 0 || Rltb 24 mn then Err else Val tt
      end
  end.

(** style/styling.go:43-46; the map as an association list without repeated keys *)
Record StyleSet (A : Type) := mkSS { ssMap : list (gstr * A); ssDefault : gstr }.
Arguments mkSS {A}. Arguments ssMap {A}. Arguments ssDefault {A}.
Fixpoint sfind {A} (k : gstr) (m : list (gstr * A)) : option A :=
  match m with [] => None | (k', v) :: m' => if seqb k k' then Some v else sfind k m' end.
(** style/styling.go:56-70, from a given map and flag *)
Fixpoint nss_loop {A} (styles : list (gstr * A)) (dflt : gstr) (m : list (gstr * A)) (found : bool) : out (list (gstr * A) * bool) :=
  match styles with
  | [] => Val (m, found)
  | (id, st) :: styles' =>
      match sfind id m with
      | Some _ => Err
      | None => nss_loop styles' dflt (m ++ [(id, st)]) (if seqb dflt id then true else found)
      end
  end.
(** style/styling.go:48-75 NewStyleSet; a style is its ID and the rest *)
Definition NewStyleSet {A} (styles : list (gstr * A)) (dflt : gstr) : out (StyleSet A) :=
  obind (nss_loop styles dflt [] false) (fun '(m, found) => if negb found then Err else Val (mkSS m dflt)).
(** style/styling.go:79-85; None stands for the zero Style *)
Definition GetStyleByID {A} (s : StyleSet A) (id : gstr) : option A := sfind id (ssMap s).
Definition GetDefaultStyle {A} (s : StyleSet A) : option A := sfind (ssDefault s) (ssMap s).
(** style/styling.go:85-93; [order] is the map iteration order *)
Definition GetAllStyleIDs {A} (order : list (gstr * A)) : list gstr := map fst order.

(** style/filter.go:48-70 and 121-150 *)
Inductive category := ClassC (ops : list gstr) | SubClassC (ops : list gstr) | TypeC (ops : list gstr) | UnhandledC.
Inductive filter := Logical (op : gstr) (subs : list filter) | Comparative (op : gstr) (c : category).
(** style/filter.go:72-83 *)
Fixpoint interfaceListToStringList (l : list json) : out (list gstr) :=
  match l with
  | [] => Val []
  | JStr s :: l' => obind (interfaceListToStringList l') (fun r => Val (s :: r))
  | _ => Err
  end.
(** style/filter.go:82-125 ComparativeFilter.UnmarshalJSON of an array whose second item is the string [key] *)
Definition unmarshalComparative (op : json) (key : gstr) (operands : list json) : out filter :=
  match op with
  | JStr o =>
      if seqb key (B "class") then obind (interfaceListToStringList operands) (fun l => Val (Comparative o (ClassC l)))
      else if seqb key (B "subclass") then obind (interfaceListToStringList operands) (fun l => Val (Comparative o (SubClassC l)))
      else if seqb key (B "$type") then obind (interfaceListToStringList operands) (fun l => Val (Comparative o (TypeC l)))
      else Val (Comparative o UnhandledC)
  | _ => Crash
  end.
(** json.Unmarshal into a string variable: null leaves it empty *)
Definition json_string (j : json) : out gstr := match j with JStr s => Val s | JNull => Val [] | _ => Err end.
(** style/filter.go:179-232 unmarshalFilter; json.Unmarshal of null leaves the slice nil, so fi[0] panics *)
Fixpoint unmarshalFilter (j : json) : out filter :=
  match j with
  | JNull => Crash
  | JArr [] => Crash
  | JArr (jop :: rest) =>
      obind (json_string jop) (fun operator =>
      match rest with
      | [] => Val (Logical operator [])
      | JArr _ :: _ =>
          obind ((fix subs (l : list json) : out (list filter) :=
            match l with
            | [] => Val []
            | x :: l' => obind (unmarshalFilter x) (fun f => obind (subs l') (fun fs => Val (f :: fs)))
            end) rest) (fun fs => Val (Logical operator fs))
      | JStr key :: operands => unmarshalComparative jop key operands
      | _ :: _ => Crash
      end)
  | _ => Err
  end.
