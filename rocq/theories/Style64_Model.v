(** style/function.go, numeric_function.go and color_function.go again, on IEEE-754 binary64 numbers.
    math.Pow is a parameter [pow]; operations are not fused. *)
From Coq Require Import ZArith Reals List Bool.
From Flocq Require Import Core BinarySingleNaN.
From Verif Require Import GoBase TileF64_Model F64 Style_Model.
Import ListNotations.
Open Scope Z_scope.

(** style/function.go:23-39 getExponentialPercentage *)
Definition getExponentialPercentage64 (pow : f64 -> f64 -> f64) (zoomLevel lower higher base : f64) : f64 :=
  let differenceBetweenLevels := fsub higher lower in
  if Beqb differenceBetweenLevels (fint 0) then fint 0 else
  let progressThroughStop := fsub zoomLevel lower in
  if Beqb base (fint 1) then fdiv progressThroughStop differenceBetweenLevels else
  let top := fsub (pow base progressThroughStop) (fint 1) in
  let bottom := fsub (pow base differenceBetweenLevels) (fint 1) in
  fdiv top bottom.

(** style/function.go:16-21 getValueThroughStop *)
Definition getValueThroughStop64 (this next progress : f64) : f64 := fadd (ffloor (fmul (fsub next this) progress)) this.

Definition the_base64 (base : option f64) : f64 := match base with Some b => b | None => fint 1 end.

(** style/numeric_stop_type.go:5-8 *)
Record numStop64 := mkNS64 { nz : f64; nv : f64 }.
(** style/numeric_function.go:91-104 *)
Definition getNumericValueBetweenStops64 (pow : f64 -> f64 -> f64) (this next : numStop64) (zoom : f64) (base : option f64) : f64 :=
  let progress := getExponentialPercentage64 pow zoom (nz this) (nz next) (the_base64 base) in
  fadd (fmul progress (Babs (fsub (nv next) (nv this)))) (nv this).
(** style/numeric_function.go:72-86, the loop from stop [this] on *)
Fixpoint num_loop64 (pow : f64 -> f64 -> f64) (base : option f64) (zoom : f64) (this : numStop64) (rest : list numStop64) : f64 :=
  match rest with
  | [] => nv this
  | next :: rest' => if Bleb (nz next) zoom then num_loop64 pow base zoom next rest' else getNumericValueBetweenStops64 pow this next zoom base
  end.
(** style/numeric_function.go:62-89 NumericFunctionType.GetValueAtZoomLevel *)
Definition NumGet64 (pow : f64 -> f64 -> f64) (base : option f64) (stops : list numStop64) (zoom : f64) : res f64 :=
  match stops with
  | [] => Panic
  | s0 :: rest => if Bltb zoom (nz s0) then Ok (fint 0) else Ok (num_loop64 pow base zoom s0 rest)
  end.

Record colStop64 := mkCS64 { cz : f64; cc : gocolor }.
(** style/color_function.go:84-92 *)
Definition getColorValueBetweenStops64 (p : f64) (this next : Z) : Z := fbyte (getValueThroughStop64 (fint this) (fint next) p).
(** style/color_function.go:63-78 *)
Definition color_between64 (pow : f64 -> f64 -> f64) (this next : colStop64) (zoom : f64) (base : option f64) : res gocolor :=
  let p := getExponentialPercentage64 pow zoom (cz this) (cz next) (the_base64 base) in
  match cc this, cc next with
  | CRGBA r g b a, CRGBA r' g' b' a' =>
      Ok (CRGBA (getColorValueBetweenStops64 p r r') (getColorValueBetweenStops64 p g g') (getColorValueBetweenStops64 p b b') (getColorValueBetweenStops64 p a a'))
  | _, _ => Panic
  end.
(** style/color_function.go:48-79 *)
Fixpoint col_loop64 (pow : f64 -> f64 -> f64) (base : option f64) (zoom : f64) (this : colStop64) (rest : list colStop64) : res gocolor :=
  match rest with
  | [] => Ok (cc this)
  | next :: rest' => if Bleb (cz next) zoom then col_loop64 pow base zoom next rest' else color_between64 pow this next zoom base
  end.
(** style/color_function.go:38-82 ColorStopsType.GetValueAtZoomLevel *)
Definition ColGet64 (pow : f64 -> f64 -> f64) (base : option f64) (stops : list colStop64) (zoom : f64) : res gocolor :=
  match stops with
  | [] => Panic
  | s0 :: rest => if Bltb zoom (cz s0) then Ok CNil else col_loop64 pow base zoom s0 rest
  end.
