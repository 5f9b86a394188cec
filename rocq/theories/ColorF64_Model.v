(** style/colorextra/*.go in IEEE-754 binary64, without fused multiply-add.  math.Acos is a parameter; math.Sqrt is correctly
    rounded and math.Pow(x, 2) is the rounded square. *)
From Coq Require Import ZArith Reals Lia Bool.
From Flocq Require Import Core BinarySingleNaN.
From Verif Require Import GoBase TileF64_Model F64 Json Color_Model.
Open Scope Z_scope.

(** math.Pi *)
Definition pi64 : f64 := @B754_finite 53 1024 false 7074237752028440 (-51) eq_refl.
Definition half64 : f64 := @B754_finite 53 1024 false 4503599627370496 (-53) eq_refl.
Definition fsqrt (x : f64) : f64 := Bsqrt mode_NE x.
(** math.Max and math.Min of finite numbers; which of two zeros is taken makes no difference here *)
Definition fmax (x y : f64) : f64 := if Bltb y x then x else y.
Definition fmin (x y : f64) : f64 := if Bltb x y then x else y.
(** uint32(math.Round(x)): halves away from zero *)
Definition fround (x : f64) : Z := u32 (Btrunc (Bnearbyint mode_NA x)).

(** style/colorextra/validation.go:12-17 *)
Definition in_range64 (v lo hi : f64) : bool := negb (Bltb v lo || Bltb hi v).
(** style/colorextra/hsl.go:16-43, hsv.go:15-44: hue, saturation, luminosity or value, alpha *)
Definition NewColor64 (h s l : f64) (a : Z) : out (f64 * f64 * f64 * Z) :=
  if negb (in_range64 h (fint 0) (fint 360)) then Err else
  if negb (in_range64 s (fint 0) (fint 1)) then Err else
  if negb (in_range64 l (fint 0) (fint 1)) then Err else Val (h, s, l, a).

(** style/colorextra/hsl.go:76-81 *)
Definition zeroToOne64 (i : f64) : Z := let r := fround (fmul (fint 255) i) in Z.lor r (u32 (r * 256)).
(** style/colorextra/hsl.go:112-129 *)
Definition hueToRGB64 (p q t : f64) : f64 :=
  let t := if Bltb t (fint 0) then fadd t (fint 360) else t in
  let t := if Bltb (fint 360) t then fsub t (fint 360) else t in
  if Bltb t (fint 60) then fadd p (fmul (fsub q p) (fdiv t (fint 60)))
  else if Bltb t (fint 180) then q
  else if Bltb t (fint 240) then fadd p (fdiv (fmul (fsub q p) (fsub (fint 240) t)) (fint 60))
  else p.
(** style/colorextra/hsl.go:83-106 HSLColor.RGBA *)
Definition hslRGBA64 (h s l : f64) (a : Z) : Z * Z * Z * Z :=
  let a := ConvertUint8ToUint32Color a in
  if Beqb s (fint 0) then let r := zeroToOne64 l in (r, r, r, a) else
  let q := if Bltb l half64 then fmul l (fadd (fint 1) s) else fsub (fadd l s) (fmul l s) in
  let p := fsub (fmul (fint 2) l) q in
  (zeroToOne64 (hueToRGB64 p q (fadd h (fint 120))), zeroToOne64 (hueToRGB64 p q h), zeroToOne64 (hueToRGB64 p q (fsub h (fint 120))), a).

Section Hue.
Variable acos64 : f64 -> f64.
(** style/colorextra/hue.go:8-43 *)
Definition getHue64 (r8 g8 b8 : Z) : f64 :=
  let r := fint r8 in let g := fint g8 in let b := fint b8 in
  let underSqRoot := fsub (fadd (fadd (fmul r r) (fmul g g)) (fmul b b)) (fadd (fadd (fmul r g) (fmul r b)) (fmul g b)) in
  let beforeSqRoot := fsub r (fadd (fdiv g (fint 2)) (fdiv b (fint 2))) in
  let inBrackets := if Bltb (fint 0) underSqRoot then fdiv beforeSqRoot (fsqrt underSqRoot) else fint 1 in
  let arccosDeg := fdiv (fmul (acos64 inBrackets) (fint 180)) pi64 in
  if Bleb b g then arccosDeg else fsub (fint 360) arccosDeg.
(** style/colorextra/hsl.go:45-74 *)
Definition NewHSLFromRGB64 (r8 g8 b8 : Z) : f64 * f64 * f64 :=
  let r := fdiv (fint r8) (fint 255) in let g := fdiv (fint g8) (fint 255) in let b := fdiv (fint b8) (fint 255) in
  let max := fmax r (fmax g b) in
  let min := fmin r (fmin g b) in
  let h := getHue64 r8 g8 b8 in
  let l := fdiv (fadd max min) (fint 2) in
  if Beqb max min then (fint 0, fint 0, l) else
  let d := fsub max min in
  let s := if Bltb half64 l then fdiv d (fsub (fsub (fint 2) max) min) else fdiv d (fadd max min) in
  (h, s, l).
(** style/colorextra/hsv.go:46-68 *)
Definition NewHSVFromRGB64 (r8 g8 b8 : Z) : f64 * f64 * f64 :=
  let r := fdiv (fint r8) (fint 255) in let g := fdiv (fint g8) (fint 255) in let b := fdiv (fint b8) (fint 255) in
  let cMax := fmax r (fmax g b) in
  let cMin := fmin r (fmin g b) in
  let s := if Bltb (fint 0) cMax then fsub (fint 1) (fdiv cMin cMax) else fint 0 in
  (getHue64 r8 g8 b8, s, cMax).
End Hue.
