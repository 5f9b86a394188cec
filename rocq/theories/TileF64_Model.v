(** tileid/tileid.go:52-58 Tile: the column computation in IEEE-754 binary64
    (Flocq's formalisation, round to nearest even, as Go prescribes for float64). *)
From Coq Require Import ZArith Reals Lia Lra.
From Flocq Require Import Core BinarySingleNaN.
From Verif Require Import GoBase.

Definition f64 := binary_float 53 1024.
#[export] Instance prec53 : Prec_gt_0 53. Proof. reflexivity. Qed.
#[export] Instance emax1024 : Prec_lt_emax 53 1024. Proof. reflexivity. Qed.

Definition fadd (x y : f64) : f64 := Bplus mode_NE x y.
Definition fdiv (x y : f64) : f64 := Bdiv mode_NE x y.
Definition fmul (x y : f64) : f64 := Bmult mode_NE x y.

Definition c180 : f64 := @B754_finite 53 1024 false (180 * 2 ^ 45) (-45) eq_refl.
Definition c360 : f64 := @B754_finite 53 1024 false (180 * 2 ^ 45) (-44) eq_refl.

(** math.Pow(2.0, float64(z)), exact for 0 <= z <= 62 *)
Definition fpow2 (z : Z) : f64 := Bldexp mode_NE Bone z.

(** xtile := int(math.Floor((lng + 180.0) / 360.0 * n)); the floor of a float64 below 2^63
    is exact, and so is its conversion to int. *)
Definition tile_col (lng : f64) (z : Z) : Z :=
  Zfloor (B2R (fmul (fdiv (fadd lng c180) c360) (fpow2 z))).
