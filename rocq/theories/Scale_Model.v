(** sprite/sprite.go: the size of a texture at another pixel ratio, in IEEE-754 binary64. *)
From Coq Require Import ZArith Lia Bool.
From Flocq Require Import Core BinarySingleNaN.
From Verif Require Import GoBase TileF64_Model F64.
Open Scope Z_scope.

(** int(x) on a float64: towards zero; the language leaves NaN and values outside int64 to the implementation (None) *)
Definition f2int (x : f64) : option Z :=
  if is_finite x && (- 2 ^ 63 <=? Btrunc x) && (Btrunc x <? 2 ^ 63) then Some (Btrunc x) else None.

(** sprite/sprite.go:120-126; the ID and the name have some type *)
Record TextureMeta (I : Type) := mkTM { tmId : I; tmName : I; tmWidth : Z; tmHeight : Z; tmPixelRatio : Z }.
Arguments mkTM {I}. Arguments tmId {I}. Arguments tmName {I}. Arguments tmWidth {I}. Arguments tmHeight {I}. Arguments tmPixelRatio {I}.

(** sprite/sprite.go:129, 134-135 *)
Definition scale_side (side p q : Z) : option Z := f2int (fmul (fint side) (fdiv (fint p) (fint q))).

(** sprite/sprite.go:128-138; None when a side is left to the implementation *)
Definition ScaleTo {I} (t : TextureMeta I) (pixelRatio : Z) : option (TextureMeta I) :=
  match scale_side (tmWidth t) pixelRatio (tmPixelRatio t), scale_side (tmHeight t) pixelRatio (tmPixelRatio t) with
  | Some w, Some h => Some (mkTM (tmId t) (tmName t) w h pixelRatio)
  | _, _ => None
  end.
