(** Specification vocabulary for geometry encoding, independent of the model. *)
From Coq Require Import ZArith List Bool.
Import ListNotations.
Open Scope Z_scope.

(** Merge runs of equal consecutive points. *)
Fixpoint merge_runs (l : list (Z * Z)) : list (Z * Z) :=
  match l with
  | p :: ((q :: _) as r) =>
      if ((fst p =? fst q) && (snd p =? snd q))%bool then merge_runs r else p :: merge_runs r
  | _ => l
  end.

(** Twice the signed area by the surveyor's formula over the closed ring. *)
Definition cross (p q : Z * Z) : Z := fst p * snd q - fst q * snd p.
Fixpoint cross_sum (l : list (Z * Z)) : Z :=
  match l with
  | p :: ((q :: _) as r) => cross p q + cross_sum r
  | _ => 0
  end.
Definition surveyor (ring : list (Z * Z)) : Z :=
  match ring with
  | [] => 0
  | p :: _ => cross_sum (ring ++ [p])
  end.

(** Coordinates bounded in absolute value. *)
Definition bounded (b : Z) (l : list (Z * Z)) : Prop :=
  Forall (fun p => - b <= fst p <= b /\ - b <= snd p <= b) l.

(** The zig-zag code of the protobuf/MVT specification. *)
Definition zigzag (v : Z) : Z := if 0 <=? v then 2 * v else - 2 * v - 1.

(** A copy of the ring ending with its first point ([same] decides equality of points). *)
Definition close_ring {P} (same : P -> P -> bool) (l : list P) : list P :=
  match l with
  | [] => []
  | f :: _ => if same f (last l f) then l else l ++ [f]
  end.

(** Orient a ring: positive area if [outer], otherwise non-positive. *)
Definition wind (outer : bool) (l : list (Z * Z)) : list (Z * Z) :=
  if Bool.eqb (0 <? surveyor l) outer then l else rev l.

(** What a reader should see for a polygon: quantised, closed, duplicates merged, outer ring
    positive, holes not. *)
Definition seen_polygon {P} (q : P -> Z * Z) (same : P -> P -> bool) (rings : list (list P)) : list (list (Z * Z)) :=
  match map (fun r => merge_runs (map q (close_ring same r))) rings with
  | [] => []
  | o :: hs => wind true o :: map (wind false) hs
  end.

(** Command sequence lengths stay below the 29-bit count. *)
Definition short {A} (l : list A) : Prop := Z.of_nat (length l) < 2 ^ 29 - 1.
