(** tile_cover/tile_cover.go Pip in the float64 arithmetic the code uses (the exact model is in
    Cover_Model.v).  [fmax] is math.Max on numbers (not NaN).  amd64 does not fuse operations. *)
From Coq Require Import ZArith List Bool.
From Flocq Require Import Core BinarySingleNaN.
From Verif Require Import GoBase TileF64_Model F64 ColorF64_Model.
Import ListNotations.

(** tile_cover/tile_cover.go:44-70, one edge *)
Definition pip_edge64 (p curr next : f64 * f64) : bool :=
  let '(bottom, top) := if Bleb (snd next) (snd curr) then (next, curr) else (curr, next) in
  if Bltb (snd p) (snd bottom) || Bleb (snd top) (snd p) then false
  else if Bleb (fmax (fst curr) (fst next)) (fst p) || Beqb (snd next) (snd curr) then false
  else
    let xint := fadd (fdiv (fmul (fsub (snd p) (snd curr)) (fsub (fst next) (fst curr))) (fsub (snd next) (snd curr))) (fst curr) in
    if negb (Beqb (fst curr) (fst next)) && Bleb xint (fst p) then false else true.

(** tile_cover/tile_cover.go:40-71, one ring *)
Definition pip_ring64 (c : list (f64 * f64)) (p : f64 * f64) : res nat :=
  match c with
  | [] => Panic
  | f :: _ =>
      let c := if negb (Beqb (fst f) (fst (last c f))) then c ++ [f] else c in
      Ok (length (filter (fun e => pip_edge64 p (fst e) (snd e)) (combine c (tl c ++ [f]))))
  end.

(** tile_cover/tile_cover.go:38-75 Pip *)
Fixpoint pip_count64 (cont : list (list (f64 * f64))) (p : f64 * f64) : res nat :=
  match cont with
  | [] => Ok 0%nat
  | c :: r => let! a := pip_ring64 c p in let! b := pip_count64 r p in Ok (a + b)%nat
  end.
Definition Pip64 (cont : list (list (f64 * f64))) (p : f64 * f64) : res bool :=
  let! n := pip_count64 cont p in Ok (Nat.odd n).
