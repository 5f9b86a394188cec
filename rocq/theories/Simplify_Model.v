(** mvt/simplify.go and mvt/feature_reduce.go. *)
From Coq Require Import ZArith List Bool Lia.
From Verif Require Import GoBase Num.
Import ListNotations.
Open Scope Z_scope.

Section Simplify.
  Context {F : Type} (N : NumOps F).
  Notation "x +. y" := (nadd N x y) (at level 50, left associativity).
  Notation "x -. y" := (nsub N x y) (at level 50, left associativity).
  Notation "x *. y" := (nmul N x y) (at level 40, left associativity).

  (** mvt/simplify.go:7-28 GetSqSegDist; [one] is the constant 1. *)
  Definition GetSqSegDist (one px py x y bx by_ : F) : F :=
    let dx := bx -. x in
    let dy := by_ -. y in
    let '(x, y) :=
      if negb (neqb N dx (nzero N)) || negb (neqb N dy (nzero N)) then
        let t := ndiv N ((px -. x) *. dx +. (py -. y) *. dy) (dx *. dx +. dy *. dy) in
        if nltb N one t then (bx, by_)
        else if nltb N (nzero N) t then (x +. dx *. t, y +. dy *. t)
        else (x, y)
      else (x, y) in
    let dx := px -. x in
    let dy := py -. y in
    dx *. dx +. dy *. dy.

  (** coords[i] = v *)
  Definition set_res (l : list F) (i : Z) (v : F) : res (list F) :=
    if (i <? 0) || (zlen l <=? i) then Panic
    else Ok (firstn (Z.to_nat i) l ++ v :: skipn (S (Z.to_nat i)) l).

  (** mvt/simplify.go:41-54, the scan loop; [fuel] bounds the iterations. int(math.Abs(float64(i-mid)))
      is the integer absolute value (exact below 2^53). *)
  Fixpoint scan (fuel : nat) (one : F) (coords : list F) (ax ay bx by_ : F) (i last mid : Z)
           (maxd : F) (minpos index : Z) : res (F * Z) :=
    if i <? last then
      match fuel with
      | O => NoFuel
      | S fuel =>
          let! x := nth_res coords i in
          let! y := nth_res coords (i + 1) in
          let d := GetSqSegDist one x y ax ay bx by_ in
          if nltb N maxd d then scan fuel one coords ax ay bx by_ (i + 3) last mid d minpos i
          else if neqb N d maxd then
            let pos := Z.abs (i - mid) in
            if pos <? minpos then scan fuel one coords ax ay bx by_ (i + 3) last mid maxd pos i
            else scan fuel one coords ax ay bx by_ (i + 3) last mid maxd minpos index
          else scan fuel one coords ax ay bx by_ (i + 3) last mid maxd minpos index
      end
    else Ok (maxd, index).

  (** mvt/simplify.go:30-66 Simplify; returns the updated array. *)
  Fixpoint Simplify (fuel : nat) (one : F) (coords : list F) (first last : Z) (tol : F) : res (list F) :=
    match fuel with
    | O => NoFuel
    | S fuel =>
        let mid := Z.shiftr (last - first) 1 in
        let! ax := nth_res coords first in
        let! ay := nth_res coords (first + 1) in
        let! bx := nth_res coords last in
        let! by_ := nth_res coords (last + 1) in
        let! r := scan (Z.to_nat (last - first)) one coords ax ay bx by_ (first + 3) last mid tol (last - first) 0 in
        let '(maxd, index) := r in
        if nltb N tol maxd then
          let! coords := if 3 <? index - first then Simplify fuel one coords first index tol else Ok coords in
          let! coords := set_res coords (index + 2) maxd in
          if 3 <? last - index then Simplify fuel one coords index last tol else Ok coords
        else Ok coords
    end.
End Simplify.

(** mvt/feature_reduce.go:41-81 Filter for Point and MultiPoint features, over a sequence of
    calls sharing one configuration.  [cell] is the tile at zoom TileID.Z + 8 of the point (or of
    the average of a MultiPoint); TileMap is the list of cells present. *)
Section Reduce.
  Context {P C : Type} (cell : P -> C) (ceq : C -> C -> bool).
  Definition filter_point (seen : list C) (p : P) : bool * list C :=
    if existsb (ceq (cell p)) seen then (false, seen) else (true, cell p :: seen).
  Fixpoint filter_run (seen : list C) (ps : list P) : list bool * list C :=
    match ps with
    | [] => ([], seen)
    | p :: r =>
        let '(b, seen) := filter_point seen p in
        let '(bs, seen) := filter_run seen r in
        (b :: bs, seen)
    end.
End Reduce.
