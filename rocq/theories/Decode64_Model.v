(** The geometry decoder of mvt/read_feature_lazy.go and the ring orientation tests of
    mvt/write_geometry.go in the float64 arithmetic the code uses (the integer models are in
    MvtGeom_Model.v).  Go does not fuse the products and sums on amd64. *)
From Coq Require Import ZArith List Bool.
From Flocq Require Import Core BinarySingleNaN.
From Verif Require Import GoBase TileF64_Model F64 MvtGeom_Model.
Import ListNotations.
Open Scope Z_scope.

Notation fpt := (f64 * f64)%type (only parsing).

(** mvt/read_feature_lazy.go:23-29 DeltaDim: integer division, then the conversion to float64 *)
Definition Delta64 (num : Z) : f64 := fint (DeltaDim num).

(** mvt/read_feature_lazy.go:31-48 SignedArea: sum from the left, starting with 0.0 *)
Fixpoint area64_loop (sum : f64) (prev : fpt) (l : list fpt) : f64 :=
  match l with
  | [] => sum
  | p :: r => area64_loop (fadd sum (fmul (fsub (fst prev) (fst p)) (fadd (snd p) (snd prev)))) p r
  end.
Definition SignedArea64 (ring : list fpt) : f64 :=
  match ring with [] => fint 0 | p :: _ => area64_loop (fint 0) (last ring p) ring end.

(** mvt/read_feature_lazy.go:174-180 *)
Fixpoint read_pairs64 (g : list Z) (n : Z) (fp : fpt) : list fpt * fpt * list Z :=
  match g with
  | x :: y :: r =>
      if n >? 0 then
        let p := (fadd (fst fp) (Delta64 x), fadd (snd fp) (Delta64 y)) in
        let '(ps, fp', g') := read_pairs64 r (n - 1) p in (p :: ps, fp', g')
      else ([], fp, g)
  | _ => ([], fp, g)
  end.

(** mvt/read_feature_lazy.go:154-195 *)
Fixpoint geom_loop64 (fuel : nat) (total gtype : Z) (first : bool) (fp : option fpt)
         (lines : list (list fpt)) (g : list Z) : res (list (list fpt)) :=
  match g with
  | [] => Ok lines
  | c :: r =>
      match fuel with
      | O => NoFuel
      | S f =>
          if c =? 9 then
            match r with
            | x :: y :: r2 =>
                let! fp1 :=
                  if negb first && ((gtype =? 2) || (gtype =? 3)) then
                    match fp with
                    | None => Panic
                    | Some q => Ok (fadd (fst q) (Delta64 x), fadd (snd q) (Delta64 y))
                    end
                  else Ok (Delta64 x, Delta64 y) in
                let lines1 := if total =? 3 then [[fp1]] else lines in
                match r2 with
                | [] => Ok lines1
                | cmd :: r3 =>
                    let '(ps, fp2, r4) := read_pairs64 r3 (Z.shiftr cmd 3) fp1 in
                    geom_loop64 f total gtype false (Some fp2) (lines1 ++ [fp1 :: ps]) r4
                end
            | _ => Panic
            end
          else geom_loop64 f total gtype false fp lines r
      end
  end.

(** mvt/read_feature_lazy.go:197-203 *)
Definition close_line64 (line : list fpt) : list fpt :=
  match line with
  | [] => []
  | f :: _ => if Beqb (fst f) (fst (last line f)) && Beqb (snd (last line f)) (snd f) then line else line ++ [f]
  end.

(** mvt/read_feature_lazy.go:218 *)
Fixpoint append_last64 (ps : list (list (list fpt))) (line : list fpt) : list (list (list fpt)) :=
  match ps with
  | [] => [[line]]
  | [p] => [p ++ [line]]
  | p :: r => p :: append_last64 r line
  end.

(** mvt/read_feature_lazy.go:208-223 *)
Fixpoint group_rings64 (lines : list (list fpt)) (ps : list (list (list fpt))) : list (list (list fpt)) :=
  match lines with
  | [] => ps
  | line :: r => group_rings64 r (if Bltb (fint 0) (SignedArea64 line) then ps ++ [[line]] else append_last64 ps line)
  end.

(** The go-geom values with float64 coordinates *)
Inductive geomdata64 :=
| GPoint64 (p : fpt)
| GMultiPoint64 (ps : list fpt)
| GLineString64 (l : list fpt)
| GMultiLineString64 (ls : list (list fpt))
| GPolygon64 (rs : list (list fpt))
| GMultiPolygon64 (ps : list (list (list fpt)))
| GNil64.

(** mvt/read_feature_lazy.go:138-251 LoadGeometry after the packed list has been read *)
Definition LoadGeometry64 (gtype : Z) (g : list Z) : res geomdata64 :=
  let! lines := geom_loop64 (length g) (zlen g) gtype true None [] g in
  if gtype =? 3 then
    let lines := map close_line64 lines in
    let polygons := match lines with [l] => [[l]] | _ => group_rings64 lines [] end in
    match polygons with
    | [p] => Ok (GPolygon64 p)
    | _ => Ok (GMultiPolygon64 polygons)
    end
  else if gtype =? 1 then
    match lines with
    | [] => Panic
    | [p] :: _ => Ok (GPoint64 p)
    | ps :: _ => Ok (GMultiPoint64 ps)
    end
  else if gtype =? 2 then
    match lines with
    | [l] => Ok (GLineString64 l)
    | _ => Ok (GMultiLineString64 lines)
    end
  else Ok GNil64.

(** mvt/write_geometry.go:188-205 SignedArea2: int32 products, float64 sum from the left *)
Fixpoint area2_loop64 (weight : f64) (prev : pt) (l : list pt) : f64 :=
  match l with
  | [] => weight
  | p :: r => area2_loop64 (fadd weight (fint (wrap32 (wrap32 (fst prev - fst p) * wrap32 (snd p + snd prev))))) p r
  end.
Definition SignedArea2_64 (ring : list pt) : f64 :=
  match ring with [] => fint 0 | p :: _ => area2_loop64 (fint 0) (last ring p) ring end.

(** mvt/write_geometry.go:159-174, the weight of assert_winding_order *)
Fixpoint winding_loop64 (weight : f64) (prev : pt) (l : list pt) : f64 * pt :=
  match l with
  | [] => (weight, prev)
  | p :: r => winding_loop64 (fadd weight (fint (wrap32 (wrap32 (fst p - fst prev) * wrap32 (snd p + snd prev))))) p r
  end.
Definition assert_winding_order64 (coord : list pt) (clockwise : bool) : res (list pt) :=
  match coord with
  | [] => Panic
  | f :: r =>
      let '(weight, l) := winding_loop64 (fint 0) f r in
      let weight := fadd weight (fint (wrap32 (wrap32 (fst f - fst l) * wrap32 (snd f + snd l)))) in
      if Bool.eqb (Bltb (fint 0) weight) clockwise then Ok coord else Ok (rev coord)
  end.
