(** mvt/write_geometry.go:25-59, 241-275: closing rings in the memory of the caller.  Points are values: nothing here
    writes into one. *)
From Coq Require Import ZArith List Bool Arith.
From Verif Require Import GoBase GoArr MvtGeom_Model.
Import ListNotations.
Open Scope nat_scope.

(** A slice of points: array, offset, length and capacity *)
Record slice := mkSlice { sArr : nat; sOff : nat; sLen : nat; sCap : nat }.
Section Memory.
Context {P : Type}.
(** The arrays of points *)
Definition heap := list (list P).
Definition contents (h : heap) (s : slice) : list P := firstn (sLen s) (skipn (sOff s) (nth (sArr s) h [])).
Variable peq : P -> P -> bool.
(** The spare capacity of a new array, by length, and what it is filled with: runtime.growslice *)
Variable grow : nat -> nat.
Variable zero : P.
(** append(s, p): in place as long as there is room, otherwise to a new array *)
Definition append1 (h : heap) (s : slice) (p : P) : heap * slice :=
  if sLen s <? sCap s then
    (upd h (sArr s) (upd (nth (sArr s) h []) (sOff s + sLen s) p), mkSlice (sArr s) (sOff s) (S (sLen s)) (sCap s))
  else
    (h ++ [contents h s ++ p :: repeat zero (grow (S (sLen s)))], mkSlice (length h) 0 (S (sLen s)) (S (sLen s) + grow (S (sLen s)))).
(** mvt/write_geometry.go:28-30, 39-41: one ring with points [f :: r] *)
Definition close_slice (h : heap) (s : slice) (f : P) (r : list P) : heap * slice := if peq f (last (f :: r) f) then (h, s) else append1 h s f.
(** mvt/write_geometry.go:25-34, 36-45 TrimPolygonFloat, TrimPolygon: what is returned is also what [lines] holds afterwards.
    The array of slices behind [lines] is taken not to be shared with another polygon. *)
Fixpoint TrimPolygon (h : heap) (lines : list slice) : res (heap * list slice) :=
  match lines with
  | [] => Ok (h, [])
  | s :: rest =>
      match contents h s with
      | [] => Panic
      | f :: r =>
          let '(h1, s1) := close_slice h s f r in
          let! (h2, rest') := TrimPolygon h1 rest in
          Ok (h2, s1 :: rest')
      end
  end.
(** mvt/write_geometry.go:47-59 TrimMultiPolygonFloat, TrimMultiPolygon *)
Fixpoint TrimMultiPolygon (h : heap) (polygons : list (list slice)) : res (heap * list (list slice)) :=
  match polygons with
  | [] => Ok (h, [])
  | p :: rest => let! (h1, p') := TrimPolygon h p in let! (h2, rest') := TrimMultiPolygon h1 rest in Ok (h2, p' :: rest')
  end.

(** mvt/write_geometry.go:241-275 MakePolygon, MakePolygonFloat; [encode] is what they do after the trimming. *)
Variable encode : cursor -> list (list P) -> res cursor.
Definition MakePolygonMem (h : heap) (c : cursor) (rings : list slice) : res (heap * list slice * cursor) :=
  let! (h1, rings1) := TrimPolygon h rings in
  let! c1 := encode c (map (contents h1) rings1) in
  Ok (h1, rings1, c1).
(** mvt/write_geometry.go:345-357 MakeMultiPolygonFloat, MakeMultiPolygon *)
Fixpoint MakeMultiPolygonMem (h : heap) (c : cursor) (polys : list (list slice)) : res (heap * list (list slice) * cursor) :=
  match polys with
  | [] => Ok (h, [], c)
  | p :: rest =>
      let! (h1, p1, c1) := MakePolygonMem h c p in
      let! (h2, rest1, c2) := MakeMultiPolygonMem h1 c1 rest in
      Ok (h2, p1 :: rest1, c2)
  end.
End Memory.
(** mvt/write_geometry.go:268-274 and 244-262 *)
Definition encode_float {P} (proj : P -> pt) (c : cursor) (coords : list (list P)) : res cursor :=
  match coords with
  | [] => Panic
  | outer :: holes => let! c1 := AssertConvert proj true c outer in fold_res (AssertConvert proj false) holes c1
  end.
Definition encode_int (c : cursor) (coords : list (list pt)) : res cursor :=
  match coords with
  | [] => Panic
  | outer :: holes =>
      let! outer := assert_winding_order outer true in
      let! c1 := MakeLine c outer in
      fold_res MakeHole holes (mkCur (geo c1 ++ [closePath 1%Z]) (last_pt c1) (cnt c1))
  end.
