(** mvt/write_geometry.go (integer part) and the geometry decoder of
    mvt/read_feature_lazy.go.  Points are pairs of integers; int32 arithmetic wraps
    explicitly.  Decoded coordinates are float64 in Go but always integers of small size
    (sums of int32 deltas), so they are modelled as [Z]. *)
From Coq Require Import ZArith List Lia Bool.
From Verif Require Import GoBase.
Import ListNotations.
Open Scope Z_scope.

Notation pt := (Z * Z)%type (only parsing).
Definition pt_eqb (p q : pt) : bool := (fst p =? fst q) && (snd p =? snd q).

(** ** Encoder *)

(** mvt/write_geometry.go:87-89 cmdEnc (uint32) *)
Definition cmdEnc (id count : Z) : Z := Z.lor (Z.land id 7) (u32 (Z.shiftl count 3)).
(** mvt/write_geometry.go:91-101 *)
Definition moveTo (count : Z) : Z := cmdEnc 1 count.
Definition lineTo (count : Z) : Z := cmdEnc 2 count.
Definition closePath (count : Z) : Z := cmdEnc 7 count.

(** mvt/write_geometry.go:103-105 paramEnc (int32) *)
Definition paramEnc (v : Z) : Z := Z.lxor (wrap32 (Z.shiftl v 1)) (Z.shiftr v 31).

(** mvt/write_geometry.go:11-21 Cursor, reduced to the fields the integer code uses. *)
Record cursor := mkCur { geo : list Z; last_pt : pt; cnt : Z }.

Definition cursor0 : cursor := mkCur [] (0, 0) 0.

(** mvt/write_geometry.go:107-113 *)
Definition MovePoint (c : cursor) (p : pt) : cursor :=
  mkCur (geo c ++ [moveTo 1;
                   u32 (paramEnc (wrap32 (fst p - fst (last_pt c))));
                   u32 (paramEnc (wrap32 (snd p - snd (last_pt c))))]) p 0.

(** mvt/write_geometry.go:115-124 *)
Definition LinePoint (c : cursor) (p : pt) : cursor :=
  let dx := wrap32 (fst p - fst (last_pt c)) in
  let dy := wrap32 (snd p - snd (last_pt c)) in
  if negb ((dx =? 0) && (dy =? 0))
  then mkCur (geo c ++ [u32 (paramEnc dx); u32 (paramEnc dy)]) p (u32 (cnt c + 1))
  else mkCur (geo c) p (cnt c).

(** Slice element assignment (in range at its only use). *)
Fixpoint set_nth (n : nat) (v : Z) (l : list Z) : list Z :=
  match l, n with
  | [], _ => []
  | _ :: r, O => v :: r
  | x :: r, S m => x :: set_nth m v r
  end.

(** mvt/write_geometry.go:126-136 MakeLine; an empty line panics at coords[0]. *)
Definition MakeLine (c : cursor) (coords : list pt) : res cursor :=
  match coords with
  | [] => Panic
  | p0 :: rest =>
      let startpos := length (geo c) in
      let c1 := MovePoint c p0 in
      let c2 := mkCur (geo c1 ++ [lineTo (u32 (zlen coords - 1))]) (last_pt c1) (cnt c1) in
      let c3 := fold_left LinePoint rest c2 in
      Ok (mkCur (set_nth (startpos + 3) (lineTo (cnt c3)) (geo c3)) (last_pt c3) (cnt c3))
  end.

Section FloatPath.
  (** The float API takes points of type [P]; [proj] is SinglePoint
      (mvt/write_geometry.go:277-304) and [peq] equality of both float coordinates. *)
  Context {P : Type} (proj : P -> pt) (peq : P -> P -> bool).

  (** mvt/write_geometry.go:138-147 MakeLineFloat *)
  Definition MakeLineFloat (c : cursor) (coords : list P) : res cursor :=
    match coords with
    | [] => Panic
    | p0 :: rest =>
        let startpos := length (geo c) in
        let c1 := MovePoint c (proj p0) in
        let c2 := mkCur (geo c1 ++ [lineTo (u32 (zlen coords - 1))]) (last_pt c1) (cnt c1) in
        let c3 := fold_left (fun c p => LinePoint c (proj p)) rest c2 in
        Ok (mkCur (set_nth (startpos + 3) (lineTo (cnt c3)) (geo c3)) (last_pt c3) (cnt c3))
    end.

  (** mvt/write_geometry.go:25-45, one ring: close it if first and last differ.
      Not modelled: the caller's slice is updated in place. *)
  Definition TrimRing (line : list P) : res (list P) :=
    match line with
    | [] => Panic
    | f :: _ => if peq f (last line f) then Ok line else Ok (line ++ [f])
    end.
End FloatPath.

(** [for _, x := range l { s = f(s, x) }] with panics. *)
Fixpoint fold_res {S A} (f : S -> A -> res S) (l : list A) (s : S) : res S :=
  match l with
  | [] => Ok s
  | a :: r => let! s' := f s a in fold_res f r s'
  end.

Fixpoint map_res {A B} (f : A -> res B) (l : list A) : res (list B) :=
  match l with
  | [] => Ok []
  | a :: r => let! b := f a in let! bs := map_res f r in Ok (b :: bs)
  end.

(** mvt/write_geometry.go:188-205 SignedArea2; products in int32, sum exact. *)
Fixpoint area2_loop (prev : pt) (l : list pt) : Z :=
  match l with
  | [] => 0
  | p :: r => wrap32 (wrap32 (fst prev - fst p) * wrap32 (snd p + snd prev)) + area2_loop p r
  end.
Definition SignedArea2 (ring : list pt) : Z :=
  match ring with [] => 0 | p :: _ => area2_loop (last ring p) ring end.

(** mvt/write_geometry.go:159-186 assert_winding_order ([clockwise] = exp_orient is "clockwise"). *)
Fixpoint winding_loop (prev : pt) (l : list pt) : Z :=
  match l with
  | [] => 0
  | p :: r => wrap32 (wrap32 (fst p - fst prev) * wrap32 (snd p + snd prev)) + winding_loop p r
  end.
Definition assert_winding_order (coord : list pt) (clockwise : bool) : res (list pt) :=
  match coord with
  | [] => Panic
  | f :: r =>
      let l := last coord f in
      let weight := winding_loop f r + wrap32 (wrap32 (fst f - fst l) * wrap32 (snd f + snd l)) in
      if Bool.eqb (weight >? 0) clockwise then Ok coord else Ok (rev coord)
  end.

(** mvt/write_geometry.go:207-239 AssertConvert *)
Definition AssertConvert {P} (proj : P -> pt) (clockwise : bool) (c : cursor) (coord : list P) : res cursor :=
  match coord with
  | [] => Panic
  | _ =>
      let newlist := map proj coord in
      let newlist := if Bool.eqb (SignedArea2 newlist >? 0) clockwise then newlist else rev newlist in
      let! nc := MakeLine (mkCur [] (last_pt c) 0) newlist in
      Ok (mkCur (geo c ++ (geo nc ++ [closePath 1])) (last newlist (0, 0)) (cnt c))
  end.

(** mvt/write_geometry.go:265-275 MakePolygonFloat *)
Definition MakePolygonFloat {P} (proj : P -> pt) (peq : P -> P -> bool) (c : cursor) (coords : list (list P)) : res cursor :=
  let! trimmed := map_res (TrimRing peq) coords in
  match trimmed with
  | [] => Panic
  | outer :: holes =>
      let! c1 := AssertConvert proj true c outer in
      fold_res (AssertConvert proj false) holes c1
  end.

(** mvt/write_geometry.go:251-259, one hole of MakePolygon *)
Definition MakeHole (c : cursor) (coord : list pt) : res cursor :=
  let! coord := assert_winding_order coord false in
  let! nc := MakeLine (mkCur [] (last_pt c) 0) coord in
  Ok (mkCur (geo c ++ (geo nc ++ [closePath 1])) (last coord (0, 0)) (cnt c)).

(** mvt/write_geometry.go:241-263 MakePolygon *)
Definition MakePolygon (c : cursor) (coords : list (list pt)) : res cursor :=
  let! trimmed := map_res (TrimRing pt_eqb) coords in
  match trimmed with
  | [] => Panic
  | outer :: holes =>
      let! outer := assert_winding_order outer true in
      let! c1 := MakeLine c outer in
      fold_res MakeHole holes (mkCur (geo c1 ++ [closePath 1]) (last_pt c1) (cnt c1))
  end.

(** mvt/write_geometry.go:306-318 MakePoint; the cursor's last point is kept. *)
Definition MakePoint (c : cursor) (p : pt) : cursor :=
  LinePoint (mkCur [moveTo 1] (last_pt c) (cnt c)) p.
Definition MakePointFloat {P} (proj : P -> pt) (c : cursor) (p : P) : cursor :=
  LinePoint (mkCur [moveTo 1] (last_pt c) (cnt c)) (proj p).

(** mvt/write_geometry.go:320-333 *)
Definition MakeMultiPoint (c : cursor) (ps : list pt) : cursor :=
  fold_left LinePoint ps (mkCur [moveTo (u32 (zlen ps))] (last_pt c) (cnt c)).
Definition MakeMultiPointFloat {P} (proj : P -> pt) (c : cursor) (ps : list P) : cursor :=
  fold_left (fun c p => LinePoint c (proj p)) ps (mkCur [moveTo (u32 (zlen ps))] (last_pt c) (cnt c)).

(** mvt/write_geometry.go:335-357 *)
Definition MakeMultiLine (c : cursor) (ls : list (list pt)) : res cursor := fold_res MakeLine ls c.
Definition MakeMultiLineFloat {P} (proj : P -> pt) (c : cursor) (ls : list (list P)) : res cursor :=
  fold_res (MakeLineFloat proj) ls c.
Definition MakeMultiPolygonFloat {P} (proj : P -> pt) (peq : P -> P -> bool) (c : cursor) (ps : list (list (list P))) : res cursor :=
  fold_res (MakePolygonFloat proj peq) ps c.
Definition MakeMultiPolygon (c : cursor) (ps : list (list (list pt))) : res cursor :=
  fold_res MakePolygon ps c.

(** ** Decoder *)

(** mvt/read_feature_lazy.go:23-29 DeltaDim; Go's truncating division. *)
Definition DeltaDim (num : Z) : Z :=
  if Z.rem num 2 =? 1 then Z.quot (num + 1) (-2) else Z.quot num 2.

(** mvt/read_feature_lazy.go:31-48 SignedArea *)
Fixpoint darea_loop (prev : pt) (l : list pt) : Z :=
  match l with
  | [] => 0
  | p :: r => (fst prev - fst p) * (snd p + snd prev) + darea_loop p r
  end.
Definition SignedArea (ring : list pt) : Z :=
  match ring with [] => 0 | p :: _ => darea_loop (last ring p) ring end.

(** mvt/read_feature_lazy.go:174-180: up to [n] coordinate pairs while two numbers remain.
    Returns the points, the last point and the rest of the command list. *)
Fixpoint read_pairs (g : list Z) (n : Z) (fp : pt) : list pt * pt * list Z :=
  match g with
  | x :: y :: r =>
      if n >? 0 then
        let p := (fst fp + DeltaDim x, snd fp + DeltaDim y) in
        let '(ps, fp', g') := read_pairs r (n - 1) p in (p :: ps, fp', g')
      else ([], fp, g)
  | _ => ([], fp, g)
  end.

(** mvt/read_feature_lazy.go:154-195.  [g] is geom_[pos:], [first] is [pos == 0] and
    [total] is len(geom_).  Each step drops at least one element, so [length g] fuel is enough. *)
Fixpoint geom_loop (fuel : nat) (total gtype : Z) (first : bool) (fp : option pt)
         (lines : list (list pt)) (g : list Z) : res (list (list pt)) :=
  match g with
  | [] => Ok lines
  | c :: r =>
      match fuel with
      | O => NoFuel
      | S f =>
          if c =? 9 then
            match r with
            | x :: y :: r2 =>
                let! fp1 :=
                  if negb first && ((gtype =? 2) || (gtype =? 3)) then
                    match fp with
                    | None => Panic
                    | Some q => Ok (fst q + DeltaDim x, snd q + DeltaDim y)
                    end
                  else Ok (DeltaDim x, DeltaDim y) in
                let lines1 := if total =? 3 then [[fp1]] else lines in
                match r2 with
                | [] => Ok lines1
                | cmd :: r3 =>
                    let '(ps, fp2, r4) := read_pairs r3 (Z.shiftr cmd 3) fp1 in
                    geom_loop f total gtype false (Some fp2) (lines1 ++ [fp1 :: ps]) r4
                end
            | _ => Panic
            end
          else geom_loop f total gtype false fp lines r
      end
  end.

(** The geometry values of github.com/flywave/go-geom the decoder builds; [GNil] is the
    nil pointer returned for other geometry types. *)
Inductive geomdata :=
| GPoint (p : pt)
| GMultiPoint (ps : list pt)
| GLineString (l : list pt)
| GMultiLineString (ls : list (list pt))
| GPolygon (rs : list (list pt))
| GMultiPolygon (ps : list (list (list pt)))
| GNil.

(** mvt/read_feature_lazy.go:197-203 *)
Definition close_line (line : list pt) : list pt :=
  match line with
  | [] => []
  | f :: _ => if pt_eqb f (last line f) then line else line ++ [f]
  end.

(** mvt/read_feature_lazy.go:218: append to the last polygon *)
Fixpoint append_last (ps : list (list (list pt))) (line : list pt) : list (list (list pt)) :=
  match ps with
  | [] => [[line]]
  | [p] => [p ++ [line]]
  | p :: r => p :: append_last r line
  end.

(** mvt/read_feature_lazy.go:208-223 *)
Fixpoint group_rings (lines : list (list pt)) (ps : list (list (list pt))) : list (list (list pt)) :=
  match lines with
  | [] => ps
  | line :: r =>
      group_rings r (if SignedArea line >? 0 then ps ++ [[line]] else append_last ps line)
  end.

(** mvt/read_feature_lazy.go:138-251 LoadGeometry after the packed list has been read;
    [Panic] is what the deferred function turns into an error. *)
Definition LoadGeometryCmds (gtype : Z) (g : list Z) : res geomdata :=
  let! lines := geom_loop (length g) (zlen g) gtype true None [] g in
  if gtype =? 3 then
    let lines := map close_line lines in
    let polygons := match lines with [l] => [[l]] | _ => group_rings lines [] end in
    match polygons with
    | [p] => Ok (GPolygon p)
    | _ => Ok (GMultiPolygon polygons)
    end
  else if gtype =? 1 then
    match lines with
    | [] => Panic
    | [p] :: _ => Ok (GPoint p)
    | ps :: _ => Ok (GMultiPoint ps)
    end
  else if gtype =? 2 then
    match lines with
    | [l] => Ok (GLineString l)
    | _ => Ok (GMultiLineString lines)
    end
  else Ok GNil.
