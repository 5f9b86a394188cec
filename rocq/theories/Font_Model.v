(** font/cover.go, the glyph loop of font/sdf_builder.go and font/utils.go.  TrueType parsing and rasterising are
    oracles; option records and image objects are reduced to the fields used. *)
From Coq Require Import ZArith Reals List Lia Bool.
From Verif Require Import GoBase GoArr Num TileR_Model MvtProj_Model Sdf_Model.
Import ListNotations.
Open Scope Z_scope.

(** ** Coverage *)

(** font/cover.go:11-15: the map as the list of its keys *)
Definition key_set (b : list Z) : list Z :=
  fold_left (fun m item => if existsb (Z.eqb item) m then m else m ++ [item]) b [].
(** font/cover.go:10-23 difference *)
Definition difference (a b : list Z) : list Z :=
  let m := key_set b in
  fold_left (fun diff item => if existsb (Z.eqb item) m then diff else diff ++ [item]) a [].

(** font/cover.go:25-31, without name and id *)
Record LanguageCoverage := mkLC { lcTotal : Z; lcCount : Z; lcCoverages : list Z }.
(** font/cover.go:58-64; slice lengths are small, int does not overflow *)
Definition cover_step (st : list Z * list Z) (points : list Z) : list Z * list Z :=
  let '(charactersLeft, coverages) := st in
  let nextValue := difference charactersLeft points in
  (nextValue, coverages ++ [zlen charactersLeft - zlen nextValue]).
(** font/cover.go:54-79, one language *)
Definition cover_language (exemplars : list Z) (pointsArray : list (list Z)) : LanguageCoverage :=
  let '(_, coverages) := fold_left cover_step pointsArray (exemplars, []) in
  mkLC (zlen exemplars) (fold_left Z.add coverages 0) coverages.
(** font/cover.go:50-82 coverage *)
Definition coverage (languages : list (list Z)) (pointsArray : list (list Z)) : list LanguageCoverage :=
  map (fun l => cover_language l pointsArray) languages.

(** ** Options *)

(** font/sdf_builder.go:35-38 *)
Record SDFBuilderOpt := mkOpt { oFontSize : R; oBuffer : R }.
(** font/sdf_builder.go:21-28 and 48-53: NewSDFBuilder's options followed by Init's defaults *)
Definition builder_opts (opts : list SDFBuilderOpt) : SDFBuilderOpt :=
  let o := fold_left (fun b opt =>
    let b := if Reqb (oFontSize opt) 0 then b else mkOpt (oFontSize opt) (oBuffer b) in
    if Reqb (oBuffer opt) 0 then b else mkOpt (oFontSize b) (oBuffer opt)) opts (mkOpt 0 0) in
  let o := if Reqb (oFontSize o) 0 then mkOpt 64 (oBuffer o) else o in
  if Reqb (oBuffer o) 0 then mkOpt (oFontSize o) 3 else o.

(** ** Glyphs *)

(** What the face reports for a rune: the rectangle and the advance, rounded down. *)
Record face_glyph := mkFG { fx0 : Z; fy0 : Z; fx1 : Z; fy1 : Z; fadv : Z }.
(** A font: glyph index, face glyph (None for !ok), and the picture of the glyph drawn on a canvas of the given size
    with the given margin, as row-major alpha values. *)
Record font := mkFont { fIndex : Z -> Z; fFace : Z -> option face_glyph; fDraw : Z -> Z -> nat -> nat -> list Z }.

(** The fields of the Glyph message, font/glyph.pb.go *)
Record Glyph := mkGlyph { gId : Z; gWidth : Z; gHeight : Z; gLeft : Z; gTop : Z; gAdvance : Z; gBitmap : list Z }.

(** font/sdf_builder.go:92-141 Glyph.  [buffer] is int(b.Buffer).  image.Rect swaps negative sizes. *)
Definition mk_glyph (f : font) (buffer x : Z) : res (option Glyph) :=
  if x =? 0 then Ok None else
  if fIndex f x =? 0 then Ok None else
  match fFace f x with
  | None => Ok None
  | Some b =>
    let width := u32 (fx1 b - fx0 b) in
    let height := u32 (fy1 b - fy0 b) in
    if (width =? 0) || (height =? 0) then Ok None else
    let w := width + buffer * 2 in
    let h := height + buffer * 2 in
    let wn := Z.to_nat (Z.abs w) in
    let hn := Z.to_nat (Z.abs h) in
    let! bm := CalcSDF wn hn (fDraw f x buffer wn hn) 8 (1 / 4) in
    Ok (Some (mkGlyph (u32 x) width height (wrap32 (fx0 b)) (wrap32 (- wrap32 (fy0 b))) (u32 (fadv b)) bm))
  end.

(** font/sdf_builder.go:78-83: the glyph list of Glyphs(min, max).  The range string and the font name are left out. *)
Definition GlyphsList (f : font) (buffer min max : Z) : res (list Glyph) :=
  for_each (fun acc i => let! g := mk_glyph f buffer (wrap32 i) in
                         match g with Some g => Ok (acc ++ [g]) | None => Ok acc end) (zseq min (Z.to_nat (max - min))) [].

(** ** Drawing *)

(** font/utils.go:39-42 alpha *)
Definition alpha (e0 e1 x : R) : Z :=
  (let a := Rmax (Rmin ((x - e1) / (e1 - e0)) 1) 0 in
   Rfloor ((a * a * (3 - 2 * a)) * x))%R.

(** font/utils.go:12-37 DrawGlyph: the alpha channel of the picture, row by row; the glyph has both sizes set. *)
Definition DrawGlyph (g : Glyph) (smoothstep : bool) : res (list Z) :=
  let width := u32 (gWidth g + 6) in
  let height := u32 (gHeight g + 6) in
  for_each (fun img y =>
    for_each (fun img x =>
      let! a := nth_res (gBitmap g) (x + y * width) in
      Ok (img ++ [if smoothstep then alpha 136 168 (IZR a) else a]))
      (zseq 0 (Z.to_nat width)) img)
    (zseq 0 (Z.to_nat height)) [].
