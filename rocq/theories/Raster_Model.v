(** raster/raster.go: elevation tiles and elevation packing, in exact real arithmetic.  Image files are pictures: a size and
    a pixel function (PNG and WebP are lossless here; decoding and encoding files is not modelled). *)
From Coq Require Import ZArith Reals List Lia Bool.
From Verif Require Import GoBase GoArr Num TileR_Model.
Import ListNotations.
Open Scope Z_scope.

(** raster/raster.go:35-40; [A] is the pixel type [4]byte, to which most of the code is indifferent *)
Record DEM (A : Type) := mkDEM { dEncoding : Z; dDim : Z; dStride : Z; dData : list A }.
Arguments mkDEM {A}. Arguments dEncoding {A}. Arguments dDim {A}. Arguments dStride {A}. Arguments dData {A}.

(** [l[i] = x] with a possibly negative index *)
Definition set_res {A} (l : list A) (i : Z) (x : A) : res (list A) :=
  if i <? 0 then Panic else set_at l (Z.to_nat i) x.

(** raster/raster.go:79-83 *)
Definition fill_row {A} (data : list A) (dim stride : nat) (img : list A) (r : nat) : res (list A) :=
  for_each (fun img c => let! p := get data (r * dim + c)%nat in set_at img ((r + 1) * stride + c + 1)%nat p) (seq 0 dim) img.
(** raster/raster.go:85-89 *)
Definition fill_sides {A} (dim stride : nat) (img : list A) (x : nat) : res (list A) :=
  let rowOffset := (stride * (x + 1))%nat in
  let! a := get img (rowOffset + 1)%nat in
  let! img := set_at img rowOffset a in
  let! b := get img (rowOffset + dim)%nat in
  set_at img (rowOffset + dim + 1)%nat b.
(** raster/raster.go:91-94 *)
Definition fill_ends {A} (dim stride : nat) (img : list A) (r : nat) : res (list A) :=
  let! a := get img (stride + r)%nat in
  let! img := set_at img r a in
  let! b := get img (stride * dim + r)%nat in
  set_at img (stride * (dim + 1) + r)%nat b.
(** raster/raster.go:72-97 NewDEMData; None is nil.  The float64 square root of a slice length is exact enough to
    give the integer square root. *)
Definition NewDEMData {A} (zero : A) (data : list A) (encoding : Z) : res (option (DEM A)) :=
  if Nat.odd (length data) then Ok None else
  let dim := Nat.sqrt (length data) in
  let stride := (dim + 2)%nat in
  let! img := for_each (fill_row data dim stride) (seq 0 dim) (repeat zero (stride * stride)) in
  let! img := for_each (fill_sides dim stride) (seq 0 dim) img in
  let! img := for_each (fill_ends dim stride) (seq 0 stride) img in
  Ok (Some (mkDEM encoding (Z.of_nat dim) (Z.of_nat stride) img)).

(** raster/raster.go:99-101 *)
Definition idx {A} (d : DEM A) (x y : Z) : Z := (y + 1) * dStride d + (x + 1).

(** raster/raster.go:103-132 BackfillBorder, returning the new tile *)
Definition BackfillBorder {A} (d data : DEM A) (dx dy : Z) : res (DEM A) :=
  if dDim d =? dDim data then Ok d else
  let xMin := dx * dDim d in
  let xMax := dx * dDim d + dDim d in
  let yMin := dy * dDim d in
  let yMax := dy * dDim d + dDim d in
  let '(xMin, xMax) := if dx =? -1 then (xMax - 1, xMax) else if dx =? 1 then (xMin, xMin + 1) else (xMin, xMax) in
  let '(yMin, yMax) := if dy =? -1 then (yMax - 1, yMax) else if dy =? 1 then (yMin, yMin + 1) else (yMin, yMax) in
  let ox := - dx * dDim d in
  let oy := - dy * dDim d in
  let! img := for_each (fun img y => for_each (fun img x =>
      let! p := nth_res (dData data) (idx d (x + ox) (y + oy)) in
      set_res img (idx d x y) p)
    (zseq xMin (Z.to_nat (xMax - xMin))) img) (zseq yMin (Z.to_nat (yMax - yMin))) (dData d) in
  Ok (mkDEM (dEncoding d) (dDim d) (dStride d) img).

(** [4]byte *)
Record px := mkPx { pR : Z; pG : Z; pB : Z; pA : Z }.

(** raster/raster.go:30-33 and 150-155 *)
Definition unpack_vector (encoding : Z) : R * R * R * R :=
  if encoding =? 0 then (65536 / 10, 256 / 10, 1 / 10, 10000)%R else (256, 1, 1 / 256, 32768)%R.
(** raster/raster.go:137 *)
Definition decode (encoding : Z) (v : px) : R :=
  let '(u0, u1, u2, u3) := unpack_vector encoding in
  (IZR (pR v) * u0 + IZR (pG v) * u1 + IZR (pB v) * u2 - u3)%R.
(** raster/raster.go:134-138 Get *)
Definition Get (d : DEM px) (x y : Z) : res R :=
  let! v := nth_res (dData d) (idx d x y) in
  Ok (decode (dEncoding d) v).
(** raster/raster.go:140-148 GetData *)
Definition GetData (d : DEM px) : res (list R) :=
  for_each (fun ret x => for_each (fun ret y =>
      let! v := Get d x y in set_res ret (x * dDim d + y) v)
    (zseq 0 (Z.to_nat (dDim d))) ret) (zseq 0 (Z.to_nat (dDim d))) (repeat 0%R (Z.to_nat (dDim d * dDim d))).

(** int(f) and byte(f) of a float: towards zero; byte keeps the low eight bits (the conversion is only relied upon
    for values in 0..255) *)
Definition Rtrunc (r : R) : Z := if Rltb r 0 then - Rfloor (- r) else Rfloor r.
Definition to_byte (r : R) : Z := u8 (Rtrunc r).
Definition fl (r : R) : R := IZR (Rfloor r).

(** raster/raster.go:179-199 MapboxPacker.Pack; the receiver's fields are not used *)
Record MapboxPacker := mkMP { mpBase : R; mpInterval : R }.
Definition PackMapbox (p : MapboxPacker) (h : R) : px :=
  (let val := (h + 10000) / (1 / 10) in
   let r := (fl (fl (val / 256) / 256) / 256 - fl (fl (fl (val / 256) / 256) / 256)) * 256 in
   let g := (fl (val / 256) / 256 - fl (fl (val / 256) / 256)) * 256 in
   let b := (val / 256 - fl (val / 256)) * 256 in
   mkPx (to_byte r) (to_byte g) (to_byte b) 255)%R.
(** raster/raster.go:204-215 TerrariumPacker.Pack; % truncates *)
Definition PackTerrarium (h : R) : px :=
  let val := (h + 32768)%R in
  let r := fl (val / 256)%R in
  let g := Z.rem (Rtrunc val) 256 in
  let b := Z.rem (Rtrunc (val * 256)%R) 25 in
  mkPx (to_byte r) (u8 g) (u8 b) 255.

(** A picture of non-premultiplied pixels *)
Record picture := mkPic { picW : nat; picH : nat; picAt : nat -> nat -> px }.

(** raster/raster.go:55-58: color.NRGBA.RGBA followed by the RGBA colour model and its low bytes *)
Definition premul (c a : Z) : Z := c * 257 * a / 255 / 256.
Definition loaded (v : px) : px := mkPx (premul (pR v) (pA v)) (premul (pG v) (pA v)) (premul (pB v) (pA v)) (pA v).
(** raster/raster.go:42-62 LoadDEMDataWithStream after decoding; outer None is the error *)
Definition LoadDEM (m : picture) (encoding : Z) : option (res (option (DEM px))) :=
  if negb (picW m =? picH m)%nat then None else
  let data := flat_map (fun y => map (fun x => loaded (picAt m x y)) (seq 0 (picW m))) (seq 0 (picH m)) in
  Some (NewDEMData (mkPx 0 0 0 0) data encoding).

(** raster/raster.go:157-173 Save: the picture written (a tile whose Data is too short panics instead) *)
Definition SaveDEM (d : DEM px) : picture :=
  mkPic (Z.to_nat (dDim d)) (Z.to_nat (dDim d))
    (fun x y => nth (Z.to_nat (idx d (Z.of_nat x) (Z.of_nat y))) (dData d) (mkPx 0 0 0 0)).

(** raster/raster.go:217-242 DemEncode after reading: the picture of a row by col grid of heights *)
Definition DemEncode (row col : nat) (data : list R) (pack : R -> px) : picture :=
  mkPic col row (fun x y => pack (nth (y * col + x) data 0%R)).
