(** sprite/growing_packer.go and the packing part of sprite/sprite.go.
    Simplification: int arithmetic is exact (sheet sizes stay far below 2^63). *)
From Coq Require Import ZArith List Lia Bool Permutation.
From Verif Require Import GoBase.
Import ListNotations.
Open Scope Z_scope.

(** sprite/growing_packer.go:7-16 Node. A node with Used = true always has both children
    (splitNode, growRight and growDown set them together with Used), so the pair
    Used/children is one constructor; Key is carried by the blocks only. *)
Inductive node :=
| Free (x y w h : Z)
| Used (x y w h : Z) (right down : node).

Definition nW (n : node) := match n with Free _ _ w _ => w | Used _ _ w _ _ _ => w end.
Definition nH (n : node) := match n with Free _ _ _ h => h | Used _ _ _ h _ _ => h end.

(** sprite/growing_packer.go:64-69 splitNode on a free node *)
Definition splitNode (x y w h width height : Z) : node :=
  Used x y w h
    (Free (x + width) y (w - width) height)
    (Free x (y + height) w (h - height)).

(** sprite/growing_packer.go:50-62 findNode followed by splitNode of the node found: the
    updated tree and the position of the node found. *)
Fixpoint place (n : node) (width height : Z) : option (node * (Z * Z)) :=
  match n with
  | Used x y w h r d =>
      match place r width height with
      | Some (r', p) => Some (Used x y w h r' d, p)
      | None =>
          match place d width height with
          | Some (d', p) => Some (Used x y w h r d', p)
          | None => None
          end
      end
  | Free x y w h =>
      if (width <=? w) && (height <=? h)
      then Some (splitNode x y w h width height, (x, y))
      else None
  end.

(** The nil pointer returned by growDown/growRight/growNode panics at fit.X. *)
Definition deref {A} (o : option A) : res A := match o with Some a => Ok a | None => Panic end.

(** sprite/growing_packer.go:89-105 growDown *)
Definition growDown (root : node) (width height : Z) : option (node * (Z * Z)) :=
  place (Used 0 0 (nW root) (nH root + height) root (Free 0 (nH root) (nW root) height)) width height.

(** sprite/growing_packer.go:108-123 growRight *)
Definition growRight (root : node) (width height : Z) : option (node * (Z * Z)) :=
  place (Used 0 0 (nW root + width) (nH root) (Free (nW root) 0 width (nH root)) root) width height.

(** sprite/growing_packer.go:71-87 growNode *)
Definition growNode (root : node) (width height : Z) : option (node * (Z * Z)) :=
  let canGrowDown := width <=? nW root in
  let canGrowRight := height <=? nH root in
  let shouldGrowRight := canGrowRight && (nH root >=? nW root + width) in
  let shouldGrowDown := canGrowDown && (nW root >=? nH root + height) in
  if shouldGrowRight then growRight root width height
  else if shouldGrowDown then growDown root width height
  else if canGrowRight then growRight root width height
  else if canGrowDown then growDown root width height
  else None.

(** sprite/growing_packer.go:34-50, the loop of Fit; returns the positions in order. *)
Fixpoint fit_loop (root : node) (blocks : list (Z * Z)) : res (node * list (Z * Z)) :=
  match blocks with
  | [] => Ok (root, [])
  | (w, h) :: r =>
      let! rp := deref (match place root w h with Some x => Some x | None => growNode root w h end) in
      let! rest := fit_loop (fst rp) r in
      Ok (fst rest, snd rp :: snd rest)
  end.

(** sprite/growing_packer.go:22-48 Fit on blocks given as (width,height) *)
Definition Fit (blocks : list (Z * Z)) : res (list (Z * Z)) :=
  let '(w, h) := match blocks with [] => (0, 0) | b :: _ => b end in
  let! r := fit_loop (Free 0 0 w h) blocks in
  Ok (snd r).

(** sprite/sprite.go:13-60 GenerateSprite up to the positions. A texture is (name, width,
    height) after ScaleTo. [set] is a map keyed by name, as an association list. *)
Section Generate.
  Context {K : Type} (keq : K -> K -> bool).

  Record sprite := mkSprite { sW : Z; sH : Z; sX : Z; sY : Z }.

  Fixpoint set_put (k : K) (v : sprite) (m : list (K * sprite)) : list (K * sprite) :=
    match m with
    | [] => [(k, v)]
    | (k', v') :: r => if keq k k' then (k, v) :: r else (k', v') :: set_put k v r
    end.

  Fixpoint set_pos (k : K) (p : Z * Z) (m : list (K * sprite)) : list (K * sprite) :=
    match m with
    | [] => []
    | (k', v') :: r =>
        if keq k k' then (k', mkSprite (sW v') (sH v') (fst p) (snd p)) :: r
        else (k', v') :: set_pos k p r
    end.

  (** lines 20-42: one set entry and one block per texture *)
  Definition build_set (ts : list (K * (Z * Z))) : list (K * sprite) :=
    fold_left (fun m t => set_put (fst t) (mkSprite (fst (snd t)) (snd (snd t)) 0 0) m) ts [].

  (** lines 44-68: [blocks] is what sort.Slice leaves; the texture positions and the sheet size
      when renderImage is set (lines 60-78). *)
  Definition sheet (blocks : list (K * (Z * Z))) (pos : list (Z * Z)) : Z * Z :=
    let w := fold_left (fun w bp => Z.max w (fst (snd (fst bp)) + fst (snd bp))) (combine blocks pos) 0 in
    let h := fold_left (fun h bp => Z.max h (snd (snd (fst bp)) + snd (snd bp))) (combine blocks pos) 0 in
    (if w =? 0 then 1 else w, if h =? 0 then 1 else h).

  Definition GenerateSprite (ts blocks : list (K * (Z * Z))) : res (list (K * sprite) * (Z * Z)) :=
    let! pos := Fit (map snd blocks) in
    let m := fold_left (fun m bp => set_pos (fst (fst bp)) (snd bp) m) (combine blocks pos) (build_set ts) in
    Ok (m, sheet blocks pos).
End Generate.

(** sort.Slice with less(i,j) = area(j) < area(i): some permutation with non-increasing area. *)
Definition area {K} (b : K * (Z * Z)) : Z := fst (snd b) * snd (snd b).
Definition area_sorted {K} (bs : list (K * (Z * Z))) : Prop :=
  forall i j bi bj, (i < j)%nat -> nth_error bs i = Some bi -> nth_error bs j = Some bj -> area bj <= area bi.
Definition sort_result {K} (ts bs : list (K * (Z * Z))) : Prop := Permutation ts bs /\ area_sorted bs.

(** sprite/sprite.go:80-95: drawing every sprite into the sheet, in map order.  A picture is a
    partial function from pixels to colours; [draw.Draw(dst, dst.Bounds(), img, Pt(-X,-Y), Src)]
    writes the pixels of img shifted by (X,Y) that fall inside dst. Simplification: img has
    its origin at (0,0) and the size recorded in the sprite (true after BiLinear.Scale, and
    for unscaled images whose texture reports its own bounds). *)
Section Draw.
  Context {C : Type}.
  Definition picture := Z -> Z -> C.
  Definition draw_one (size : Z * Z) (dst : picture) (s : sprite * picture) : picture :=
    fun px py =>
      let i := px - sX (fst s) in
      let j := py - sY (fst s) in
      if (0 <=? i) && (i <? sW (fst s)) && (0 <=? j) && (j <? sH (fst s))
         && (0 <=? px) && (px <? fst size) && (0 <=? py) && (py <? snd size)
      then snd s i j else dst px py.
  Definition draw_all (size : Z * Z) (blank : picture) (l : list (sprite * picture)) : picture :=
    fold_left (draw_one size) l blank.
End Draw.
