(** mvt/clip.go: turning clipped geometries back into features, and feature files. *)
From Coq Require Import String ZArith List Bool Lia.
From Verif Require Import GoBase GoStr Tileid_Model.
Import ListNotations.
Open Scope string_scope.

(** Property maps are references: a heap of maps from keys to values; a nil map has no cell. *)
Section Heap.
Context {V : Type}.
Definition props := list (string * V).
Definition heap := list props.
Fixpoint pget (k : string) (m : props) : option V :=
  match m with [] => None | (k', v) :: r => if String.eqb k k' then Some v else pget k r end.
Fixpoint pput (k : string) (v : V) (m : props) : props :=
  match m with
  | [] => [(k, v)]
  | (k', v') :: r => if String.eqb k k' then (k, v) :: r else (k', v') :: pput k v r
  end.
Fixpoint hset (h : heap) (r : nat) (k : string) (v : V) : heap :=
  match h, r with
  | [], _ => []
  | m :: h', O => pput k v m :: h'
  | m :: h', S r' => m :: hset h' r' k v
  end.
(** The entries of a map that may be nil *)
Definition cell (h : heap) (r : option nat) : props := match r with Some n => nth n h [] | None => [] end.
End Heap.

Section Features.
Context {V D : Type}.
(** The value a Go string becomes when stored in an interface *)
Variable str : string -> V.
(** The order in which Go walks a map *)
Variable walk : list (string * V) -> list (string * V).

(** go-geom GeometryData: the type, one member per type, the bounding box *)
Record gdata := mkGD { gdType : string; gdPoint : option D; gdMultiPoint : option D; gdLineString : option D; gdMultiLineString : option D;
  gdPolygon : option D; gdMultiPolygon : option D; gdBox : option D }.
Definition gd0 (t : string) : gdata := mkGD t None None None None None None None.
(** A feature: its geometry and the reference of its property map *)
Record feat := mkF { ftGeom : gdata; ftProps : nat }.

(** Lines 530-545: the geometry with the member of its type only *)
Definition copy_geometry (g : gdata) : gdata :=
  let t := gdType g in
  if t =? "Point" then mkGD t (gdPoint g) None None None None None None
  else if t =? "MultiPoint" then mkGD t None (gdMultiPoint g) None None None None None
  else if t =? "LineString" then mkGD t None None (gdLineString g) None None None None
  else if t =? "MultiLineString" then mkGD t None None None (gdMultiLineString g) None None None
  else if t =? "Polygon" then mkGD t None None None None (gdPolygon g) None None
  else if t =? "MultiPolygon" then mkGD t None None None None None (gdMultiPolygon g) None
  else gd0 t.
(** Lines 518-521 and 546-549: a new map with the entries of [ps] *)
Definition copy_props (h : @heap V) (ps : option nat) : nat * heap :=
  let r := List.length h in
  (r, fold_left (fun h' e => hset h' r (fst e) (snd e)) (walk (cell h ps)) (h ++ [[]])%list).

(** mvt/clip.go:516-525 NewFeature.  geom.NewFeatureFromGeometryData is taken to keep the geometry as it is. *)
Definition NewFeature (h : heap) (g : gdata) (ps : option nat) : heap * feat :=
  let '(r, h1) := copy_props h ps in
  (hset h1 r "COLORKEY" (str "white"), mkF g r).

(** mvt/clip.go:528-556, one round of the loop *)
Definition add_feature (ps : option nat) (st : heap * list feat) (e : TileID * gdata) : heap * list feat :=
  let '(h, fs) := st in
  let '(k, g) := e in
  let '(r, h1) := copy_props h ps in
  let h2 := hset h1 r "TILEID" (str (Tilestr k)) in
  (hset h2 r "COLORKEY" (str "white"), (fs ++ [mkF (copy_geometry g) r])%list).
(** mvt/clip.go:527-557 NewFeatures; [order] is the map in the order Go walks it *)
Definition NewFeatures (h : heap) (order : list (TileID * gdata)) (ps : option nat) : heap * list feat :=
  fold_left (add_feature ps) order (h, []).
End Features.
Arguments gdata : clear implicits. Arguments feat : clear implicits.

Section Files.
Context {F : Type}.
(** A file system without permissions or full disks: names with their bytes *)
Definition files := list (string * list Z).
Fixpoint fread (name : string) (fs : files) : option (list Z) :=
  match fs with [] => None | (n, b) :: r => if String.eqb name n then Some b else fread name r end.
Fixpoint fwrite (name : string) (b : list Z) (fs : files) : files :=
  match fs with
  | [] => [(name, b)]
  | (n, b') :: r => if String.eqb name n then (n, b) :: r else (n, b') :: fwrite name b r
  end.
(** general.UnmarshalFeatureCollection and FeatureCollection.MarshalJSON of go-geom; None is the error, with a nil collection or nil bytes *)
Variable unmarshal : list Z -> option (list F).
Variable marshal : list F -> option (list Z).
(** mvt/clip.go:502-506 ReadFeatures: both errors are dropped; the features of a nil collection panic *)
Definition ReadFeatures (fs : files) (name : string) : res (list F) :=
  let bs := match fread name fs with Some b => b | None => [] end in
  match unmarshal bs with Some l => Ok l | None => Panic end.
(** mvt/clip.go:508-514 MakeFeatures: the error is printed, the bytes are written all the same *)
Definition MakeFeatures (fs : files) (feats : list F) (name : string) : files :=
  let s := match marshal feats with Some b => b | None => [] end in
  fwrite name s fs.
End Files.
