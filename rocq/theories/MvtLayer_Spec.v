(** What a layer should give back, stated without the code's helpers. *)
From Coq Require Import ZArith List Lia Bool.
From Verif Require Import GoBase MvtLayer_Model.
Import ListNotations.
Open Scope Z_scope.

(** The value a reader gets for a Go value written as a property: integers, booleans and strings
    unchanged, floats unchanged up to the sign of zero (0 and -0 are the same map key), anything else
    the empty string. *)
Definition wire_value (v : gval) (w : wval) : Prop :=
  match v with
  | VFloat32 _ b => exists b', w = WFloat b' /\ (b' = b \/ (b mod 2 ^ 31 = 0 /\ b' mod 2 ^ 31 = 0))
  | VFloat64 _ b => exists b', w = WDouble b' /\ (b' = b \/ (b mod 2 ^ 63 = 0 /\ b' mod 2 ^ 63 = 0))
  | VInt _ z => w = WInt z
  | VUInt _ z => w = WUInt z
  | VBool _ b => w = WBool b
  | VString _ s => w = WString s
  | VOther _ _ | VUnhash => w = WString []
  end.

(** Values Go can hold: bit patterns and integers in range. *)
Definition go_value (v : gval) : Prop :=
  match v with
  | VFloat32 _ b => 0 <= b < 2 ^ 32
  | VFloat64 _ b => 0 <= b < 2 ^ 64
  | VInt _ z => - 2 ^ 63 <= z < 2 ^ 63
  | VUInt _ z => 0 <= z < 2 ^ 64
  | _ => True
  end.

(** A Go property map listed in its iteration order: every key once. *)
Definition go_map (m : list (list Z * gval)) : Prop :=
  NoDup (map fst m) /\ forall k v, In (k, v) m -> go_value v.

(** The properties read for a written property map. *)
Definition wire_props (m : list (list Z * gval)) (r : list (list Z * wval)) : Prop :=
  Forall2 (fun kv kw => fst kw = fst kv /\ wire_value (snd kv) (snd kw)) m r.

Definition id_of (i : fid) : Z := match i with IDInt z => z | _ => 0 end.

(** The most recent value in a list of optional values, [d] if there is none. *)
Definition latest {A} (d : A) (l : list (option A)) : A :=
  fold_left (fun d x => match x with Some a => a | None => d end) l d.

(** The same property value: equal, or two zeros of the same float type. *)
Definition same_value (v v' : gval) : Prop :=
  v = v' \/
  match v, v' with
  | VFloat32 t b, VFloat32 t' b' => t = t' /\ b mod 2 ^ 31 = 0 /\ b' mod 2 ^ 31 = 0
  | VFloat64 t b, VFloat64 t' b' => t = t' /\ b mod 2 ^ 63 = 0 /\ b' mod 2 ^ 63 = 0
  | _, _ => False
  end.

(** A list of tags refers to the entries of a property map in the given tables. *)
Definition refers (kt : list (list Z)) (vt : list gval) (m : list (list Z * gval)) (tags : list Z) : Prop :=
  exists idx : list (nat * nat),
    tags = flat_map (fun ij => [Z.of_nat (fst ij); Z.of_nat (snd ij)]) idx /\
    Forall2 (fun kv ij => nth_error kt (fst ij) = Some (fst kv) /\
                          exists v', nth_error vt (snd ij) = Some v' /\ same_value (snd kv) v') m idx.

(** Values a Go program can put in a feature and a layer configuration (Extent is an int32). *)
Definition go_feature {Pt} (f : feature Pt) : Prop :=
  go_map (fProps f) /\ match fID f with IDInt z => - 2 ^ 63 <= z < 2 ^ 63 | _ => True end.
Definition go_config (c : config) : Prop :=
  - 2 ^ 31 <= cExtent c < 2 ^ 31 /\ - 2 ^ 63 <= cVersion c < 2 ^ 63.

(** The geometry type of the vector tile specification; 0 is "unknown". *)
Definition wire_type {Pt} (g : geometry Pt) : Z :=
  match g with
  | XPoint _ => 1 | XLineString _ => 2 | XPolygon _ => 3
  | XMultiPoint _ => 1 | XMultiLineString _ => 2 | XMultiPolygon _ => 3
  | XOther => 0
  end.
(** Zero means the default: extent 4096, version 2. *)
Definition extent_of (c : config) : Z := if cExtent c =? 0 then 4096 else cExtent c.
Definition version_of (c : config) : Z := if cVersion c =? 0 then 2 else cVersion c.

(** The id, geometry type and commands each feature is written with, up to and including number i. *)
Definition int_id (i : fid) : option Z := match i with IDInt z => Some z | _ => None end.
Definition ids_until {Pt} (fs : list (feature Pt)) (i : nat) : list (option Z) := firstn (S i) (map (fun f => int_id (fID f)) fs).
Definition types_until {Pt} (fs : list (feature Pt)) (i : nat) : list (option Z) := firstn (S i) (map (fun f => option_map wire_type (fGeom f)) fs).
Definition own_cmds {Pt} (proj : Pt -> Z * Z) peq (f : feature Pt) : option (list Z) :=
  match fGeom f with Some g => match geom_cmds proj peq g with Ok (Some c) => Some c | _ => None end | None => None end.
Definition cmds_until {Pt} (proj : Pt -> Z * Z) peq (fs : list (feature Pt)) (i : nat) : list (option (option (list Z))) :=
  firstn (S i) (map (fun f => option_map Some (own_cmds proj peq f)) fs).
