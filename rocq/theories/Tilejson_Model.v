(** tilejson/utils.go: schemas and properties of Go structs by reflection. *)
From Coq Require Import String ZArith List Lia Bool.
From Verif Require Import GoBase Json.
Import ListNotations.
Open Scope Z_scope.

(** ** reflect *)

(** reflect.Kind *)
Inductive kind :=
| KBool | KInt | KInt8 | KInt16 | KInt32 | KInt64 | KUint | KUint8 | KUint16 | KUint32 | KUint64 | KUintptr | KFloat32 | KFloat64
| KComplex64 | KComplex128 | KArray | KChan | KFunc | KInterface | KMap | KPtr | KSlice | KString | KStruct | KUnsafePointer.

Section Tags.
(** strconv.Unquote, left abstract *)
Context (Unquote : gstr -> option gstr).
Fixpoint skip_spaces (s : gstr) : gstr := match s with 32 :: s' => skip_spaces s' | _ => s end.
(** The scan to the colon *)
Definition key_byte (c : Z) : bool := (32 <? c) && negb (c =? 58) && negb (c =? 34) && negb (c =? 127).
Fixpoint scan_key (s : gstr) : gstr * gstr :=
  match s with [] => ([], []) | c :: s' => if key_byte c then let (k, r) := scan_key s' in (c :: k, r) else ([], s) end.
(** The scan of a quoted string after its opening quote: the body, and what follows the closing quote *)
Fixpoint scan_quoted (s : gstr) : option (gstr * gstr) :=
  match s with
  | [] => None
  | 34 :: s' => Some ([], s')
  | 92 :: c :: s' => option_map (fun '(b, r) => (92 :: c :: b, r)) (scan_quoted s')
  | c :: s' => option_map (fun '(b, r) => (c :: b, r)) (scan_quoted s')
  end.
(** reflect.StructTag.Lookup *)
Fixpoint Lookup (fuel : nat) (tag key : gstr) : option gstr :=
  match fuel with
  | O => None
  | S f =>
    match skip_spaces tag with
    | [] => None
    | tag =>
      match scan_key tag with
      | ([], _) => None
      | (name, 58 :: 34 :: rest) =>
          match scan_quoted rest with
          | None => None
          | Some (body, rest') => if seqb key name then Unquote (34 :: body ++ [34]) else Lookup f rest' key
          end
      | _ => None
      end
    end
  end.
Definition TagLookup (tag key : gstr) : option gstr := Lookup (S (length tag)) tag key.

(** ** Struct values *)

(** reflect.StructField, as far as it is used: the tag, the kind of the type, whether the field is exported *)
Record field := mkField { fTag : gstr; fKind : kind; fExported : bool }.
(** Types: structs, pointers, and everything else by its kind *)
Inductive gtype := TStruct (fs : list field) | TPtr (t : gtype) | TOther (k : kind).
(** Values in an interface; [A] is what Interface() gives for a field *)
Context {A : Type}.
Inductive gval := VStruct (fs : list (field * A)) | VPtr (v : gval) | VNilPtr (t : gtype) | VOther (k : kind).
Fixpoint typeOf (v : gval) : gtype :=
  match v with VStruct fs => TStruct (map fst fs) | VPtr v => TPtr (typeOf v) | VNilPtr t => TPtr t | VOther k => TOther k end.
(** reflectx.Deref and reflectx.Indirect: strip all pointers; a nil pointer leaves the zero Value, None *)
Fixpoint Deref (t : gtype) : gtype := match t with TPtr t => Deref t | _ => t end.
Fixpoint Indirect (v : gval) : option gval := match v with VPtr v => Indirect v | VNilPtr _ => None | _ => Some v end.

(** Go maps as association lists without repeated keys *)
Fixpoint mset {V} (m : list (gstr * V)) (k : gstr) (v : V) : list (gstr * V) :=
  match m with [] => [(k, v)] | (k', v') :: m' => if seqb k k' then (k', v) :: m' else (k', v') :: mset m' k v end.
Fixpoint mget {V} (m : list (gstr * V)) (k : gstr) : option V :=
  match m with [] => None | (k', v) :: m' => if seqb k k' then Some v else mget m' k end.

(** tilejson/tilejson.go:50-54 *)
Inductive FieldType := FieldTypeString | FieldTypeNumber | FieldTypeBoolean.
(** tilejson/utils.go:19-28: the switch *)
Definition kindType (k : kind) : option FieldType :=
  match k with
  | KInt | KInt8 | KInt16 | KInt32 | KInt64 | KUint | KUint8 | KUint16 | KUint32 | KUint64 | KFloat32 | KFloat64 => Some FieldTypeNumber
  | KString => Some FieldTypeString
  | KBool => Some FieldTypeBoolean
  | _ => None
  end.
(** tilejson/utils.go:9-33: Kind() of the nil type of a nil interface panics; the inner None is the nil map *)
Definition StructToFields (v : option gval) : res (option (list (gstr * FieldType))) :=
  match v with
  | None => Panic
  | Some v =>
    match Deref (typeOf v) with
    | TStruct fs =>
        Ok (Some (fold_left (fun fields ft =>
          match TagLookup (fTag ft) (B "name") with
          | Some name => match kindType (fKind ft) with Some t => mset fields name t | None => fields end
          | None => fields
          end) fs []))
    | _ => Ok None
    end
  end.
(** tilejson/utils.go:35-50: Interface() of an unexported field panics *)
Definition StructToProperties (v : option gval) : res (option (list (gstr * A))) :=
  match match v with None => None | Some v => Indirect v end with
  | Some (VStruct fs) =>
      let! props := fold_left (fun acc fa =>
        let! props := acc in
        match TagLookup (fTag (fst fa)) (B "name") with
        | Some name => if fExported (fst fa) then Ok (mset props name (snd fa)) else Panic
        | None => Ok props
        end) fs (Ok []) in
      Ok (Some props)
  | _ => Ok None
  end.
End Tags.
Arguments gval : clear implicits.
