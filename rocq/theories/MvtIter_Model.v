(** Walking the features of a layer with Next, Feature and Reset, and reading a geometry at a
    smaller scale. *)
From Coq Require Import ZArith List Reals.
From Verif Require Import GoBase Pbf_Model MvtGeom_Model MvtLayer_Model.
Import ListNotations.
Open Scope Z_scope.

(** mvt/read_layer.go:84-86 Next, for the layer whose featurePosition is [pos]; Number_Features is
    the number of positions (line 78). *)
Definition Next (l : layer) (pos : nat) : bool := (pos <? length (lFeats l))%nat.
(** mvt/read_layer.go:88-90 Reset: the new featurePosition *)
Definition Reset (l : layer) (pos : nat) : nat := O.

(** What one call gives: a feature, or an error *)
Inductive got := GFeat (f : rfeat) | GError.

(** mvt/read_feature_lazy.go:60-124 Layer.Feature as a call: the result and the new featurePosition.
    Lines 62-67 turn a panic into an error and advance; line 122 advances otherwise.  The position
    of the shared buffer is set first (line 69), so it is not part of the state.  [NoFuel]: the call
    does not return. *)
Definition FeatureCall (fuel : nat) (P : proto) (buf : bytes) (l : layer) (pos : nat) : res (got * nat) :=
  match Feature fuel P buf l pos with
  | Ok f => Ok (GFeat f, S pos)
  | Panic => Ok (GError, S pos)
  | NoFuel => NoFuel
  end.

(** The loop of every caller: for layer.Next() { layer.Feature() }; [steps] bounds the rounds. *)
Fixpoint walk (steps fuel : nat) (P : proto) (buf : bytes) (l : layer) (pos : nat) : res (list got * nat) :=
  if Next l pos then
    match steps with
    | O => NoFuel
    | S n =>
        let! (g, pos) := FeatureCall fuel P buf l pos in
        let! (gs, pos) := walk n fuel P buf l pos in
        Ok (g :: gs, pos)
    end
  else Ok ([], pos).

(** ** Scaled geometries *)

(** A point of a scaled geometry *)
Definition rpt : Type := R * R.

Section Scaled.
  (** pbf.Round(v, .5, 0) of the protobuf library, which is not part of the repository *)
  Variable rnd : R -> R.

  (** mvt/read_feature_lazy.go:298-300 convertpt: a new point *)
  Definition convertpt (dim : R) (p : pt) : rpt := (rnd (IZR (fst p) / dim), rnd (IZR (snd p) / dim))%R.
  (** mvt/read_feature_lazy.go:302-307 convertln *)
  Definition convertln (dim : R) (ln : list pt) : list rpt := map (convertpt dim) ln.
  (** mvt/read_feature_lazy.go:309-314 convertlns *)
  Definition convertlns (dim : R) (lns : list (list pt)) : list (list rpt) := map (convertln dim) lns.

  (** A geom.GeometryData of the scaled geometry: [SEmpty] is the zero value, with an empty type. *)
  Inductive sgeom :=
  | SPoint (p : rpt) | SMultiPoint (ps : list rpt) | SLineString (l : list rpt)
  | SMultiLineString (ls : list (list rpt)) | SPolygon (rs : list (list rpt))
  | SMultiPolygon (ps : list (list (list rpt))) | SEmpty.

  (** mvt/read_feature_lazy.go:316-337 ConvertGeometry.  Not modelled: the argument is changed in
      place; it is the fresh value LoadGeometry made. *)
  Definition ConvertGeometry (g : geomdata) (dim : R) : sgeom :=
    match g with
    | GNil => SEmpty
    | GPoint p => SPoint (convertpt dim p)
    | GMultiPoint ps => SMultiPoint (convertln dim ps)
    | GLineString l => SLineString (convertln dim l)
    | GMultiLineString ls => SMultiLineString (convertlns dim ls)
    | GPolygon rs => SPolygon (convertlns dim rs)
    | GMultiPolygon ps => SMultiPolygon (map (convertlns dim) ps)
    end.

  (** mvt/read_feature_lazy.go:339-343 LoadGeometryScaled: the geometry and whether there is an
      error; on an error LoadGeometry returns a nil geometry. *)
  Definition LoadGeometryScaled (buf : bytes) (f : rfeat) (dim : R) : res (sgeom * bool) :=
    match LoadGeometry buf f with
    | Ok g => Ok (ConvertGeometry g dim, false)
    | Panic => Ok (ConvertGeometry GNil dim, true)
    | NoFuel => NoFuel
    end.
End Scaled.
