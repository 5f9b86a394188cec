(** The memory the geometry decoder asks for: the arguments of the calls
    [make([][]float64, length+1)] in mvt/read_feature_lazy.go:170, and in the same loop of
    mvt/read_tile.go:209 and 458. *)
From Coq Require Import ZArith List Bool.
From Verif Require Import GoBase MvtGeom_Model.
Import ListNotations.
Open Scope Z_scope.

(** mvt/read_feature_lazy.go:154-195, the loop of [geom_loop], keeping the requested sizes in
    order instead of the points.  A panic ends the list: what was requested before it stays
    requested.  uint32 command numbers are [Z] values in range, so [cmdLen >> 3] is
    [Z.shiftr]. *)
Fixpoint made_loop (fuel : nat) (gtype : Z) (first : bool) (fp : option pt) (g : list Z) : list Z :=
  match g with
  | [] => []
  | c :: r =>
      match fuel with
      | O => []
      | S f =>
          if c =? 9 then
            match r with
            | x :: y :: r2 =>
                let go fp1 :=
                  match r2 with
                  | [] => []
                  | cmd :: r3 =>
                      let '(_, fp2, r4) := read_pairs r3 (Z.shiftr cmd 3) fp1 in
                      (Z.shiftr cmd 3 + 1) :: made_loop f gtype false (Some fp2) r4
                  end in
                if negb first && ((gtype =? 2) || (gtype =? 3)) then
                  match fp with
                  | None => []
                  | Some q => go (fst q + DeltaDim x, snd q + DeltaDim y)
                  end
                else go (DeltaDim x, DeltaDim y)
            | _ => []
            end
          else made_loop f gtype false fp r
      end
  end.

(** mvt/read_feature_lazy.go:138-195 LoadGeometry: the slots requested for one geometry. *)
Definition GeometryMade (gtype : Z) (g : list Z) : list Z := made_loop (length g) gtype true None g.
