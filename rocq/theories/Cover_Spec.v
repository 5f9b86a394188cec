(** Specification of point-in-polygon and of "tile meets polygon", without the code's helpers. *)
From Coq Require Import ZArith Reals List Bool.
From Verif Require Import Num Clip_Spec.
Import ListNotations.
Open Scope R_scope.

(** Does the edge [a]-[b] cross the half-open horizontal ray going right from [p]?  It does when
    exactly one end is at or below the height of [p] and the edge meets that height strictly to
    the right of [p]. *)
Definition crosses_right (p a b : rpt) : Prop :=
  ((snd a <= snd p < snd b) \/ (snd b <= snd p < snd a)) /\
  exists q, seg a b q /\ snd q = snd p /\ fst p < fst q.

(** [p] is inside by the even-odd rule when the number of such edges is odd: [l] lists the
    positions (counted over all rings) of the crossing edges. *)
Definition all_edges (rings : list (list rpt)) : list (rpt * rpt) := flat_map ring_edges rings.
Definition inside (rings : list (list rpt)) (p : rpt) : Prop :=
  exists l : list nat, NoDup l /\ Nat.odd (length l) = true /\
    forall i, In i l <-> exists e, nth_error (all_edges rings) i = Some e /\ crosses_right p (fst e) (snd e).
