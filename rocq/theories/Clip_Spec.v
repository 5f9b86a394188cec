(** What clipping is supposed to mean, stated without reference to the code: segments and
    polylines as point sets, and even-odd membership by counting edge crossings. *)
From Coq Require Import Reals List Bool Lra.
From Verif Require Import Num.
Import ListNotations.
Open Scope R_scope.

Notation rpt := (R * R)%type (only parsing).

(** The closed segment from [a] to [b]. *)
Definition seg (a b p : rpt) : Prop :=
  exists t, 0 <= t <= 1 /\
    fst p = fst a + t * (fst b - fst a) /\ snd p = snd a + t * (snd b - snd a).

(** The polyline through the vertices of [l] as a set of points. *)
Fixpoint on_line (l : list rpt) (p : rpt) : Prop :=
  match l with
  | [] => False
  | [a] => p = a
  | a :: ((b :: _) as r) => seg a b p \/ on_line r p
  end.

Definition on_lines (ls : list (list rpt)) (p : rpt) : Prop := exists l, In l ls /\ on_line l p.

(** [p] lies between [lo] and [hi] on the given axis (false: x, true: y). *)
Definition in_band (axis : bool) (lo hi : R) (p : rpt) : Prop :=
  lo <= (if axis then snd p else fst p) <= hi.

(** Does the edge [a]-[b] cross the vertical ray going up from [p]? *)
Definition crosses (p a b : rpt) : bool :=
  xorb (Rleb (fst a) (fst p)) (Rleb (fst b) (fst p)) &&
  Rltb (snd p) (snd a + (fst p - fst a) / (fst b - fst a) * (snd b - snd a)).

Fixpoint edges (l : list rpt) : list (rpt * rpt) :=
  match l with
  | a :: ((b :: _) as r) => (a, b) :: edges r
  | _ => []
  end.

Definition parity (p : rpt) (es : list (rpt * rpt)) : bool :=
  fold_right (fun e acc => xorb (crosses p (fst e) (snd e)) acc) false es.

(** Edges of a ring, joining the last vertex back to the first. *)
Definition ring_edges (l : list rpt) : list (rpt * rpt) :=
  match l with
  | [] => []
  | f :: _ => edges (l ++ [f])
  end.

(** Even-odd membership in the polygon with the given rings. *)
Definition even_odd (rings : list (list rpt)) (p : rpt) : bool :=
  fold_right (fun r acc => xorb (parity p (ring_edges r)) acc) false rings.
