(** What a distance transform is. *)
From Coq Require Import Reals List.
Import ListNotations.
Open Scope R_scope.

(** [m] is the minimum of [g] over the indexes below [n]. *)
Definition is_min (n : nat) (g : nat -> R) (m : R) : Prop :=
  (forall p, (p < n)%nat -> m <= g p) /\ exists p, (p < n)%nat /\ m = g p.
(** ... and over a grid of w columns and h rows *)
Definition is_min2 (w h : nat) (g : nat -> nat -> R) (m : R) : Prop :=
  (forall x y, (x < w)%nat -> (y < h)%nat -> m <= g x y) /\ exists x y, (x < w)%nat /\ (y < h)%nat /\ m = g x y.

Definition sq (a b : nat) : R := (INR a - INR b) ^ 2.
