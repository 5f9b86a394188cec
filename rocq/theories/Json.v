(** Go strings, call outcomes and decoded JSON documents. *)
From Coq Require Import String Ascii ZArith Reals List Lia Bool.
From Verif Require Import GoBase.
Import ListNotations.
Open Scope Z_scope.

(** A Go string: its bytes *)
Definition gstr := list Z.
Definition B (s : string) : gstr := map (fun c => Z.of_N (N_of_ascii c)) (list_ascii_of_string s).
Arguments B s%string.
Fixpoint seqb (a b : gstr) : bool :=
  match a, b with
  | [], [] => true
  | x :: a', y :: b' => (x =? y) && seqb a' b'
  | _, _ => false
  end.
Lemma seqb_spec a b : reflect (a = b) (seqb a b).
Proof.
  revert b. induction a as [|x a IH]; intros [|y b]; cbn; try (constructor; congruence).
  destruct (Z.eqb_spec x y); cbn; [destruct (IH b)|]; constructor; congruence.
Qed.
Lemma seqb_refl a : seqb a a = true.
Proof. destruct (seqb_spec a a); congruence. Qed.

(** Outcome of a call returning a value and an error: the value, a non-nil error, or a run-time panic *)
Inductive out (A : Type) := Val (a : A) | Err | Crash.
Arguments Val {A}. Arguments Err {A}. Arguments Crash {A}.
Definition obind {A C} (r : out A) (f : A -> out C) : out C :=
  match r with Val a => f a | Err => Err | Crash => Crash end.

(** A JSON document as encoding/json sees it; text and number syntax are not modelled *)
Inductive json := JNull | JBool (b : bool) | JNum (r : R) | JStr (s : gstr) | JArr (l : list json) | JObj (l : list (gstr * json)).
