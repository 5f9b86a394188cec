(** Go slices indexed by non-negative integers, with writes. *)
From Coq Require Import ZArith List Lia Bool Arith.
From Verif Require Import GoBase.
Import ListNotations.
Open Scope nat_scope.

(** [l[i]]: panics when out of range. *)
Definition get {A} (l : list A) (i : nat) : res A :=
  match nth_error l i with Some a => Ok a | None => Panic end.

Fixpoint upd {A} (l : list A) (i : nat) (x : A) : list A :=
  match l, i with
  | [], _ => []
  | _ :: r, O => x :: r
  | a :: r, S i => a :: upd r i x
  end.
(** [l[i] = x]: panics when out of range. *)
Definition set_at {A} (l : list A) (i : nat) (x : A) : res (list A) :=
  if i <? length l then Ok (upd l i x) else Panic.

(** [for _, x := range l { s = f(s, x) }] with panics; [for i := a; i < b; i++] is over [seq a (b - a)]. *)
Fixpoint for_each {S A} (f : S -> A -> res S) (l : list A) (s : S) : res S :=
  match l with
  | [] => Ok s
  | a :: r => let! s' := f s a in for_each f r s'
  end.

Lemma get_ok {A} (l : list A) i d : i < length l -> get l i = Ok (nth i l d).
Proof. intros H. unfold get. rewrite (nth_error_nth' l d H). reflexivity. Qed.
Lemma upd_length {A} (l : list A) : forall i x, length (upd l i x) = length l.
Proof. induction l as [|a l IH]; intros [|i] x; cbn; auto. Qed.
Lemma nth_upd {A} (l : list A) : forall i j x d, i < length l -> nth j (upd l i x) d = if j =? i then x else nth j l d.
Proof. induction l as [|a l IH]; intros [|i] [|j] x d H; cbn in *; auto; try lia. apply IH. lia. Qed.
Lemma set_at_ok {A} (l : list A) i x : i < length l -> set_at l i x = Ok (upd l i x).
Proof. intros H. unfold set_at. apply Nat.ltb_lt in H as ->. reflexivity. Qed.
Lemma for_each_app {S A} (f : S -> A -> res S) l1 : forall l2 s, for_each f (l1 ++ l2) s = (let! s' := for_each f l1 s in for_each f l2 s').
Proof. induction l1 as [|a l1 IH]; intros l2 s; cbn [for_each app bind]; auto. destruct (f s a); cbn [bind]; auto. Qed.

(** Loop rule for [seq] *)
Lemma for_seq {S} (P : nat -> S -> Prop) (f : S -> nat -> res S) a n : forall s,
  P a s -> (forall i s, a <= i < a + n -> P i s -> exists s', f s i = Ok s' /\ P (i + 1) s') ->
  exists s', for_each f (seq a n) s = Ok s' /\ P (a + n) s'.
Proof.
  revert a. induction n as [|n IH]; intros a s H0 H; cbn [seq for_each].
  - exists s. rewrite Nat.add_0_r. auto.
  - destruct (H a s) as (s1 & E & H1); [lia|auto|]. rewrite E. cbn [bind]. replace (a + 1) with (Datatypes.S a) in H1 by lia.
    destruct (IH (Datatypes.S a) s1 H1) as (s2 & E2 & H2); [intros; apply H; auto; lia|]. exists s2. rewrite E2. replace (a + Datatypes.S n) with (Datatypes.S a + n) by lia. auto.
Qed.

(** a, a+1, ..., n numbers: [for i := a; i < b; i++] with possibly negative bounds *)
Fixpoint zseq (a : Z) (n : nat) : list Z :=
  match n with O => [] | Datatypes.S n => a :: zseq (a + 1) n end.
Lemma zseq_in n : forall a x, In x (zseq a n) <-> (a <= x < a + Z.of_nat n)%Z.
Proof. induction n as [|n IH]; intros a x; cbn [zseq In]; [lia|]. rewrite IH. lia. Qed.
Lemma for_zseq {S} (P : Z -> S -> Prop) (f : S -> Z -> res S) a n : forall s,
  P a s -> (forall i s, (a <= i < a + Z.of_nat n)%Z -> P i s -> exists s', f s i = Ok s' /\ P (i + 1)%Z s') ->
  exists s', for_each f (zseq a n) s = Ok s' /\ P (a + Z.of_nat n)%Z s'.
Proof.
  revert a. induction n as [|n IH]; intros a s H0 H; cbn [zseq for_each].
  - exists s. rewrite Z.add_0_r. auto.
  - destruct (H a s) as (s1 & E & H1); [lia|auto|]. rewrite E. cbn [bind].
    destruct (IH (a + 1)%Z s1 H1) as (s2 & E2 & H2); [intros; apply H; auto; lia|]. exists s2. rewrite E2. replace (a + Z.of_nat (Datatypes.S n))%Z with (a + 1 + Z.of_nat n)%Z by lia. auto.
Qed.
