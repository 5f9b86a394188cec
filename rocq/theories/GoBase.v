(** Shared vocabulary for the transcription of Go code into Gallina. *)
From Coq Require Import ZArith List Lia Bool.
From Coq Require Export ZifyBool ZifyNat ZifyN.
Import ListNotations.
Open Scope Z_scope.

(** Outcome of running a piece of Go code: a value, a run-time panic, or "the fuel
    given to the model ran out" (never confused with a value). *)
Inductive res (A : Type) : Type :=
| Ok (a : A)
| Panic
| NoFuel.
Arguments Ok {A} a.
Arguments Panic {A}.
Arguments NoFuel {A}.

Definition bind {A B} (r : res A) (f : A -> res B) : res B :=
  match r with Ok a => f a | Panic => Panic | NoFuel => NoFuel end.

Declare Scope go_scope.
Delimit Scope go_scope with go.
Notation "'let!' x ':=' e 'in' k" := (bind e (fun x => k))
  (at level 200, x pattern, e at level 100, k at level 200) : go_scope.
Open Scope go_scope.

Definition is_ok {A} (r : res A) : bool :=
  match r with Ok _ => true | _ => false end.

(** ** Machine integers *)

Definition u32 (z : Z) : Z := z mod 2 ^ 32.
Definition u64 (z : Z) : Z := z mod 2 ^ 64.
Definition u8 (z : Z) : Z := z mod 2 ^ 8.
Definition wrap32 (z : Z) : Z := (z + 2 ^ 31) mod 2 ^ 32 - 2 ^ 31.
Definition wrap64 (z : Z) : Z := (z + 2 ^ 63) mod 2 ^ 64 - 2 ^ 63.

Definition in_i32 (z : Z) : Prop := - 2 ^ 31 <= z < 2 ^ 31.
Definition in_i64 (z : Z) : Prop := - 2 ^ 63 <= z < 2 ^ 63.
Definition in_u32 (z : Z) : Prop := 0 <= z < 2 ^ 32.
Definition in_u64 (z : Z) : Prop := 0 <= z < 2 ^ 64.
Definition is_byte (z : Z) : Prop := 0 <= z < 256.

Lemma wrap32_id z : in_i32 z -> wrap32 z = z.
Proof. unfold in_i32, wrap32; intros; rewrite Z.mod_small; lia. Qed.
Lemma wrap64_id z : in_i64 z -> wrap64 z = z.
Proof. unfold in_i64, wrap64; intros; rewrite Z.mod_small; lia. Qed.
Lemma u32_id z : in_u32 z -> u32 z = z.
Proof. unfold in_u32, u32; intros; apply Z.mod_small; lia. Qed.
Lemma u64_id z : in_u64 z -> u64 z = z.
Proof. unfold in_u64, u64; intros; apply Z.mod_small; lia. Qed.
Lemma wrap32_range z : in_i32 (wrap32 z).
Proof. unfold in_i32, wrap32. pose proof (Z.mod_pos_bound (z + 2^31) (2^32)); lia. Qed.
Lemma wrap64_range z : in_i64 (wrap64 z).
Proof. unfold in_i64, wrap64. pose proof (Z.mod_pos_bound (z + 2^63) (2^64)); lia. Qed.
Lemma u32_range z : in_u32 (u32 z).
Proof. unfold in_u32, u32. apply Z.mod_pos_bound; lia. Qed.
Lemma u64_range z : in_u64 (u64 z).
Proof. unfold in_u64, u64. apply Z.mod_pos_bound; lia. Qed.

(** ** Slices *)

(** [nth_res l i] is the Go expression [l[i]]: panics when out of range. *)
Definition nth_res {A} (l : list A) (i : Z) : res A :=
  if i <? 0 then Panic else
  match nth_error l (Z.to_nat i) with Some a => Ok a | None => Panic end.

Definition zlen {A} (l : list A) : Z := Z.of_nat (length l).

Lemma nth_res_ok {A} (l : list A) i a :
  nth_res l i = Ok a <-> 0 <= i /\ nth_error l (Z.to_nat i) = Some a.
Proof.
  unfold nth_res. destruct (i <? 0) eqn:E.
  - split; [discriminate|lia].
  - destruct (nth_error l (Z.to_nat i)); split.
    + intros H; inversion H; subst; split; auto; lia.
    + intros [_ H]; inversion H; auto.
    + discriminate.
    + intros [_ H]; discriminate.
Qed.

(** Go map equality of keys is decided by a boolean function. *)
Fixpoint assoc {K V} (eqb : K -> K -> bool) (k : K) (m : list (K * V)) : option V :=
  match m with
  | [] => None
  | (k', v) :: r => if eqb k k' then Some v else assoc eqb k r
  end.
