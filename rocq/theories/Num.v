(** Arithmetic interface: float64 code is written once over [NumOps] and instantiated with the
    reals (exact arithmetic) and, where a claim is about rounding, with IEEE-754 binary64. *)
From Coq Require Import ZArith Reals Lra Bool.
From Flocq Require Import Core BinarySingleNaN.
From Verif Require Import GoBase TileF64_Model.
Open Scope R_scope.

Record NumOps (F : Type) := mkNum {
  nadd : F -> F -> F; nsub : F -> F -> F; nmul : F -> F -> F; ndiv : F -> F -> F;
  nabs : F -> F;
  nleb : F -> F -> bool; nltb : F -> F -> bool; neqb : F -> F -> bool;
  nzero : F }.
Arguments nadd {F}. Arguments nsub {F}. Arguments nmul {F}. Arguments ndiv {F}. Arguments nabs {F}.
Arguments nleb {F}. Arguments nltb {F}. Arguments neqb {F}. Arguments nzero {F}.

Definition Rleb (x y : R) : bool := if Rle_dec x y then true else false.
Definition Rltb (x y : R) : bool := if Rlt_dec x y then true else false.
Definition Reqb (x y : R) : bool := if Req_EM_T x y then true else false.

Definition RNum : NumOps R := mkNum R Rplus Rminus Rmult Rdiv Rabs Rleb Rltb Reqb 0.

Definition F64Num : NumOps f64 :=
  mkNum f64 (Bplus mode_NE) (Bminus mode_NE) (Bmult mode_NE) (Bdiv mode_NE) Babs
        Bleb Bltb Beqb (B754_zero false).

Lemma Rleb_spec x y : reflect (x <= y) (Rleb x y).
Proof. unfold Rleb. destruct (Rle_dec x y); constructor; auto. Qed.
Lemma Rltb_spec x y : reflect (x < y) (Rltb x y).
Proof. unfold Rltb. destruct (Rlt_dec x y); constructor; auto. Qed.
Lemma Reqb_spec x y : reflect (x = y) (Reqb x y).
Proof. unfold Reqb. destruct (Req_EM_T x y); constructor; auto. Qed.

Lemma Rleb_true x y : Rleb x y = true <-> x <= y.
Proof. destruct (Rleb_spec x y); split; auto; discriminate || contradiction. Qed.
Lemma Rleb_false x y : Rleb x y = false <-> y < x.
Proof. destruct (Rleb_spec x y); split; auto; try discriminate; lra. Qed.
Lemma Rltb_true x y : Rltb x y = true <-> x < y.
Proof. destruct (Rltb_spec x y); split; auto; discriminate || contradiction. Qed.
Lemma Rltb_false x y : Rltb x y = false <-> y <= x.
Proof. destruct (Rltb_spec x y); split; auto; try discriminate; lra. Qed.
Lemma Reqb_true x y : Reqb x y = true <-> x = y.
Proof. destruct (Reqb_spec x y); split; auto; discriminate || contradiction. Qed.
Lemma Reqb_refl x : Reqb x x = true.
Proof. apply Reqb_true; auto. Qed.
