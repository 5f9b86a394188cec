(** Strings: the few functions of Go's [strconv] and [strings] used by the repository. *)
From Coq Require Import ZArith List Lia Bool String Ascii.
From Verif Require Import GoBase.
Import ListNotations.
Open Scope string_scope.
Open Scope Z_scope.

Definition zascii (a : ascii) : Z := Z.of_N (N_of_ascii a).
Definition asciiz (z : Z) : ascii := ascii_of_N (Z.to_N z).

Lemma zascii_asciiz z : 0 <= z < 256 -> zascii (asciiz z) = z.
Proof. intros; unfold zascii, asciiz; rewrite N_ascii_embedding; lia. Qed.
Lemma asciiz_zascii a : asciiz (zascii a) = a.
Proof. unfold zascii, asciiz. rewrite N2Z.id. apply ascii_N_embedding. Qed.
Lemma zascii_range a : 0 <= zascii a < 256.
Proof. unfold zascii. pose proof (N_ascii_bounded a). lia. Qed.

(** [strings.Contains(s, sep)] for a one-byte separator. *)
Fixpoint contains_char (c : ascii) (s : string) : bool :=
  match s with
  | EmptyString => false
  | String a r => Ascii.eqb a c || contains_char c r
  end.

(** [strings.Split(s, sep)] for a one-byte separator. *)
Fixpoint split_char (c : ascii) (s : string) : list string :=
  match s with
  | EmptyString => [""]
  | String a r =>
      if Ascii.eqb a c then "" :: split_char c r
      else match split_char c r with
           | h :: t => String a h :: t
           | [] => [String a ""]
           end
  end.

Lemma split_char_nonempty c s : split_char c s <> [].
Proof. induction s; cbn; [discriminate|]. destruct (Ascii.eqb a c); [discriminate|].
  destruct (split_char c s); discriminate. Qed.

Lemma split_char_none c s : contains_char c s = false -> split_char c s = [s].
Proof.
  induction s; cbn; auto. intros H. apply orb_false_iff in H as [H1 H2].
  rewrite H1, (IHs H2); auto.
Qed.

Lemma split_char_app c s r :
  contains_char c s = false -> split_char c (s ++ String c r) = s :: split_char c r.
Proof.
  induction s; cbn; intros H.
  - rewrite Ascii.eqb_refl; auto.
  - apply orb_false_iff in H as [H1 H2]. rewrite H1, (IHs H2); auto.
Qed.

Lemma contains_char_app c s r :
  contains_char c (s ++ r) = contains_char c s || contains_char c r.
Proof. induction s; cbn; auto. rewrite IHs, orb_assoc; auto. Qed.

(** Decimal digits of a non-negative number, most significant first. *)
Fixpoint dec_digits (fuel : nat) (n : Z) : list Z :=
  match fuel with
  | O => []
  | S f => if n <? 10 then [n] else (dec_digits f (n / 10) ++ [n mod 10])%list
  end.

Definition digit_char (d : Z) : ascii := asciiz (48 + d).
Definition digits_string (l : list Z) : string :=
  string_of_list_ascii (map digit_char l).

(** [strconv.FormatUint(n, 10)] *)
Definition utoa (n : Z) : string := digits_string (dec_digits (S (Z.to_nat (Z.log2 n))) n).
(** [strconv.Itoa(z)] *)
Definition itoa (z : Z) : string :=
  if z <? 0 then String "-" (utoa (- z)) else utoa z.

(** [strconv.ParseUint(s, 0, 64)]; simplification: a '_' between digits (accepted by
    Go when the base is 0) is a syntax error here. *)
Inductive numres := NumOk (n : Z) | NumRange | NumSyntax.

Definition lower (c : Z) : Z := if (65 <=? c) && (c <=? 90) then c + 32 else c.

Definition digit_val (a : ascii) : option Z :=
  let c := zascii a in
  if (48 <=? c) && (c <=? 57) then Some (c - 48)
  else if (97 <=? lower c) && (lower c <=? 122) then Some (lower c - 97 + 10)
  else None.

Fixpoint parse_loop (base : Z) (s : string) (n : Z) : numres :=
  match s with
  | EmptyString => NumOk n
  | String a r =>
      match digit_val a with
      | None => NumSyntax
      | Some d =>
          if base <=? d then NumSyntax
          else let n1 := n * base + d in
               if 2 ^ 64 <=? n1 then NumRange else parse_loop base r n1
      end
  end.

Definition parse_uint0 (s : string) : numres :=
  match s with
  | EmptyString => NumSyntax
  | String a r =>
      if zascii a =? 48 then
        match r with
        | String b (String c t) =>
            let l := lower (zascii b) in
            if l =? 98 then parse_loop 2 (String c t) 0
            else if l =? 111 then parse_loop 8 (String c t) 0
            else if l =? 120 then parse_loop 16 (String c t) 0
            else parse_loop 8 r 0
        | _ => parse_loop 8 r 0
        end
      else parse_loop 10 s 0
  end.

(** [strconv.ParseInt(s, 0, 64)]: the value and whether the error is nil. *)
Definition parse_int0 (s : string) : Z * bool :=
  match s with
  | EmptyString => (0, false)
  | String a r =>
      let neg := zascii a =? 45 in
      let body := if (zascii a =? 45) || (zascii a =? 43) then r else s in
      match parse_uint0 body with
      | NumSyntax => (0, false)
      | NumRange => if neg then (- 2 ^ 63, false) else (2 ^ 63 - 1, false)
      | NumOk un =>
          if negb neg && (2 ^ 63 <=? un) then (2 ^ 63 - 1, false)
          else if neg && (2 ^ 63 <? un) then (- 2 ^ 63, false)
          else (if neg then - un else un, true)
      end
  end.

(** ** Facts about printing and parsing *)

Definition dec_value (l : list Z) (a : Z) : Z := fold_left (fun a d => a * 10 + d) l a.

Lemma dec_digits_spec f : forall n, 0 <= n < 2 ^ Z.of_nat f -> (0 < f)%nat ->
  (exists d l, dec_digits f n = d :: l /\ (0 < n -> 0 < d)) /\
  (forall a, exists k, 0 <= k /\ dec_value (dec_digits f n) a = a * 10 ^ k + n) /\
  Forall (fun d => 0 <= d < 10) (dec_digits f n).
Proof.
  induction f as [|f IH]; intros n Hn Hf; [lia|].
  cbn [dec_digits]. destruct (n <? 10) eqn:E.
  - repeat split.
    + exists n, []. auto.
    + intros a. exists 1. split; [lia|]. cbn. lia.
    + repeat constructor; lia.
  - assert (Hd : 0 < n / 10) by (apply Z.div_str_pos; lia).
    assert (H2 : n / 10 < 2 ^ Z.of_nat f).
    { rewrite Nat2Z.inj_succ, Z.pow_succ_r in Hn by lia.
      apply Z.div_lt_upper_bound; lia. }
    assert (Hf' : (0 < f)%nat).
    { destruct f; [|lia]. cbn in H2. lia. }
    destruct (IH (n / 10)) as ((d & l & Hdl & Hpos) & Hval & Hall); [lia|lia|].
    repeat split.
    + exists d, (l ++ [n mod 10])%list. rewrite Hdl. split; auto. 
    + intros a. destruct (Hval a) as (k & Hk & Hv). exists (k + 1). split; [lia|].
      unfold dec_value in *. rewrite fold_left_app, Hv. cbn [fold_left].
      rewrite Z.pow_add_r by lia. pose proof (Z.div_mod n 10). nia.
    + apply Forall_app; split; auto. repeat constructor; pose proof (Z.mod_pos_bound n 10); lia.
Qed.

Lemma log2_fuel n : 0 <= n -> n < 2 ^ Z.of_nat (S (Z.to_nat (Z.log2 n))).
Proof.
  intros H. rewrite Nat2Z.inj_succ, Z2Nat.id by apply Z.log2_nonneg.
  destruct (Z.eq_dec n 0) as [->|]; [reflexivity|].
  apply Z.log2_spec; lia.
Qed.

Lemma digit_val_char d : 0 <= d < 10 -> digit_val (digit_char d) = Some d.
Proof.
  intros H. unfold digit_val, digit_char. rewrite zascii_asciiz by lia.
  replace ((48 <=? 48 + d) && (48 + d <=? 57)) with true by lia. f_equal; lia.
Qed.

Lemma dec_value_ge l : Forall (fun d => 0 <= d < 10) l -> forall a, 0 <= a -> a <= dec_value l a.
Proof.
  induction 1; intros a Ha; cbn; [lia|].
  specialize (IHForall (a * 10 + x)). unfold dec_value in *. lia.
Qed.

Lemma parse_loop_digits l : Forall (fun d => 0 <= d < 10) l -> forall a, 0 <= a ->
  dec_value l a < 2 ^ 64 -> parse_loop 10 (digits_string l) a = NumOk (dec_value l a).
Proof.
  induction 1; intros a Ha Hlt; [reflexivity|].
  unfold digits_string in *. cbn [map string_of_list_ascii parse_loop].
  rewrite digit_val_char by auto.
  replace (10 <=? x) with false by lia.
  pose proof (dec_value_ge l H0 (a * 10 + x)).
  change (dec_value (x :: l) a) with (dec_value l (a * 10 + x)) in *.
  replace (2 ^ 64 <=? a * 10 + x) with false by lia.
  apply IHForall; lia.
Qed.

Lemma parse_uint0_utoa n : 0 <= n < 2 ^ 64 -> parse_uint0 (utoa n) = NumOk n.
Proof.
  intros Hn. unfold utoa.
  destruct (dec_digits_spec (S (Z.to_nat (Z.log2 n))) n) as ((d & l & Hdl & Hpos) & Hval & Hall).
  { split; [lia|apply log2_fuel; lia]. }
  { lia. }
  destruct (Z.eq_dec n 0) as [->|].
  { reflexivity. }
  specialize (Hpos ltac:(lia)).
  destruct (Hval 0) as (k & Hk & Hv). rewrite Hdl in *.
  inversion Hall as [|? ? Hd0 Hl0]; subst.
  unfold digits_string. cbn [map string_of_list_ascii parse_uint0].
  unfold digit_char at 1. rewrite zascii_asciiz by lia.
  replace (48 + d =? 48) with false by lia.
  change (String (digit_char d) (string_of_list_ascii (map digit_char l))) with (digits_string (d :: l)).
  rewrite parse_loop_digits; [rewrite Hv; f_equal; lia | auto | lia | lia].
Qed.

Definition is_digit_char (a : ascii) : Prop := 48 <= zascii a <= 57.

Fixpoint sforall (P : ascii -> Prop) (s : string) : Prop :=
  match s with EmptyString => True | String a r => P a /\ sforall P r end.

Lemma sforall_digits l : Forall (fun d => 0 <= d < 10) l -> sforall is_digit_char (digits_string l).
Proof.
  induction 1; cbn; auto. split; auto. unfold is_digit_char, digit_char.
  rewrite zascii_asciiz; lia.
Qed.

Lemma utoa_digits n : 0 <= n -> sforall is_digit_char (utoa n) /\ utoa n <> "".
Proof.
  intros Hn. unfold utoa.
  destruct (dec_digits_spec (S (Z.to_nat (Z.log2 n))) n) as ((d & l & Hdl & Hpos) & Hval & Hall).
  { split; [lia|apply log2_fuel; lia]. } { lia. }
  split; [apply sforall_digits; auto|]. rewrite Hdl. discriminate.
Qed.

Lemma contains_digits c s : sforall is_digit_char s -> ~ is_digit_char c -> contains_char c s = false.
Proof.
  induction s; cbn; auto. intros [H1 H2] Hc. rewrite IHs by auto.
  rewrite orb_false_r. apply Ascii.eqb_neq. intros ->. auto.
Qed.

Lemma parse_int0_itoa z : in_i64 z -> parse_int0 (itoa z) = (z, true).
Proof.
  unfold in_i64, itoa. intros Hz. destruct (z <? 0) eqn:E.
  - cbn [parse_int0]. change (zascii "-" =? 45) with true. cbn [orb negb andb].
    rewrite parse_uint0_utoa by lia.
    replace (2 ^ 63 <? - z) with false by lia. f_equal; lia.
  - destruct (utoa_digits z) as [Hd Hne]; [lia|].
    pose proof (parse_uint0_utoa z ltac:(lia)) as Hp.
    destruct (utoa z) as [|a r] eqn:Eu; [congruence|].
    cbn [sforall] in Hd. destruct Hd as [Ha _]. unfold is_digit_char in Ha.
    cbn [parse_int0].
    replace (zascii a =? 45) with false by lia. replace (zascii a =? 43) with false by lia.
    cbn [orb negb andb]. rewrite Hp. replace (2 ^ 63 <=? z) with false by lia. reflexivity.
Qed.
