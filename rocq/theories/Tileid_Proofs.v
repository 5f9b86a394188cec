(** Lemmas about Tileid_Model. *)
From Coq Require Import ZArith List Lia Bool String Ascii.
From Verif Require Import GoBase GoStr Tileid_Model.
Import ListNotations.
Open Scope string_scope.
Open Scope Z_scope.

(** ** Printed tiles *)

Lemma itoa_no_char c z : ~ is_digit_char c -> (c <> "-"%char \/ 0 <= z) ->
  contains_char c (itoa z) = false.
Proof.
  intros Hd Hc. unfold itoa. destruct (z <? 0) eqn:E.
  - cbn [contains_char]. destruct Hc as [Hc|]; [|lia].
    rewrite (contains_digits c (utoa (- z))); auto; [|apply utoa_digits; lia].
    rewrite orb_false_r. apply Ascii.eqb_neq. congruence.
  - apply contains_digits; auto. apply utoa_digits; lia.
Qed.

Lemma split_tile_print sep t :
  ~ is_digit_char sep -> (sep <> "-"%char \/ (0 <= tX t /\ 0 <= tY t /\ 0 <= wrap64 (tZ t))) ->
  split_char sep (tile_print sep t) = [itoa (tX t); itoa (tY t); itoa (wrap64 (tZ t))].
Proof.
  intros Hd Hs. unfold tile_print.
  rewrite split_char_app by (apply itoa_no_char; intuition).
  rewrite split_char_app by (apply itoa_no_char; intuition).
  rewrite split_char_none by (apply itoa_no_char; intuition).
  reflexivity.
Qed.

Lemma u64_wrap64 z : in_u64 z -> u64 (wrap64 z) = z.
Proof.
  unfold in_u64, u64, wrap64. intros.
  destruct (Z_lt_dec z (2 ^ 63)).
  - rewrite (Z.mod_small (z + 2 ^ 63)) by lia. rewrite Z.mod_small; lia.
  - replace ((z + 2 ^ 63) mod 2 ^ 64) with (z - 2 ^ 63).
    + replace (z - 2 ^ 63 - 2 ^ 63) with (z + (-1) * 2 ^ 64) by lia.
      rewrite Z.mod_add by lia. apply Z.mod_small; lia.
    + symmetry. replace (z + 2 ^ 63) with (z - 2 ^ 63 + 1 * 2 ^ 64) by lia.
      rewrite Z.mod_add by lia. apply Z.mod_small; lia.
Qed.

Lemma tile_of_pieces3 a b c r : tile_of_pieces (a :: b :: c :: r) =
  Ok (mkTile (fst (parse_int0 a)) (fst (parse_int0 b)) (u64 (fst (parse_int0 c)))).
Proof. reflexivity. Qed.
Opaque tile_of_pieces.

Lemma tile_of_printed t : tile_wf t ->
  tile_of_pieces [itoa (tX t); itoa (tY t); itoa (wrap64 (tZ t))] = Ok t.
Proof.
  intros (Hx & Hy & Hz). rewrite tile_of_pieces3, !parse_int0_itoa; auto using wrap64_range. cbn [fst].
  rewrite u64_wrap64 by auto. destruct t; reflexivity.
Qed.

Ltac not_digit := match goal with |- ~ is_digit_char _ => unfold is_digit_char; vm_compute; intuition discriminate end.

Lemma Strtile_Tilestr t : tile_wf t -> Strtile (Tilestr t) = Ok t.
Proof.
  intros H. unfold Strtile, Tilestr. rewrite split_tile_print.
  - apply tile_of_printed; auto.
  - not_digit.
  - left; discriminate.
Qed.

Lemma contains_print c sep t : ~ is_digit_char c ->
  (c <> "-"%char \/ (0 <= tX t /\ 0 <= tY t /\ 0 <= wrap64 (tZ t))) ->
  contains_char c (tile_print sep t) = Ascii.eqb sep c.
Proof.
  intros Hd Hc. unfold tile_print.
  rewrite contains_char_app. cbn [contains_char]. rewrite contains_char_app. cbn [contains_char].
  rewrite !itoa_no_char by (auto; intuition).
  destruct (Ascii.eqb sep c); reflexivity.
Qed.

Lemma wrap64_nonneg z : in_u64 z -> (0 <= wrap64 z <-> z < 2 ^ 63).
Proof.
  intros H. pose proof (u64_wrap64 z H) as E. pose proof (wrap64_range z).
  unfold in_u64, in_i64, u64 in *. split; intros.
  - rewrite Z.mod_small in E by lia. lia.
  - rewrite wrap64_id; [|unfold in_i64]; lia.
Qed.

Lemma TileFromString_print sep t : tile_wf t ->
  0 <= tX t -> 0 <= tY t -> tZ t < 2 ^ 63 ->
  In sep ["-"; "/"; "_"; ","; " "]%char ->
  TileFromString (tile_print sep t) = Ok t.
Proof.
  intros Hwf Hx Hy Hz Hin.
  assert (H0 : 0 <= wrap64 (tZ t)) by (apply wrap64_nonneg; [apply Hwf|auto]).
  unfold TileFromString.
  rewrite !contains_print by solve [not_digit | right; auto].
  cbn [In] in Hin.
  repeat (destruct Hin as [<-|Hin]; [cbn [Ascii.eqb Bool.eqb];
    rewrite split_tile_print; [apply tile_of_printed; auto|not_digit|right; auto]|]).
  destruct Hin.
Qed.

Lemma TileFromString_file_negative t : tile_wf t ->
  ~ (0 <= tX t /\ 0 <= tY t /\ tZ t < 2 ^ 63) ->
  TileFromString (TilestrFile t) <> Ok t.
Proof.
  intros Hwf Hn. destruct Hwf as (Hx & Hy & Hz).
  unfold TileFromString.
  assert (Hc : contains_char "-" (TilestrFile t) = true).
  { unfold TilestrFile, tile_print. rewrite contains_char_app. cbn [contains_char].
    apply orb_true_r. }
  rewrite Hc. unfold TilestrFile, tile_print.
  assert (Hd : ~ is_digit_char "-") by not_digit.
  destruct (Z_lt_dec (tX t) 0) as [Lx|Lx].
  { (* "-n-..." : the first piece is empty *)
    unfold itoa at 1. replace (tX t <? 0) with true by lia.
    cbn [append split_char Ascii.eqb Bool.eqb].
    rewrite split_char_app by (apply contains_digits; auto; apply utoa_digits; lia).
    destruct (split_char "-" _) as [|p l] eqn:E; [destruct (split_char_nonempty _ _ E)|].
    rewrite tile_of_pieces3. change (fst (parse_int0 "")) with 0. intros HH. inversion HH as [H1]. destruct t; cbn in *.
    injection H1; intros; lia. }
  rewrite split_char_app by (apply itoa_no_char; auto; lia).
  destruct (Z_lt_dec (tY t) 0) as [Ly|Ly].
  { unfold itoa at 2. replace (tY t <? 0) with true by lia.
    cbn [append split_char Ascii.eqb Bool.eqb].
    rewrite split_char_app by (apply contains_digits; auto; apply utoa_digits; lia).
    rewrite tile_of_pieces3, parse_int0_itoa by auto. cbn [fst].
    intros HH. inversion HH as [H1]. destruct t; cbn in *. injection H1; intros; lia. }
  rewrite split_char_app by (apply itoa_no_char; auto; lia).
  assert (Lz : wrap64 (tZ t) < 0).
  { pose proof (wrap64_nonneg (tZ t) Hz). lia. }
  unfold itoa at 3. replace (wrap64 (tZ t) <? 0) with true by lia.
  cbn [append split_char Ascii.eqb Bool.eqb].
  rewrite tile_of_pieces3, !parse_int0_itoa by auto. cbn [fst].
  intros HH. inversion HH as [H1]. destruct t; cbn in *. injection H1; intros.
  change (u64 0) with 0 in *. lia.
Qed.

Lemma TileFromString_no_delim s :
  (forall c, In c ["-"; "/"; "_"; ","; " "]%char -> contains_char c s = false) ->
  TileFromString s = Panic.
Proof.
  intros H. unfold TileFromString.
  rewrite !H; cbn; auto 10.
Qed.

(** ** Quadkeys *)

Lemma go_mask_small i : (i < 63)%nat -> go_mask i = 2 ^ Z.of_nat i.
Proof.
  intros. unfold go_mask. apply wrap64_id. unfold in_i64.
  pose proof (Z.pow_lt_mono_r 2 (Z.of_nat i) 63). pose proof (Z.pow_pos_nonneg 2 (Z.of_nat i)). lia.
Qed.
Lemma go_mask_big i : (64 <= i)%nat -> go_mask i = 0.
Proof.
  intros. unfold go_mask, wrap64.
  replace (2 ^ Z.of_nat i) with (2 ^ (Z.of_nat i - 64) * 2 ^ 64)
    by (rewrite <- Z.pow_add_r by lia; f_equal; lia).
  rewrite Z.add_comm, Z.mod_add by lia. reflexivity.
Qed.
Lemma go_mask_63 : go_mask 63 = - 2 ^ 63.
Proof. reflexivity. Qed.

Lemma land_pow2 x i : 0 <= i -> Z.land x (2 ^ i) = if Z.testbit x i then 2 ^ i else 0.
Proof.
  intros Hi. apply Z.bits_inj'. intros n Hn.
  rewrite Z.land_spec, Z.pow2_bits_eqb by auto.
  destruct (Z.eqb_spec i n) as [->|Hne].
  - destruct (Z.testbit x n) eqn:E; [rewrite Z.pow2_bits_true by auto; auto|rewrite Z.bits_0; auto].
  - rewrite andb_false_r. destruct (Z.testbit x i); [rewrite Z.pow2_bits_false by auto; auto|rewrite Z.bits_0; auto].
Qed.

Definition bit63 (x : Z) (i : nat) : bool := (i <? 63)%nat && Z.testbit x (Z.of_nat i).

Lemma mask_test x i : in_i64 x -> (Z.land x (go_mask i) >? 0) = bit63 x i.
Proof.
  intros Hx. unfold bit63. destruct (i <? 63)%nat eqn:E; cbn [andb].
  - rewrite go_mask_small by lia. rewrite land_pow2 by lia.
    pose proof (Z.pow_pos_nonneg 2 (Z.of_nat i)). destruct (Z.testbit x (Z.of_nat i)); lia.
  - destruct (Nat.eq_dec i 63) as [->|].
    + rewrite go_mask_63. destruct (Z_lt_dec x 0).
      * assert (Z.land x (- 2 ^ 63) < 0) by (apply Z.land_neg; lia). lia.
      * unfold in_i64 in Hx. assert (Z.land x (- 2 ^ 63) = 0); [|lia].
        apply Z.bits_inj'. intros j Hn. rewrite Z.land_spec, Z.bits_0.
        destruct (Z_lt_dec j 63).
        -- replace (- 2 ^ 63) with ((-1) * 2 ^ 63) by lia.
           rewrite Z.mul_pow2_bits_low by lia. apply andb_false_r.
        -- rewrite (Z.bits_above_log2 x j); [reflexivity|lia|].
           destruct (Z.eq_dec x 0) as [->|]; [cbn; lia|].
           apply Z.log2_lt_pow2; [lia|].
           pose proof (Z.pow_le_mono_r 2 63 j). lia.
    + rewrite go_mask_big by lia. rewrite Z.land_0_r. reflexivity.
Qed.

Definition qd (a b : bool) : Z := (if a then 1 else 0) + (if b then 2 else 0).

Lemma qk_digit_eq x y i : in_i64 x -> in_i64 y ->
  qk_digit x y i = digit_char (qd (bit63 x i) (bit63 y i)).
Proof. intros. unfold qk_digit. rewrite !mask_test by auto. reflexivity. Qed.

Lemma sreverse_app a b : sreverse (a ++ b) = sreverse b ++ sreverse a.
Proof.
  induction a; cbn.
  - induction (sreverse b); cbn; congruence.
  - rewrite IHa. clear. induction (sreverse b); cbn; congruence.
Qed.
Lemma sreverse_involutive s : sreverse (sreverse s) = s.
Proof. induction s; cbn; auto. rewrite sreverse_app, IHs. reflexivity. Qed.
Lemma sapp_assoc (a b c : string) : (a ++ b) ++ c = a ++ (b ++ c).
Proof. induction a; cbn; congruence. Qed.
Lemma sapp_nil (a : string) : a ++ "" = a.
Proof. induction a; cbn; congruence. Qed.
Lemma slength_app (a b : string) : String.length (a ++ b) = (String.length a + String.length b)%nat.
Proof. induction a; cbn; congruence. Qed.
Lemma slength_reverse s : String.length (sreverse s) = String.length s.
Proof. induction s; cbn; auto. rewrite slength_app, IHs. cbn. lia. Qed.

(** The reversed quadkey lists the digits from position 0 up. *)
Fixpoint qk_up (n : nat) (i : nat) (x y : Z) : string :=
  match n with
  | O => ""
  | S m => String (qk_digit x y i) (qk_up m (S i) x y)
  end.

Lemma qk_up_snoc n : forall i x y, qk_up (S n) i x y = qk_up n i x y ++ String (qk_digit x y (i + n)) "".
Proof.
  induction n; intros.
  - cbn. rewrite Nat.add_0_r. reflexivity.
  - change (qk_up (S (S n)) i x y) with (String (qk_digit x y i) (qk_up (S n) (S i) x y)).
    rewrite IHn. cbn [qk_up append]. do 4 f_equal. lia.
Qed.

Lemma sreverse_quadkey n x y : sreverse (quadkey_loop n x y) = qk_up n 0 x y.
Proof.
  induction n; cbn [quadkey_loop sreverse]; auto.
  rewrite IHn, qk_up_snoc. reflexivity.
Qed.

Lemma zascii_digit d : 0 <= d < 10 -> zascii (digit_char d) = 48 + d.
Proof. intros. unfold digit_char. apply zascii_asciiz. lia. Qed.

(** The coordinate bits a sequence of digits stands for: bit [i] of [v] below 63. *)
Definition low_bits (v : Z) (k : nat) (out : Z) : Prop :=
  forall i, 0 <= i -> Z.testbit out i = (i <? Z.of_nat k) && (i <? 63) && Z.testbit v i.

Lemma low_bits_step v k out : low_bits v k out ->
  low_bits v (S k) (if bit63 v k then Z.lor out (go_mask k) else out).
Proof.
  intros H i Hi. unfold bit63.
  destruct (k <? 63)%nat eqn:E; cbn [andb].
  - destruct (Z.testbit v (Z.of_nat k)) eqn:Eb.
    + rewrite Z.lor_spec, H by auto. rewrite go_mask_small, Z.pow2_bits_eqb by lia.
      destruct (Z.eqb_spec (Z.of_nat k) i) as [<-|].
      * rewrite Eb, orb_true_r. lia.
      * rewrite orb_false_r. replace (i <? Z.of_nat (S k)) with (i <? Z.of_nat k) by lia. reflexivity.
    + rewrite H by auto. destruct (Z.eq_dec i (Z.of_nat k)) as [->|].
      * rewrite Eb, !andb_false_r. reflexivity.
      * replace (i <? Z.of_nat (S k)) with (i <? Z.of_nat k) by lia. reflexivity.
  - rewrite H by auto. destruct (i <? 63) eqn:E3; [|rewrite !andb_false_r; reflexivity].
    replace (i <? Z.of_nat k) with true by lia. replace (i <? Z.of_nat (S k)) with true by lia. reflexivity.
Qed.

Lemma qk_decode_up n : forall i x y ox oy outer,
  in_i64 x -> in_i64 y -> low_bits x i ox -> low_bits y i oy ->
  exists ox' oy', qk_decode (qk_up n i x y) i ox oy outer =
      (ox', oy', if n then outer else Z.of_nat (i + n) - 1) /\
    low_bits x (i + n) ox' /\ low_bits y (i + n) oy'.
Proof.
  induction n; intros i x y ox oy outer Hx Hy Hox Hoy.
  - exists ox, oy. rewrite Nat.add_0_r. auto.
  - cbn [qk_up qk_decode]. rewrite qk_digit_eq by auto.
    rewrite zascii_digit by (unfold qd; destruct (bit63 x i), (bit63 y i); lia).
    match goal with |- context [qk_decode _ _ ?a ?b _] => set (x' := a); set (y' := b) end.
    destruct (IHn (S i) x y x' y' (Z.of_nat i) Hx Hy) as (ox' & oy' & E & Bx & By).
    + replace x' with (if bit63 x i then Z.lor ox (go_mask i) else ox); [apply low_bits_step; auto|].
      subst x'. unfold qd. destruct (bit63 x i), (bit63 y i); reflexivity.
    + replace y' with (if bit63 y i then Z.lor oy (go_mask i) else oy); [apply low_bits_step; auto|].
      subst y'. unfold qd. destruct (bit63 x i), (bit63 y i); reflexivity.
    + exists ox', oy'. rewrite E. replace (i + S n)%nat with (S i + n)%nat by lia.
      split; [|auto]. f_equal. destruct n; lia.
Qed.

Lemma low_bits_0 v : low_bits v 0 0.
Proof. intros i Hi. rewrite Z.bits_0. replace (i <? Z.of_nat 0) with false by lia. reflexivity. Qed.

Lemma low_bits_mod v k out : low_bits v k out -> out = v mod 2 ^ Z.min (Z.of_nat k) 63.
Proof.
  intros H. apply Z.bits_inj'. intros i Hi. rewrite H by auto.
  destruct (Z_lt_dec i (Z.min (Z.of_nat k) 63)).
  - rewrite Z.mod_pow2_bits_low by lia. lia.
  - rewrite Z.mod_pow2_bits_high by lia. lia.
Qed.

Lemma QuadkeyToTile_QuadKey t : tile_wf t ->
  QuadkeyToTile (QuadKey t) =
    let n := Z.max 0 (wrap64 (tZ t)) in
    mkTile (tX t mod 2 ^ Z.min n 63) (tY t mod 2 ^ Z.min n 63) (Z.max 1 n).
Proof.
  intros (Hx & Hy & Hz). unfold QuadkeyToTile, QuadKey. rewrite sreverse_quadkey.
  destruct (qk_decode_up (Z.to_nat (wrap64 (tZ t))) 0 (tX t) (tY t) 0 0 0 Hx Hy (low_bits_0 _) (low_bits_0 _))
    as (ox & oy & E & Bx & By).
  rewrite E. clear E. rewrite Nat.add_0_l in *.
  apply low_bits_mod in Bx, By. subst ox oy. cbv zeta.
  pose proof (wrap64_range (tZ t)) as Hr. unfold in_i64 in Hr.
  replace (Z.of_nat (Z.to_nat (wrap64 (tZ t)))) with (Z.max 0 (wrap64 (tZ t))) by lia.
  f_equal. destruct (Z.to_nat (wrap64 (tZ t))) eqn:En.
  - unfold u64. rewrite Z.mod_small; lia.
  - rewrite u64_id; unfold in_u64; lia.
Qed.

Lemma quadkey_round_trip t : tile_wf t ->
  (QuadkeyToTile (QuadKey t) = t <->
   1 <= tZ t < 2 ^ 63 /\ 0 <= tX t < 2 ^ tZ t /\ 0 <= tY t < 2 ^ tZ t).
Proof.
  intros Hwf. rewrite QuadkeyToTile_QuadKey by auto. destruct Hwf as (Hx & Hy & Hz).
  pose proof (wrap64_nonneg _ Hz) as Hnn. cbv zeta. destruct t as [x y z]; cbn [tX tY tZ] in *.
  unfold in_i64, in_u64 in *.
  split.
  - intros E. injection E as E1 E2 E3.
    assert (wrap64 z < 2 ^ 63) by (pose proof (wrap64_range z); unfold in_i64 in *; lia).
    assert (Hz1 : 1 <= z < 2 ^ 63) by lia. split; [lia|].
    assert (Hw : wrap64 z = z) by (apply wrap64_id; unfold in_i64; lia). rewrite Hw in *.
    replace (Z.max 0 z) with z in * by lia.
    pose proof (Z.mod_pos_bound x (2 ^ Z.min z 63) ltac:(apply Z.pow_pos_nonneg; lia)).
    pose proof (Z.mod_pos_bound y (2 ^ Z.min z 63) ltac:(apply Z.pow_pos_nonneg; lia)).
    pose proof (Z.pow_le_mono_r 2 (Z.min z 63) z ltac:(lia) ltac:(lia)). lia.
  - intros (Hz1 & Hx1 & Hy1).
    assert (Hw : wrap64 z = z) by (apply wrap64_id; unfold in_i64; lia). rewrite Hw in *.
    replace (Z.max 0 z) with z by lia. replace (Z.max 1 z) with z by lia.
    assert (forall v, - 2 ^ 63 <= v < 2 ^ 63 -> 0 <= v < 2 ^ z -> v mod 2 ^ Z.min z 63 = v).
    { intros v H1 H2. apply Z.mod_small. destruct (Z.min_spec z 63) as [[_ ->]|[_ ->]]; lia. }
    f_equal; auto.
Qed.

(** ** Digit strings *)

Definition is_qdigit (a : ascii) : Prop := 48 <= zascii a <= 51.

Lemma sforall_app P a b : sforall P (a ++ b) <-> sforall P a /\ sforall P b.
Proof. induction a; cbn; intuition. Qed.
Lemma sforall_reverse P s : sforall P s -> sforall P (sreverse s).
Proof. induction s; cbn; auto. intros [H1 H2]. apply sforall_app. cbn. auto. Qed.

Definition lt_pow (v : Z) (k : nat) : Prop := 0 <= v < 2 ^ Z.of_nat k.

Lemma lor_mask_bits v k : lt_pow v k -> (k < 63)%nat ->
  lt_pow (Z.lor v (go_mask k)) (S k) /\
  (forall i, 0 <= i -> Z.testbit (Z.lor v (go_mask k)) i = if i =? Z.of_nat k then true else Z.testbit v i).
Proof.
  intros Hv Hk. rewrite go_mask_small by auto.
  assert (Hb : forall i, 0 <= i -> Z.testbit (Z.lor v (2 ^ Z.of_nat k)) i = if i =? Z.of_nat k then true else Z.testbit v i).
  { intros i Hi. rewrite Z.lor_spec, Z.pow2_bits_eqb by lia.
    rewrite (Z.eqb_sym i). destruct (Z.of_nat k =? i); [apply orb_true_r|apply orb_false_r]. }
  split; auto. unfold lt_pow in *.
  assert (0 <= Z.lor v (2 ^ Z.of_nat k)) by (apply Z.lor_nonneg; split; [lia|apply Z.pow_nonneg; lia]).
  split; auto.
  destruct (Z_lt_dec (Z.lor v (2 ^ Z.of_nat k)) (2 ^ Z.of_nat (S k))) as [|Hge]; auto. exfalso.
  set (w := Z.lor v (2 ^ Z.of_nat k)) in *.
  assert (Hp : 0 < 2 ^ Z.of_nat (S k)) by (apply Z.pow_pos_nonneg; lia).
  assert (Hl : Z.of_nat (S k) <= Z.log2 w) by (apply Z.log2_le_pow2; lia).
  pose proof (Z.bit_log2 w ltac:(lia)) as Ht. rewrite Hb in Ht by lia.
  replace (Z.log2 w =? Z.of_nat k) with false in Ht by lia.
  rewrite Z.bits_above_log2 in Ht; [discriminate|lia|].
  destruct (Z.eq_dec v 0) as [->|]; [rewrite Z.log2_nonpos by lia; lia|].
  apply Z.log2_lt_pow2; [lia|].
  pose proof (Z.pow_le_mono_r 2 (Z.of_nat k) (Z.log2 w)). lia.
Qed.

Lemma bits_above v k i : lt_pow v k -> Z.of_nat k <= i -> Z.testbit v i = false.
Proof.
  intros Hv Hi. unfold lt_pow in Hv. destruct (Z.eq_dec v 0) as [->|]; [apply Z.bits_0|].
  apply Z.bits_above_log2; [lia|]. apply Z.log2_lt_pow2; [lia|].
  pose proof (Z.pow_le_mono_r 2 (Z.of_nat k) i). lia.
Qed.

Lemma digit_of_qdigit a : is_qdigit a ->
  a = digit_char (qd ((zascii a =? 49) || (zascii a =? 51)) ((zascii a =? 50) || (zascii a =? 51))).
Proof.
  intros H. unfold is_qdigit in H. unfold digit_char.
  transitivity (asciiz (zascii a)); [symmetry; apply asciiz_zascii|]. f_equal. unfold qd.
  assert (zascii a = 48 \/ zascii a = 49 \/ zascii a = 50 \/ zascii a = 51) as [->|[->|[->| ->]]] by lia;
    reflexivity.
Qed.

(** Decoding from position [i]: bits below [i] are kept, higher ones spell the string. *)
Lemma qk_decode_bits s : forall i x y outer,
  sforall is_qdigit s -> (i + String.length s <= 63)%nat -> lt_pow x i -> lt_pow y i ->
  exists x' y', qk_decode s i x y outer =
      (x', y', if String.length s then outer else Z.of_nat (i + String.length s) - 1) /\
    lt_pow x' (i + String.length s) /\ lt_pow y' (i + String.length s) /\
    (forall j, 0 <= j < Z.of_nat i -> Z.testbit x' j = Z.testbit x j /\ Z.testbit y' j = Z.testbit y j) /\
    s = qk_up (String.length s) i x' y'.
Proof.
  induction s as [|a s IH]; intros i x y outer Hd Hl Hx Hy.
  - exists x, y. cbn [String.length]. rewrite Nat.add_0_r. cbn. split; [reflexivity|]. auto 10.
  - cbn [String.length sforall] in *. destruct Hd as [Ha Hs]. cbn [qk_decode].
    set (bx := (zascii a =? 49) || (zascii a =? 51)).
    set (by' := (zascii a =? 50) || (zascii a =? 51)).
    set (x1 := if bx then Z.lor x (go_mask i) else x).
    set (y1 := if by' then Z.lor y (go_mask i) else y).
    assert (Hstep : forall v (b : bool), lt_pow v i ->
       let v1 := if b then Z.lor v (go_mask i) else v in
       lt_pow v1 (S i) /\ Z.testbit v1 (Z.of_nat i) = b /\
       (forall j, 0 <= j < Z.of_nat i -> Z.testbit v1 j = Z.testbit v j)).
    { intros v b Hv v1. subst v1. destruct b.
      - destruct (lor_mask_bits v i Hv ltac:(lia)) as [H1 H2]. split; auto. split.
        + rewrite H2 by lia. rewrite Z.eqb_refl. reflexivity.
        + intros j Hj. rewrite H2 by lia. replace (j =? Z.of_nat i) with false by lia. reflexivity.
      - split; [|split; auto].
        + unfold lt_pow in *. rewrite Nat2Z.inj_succ, Z.pow_succ_r by lia. lia.
        + eapply bits_above; eauto; lia. }
    destruct (Hstep x bx Hx) as (Hx1 & Hbx & Hlx). destruct (Hstep y by' Hy) as (Hy1 & Hby & Hly).
    fold x1 in Hx1, Hbx, Hlx. fold y1 in Hy1, Hby, Hly.
    destruct (IH (S i) x1 y1 (Z.of_nat i) Hs ltac:(lia) Hx1 Hy1) as (x' & y' & E & Rx & Ry & Hlow & Hup).
    exists x', y'. rewrite E. clear E.
    replace (i + S (String.length s))%nat with (S i + String.length s)%nat by lia.
    split; [f_equal; destruct (String.length s); lia|]. do 2 (split; [auto|]). split.
    + intros j Hj. destruct (Hlow j ltac:(lia)) as [-> ->]. auto.
    + cbn [qk_up]. f_equal; auto.
      destruct (Hlow (Z.of_nat i) ltac:(lia)) as [H1 H2].
      assert (Hin : forall v k, lt_pow v k -> (k <= 63)%nat -> in_i64 v).
      { intros v k Hv Hk. unfold lt_pow, in_i64 in *. pose proof (Z.pow_le_mono_r 2 (Z.of_nat k) 63). lia. }
      rewrite qk_digit_eq by (eapply Hin; eauto; lia).
      unfold bit63. replace (i <? 63)%nat with true by lia. cbn [andb].
      rewrite H1, H2, Hbx, Hby. apply digit_of_qdigit; auto.
Qed.

Lemma quadkey_of_decoded s : sforall is_qdigit s -> (1 <= String.length s <= 63)%nat ->
  let t := QuadkeyToTile s in
  QuadKey t = s /\ tZ t = Z.of_nat (String.length s) /\
  0 <= tX t < 2 ^ tZ t /\ 0 <= tY t < 2 ^ tZ t.
Proof.
  intros Hd Hl. unfold QuadkeyToTile.
  destruct (qk_decode_bits (sreverse s) 0 0 0 0) as (x & y & E & Rx & Ry & _ & Hup).
  - apply sforall_reverse; auto.
  - rewrite slength_reverse; lia.
  - unfold lt_pow; cbn; lia.
  - unfold lt_pow; cbn; lia.
  - rewrite E. rewrite slength_reverse in *. cbv zeta. cbn [tX tY tZ].
    rewrite Nat.add_0_l in *. unfold lt_pow in *.
    assert (Ez : u64 ((if String.length s then 0 else Z.of_nat (String.length s) - 1) + 1) = Z.of_nat (String.length s)).
    { rewrite u64_id; unfold in_u64; destruct (String.length s); lia. }
    rewrite Ez. split; [|auto].
    unfold QuadKey. cbn [tX tY tZ]. rewrite wrap64_id by (unfold in_i64; lia).
    rewrite Nat2Z.id. rewrite <- (sreverse_involutive (quadkey_loop _ _ _)), sreverse_quadkey, <- Hup.
    apply sreverse_involutive.
Qed.

(** ** Children *)

Lemma quadkey_loop_double n : forall x y (bx by' : bool),
  0 <= x < 2 ^ 62 -> 0 <= y < 2 ^ 62 ->
  quadkey_loop (S n) (2 * x + Z.b2z bx) (2 * y + Z.b2z by') =
  quadkey_loop n x y ++ String (digit_char (qd bx by')) "".
Proof.
  induction n; intros x y bx by' Hx Hy.
  - cbn [quadkey_loop append]. rewrite qk_digit_eq.
    + unfold bit63. change (Z.of_nat 0) with 0. cbn [Nat.ltb Nat.leb andb].
      rewrite !(Z.add_comm (2 * _)), !Z.add_b2z_double_bit0. reflexivity.
    + unfold in_i64; destruct bx; cbn [Z.b2z]; lia.
    + unfold in_i64; destruct by'; cbn [Z.b2z]; lia.
  - change (quadkey_loop (S (S n)) (2 * x + Z.b2z bx) (2 * y + Z.b2z by')) with
      (String (qk_digit (2 * x + Z.b2z bx) (2 * y + Z.b2z by') (S n))
              (quadkey_loop (S n) (2 * x + Z.b2z bx) (2 * y + Z.b2z by'))).
    rewrite IHn by auto. cbn [quadkey_loop append]. f_equal.
    rewrite !qk_digit_eq by (unfold in_i64; destruct bx, by'; cbn [Z.b2z]; lia).
    unfold bit63. rewrite Nat2Z.inj_succ.
    rewrite !Z.testbit_succ_r by lia.
    assert (Hb : forall v, 0 <= v < 2 ^ 62 ->
       (S n <? 63)%nat && Z.testbit v (Z.of_nat n) = (n <? 63)%nat && Z.testbit v (Z.of_nat n)).
    { intros v Hv. destruct (Nat.eq_dec n 62) as [->|].
      - change (Z.of_nat 62) with 62.
        rewrite (bits_above v 62 62); [reflexivity|unfold lt_pow; auto|lia].
      - f_equal. lia. }
    rewrite !Hb by auto. reflexivity.
Qed.

Lemma children_quadkeys t : 0 <= tX t < 2 ^ 62 -> 0 <= tY t < 2 ^ 62 -> 0 <= tZ t < 2 ^ 63 - 1 ->
  map QuadKey (Children t) =
  [QuadKey t ++ "0"; QuadKey t ++ "1"; QuadKey t ++ "3"; QuadKey t ++ "2"].
Proof.
  intros Hx Hy Hz. unfold Children. cbn [map]. unfold QuadKey. cbn [tX tY tZ].
  rewrite (u64_id (tZ t + 1)) by (unfold in_u64; lia).
  rewrite !(wrap64_id (tX t * 2)), !(wrap64_id (tY t * 2)) by (unfold in_i64; lia).
  rewrite !(wrap64_id (tX t * 2 + 1)), !(wrap64_id (tY t * 2 + 1)) by (unfold in_i64; lia).
  rewrite !(wrap64_id (tZ t)), !(wrap64_id (tZ t + 1)) by (unfold in_i64; lia).
  replace (Z.to_nat (tZ t + 1)) with (S (Z.to_nat (tZ t))) by lia.
  pose proof (fun b c => quadkey_loop_double (Z.to_nat (tZ t)) (tX t) (tY t) b c Hx Hy) as Q.
  pose proof (Q false false) as Q0. pose proof (Q true false) as Q1.
  pose proof (Q true true) as Q3. pose proof (Q false true) as Q2.
  cbn [Z.b2z] in *. rewrite ?Z.add_0_r in *. rewrite !(Z.mul_comm _ 2).
  rewrite Q0, Q1, Q2, Q3. reflexivity.
Qed.
