(** Numbers written with eight decimals and read back. *)
From Coq Require Import String ZArith Reals List Lia Lra Bool.
From Flocq Require Import Core.
From Verif Require Import GoBase Num TileF64_Proofs F64 Json Regex StyleFile_Model StyleFile_Props Mbtiles_Model Meta_Model.
Import ListNotations.
Open Scope R_scope.
#[local] Existing Instance vexp.

Notation P8 := 100000000.
(** The nearest multiple of 10^-8, ties to even, then the nearest binary64 number *)
Definition dec8 (r : R) : R := rnd (IZR (ZnearestE (r * P8)) / P8).

Lemma NE_opp x : (ZnearestE (- x) = - ZnearestE x)%Z.
Proof.
  assert (G : forall z, round radix2 (FIX_exp 0) ZnearestE z = IZR (ZnearestE z)).
  { intros z. unfold round, F2R, scaled_mantissa, cexp, FIX_exp. cbn [Fnum Fexp]. change (bpow radix2 (- 0)) with 1. change (bpow radix2 0) with 1. rewrite !Rmult_1_r. reflexivity. }
  apply eq_IZR. rewrite opp_IZR, <- !G. apply round_NE_opp.
Qed.
Lemma NE_le x y : x <= y -> (ZnearestE x <= ZnearestE y)%Z.
Proof. apply (Zrnd_le ZnearestE). Qed.
Lemma NE_IZR n : ZnearestE (IZR n) = n.
Proof. apply (Zrnd_IZR ZnearestE). Qed.
Lemma NE_abs x : ZnearestE (Rabs x) = Z.abs (ZnearestE x).
Proof.
  unfold Rabs. destruct (Rcase_abs x) as [H|H].
  - rewrite NE_opp. assert (ZnearestE x <= 0)%Z by (rewrite <- (NE_IZR 0); apply NE_le; lra). lia.
  - assert (0 <= ZnearestE x)%Z by (rewrite <- (NE_IZR 0); apply NE_le; lra). lia.
Qed.
Lemma dec8_opp r : dec8 (- r) = - dec8 r.
Proof.
  unfold dec8. replace (- r * P8) with (- (r * P8)) by ring. rewrite NE_opp, opp_IZR. unfold Rdiv. rewrite Ropp_mult_distr_l_reverse. apply round_NE_opp.
Qed.
Lemma bpow_IZR k : (0 <= k)%Z -> bpow radix2 k = IZR (2 ^ k).
Proof. intros. rewrite <- IZR_Zpower by auto. reflexivity. Qed.
Lemma b26 : bpow radix2 26 = 67108864. Proof. rewrite bpow_IZR by lia. f_equal. Qed.
Lemma b_26 : bpow radix2 (-26) = / 67108864. Proof. change (-26)%Z with (- (26))%Z. rewrite bpow_opp, b26. reflexivity. Qed.
Lemma b_28 : bpow radix2 (-28) = / 268435456. Proof. change (-28)%Z with (- (28))%Z. rewrite bpow_opp, bpow_IZR by lia. reflexivity. Qed.

Lemma near r : Rabs (IZR (ZnearestE (r * P8)) / P8 - r) <= / 200000000.
Proof.
  pose proof (Znearest_half (fun x => negb (Z.even x)) (r * P8)) as H. rewrite Rabs_minus_sym in H.
  replace (IZR (ZnearestE (r * P8)) / P8 - r) with ((IZR (ZnearestE (r * P8)) - r * P8) * / P8) by field.
  rewrite Rabs_mult, (Rabs_right (/ P8)) by lra. lra.
Qed.

Lemma dec8_big r : fmt r -> 67108864 <= Rabs r -> dec8 r = r.
Proof.
  assert (G : forall r, fmt r -> 67108864 <= r -> dec8 r = r).
  { clear r. intros r F H. unfold dec8. set (n := ZnearestE (r * P8)). set (y := IZR n / P8).
    pose proof (near r) as N. fold n in N. fold y in N. assert (- / 200000000 <= y - r <= / 200000000) by (unfold Rabs in N; destruct (Rcase_abs (y - r)); lra). clear N.
    destruct (mag radix2 r) as [k' Hk]. specialize (Hk ltac:(lra)). set (k := (k' - 1)%Z) in *. rewrite Rabs_right in Hk by lra.
    assert (K26 : (26 <= k)%Z).
    { assert (Q : bpow radix2 26 < bpow radix2 k') by (rewrite b26; lra). apply lt_bpow in Q. unfold k. lia. }
    set (e := (k - 52)%Z). assert (Ee : FLT_exp (-1074) 53 k' = e) by (unfold FLT_exp, e, k; lia).
    assert (Mr : mag radix2 r = k' :> Z) by (apply mag_unique_pos; exact Hk).
    assert (Er : r = IZR (Ztrunc (r * bpow radix2 (- e))) * bpow radix2 e).
    { unfold generic_format, F2R, scaled_mantissa, cexp in F. rewrite Mr, Ee in F. exact F. }
    set (m := Ztrunc (r * bpow radix2 (- e))) in *.
    assert (Pe : bpow radix2 (-26) <= bpow radix2 e) by (apply bpow_le; unfold e; lia). rewrite b_26 in Pe.
    assert (Yl : bpow radix2 k <= y).
    { unfold y. apply (Rmult_le_reg_r P8); [lra|]. replace (IZR n / P8 * P8) with (IZR n) by field. rewrite bpow_IZR by lia. rewrite <- mult_IZR. apply IZR_le. unfold n. rewrite <- (NE_IZR (2 ^ k * 100000000)). apply NE_le. rewrite mult_IZR, <- bpow_IZR by lia. apply Rmult_le_compat_r; lra. }
    assert (Yu : y < bpow radix2 k').
    { assert (Hm : (m + 1 <= 2 ^ 53)%Z).
      { assert (Q : IZR m * bpow radix2 e < bpow radix2 k') by (rewrite <- Er; lra). replace k' with (53 + e)%Z in Q by (unfold e, k; lia). rewrite bpow_plus, (bpow_IZR 53) in Q by lia. apply Rmult_lt_reg_r in Q; [|apply bpow_gt_0]. apply lt_IZR in Q. lia. }
      assert (r + bpow radix2 e <= bpow radix2 k').
      { replace k' with (53 + e)%Z by (unfold e, k; lia). rewrite bpow_plus, (bpow_IZR 53) by lia. rewrite Er at 1. apply IZR_le in Hm. rewrite plus_IZR in Hm. pose proof (bpow_gt_0 radix2 e). nra. }
      lra. }
    assert (My : mag radix2 y = k' :> Z) by (apply mag_unique_pos; split; [exact Yl|exact Yu]).
    unfold round, F2R, scaled_mantissa, cexp. rewrite My, Ee. cbn [Fnum Fexp].
    enough (EQ : ZnearestE (y * bpow radix2 (- e)) = m) by (rewrite EQ; symmetry; exact Er).
    apply Znearest_imp.
    replace (y * bpow radix2 (- e) - IZR m) with ((y - r) * bpow radix2 (- e)).
    2: { rewrite Er at 1. rewrite Rmult_minus_distr_r, Rmult_assoc, <- bpow_plus. replace (e + - e)%Z with 0%Z by lia. change (bpow radix2 0) with 1. ring. }
    rewrite Rabs_mult. rewrite (Rabs_right (bpow radix2 (- e))) by (apply Rle_ge, bpow_ge_0).
    assert (B : bpow radix2 (- e) <= 67108864) by (rewrite <- b26; apply bpow_le; unfold e; lia).
    assert (A : Rabs (y - r) <= / 200000000) by (apply Rabs_le; lra).
    pose proof (bpow_gt_0 radix2 (- e)). pose proof (Rabs_pos (y - r)). nra. }
  intros F H. unfold Rabs in H. destruct (Rcase_abs r) as [Hn|Hn]; [|apply G; auto; lra].
  replace r with (- - r) at 1 by ring. rewrite dec8_opp, G; [ring| |lra]. apply generic_format_opp. exact F.
Qed.

Lemma rnd_err_strict a x : (-1000 <= a)%Z -> Rabs x < bpow radix2 a -> Rabs (rnd x - x) <= bpow radix2 (a - 54).
Proof.
  intros Ha H. destruct (Req_dec x 0) as [->|N].
  - rewrite round_0 by apply valid_rnd_N. rewrite Rminus_0_r, Rabs_R0. apply bpow_ge_0.
  - eapply Rle_trans; [apply error_le_half_ulp; apply vexp|]. rewrite ulp_neq_0 by auto. unfold cexp.
    assert (M : (mag radix2 x <= a)%Z) by (apply mag_le_bpow; auto).
    assert (bpow radix2 (FLT_exp (-1074) 53 (mag radix2 x)) <= bpow radix2 (a - 53)) by (apply bpow_le; unfold FLT_exp; lia).
    replace (a - 54)%Z with (-1 + (a - 53))%Z by lia. rewrite bpow_plus. change (bpow radix2 (-1)) with (/ 2). lra.
Qed.
Lemma y_bound r : Rabs r < 67108864 -> Rabs (IZR (ZnearestE (r * P8)) / P8) <= 67108864.
Proof.
  intros H. unfold Rdiv. rewrite Rabs_mult, (Rabs_right (/ P8)) by lra. rewrite <- abs_IZR, <- NE_abs.
  apply (Rmult_le_reg_r P8); [lra|]. rewrite Rmult_assoc, Rinv_l, Rmult_1_r by lra. rewrite <- mult_IZR. apply IZR_le. rewrite <- (NE_IZR (67108864 * 100000000)). apply NE_le.
  rewrite mult_IZR, Rabs_mult, (Rabs_right P8) by lra. lra.
Qed.
Lemma dec8_err r : Rabs r < 67108864 -> Rabs (dec8 r - IZR (ZnearestE (r * P8)) / P8) <= / 268435456.
Proof.
  intros H. pose proof (y_bound r H) as Y. unfold dec8. set (y := IZR (ZnearestE (r * P8)) / P8) in *. rewrite <- b_28.
  destruct (Rle_lt_or_eq_dec _ _ Y) as [Y'|Y'].
  - change (-28)%Z with (26 - 54)%Z. apply rnd_err_strict; [lia|]. rewrite b26. exact Y'.
  - rewrite rnd_id; [rewrite Rminus_diag_eq, Rabs_R0 by reflexivity; apply bpow_ge_0|].
    assert (y = 67108864 \/ y = - 67108864) as [->| ->] by (unfold Rabs in Y'; destruct (Rcase_abs y); [right|left]; lra).
    + apply (fmt_int 67108864). reflexivity.
    + apply (fmt_int (-67108864)). reflexivity.
Qed.
Lemma dec8_close r : fmt r -> Rabs (dec8 r - r) < / P8.
Proof.
  intros F. destruct (Rlt_le_dec (Rabs r) 67108864) as [H|H].
  - pose proof (dec8_err r H) as E. pose proof (near r) as N. replace (dec8 r - r) with ((dec8 r - IZR (ZnearestE (r * P8)) / P8) + (IZR (ZnearestE (r * P8)) / P8 - r)) by ring.
    eapply Rle_lt_trans; [apply Rabs_triang|]. lra.
  - rewrite dec8_big by auto. rewrite Rminus_diag_eq, Rabs_R0 by reflexivity. lra.
Qed.
Lemma dec8_fmt r : fmt (dec8 r).
Proof. apply generic_format_round; [apply vexp|apply valid_rnd_N]. Qed.
Lemma dec8_idem r : fmt r -> dec8 (dec8 r) = dec8 r.
Proof.
  intros F. destruct (Rlt_le_dec (Rabs r) 67108864) as [H|H]; [|rewrite !(dec8_big r) by auto; reflexivity].
  pose proof (dec8_err r H) as E. unfold dec8 at 1. unfold dec8 at 2. f_equal. f_equal. f_equal. apply Znearest_imp.
  set (n := ZnearestE (r * P8)) in *. replace (dec8 r * P8 - IZR n) with ((dec8 r - IZR n / P8) * P8) by field.
  rewrite Rabs_mult, (Rabs_right P8) by lra. lra.
Qed.
Lemma dec8_range r : fmt r -> Rabs r < bpow radix2 1024 -> Rabs (dec8 r) < bpow radix2 1024.
Proof.
  intros F H. destruct (Rlt_le_dec (Rabs r) 67108864) as [K|K]; [|rewrite dec8_big; auto].
  eapply Rle_lt_trans; [|apply (bpow_lt radix2 26 1024); lia]. unfold dec8. apply rnd_abs; [lia|]. rewrite b26. apply y_bound. exact K.
Qed.

(** ** Strings *)
Open Scope Z_scope.

Lemma fixed_digits k : forall n, forallb digit (fixed k n) = true.
Proof.
  induction k as [|k IH]; intros n; cbn [fixed]; auto. rewrite forallb_app, IH. cbn [forallb]. unfold digit. pose proof (Z.mod_pos_bound n 10 ltac:(lia)).
  destruct (Z.leb_spec 48 (48 + n mod 10)); [|lia]. destruct (Z.leb_spec (48 + n mod 10) 57); [reflexivity|lia].
Qed.
Lemma fixed_length k : forall n, length (fixed k n) = k.
Proof. induction k as [|k IH]; intros n; cbn [fixed]; auto. rewrite app_length, IH. cbn [length]. lia. Qed.
Lemma dec_fixed k : forall a n, 0 <= n < 10 ^ Z.of_nat k -> dec (a ++ fixed k n) = dec a * 10 ^ Z.of_nat k + n.
Proof.
  induction k as [|k IH]; intros a n H; cbn [fixed].
  - cbn in H. rewrite app_nil_r. cbn. lia.
  - rewrite Nat2Z.inj_succ, Z.pow_succ_r in * by lia. rewrite app_assoc, dec_app, IH by (Z.to_euclidean_division_equations; nia).
    pose proof (Z.div_mod n 10 ltac:(lia)). lia.
Qed.
Lemma span_app p a c b : forallb p a = true -> p c = false -> span p (a ++ c :: b) = (a, c :: b).
Proof.
  intros H K. induction a as [|x a IH]; cbn [app span].
  - rewrite K. reflexivity.
  - cbn [forallb] in H. apply andb_prop in H. destruct H as [-> H]. rewrite IH by auto. reflexivity.
Qed.
Lemma decimal_fmt q f : 0 <= q < 10 ^ 400 -> 0 <= f < 100000000 -> decimal (fmt_pos 400 q ++ B "." ++ fixed 8 f) = Some (q * 100000000 + f, 8%nat).
Proof.
  intros Hq Hf. destruct (dec_fmt 400 q Hq) as (D & F & _). unfold decimal. change (B "." ++ fixed 8 f) with (46 :: fixed 8 f).
  rewrite span_app by auto. change (46 =? 46) with true. rewrite fixed_digits. cbn [andb].
  destruct (fmt_pos 400 q ++ fixed 8 f) eqn:E.
  - apply (f_equal (@length Z)) in E. rewrite app_length, fixed_length in E. cbn [length] in E. lia.
  - rewrite <- E, dec_fixed, D, fixed_length by exact Hf. reflexivity.
Qed.

Definition plainc (c : Z) : bool := negb (wspace c) && negb (c =? 44).
Lemma digit_plain c : digit c = true -> plainc c = true.
Proof. unfold digit, plainc, wspace. intros H. apply andb_prop in H. destruct (Z.eqb_spec c 32), (Z.leb_spec 9 c), (Z.leb_spec c 13), (Z.eqb_spec c 44); cbn; auto; lia. Qed.
Lemma forallb_imp {A} (p q : A -> bool) l : (forall x, p x = true -> q x = true) -> forallb p l = true -> forallb q l = true.
Proof. intros H. rewrite !forallb_forall. auto. Qed.
Lemma fmt_plain fuel n : 0 <= n < 10 ^ Z.of_nat fuel -> forallb plainc (fmt_pos fuel n) = true.
Proof. intros H. eapply forallb_imp; [apply digit_plain|]. apply dec_fmt. exact H. Qed.

Lemma TrimSpace_plain s : forallb plainc s = true -> TrimSpace s = s.
Proof.
  assert (G : forall s, forallb plainc s = true -> snd (span wspace s) = s).
  { intros [|c t] H; [reflexivity|]. cbn [forallb] in H. apply andb_prop in H. destruct H as [H _]. unfold plainc in H. apply andb_prop in H. destruct H as [H _]. cbn [span]. destruct (wspace c); [discriminate|reflexivity]. }
  intros H. unfold TrimSpace. rewrite (G s) by auto. rewrite G; [apply rev_involutive|].
  apply forallb_forall. intros x Hx. apply in_rev in Hx. rewrite forallb_forall in H. auto.
Qed.
Definition no_comma (s : gstr) := ~ In 44 s.
Lemma plain_no_comma s : forallb plainc s = true -> no_comma s.
Proof. intros H K. rewrite forallb_forall in H. specialize (H _ K). discriminate. Qed.
Lemma split_comma_one s : no_comma s -> split_comma s = [s].
Proof.
  induction s as [|c t IH]; intros H; cbn [split_comma]; auto. destruct (Z.eqb_spec c 44) as [->|N]; [destruct H; left; auto|]. rewrite IH; auto. intros K. apply H. right. auto.
Qed.
Lemma split_comma_app s t : no_comma s -> split_comma (s ++ 44 :: t) = s :: split_comma t.
Proof.
  induction s as [|c s IH]; intros H; cbn [app split_comma]; auto. destruct (Z.eqb_spec c 44) as [->|N]; [destruct H; left; auto|]. rewrite IH; auto. intros K. apply H. right. auto.
Qed.
Lemma split_join l : l <> [] -> Forall no_comma l -> split_comma (join l) = l.
Proof.
  induction l as [|a l IH]; intros N H; [congruence|]. inversion H; subst. cbn [join]. destruct l as [|b l'].
  - apply split_comma_one. auto.
  - change (B "," ++ join (b :: l')) with (44 :: join (b :: l')). rewrite split_comma_app by auto. rewrite IH; auto. discriminate.
Qed.

(** ** Reading back what was written *)
Definition float_ok (x : gofloat) : Prop := match x with Fin r => fmt r /\ (Rabs r < bpow radix2 1024)%R | _ => True end.
Definition round8 (x : gofloat) : gofloat := match x with Fin r => Fin (dec8 r) | _ => x end.

Lemma lower_digit c : digit c = true -> lower_byte c = c.
Proof. unfold digit, lower_byte. intros H. apply andb_prop in H. destruct (Z.leb_spec 65 c), (Z.leb_spec c 90); cbn; auto; lia. Qed.
Lemma not_word c t w k : k <> c -> seqb (c :: t) (k :: w) = false.
Proof. intros N. destruct (seqb_spec (c :: t) (k :: w)) as [E|]; auto. congruence. Qed.
Lemma n_bound r : (Rabs r < bpow radix2 1024)%R -> 0 <= ZnearestE (Rabs r * P8) / 100000000 < 10 ^ 400.
Proof.
  intros H. assert (0 <= ZnearestE (Rabs r * P8)) by (rewrite <- (NE_IZR 0); apply NE_le; pose proof (Rabs_pos r); lra).
  assert (ZnearestE (Rabs r * P8) <= 2 ^ 1024 * 100000000).
  { rewrite <- (NE_IZR (2 ^ 1024 * 100000000)). apply NE_le. rewrite mult_IZR, <- bpow_IZR by lia. apply Rmult_le_compat_r; lra. }
  split; [apply Z.div_pos; lia|]. apply (Z.le_lt_trans _ (2 ^ 1024)); [|reflexivity]. apply Z.div_le_upper_bound; lia.
Qed.
Lemma FormatFloat8_plain x : float_ok x -> forallb plainc (FormatFloat8 x) = true.
Proof.
  destruct x as [r|[]|]; intros H; try reflexivity. destruct H as [F H]. cbn [FormatFloat8]. rewrite !forallb_app, fmt_plain by (apply n_bound; auto).
  rewrite (forallb_imp _ _ (fixed 8 _) digit_plain) by apply fixed_digits. destruct (Rltb r 0); reflexivity.
Qed.
Lemma signed_digits c t : digit c = true -> signed (c :: t) = (false, c :: t).
Proof. intros H. cbn [signed]. unfold digit in H. apply andb_prop in H. destruct (Z.eqb_spec c 45); [lia|]. destruct (Z.eqb_spec c 43); [lia|]. reflexivity. Qed.
Lemma parse_format x : float_ok x -> ParseFloat (FormatFloat8 x) = (round8 x, false).
Proof.
  destruct x as [r|[]|]; intros H; try reflexivity. destruct H as [F H]. cbn [FormatFloat8 round8]. set (n := ZnearestE (Rabs r * P8)).
  assert (Nn : 0 <= n) by (unfold n; rewrite <- (NE_IZR 0); apply NE_le; pose proof (Rabs_pos r); lra).
  pose proof (n_bound r H) as Hq. fold n in Hq. set (body := fmt_pos 400 (n / 100000000) ++ B "." ++ fixed 8 (n mod 100000000)).
  assert (D : decimal body = Some (n, 8%nat)).
  { unfold body. rewrite decimal_fmt by (auto; apply Z.mod_pos_bound; lia). do 2 f_equal. rewrite (Z.div_mod n 100000000) at 3 by lia. lia. }
  assert (exists c t, body = c :: t /\ digit c = true) as (c & t & E & Hc).
  { destruct (dec_fmt 400 (n / 100000000) Hq) as (_ & G & NE). specialize (NE ltac:(lia)). unfold body. destruct (fmt_pos 400 (n / 100000000)) as [|c t]; [congruence|]. cbn [forallb] in G. apply andb_prop in G. destruct G. exists c. eexists. split; [reflexivity|]. auto. }
  assert (W : forall w k, 65 <= k -> seqb (ToLower body) (k :: w) = false).
  { intros w k Hk. rewrite E. cbn [ToLower map]. apply not_word. rewrite lower_digit by auto. unfold digit in Hc. apply andb_prop in Hc. lia. }
  assert (S : signed ((if Rltb r 0 then B "-" else []) ++ body) = (Rltb r 0, body)).
  { destruct (Rltb r 0); [reflexivity|]. cbn [app]. rewrite E. apply signed_digits. auto. }
  unfold ParseFloat. rewrite S. change (B "inf") with (105 :: B "nf"). change (B "infinity") with (105 :: B "nfinity"). change (B "nan") with (110 :: B "an"). rewrite !W by lia. cbn [orb].
  assert (seqb (ToLower ((if Rltb r 0 then B "-" else []) ++ body)) (110 :: B "an") = false) as ->.
  { destruct (Rltb r 0); [reflexivity|]. cbn [app]. apply W. lia. }
  rewrite D. replace (10 ^ 8)%R with 100000000%R by ring.
  assert (V : (rnd ((if Rltb r 0 then -1 else 1) * (IZR n / 100000000)) = dec8 r)%R).
  { unfold n. rewrite <- (Rabs_right 100000000) at 1 by lra. rewrite <- Rabs_mult, NE_abs. unfold dec8. destruct (Rltb_spec r 0) as [K|K].
    - assert (ZnearestE (r * P8) <= 0) by (rewrite <- (NE_IZR 0); apply NE_le; lra). rewrite Z.abs_neq, opp_IZR by auto. f_equal. field.
    - assert (0 <= ZnearestE (r * P8)) by (rewrite <- (NE_IZR 0); apply NE_le; lra). rewrite Z.abs_eq by auto. f_equal. field. }
  rewrite V. destruct (Rltb_spec (Rabs (dec8 r)) (bpow radix2 1024)) as [|K]; [reflexivity|]. pose proof (dec8_range r F H). lra.
Qed.
Lemma FormatInt_plain n : - 2 ^ 63 <= n < 2 ^ 63 -> forallb plainc (FormatInt n) = true.
Proof.
  intros H. unfold FormatInt. destruct (Z.ltb_spec n 0).
  - cbn [forallb]. rewrite fmt_plain; [reflexivity|]. change (10 ^ Z.of_nat 20) with (10 ^ 20). lia.
  - apply fmt_plain. change (10 ^ Z.of_nat 20) with (10 ^ 20). lia.
Qed.
Lemma parse_int n : - 2 ^ 63 <= n < 2 ^ 63 -> ParseInt (FormatInt n) = (n, false).
Proof.
  intros H. unfold FormatInt, ParseInt. destruct (Z.ltb_spec n 0) as [K|K].
  - destruct (dec_fmt 20 (- n) ltac:(change (10 ^ Z.of_nat 20) with (10 ^ 20); lia)) as (D & F & NE). specialize (NE ltac:(lia)).
    cbn [signed]. change (45 =? 45) with true. cbv iota. destruct (fmt_pos 20 (- n)) as [|c t] eqn:E; [congruence|]. rewrite F. cbn [negb]. rewrite D. destruct (Z.leb_spec (- n) (2 ^ 63)); [|lia]. f_equal. lia.
  - destruct (dec_fmt 20 n ltac:(change (10 ^ Z.of_nat 20) with (10 ^ 20); lia)) as (D & F & NE). specialize (NE ltac:(lia)).
    destruct (fmt_pos 20 n) as [|c t] eqn:E; [congruence|]. assert (Hc : digit c = true) by (cbn [forallb] in F; apply andb_prop in F; tauto).
    rewrite signed_digits by auto. rewrite F. cbn [negb]. rewrite D. destruct (Z.ltb_spec n (2 ^ 63)); [|lia]. reflexivity.
Qed.
Lemma parse_parts_all {A} (zero : A) parse : forall cap parts err, (length parts <= cap)%nat ->
  parse_parts zero parse cap parts err = Val (map (fun s => fst (parse (TrimSpace s))) parts ++ repeat zero (cap - length parts), match rev parts with [] => err | s :: _ => snd (parse (TrimSpace s)) end).
Proof.
  intros cap parts. revert cap. induction parts as [|v parts IH]; intros cap err H; cbn [parse_parts map app length].
  - rewrite Nat.sub_0_r. reflexivity.
  - cbn [length] in H. destruct cap as [|cap]; [lia|]. destruct (parse (TrimSpace v)) as [a e] eqn:E. rewrite IH by lia. cbn [obind Nat.sub fst]. do 2 f_equal.
    cbn [rev]. destruct (rev parts) as [|s l]; cbn [app]; [rewrite E; reflexivity|reflexivity].
Qed.
Lemma parse_parts_crash {A} (zero : A) parse : forall cap parts err, (cap < length parts)%nat -> parse_parts zero parse cap parts err = Crash.
Proof.
  intros cap parts. revert cap. induction parts as [|v parts IH]; intros cap err H; cbn [length] in H; [lia|]. cbn [parse_parts]. destruct cap as [|cap]; auto.
  destruct (parse (TrimSpace v)) as [a e]. rewrite IH by lia. reflexivity.
Qed.
Lemma parse_written {A} (ok : A -> Prop) (zero : A) fmtf parse f cap l :
  (forall x, ok x -> forallb plainc (fmtf x) = true /\ parse (fmtf x) = (f x, false)) -> Forall ok l -> length l = Datatypes.S cap ->
  parse_parts zero parse (Datatypes.S cap) (split_comma (join (map fmtf l))) false = Val (map f l, false).
Proof.
  intros H O Ln. rewrite split_join.
  2: { destruct l; discriminate. }
  2: { apply Forall_map. eapply Forall_impl; [|exact O]. intros x Hx. apply plain_no_comma. apply H. auto. }
  rewrite parse_parts_all by (rewrite map_length; lia). rewrite map_length, Ln, Nat.sub_diag. cbn [repeat]. rewrite app_nil_r, map_map.
  assert (G : forall x, ok x -> parse (TrimSpace (fmtf x)) = (f x, false)) by (intros x Hx; destruct (H x Hx); rewrite TrimSpace_plain; auto).
  do 2 f_equal.
  - apply map_ext_in. intros x Hx. rewrite Forall_forall in O. rewrite G; auto.
  - rewrite <- map_rev. destruct (rev l) as [|x l'] eqn:E; [reflexivity|]. cbn [map]. rewrite G; auto. rewrite Forall_forall in O. apply O. apply in_rev. rewrite E. left. auto.
Qed.
