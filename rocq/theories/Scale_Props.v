(** Texture sizes at another pixel ratio. *)
From Coq Require Import ZArith Reals Lia Lra Bool List.
From Flocq Require Import Core BinarySingleNaN Relative.
From Verif Require Import GoBase TileF64_Model TileF64_Proofs F64 Scale_Model.
Import ListNotations.
Open Scope R_scope.
#[local] Existing Instance vexp.

Lemma f2int_f x a : is_f x a -> 0 <= a < IZR (2 ^ 63) -> f2int x = Some (Zfloor a).
Proof.
  intros [Fx Ex] [H0 H1]. assert (T : Btrunc x = Zfloor a).
  { apply eq_IZR. rewrite (Btrunc_correct 53 1024 _ x).
    unfold round, F2R, scaled_mantissa, cexp, FIX_exp. cbn [Fnum Fexp]. change (bpow radix2 (- 0)) with 1. change (bpow radix2 0) with 1. rewrite !Rmult_1_r, Ex. f_equal. apply Ztrunc_floor. auto. }
  unfold f2int. rewrite Fx, T. assert (L : (0 <= Zfloor a)%Z) by (apply Zfloor_lub; auto).
  assert (U : (Zfloor a < 2 ^ 63)%Z). { apply lt_IZR. eapply Rle_lt_trans; [apply Zfloor_lb|auto]. }
  destruct (Z.leb_spec (- 2 ^ 63) (Zfloor a)); [|lia]. destruct (Z.ltb_spec (Zfloor a) (2 ^ 63)); [|lia]. reflexivity.
Qed.

Lemma abs_bound x b : Rabs x <= b -> - b <= x <= b.
Proof. intros H. unfold Rabs in H. destruct (Rcase_abs x); lra. Qed.

Lemma rel_err x : bpow radix2 (-1000) <= Rabs x -> Rabs (rnd x - x) <= bpow radix2 (-53) * Rabs x.
Proof.
  intros H. pose proof (relative_error_N_FLT radix2 (-1074) 53 ltac:(reflexivity) (fun n => negb (Z.even n)) x) as K.
  replace (bpow radix2 (-53)) with (/ 2 * bpow radix2 (- (53) + 1)).
  - apply K. eapply Rle_trans; [|exact H]. apply bpow_le. lia.
  - change (- (53) + 1)%Z with (-52)%Z. replace (-53)%Z with (-1 + -52)%Z by lia. rewrite bpow_plus. change (bpow radix2 (-1)) with (/ 2). reflexivity.
Qed.

Definition side_ok (w p q : Z) : Prop := (0 <= w /\ 1 <= p <= 2 ^ 30 /\ 1 <= q <= 2 ^ 30 /\ w * p <= 2 ^ 50)%Z.

(** The two roundings *)
Definition sc (p q : Z) : R := rnd (IZR p / IZR q).
Definition side_val (w p q : Z) : R := rnd (IZR w * sc p q).

Lemma side_real w p q : side_ok w p q ->
  scale_side w p q = Some (Zfloor (side_val w p q)) /\
  ((1 <= w)%Z -> Rabs (side_val w p q - IZR w * IZR p / IZR q) * IZR q < 1).
Proof.
  intros (Hw & Hp & Hq & Hwp).
  assert (Wb : (w <= 2 ^ 50)%Z) by nia.
  assert (P1 : 1 <= IZR p <= IZR (2 ^ 30)) by (split; apply IZR_le; lia).
  assert (Q1 : 1 <= IZR q <= IZR (2 ^ 30)) by (split; apply IZR_le; lia).
  assert (W1 : 0 <= IZR w <= IZR (2 ^ 50)) by (split; apply IZR_le; lia).
  assert (WP : 0 <= IZR w * IZR p <= IZR (2 ^ 50)) by (rewrite <- mult_IZR; split; apply IZR_le; nia).
  change (IZR (2 ^ 30)) with 1073741824 in *. change (IZR (2 ^ 50)) with 1125899906842624 in *.
  set (P := IZR p) in *. set (Q := IZR q) in *. set (W := IZR w) in *.
  assert (B100 : bpow radix2 100 >= 1267650600228229401496703205376) by (rewrite (bp 100 1267650600228229401496703205376); [lra|lia|reflexivity]).
  assert (Bm : bpow radix2 (-1000) <= / 1073741824). { rewrite <- (bpm 30 1073741824) by (lia || reflexivity). apply bpow_le. lia. }
  assert (U : bpow radix2 (-53) = / 9007199254740992) by (apply (bpm 53 9007199254740992); [lia|reflexivity]).
  assert (IQ : / 1073741824 <= / Q <= 1). { split; [apply Rinv_le; lra|]. rewrite <- Rinv_1. apply Rinv_le; lra. }
  assert (D0 : / 1073741824 <= P / Q <= 1073741824). { unfold Rdiv. split; nra. }
  assert (E1 : Rabs (sc p q - P / Q) <= / 9007199254740992 * (P / Q)).
  { pose proof (rel_err (P / Q)) as K. rewrite (Rabs_right (P / Q)), U in K by lra. apply K. lra. }
  apply abs_bound in E1.
  assert (S0 : P / Q * (1 - / 9007199254740992) <= sc p q <= P / Q * (1 + / 9007199254740992)).
  { split; lra. }
  assert (Fp : is_f (fint p) P) by (apply fint_f; lia). assert (Fq : is_f (fint q) Q) by (apply fint_f; lia). assert (Fw : is_f (fint w) W) by (apply fint_f; lia).
  assert (FS : is_f (fdiv (fint p) (fint q)) (sc p q)). { apply (fdiv_f _ _ P Q); auto; [lra|]. rewrite Rabs_right by lra. lra. }
  assert (SB : 0 <= W * sc p q <= 2 * 1125899906842624).
  { split; [apply Rmult_le_pos; lra|]. apply Rle_trans with (W * (P / Q * (1 + / 9007199254740992))); [apply Rmult_le_compat_l; lra|].
    unfold Rdiv. assert (W * P * / Q <= W * P * 1) by (apply Rmult_le_compat_l; lra). nra. }
  assert (FV : is_f (fmul (fint w) (fdiv (fint p) (fint q))) (side_val w p q)). { apply (fmul_f _ _ W (sc p q)); auto. rewrite Rabs_right by lra. lra. }
  assert (VB : 0 <= side_val w p q <= 2 ^ 52).
  { assert (F1 : fmt (bpow radix2 52)) by (apply generic_format_bpow; unfold FLT_exp; lia).
    assert (E52 : bpow radix2 52 = 4503599627370496) by (apply bp; [lia|reflexivity]).
    unfold side_val. replace (2 ^ 52) with (bpow radix2 52) by (rewrite E52; ring). apply rnd_between; auto; [apply fmt_0|]. fold W. rewrite E52. lra. }
  split.
  - unfold scale_side. rewrite (f2int_f _ _ FV); auto. split; [apply VB|]. apply Rle_lt_trans with (2 ^ 52); [apply VB|]. change (IZR (2 ^ 63)) with 9223372036854775808. lra.
  - intros H1. assert (W0 : 1 <= W) by (apply IZR_le; auto).
    assert (E2 : Rabs (side_val w p q - W * sc p q) <= / 9007199254740992 * (W * sc p q)).
    { pose proof (rel_err (W * sc p q)) as K. rewrite (Rabs_right (W * sc p q)), U in K by lra. apply K.
      apply Rle_trans with (1 * sc p q); [|apply Rmult_le_compat_r; lra]. apply Rle_trans with (/ 1073741824 * / 2); [|nra].
      rewrite <- (bpm 30 1073741824) by (lia || reflexivity). change (/ 2) with (bpow radix2 (-1)). rewrite <- bpow_plus. apply bpow_le. lia. }
    assert (E3 : Rabs (side_val w p q - W * P / Q) <= W * (P / Q) * (3 * / 9007199254740992)).
    { replace (side_val w p q - W * P / Q) with ((side_val w p q - W * sc p q) + W * (sc p q - P / Q)) by (field; lra).
      eapply Rle_trans; [apply Rabs_triang|]. rewrite Rabs_mult, (Rabs_right W) by lra.
      assert (A : W * Rabs (sc p q - P / Q) <= W * (P / Q * / 9007199254740992)). { apply Rmult_le_compat_l; [lra|]. apply Rabs_le. lra. }
      assert (A' : W * sc p q <= W * (P / Q) * 2). { rewrite Rmult_assoc. apply Rmult_le_compat_l; lra. }
      lra. }
    apply Rle_lt_trans with (W * (P / Q) * (3 * / 9007199254740992) * Q); [apply Rmult_le_compat_r; lra|].
    replace (W * (P / Q) * (3 * / 9007199254740992) * Q) with (W * P * (3 * / 9007199254740992)) by (field; lra). lra.
Qed.

Theorem C105_sides : forall w p q, side_ok w p q ->
  exists r, scale_side w p q = Some r /\
    (r = w * p / q \/ (1 <= w /\ (q | w * p) /\ r = w * p / q - 1))%Z.
Proof.
  intros w p q H. destruct (side_real w p q H) as [E D]. eexists. split; [exact E|]. destruct H as (Hw & Hp & Hq & Hwp).
  assert (Q0 : 1 <= IZR q) by (apply IZR_le; lia).
  destruct (Z.eq_dec w 0) as [->|Hn].
  { left. unfold side_val. rewrite Rmult_0_l, rnd_id by apply fmt_0. change 0 with (IZR 0). rewrite Zfloor_IZR, Z.mul_0_l, Z.div_0_l by lia. reflexivity. }
  specialize (D ltac:(lia)). set (v := side_val w p q) in *.
  assert (DV : IZR w * IZR p - 1 < v * IZR q < IZR w * IZR p + 1).
  { assert (D2 : Rabs ((v - IZR w * IZR p / IZR q) * IZR q) < 1) by (rewrite Rabs_mult, (Rabs_right (IZR q)) by lra; exact D). clear D. rename D2 into D. apply Rabs_def2 in D.
    replace ((v - IZR w * IZR p / IZR q) * IZR q) with (v * IZR q - IZR w * IZR p) in D by (field; lra). lra. }
  rewrite <- mult_IZR in DV. set (n := (w * p)%Z) in *. pose proof (Z.div_mod n q ltac:(lia)) as M. pose proof (Z.mod_pos_bound n q ltac:(lia)) as MB.
  set (d := (n / q)%Z) in *. set (m := (n mod q)%Z) in *.
  assert (UP : v < IZR (d + 1)).
  { apply Rmult_lt_reg_r with (IZR q); [lra|]. rewrite <- mult_IZR. apply Rlt_le_trans with (IZR n + 1); [apply DV|]. rewrite <- (plus_IZR n 1). apply IZR_le. nia. }
  destruct (Z.eq_dec m 0) as [M0|M0].
  - assert (LO : IZR (d - 1) < v).
    { apply Rmult_lt_reg_r with (IZR q); [lra|]. rewrite <- mult_IZR. apply Rle_lt_trans with (IZR n - 1); [|apply DV]. rewrite <- (minus_IZR n 1). apply IZR_le. nia. }
    assert (F : (d - 1 <= Zfloor v < d + 1)%Z).
    { split; [apply Zfloor_lub; lra|]. apply lt_IZR. eapply Rle_lt_trans; [apply Zfloor_lb|auto]. }
    destruct (Z.eq_dec (Zfloor v) d) as [->|]; [auto|]. right. repeat split; try lia. exists d. lia.
  - left. apply Zfloor_imp. split; auto.
    apply Rlt_le, Rmult_lt_reg_r with (IZR q); [lra|]. rewrite <- mult_IZR. apply Rle_lt_trans with (IZR n - 1); [|apply DV]. rewrite <- (minus_IZR n 1). apply IZR_le. nia.
Qed.
Print Assumptions C105_sides.

Lemma fmt_quot n k : (0 <= n < 2 ^ 53)%Z -> (0 <= k <= 1000)%Z -> fmt (IZR n / IZR (2 ^ k)).
Proof.
  intros Hn Hk. replace (IZR n / IZR (2 ^ k)) with (IZR n * bpow radix2 (- k)).
  - apply fmt_F2R; lia.
  - rewrite bpow_opp, <- IZR_Zpower by lia. reflexivity.
Qed.

Theorem C105_exact : forall w p q, side_ok w p q ->
  (q | p)%Z \/ (exists k, 0 <= k /\ q = 2 ^ k)%Z -> scale_side w p q = Some (w * p / q)%Z.
Proof.
  intros w p q H Hd. destruct (side_real w p q H) as [-> _]. destruct H as (Hw & Hp & Hq & Hwp). f_equal.
  assert (Q0 : 1 <= IZR q) by (apply IZR_le; lia).
  assert (E : side_val w p q = IZR (w * p) / IZR q).
  { unfold side_val, sc. destruct Hd as [[m ->]|(k & Hk & ->)].
    - replace (IZR (m * q) / IZR q) with (IZR m) by (rewrite mult_IZR; field; lra). assert (1 <= m)%Z by nia.
      rewrite (rnd_id (IZR m)) by (apply fmt_int; nia). rewrite <- mult_IZR, rnd_id by (apply fmt_int; nia).
      rewrite !mult_IZR. field. lra.
    - assert (Hk' : (k <= 1000)%Z). { destruct (Z_le_gt_dec k 1000); auto. pose proof (Z.pow_lt_mono_r 2 30 k ltac:(lia) ltac:(lia) ltac:(lia)). lia. }
      rewrite (rnd_id (IZR p / _)) by (apply fmt_quot; lia). unfold Rdiv. rewrite <- Rmult_assoc, <- mult_IZR. apply rnd_id. apply fmt_quot; nia. }
  rewrite E. apply Zfloor_div. lia.
Qed.
Print Assumptions C105_exact.

Lemma u54 : bpow radix2 (-54) = / 18014398509481984. Proof. exact (bpm 54 18014398509481984 ltac:(lia) eq_refl). Qed.
Lemma rnd_below N : (1 <= N <= 2 ^ 52)%Z -> rnd (IZR N * (1 - bpow radix2 (-54))) = IZR N.
Proof.
  intros HN. assert (N1 : 1 <= IZR N) by (apply IZR_le; lia).
  pose proof (bpow_gt_0 radix2 (-54)) as U0.
  assert (FN : fmt (IZR N)) by (apply fmt_int; lia).
  destruct (mag radix2 (IZR N)) as [e He]. specialize (He ltac:(lra)). rewrite Rabs_right in He by lra.
  assert (E1 : (0 < e)%Z). { apply (lt_bpow radix2). apply Rle_lt_trans with (IZR N); [change (bpow radix2 0) with 1; lra|apply He]. }
  assert (E2 : (e <= 53)%Z). { apply (bpow_lt_bpow radix2). apply Rle_lt_trans with (IZR N); [replace (e - 1)%Z with (e - 1)%Z by lia; apply He|]. rewrite (bp 53 (2 ^ 53)) by (lia || reflexivity). apply IZR_lt. lia. }
  destruct (Req_dec (IZR N) (bpow radix2 (e - 1))) as [EN|EN].
  - rewrite EN. set (x := bpow radix2 (e - 1) * (1 - bpow radix2 (-54))).
    assert (X : bpow radix2 (e - 2) <= x < bpow radix2 (e - 1)).
    { unfold x. replace (e - 1)%Z with (1 + (e - 2))%Z by lia. rewrite bpow_plus. change (bpow radix2 1) with 2. pose proof (bpow_gt_0 radix2 (e - 2)).
      assert (bpow radix2 (-54) <= / 2) by (change (/ 2) with (bpow radix2 (-1)); apply bpow_le; lia). split; nra. }
    assert (MX : mag radix2 x = (e - 1)%Z :> Z). { apply mag_unique_pos. replace (e - 1 - 1)%Z with (e - 2)%Z by lia. auto. }
    unfold round, F2R, scaled_mantissa, cexp. rewrite MX. cbn [Fnum Fexp].
    replace (FLT_exp (-1074) 53 (e - 1)) with (e - 54)%Z by (unfold FLT_exp; lia).
    assert (SM : x * bpow radix2 (- (e - 54)) = IZR (2 ^ 53 - 1) + / 2).
    { unfold x. replace (bpow radix2 (e - 1) * (1 - bpow radix2 (-54)) * bpow radix2 (- (e - 54))) with (bpow radix2 (e - 1) * bpow radix2 (- (e - 54)) * (1 - bpow radix2 (-54))) by ring.
      rewrite <- bpow_plus. replace (e - 1 + - (e - 54))%Z with 53%Z by lia. rewrite (bp 53 9007199254740992) by (lia || reflexivity). rewrite u54.
      change (2 ^ 53 - 1)%Z with 9007199254740991%Z. lra. }
    rewrite SM. replace (ZnearestE (IZR (2 ^ 53 - 1) + / 2)) with (2 ^ 53)%Z.
    + rewrite <- (bp 53 (2 ^ 53)) by (lia || reflexivity). rewrite <- bpow_plus. f_equal. lia.
    + unfold Znearest. assert (FL : Zfloor (IZR (2 ^ 53 - 1) + / 2) = (2 ^ 53 - 1)%Z) by (apply Zfloor_imp; rewrite plus_IZR; lra). rewrite FL.
      rewrite Rcompare_Eq by lra. change (negb (Z.even (2 ^ 53 - 1))) with true. cbv iota. symmetry. apply Zceil_imp. split; [replace (2 ^ 53 - 1)%Z with (2 ^ 53 - 1)%Z by lia; lra|].
      rewrite minus_IZR. lra.
  - apply Rle_antisym.
    + rewrite <- (rnd_id (IZR N) FN) at 2. apply rnd_mono. nra.
    + apply round_N_ge_midp; auto; [apply vexp|]. rewrite pred_eq_pos by lra. unfold pred_pos.
      rewrite (mag_unique_pos radix2 (IZR N) e He). rewrite Req_bool_false by auto.
      rewrite ulp_neq_0 by lra. unfold cexp. rewrite (mag_unique_pos radix2 (IZR N) e He). replace (FLT_exp (-1074) 53 e) with (e - 53)%Z by (unfold FLT_exp; lia).
      replace (e - 53)%Z with (1 + (-54) + e)%Z by lia. rewrite !bpow_plus. change (bpow radix2 1) with 2. nra.
Qed.

Lemma sc_third j : (0 <= j <= 2)%Z -> sc (2 ^ j) 3 = IZR (2 ^ j) / 3 * (1 - bpow radix2 (-54)).
Proof.
  intros Hj. unfold sc. rewrite <- (bp j (2 ^ j)) by (lia || reflexivity). set (x := bpow radix2 j / 3). pose proof (bpow_gt_0 radix2 j) as J0.
  assert (MX : mag radix2 x = (j - 1)%Z :> Z).
  { apply mag_unique_pos. replace (j - 1 - 1)%Z with (j + -2)%Z by lia. replace (j - 1)%Z with (j + -1)%Z by lia. rewrite !bpow_plus. change (bpow radix2 (-1)) with (/ 2). change (bpow radix2 (-2)) with (/ 4). unfold x. lra. }
  unfold round, F2R, scaled_mantissa, cexp. rewrite MX. cbn [Fnum Fexp]. replace (FLT_exp (-1074) 53 (j - 1)) with (j - 54)%Z by (unfold FLT_exp; lia).
  assert (SM : x * bpow radix2 (- (j - 54)) = 18014398509481984 / 3).
  { unfold x. replace (bpow radix2 j / 3 * bpow radix2 (- (j - 54))) with (bpow radix2 j * bpow radix2 (- (j - 54)) / 3) by field. rewrite <- bpow_plus. replace (j + - (j - 54))%Z with 54%Z by lia.
    rewrite (bp 54 18014398509481984) by (lia || reflexivity). reflexivity. }
  rewrite SM. rewrite (Znearest_imp _ _ 6004799503160661) by (apply Rabs_def1; lra).
  replace (j - 54)%Z with (j + -54)%Z by lia. rewrite bpow_plus. rewrite u54. unfold x. lra.
Qed.

(** With ratios 1, 2, 3 and 4 every side is the exact one rounded down. *)
Theorem C105_small_ratios : forall w p q, (0 <= w <= 2 ^ 48)%Z -> (1 <= p <= 4)%Z -> (1 <= q <= 4)%Z ->
  scale_side w p q = Some (w * p / q)%Z.
Proof.
  intros w p q Hw Hp Hq. assert (OK : side_ok w p q) by (unfold side_ok; nia).
  assert (Q : (q = 1 \/ q = 2 \/ q = 3 \/ q = 4)%Z) by lia. destruct Q as [->|[->|[->| ->]]].
  - apply C105_exact; auto. right. exists 0%Z. split; [lia|reflexivity].
  - apply C105_exact; auto. right. exists 1%Z. split; [lia|reflexivity].
  - destruct (Z.eq_dec p 3) as [->|P3]; [apply C105_exact; auto; left; exists 1%Z; lia|].
    destruct (C105_sides w p 3 OK) as (r & E & [->|(W1 & [d D] & ->)]); auto. exfalso.
    destruct (side_real w p 3 OK) as [E' _]. rewrite E' in E. injection E as E.
    rewrite D, Z.div_mul in E by lia.
    assert (SC : sc p 3 = IZR p / 3 * (1 - bpow radix2 (-54))).
    { assert (P : (p = 2 ^ 0 \/ p = 2 ^ 1 \/ p = 2 ^ 2)%Z) by (cbn; lia). destruct P as [->|[->| ->]]; apply sc_third; lia. }
    unfold side_val in E. rewrite SC in E. replace (IZR w * (IZR p / 3 * (1 - bpow radix2 (-54)))) with (IZR d * (1 - bpow radix2 (-54))) in E.
    + assert (DB : (1 <= d <= 2 ^ 52)%Z) by nia. rewrite rnd_below in E by exact DB. rewrite Zfloor_IZR in E. lia.
    + assert (D' : IZR w * IZR p = IZR d * 3) by (rewrite <- !mult_IZR; f_equal; lia). nra.
  - apply C105_exact; auto. right. exists 2%Z. split; [lia|reflexivity].
Qed.
Print Assumptions C105_small_ratios.

(** The other fields, and the sides of a texture *)
Theorem C105_texture : forall I (t : TextureMeta I) p,
  side_ok (tmWidth t) p (tmPixelRatio t) -> side_ok (tmHeight t) p (tmPixelRatio t) ->
  exists t', ScaleTo t p = Some t' /\ tmId t' = tmId t /\ tmName t' = tmName t /\ tmPixelRatio t' = p /\
    (tmWidth t * p / tmPixelRatio t - 1 <= tmWidth t' <= tmWidth t * p / tmPixelRatio t)%Z /\
    (tmHeight t * p / tmPixelRatio t - 1 <= tmHeight t' <= tmHeight t * p / tmPixelRatio t)%Z /\
    (p = tmPixelRatio t -> t' = t).
Proof.
  intros I t p HW HH. destruct (C105_sides _ _ _ HW) as (w & Ew & Dw). destruct (C105_sides _ _ _ HH) as (h & Eh & Dh).
  unfold ScaleTo. rewrite Ew, Eh. eexists. split; [reflexivity|]. cbn [tmId tmName tmPixelRatio tmWidth tmHeight]. repeat split; try lia.
  intros EP. rewrite C105_exact in Ew by (auto; left; exists 1%Z; lia). rewrite C105_exact in Eh by (auto; left; exists 1%Z; lia).
  injection Ew as <-. injection Eh as <-. destruct HW as (_ & _ & Q & _). subst p. rewrite !Z.div_mul by lia. destruct t; reflexivity.
Qed.
Print Assumptions C105_texture.

(** From 1x to a small ratio and back *)
Theorem C105_round_trip : forall I (t : TextureMeta I) p, tmPixelRatio t = 1%Z -> (1 <= p <= 4)%Z ->
  (0 <= tmWidth t <= 2 ^ 46)%Z -> (0 <= tmHeight t <= 2 ^ 46)%Z ->
  exists t', ScaleTo t p = Some t' /\ tmWidth t' = (tmWidth t * p)%Z /\ tmHeight t' = (tmHeight t * p)%Z /\ ScaleTo t' 1 = Some t.
Proof.
  intros I t p E Hp HW HH. unfold ScaleTo. rewrite E, !C105_small_ratios by lia. eexists. split; [reflexivity|]. cbn [tmId tmName tmPixelRatio tmWidth tmHeight].
  rewrite !Z.div_1_r, !C105_small_ratios by nia. rewrite !Z.mul_1_r, !Z.div_mul by lia. destruct t as [a b c d e]; cbn [tmId tmName tmPixelRatio tmWidth tmHeight] in *; subst; auto.
Qed.
Print Assumptions C105_round_trip.

(** A ratio of 0 leaves the sides to the implementation. *)
Theorem C105_no_ratio : forall w p, scale_side w p 0 = None.
Proof.
  intros w p. unfold scale_side. change (fint 0) with (@B754_zero 53 1024 false). unfold f2int, fdiv, fmul.
  destruct (fint p) as [s|s| |s m e H]; destruct (fint w) as [s'|s'| |s' m' e' H']; reflexivity.
Qed.
Print Assumptions C105_no_ratio.

(** The exact quotient is a whole number, the side is one less: a single column of pixels disappears. *)
Theorem C105_exact_refuted :
  side_ok 49 1 49 /\ scale_side 49 1 49 = Some 0%Z /\ side_ok 45 7 5 /\ scale_side 45 7 5 = Some 62%Z /\ (45 * 7 / 5 = 63)%Z /\
  (** so scaling up and back need not give the same size *)
  scale_side 1 49 1 = Some 49%Z.
Proof. unfold side_ok. repeat split; try lia; vm_compute; reflexivity. Qed.
Print Assumptions C105_exact_refuted.

Example C105_nonvacuous : scale_side 24 2 1 = Some 48%Z /\ scale_side 48 3 2 = Some 72%Z /\ scale_side 47 1 2 = Some 23%Z /\ scale_side 100 2 3 = Some 66%Z.
Proof. repeat split; vm_compute; reflexivity. Qed.
