(** IEEE-754 binary64 operations on finite values of moderate size, through Flocq. *)
From Coq Require Import ZArith Reals Lia Lra Bool.
From Flocq Require Import Core BinarySingleNaN.
From Verif Require Import GoBase TileF64_Model TileF64_Proofs.
Open Scope R_scope.
#[local] Existing Instance vexp.

Definition fsub (x y : f64) : f64 := Bminus mode_NE x y.
(** math.Floor *)
Definition ffloor (x : f64) : f64 := Bnearbyint mode_DN x.
(** byte(x): towards zero, low eight bits *)
Definition fbyte (x : f64) : Z := (Btrunc x mod 256)%Z.
(** float64(n) *)
Definition fint (n : Z) : f64 := binary_normalize 53 1024 _ _ mode_NE n 0 false.

(** [x] is finite and its value is [r] *)
Definition is_f (x : f64) (r : R) : Prop := is_finite x = true /\ B2R x = r.

Lemma is_f_fmt x r : is_f x r -> fmt r.
Proof. intros [_ <-]. rewrite <- fexp_eq. apply generic_format_B2R. Qed.

Lemma rnd_err a x : (-1000 <= a)%Z -> Rabs x <= bpow radix2 a -> Rabs (rnd x - x) <= bpow radix2 (a - 53).
Proof.
  intros Ha Hx. eapply Rle_trans; [apply error_le_half_ulp; apply vexp|].
  assert (U : ulp radix2 (FLT_exp (-1074) 53) x <= bpow radix2 (a - 52)).
  { apply Rle_trans with (ulp radix2 (FLT_exp (-1074) 53) (bpow radix2 a)).
    - apply ulp_le; [apply vexp|apply FLT_exp_monotone|]. rewrite (Rabs_right (bpow radix2 a)) by (apply Rle_ge, bpow_ge_0). auto.
    - rewrite ulp_bpow. apply bpow_le. unfold FLT_exp. lia. }
  replace (a - 53)%Z with (-1 + (a - 52))%Z by lia. rewrite bpow_plus. change (bpow radix2 (-1)) with (/ 2). lra.
Qed.

Lemma rnd_abs a x : (-1000 <= a)%Z -> Rabs x <= bpow radix2 a -> Rabs (rnd x) <= bpow radix2 a.
Proof.
  intros Ha H. apply abs_round_le_generic; auto; try apply vexp; try apply valid_rnd_N. apply generic_format_bpow. unfold FLT_exp. lia.
Qed.

Lemma fadd_f x y a b : is_f x a -> is_f y b -> Rabs (a + b) <= bpow radix2 100 -> is_f (fadd x y) (rnd (a + b)).
Proof.
  intros [Fx <-] [Fy <-] H. pose proof (Bplus_correct 53 1024 _ _ mode_NE x y Fx Fy) as K. rewrite fexp_eq in K. cbn [round_mode] in K.
  rewrite small_lt_emax in K by (apply rnd_abs; [lia|auto]). destruct K as (K1 & K2 & _). split; auto.
Qed.
Lemma fsub_f x y a b : is_f x a -> is_f y b -> Rabs (a - b) <= bpow radix2 100 -> is_f (fsub x y) (rnd (a - b)).
Proof.
  intros [Fx <-] [Fy <-] H. pose proof (Bminus_correct 53 1024 _ _ mode_NE x y Fx Fy) as K. rewrite fexp_eq in K. cbn [round_mode] in K.
  rewrite small_lt_emax in K by (apply rnd_abs; [lia|auto]). destruct K as (K1 & K2 & _). split; auto.
Qed.
Lemma fmul_f x y a b : is_f x a -> is_f y b -> Rabs (a * b) <= bpow radix2 100 -> is_f (fmul x y) (rnd (a * b)).
Proof.
  intros [Fx <-] [Fy <-] H. pose proof (Bmult_correct 53 1024 _ _ mode_NE x y) as K. rewrite fexp_eq in K. cbn [round_mode] in K.
  rewrite small_lt_emax in K by (apply rnd_abs; [lia|auto]). destruct K as (K1 & K2 & _). split; auto. unfold fmul. rewrite K2, Fx, Fy. reflexivity.
Qed.
Lemma fdiv_f x y a b : is_f x a -> is_f y b -> b <> 0 -> Rabs (a / b) <= bpow radix2 100 -> is_f (fdiv x y) (rnd (a / b)).
Proof.
  intros [Fx <-] [Fy <-] Hb H. pose proof (Bdiv_correct 53 1024 _ _ mode_NE x y Hb) as K. rewrite fexp_eq in K. cbn [round_mode] in K.
  rewrite small_lt_emax in K by (apply rnd_abs; [lia|auto]). destruct K as (K1 & K2 & _). split; auto. unfold fdiv. rewrite K2, Fx. reflexivity.
Qed.
Lemma ffloor_f x a : is_f x a -> is_f (ffloor x) (IZR (Zfloor a)).
Proof.
  intros [Fx <-]. destruct (Bnearbyint_correct 53 1024 _ mode_DN x) as (K1 & K2 & _). split; [unfold ffloor; congruence|].
  unfold ffloor. rewrite K1. unfold round, F2R, scaled_mantissa, cexp, FIX_exp. cbn [Fnum Fexp round_mode]. change (bpow radix2 (- 0)) with 1. change (bpow radix2 0) with 1. rewrite !Rmult_1_r. reflexivity.
Qed.
Lemma fbyte_f x a : is_f x a -> 0 <= a -> fbyte x = (Zfloor a mod 256)%Z.
Proof.
  intros [Fx <-] Ha. unfold fbyte. f_equal. apply eq_IZR. rewrite (Btrunc_correct 53 1024 _ x).
  unfold round, F2R, scaled_mantissa, cexp, FIX_exp. cbn [Fnum Fexp]. change (bpow radix2 (- 0)) with 1. change (bpow radix2 0) with 1. rewrite !Rmult_1_r. f_equal. apply Ztrunc_floor. auto.
Qed.
Lemma fint_f n : (Z.abs n <= 2 ^ 53)%Z -> is_f (fint n) (IZR n).
Proof.
  intros H. pose proof (binary_normalize_correct 53 1024 _ _ mode_NE n 0 false) as K. cbv zeta in K. rewrite fexp_eq in K. cbn [round_mode] in K.
  assert (E : F2R (Float radix2 n 0) = IZR n) by (unfold F2R; cbn [Fnum Fexp]; change (bpow radix2 0) with 1; ring). rewrite E in K.
  assert (G : fmt (IZR n)).
  { destruct (Z.eq_dec (Z.abs n) (2 ^ 53)) as [Q|Q].
    - assert (B : fmt (bpow radix2 53)) by (apply generic_format_bpow; unfold FLT_exp; lia).
      assert (P : bpow radix2 53 = IZR (2 ^ 53)) by reflexivity. rewrite P in B.
      destruct (Z.abs_spec n) as [[_ Q1]|[_ Q1]]; [replace n with (2 ^ 53)%Z by lia; auto|]. replace n with (- 2 ^ 53)%Z by lia. rewrite opp_IZR. apply generic_format_opp. auto.
    - replace (IZR n) with (IZR n * bpow radix2 0) by (change (bpow radix2 0) with 1; ring). apply fmt_F2R; lia. }
  rewrite rnd_id in K by auto. rewrite small_lt_emax in K.
  - destruct K as (K1 & K2 & _). split; auto.
  - rewrite <- abs_IZR. apply Rle_trans with (IZR (2 ^ 53)); [apply IZR_le; auto|]. change (IZR (2 ^ 53)) with (bpow radix2 53). apply bpow_le. lia.
Qed.

Lemma fmt_int n : (Z.abs n < 2 ^ 53)%Z -> fmt (IZR n).
Proof. intros H. replace (IZR n) with (IZR n * bpow radix2 0) by (change (bpow radix2 0) with 1; ring). apply fmt_F2R; lia. Qed.

(** The fractional part of a double is a double. *)
Lemma fmt_frac x : fmt x -> 0 <= x -> fmt (x - IZR (Zfloor x)).
Proof.
  intros F H. apply FLT_format_generic in F; [|reflexivity]. destruct F as [[m e] E Hm He]. cbn [Fnum Fexp] in *. unfold F2R in E. cbn [Fnum Fexp] in E.
  assert (M0 : (0 <= m)%Z). { apply le_IZR. pose proof (bpow_gt_0 radix2 e). rewrite E in H. apply Rmult_le_reg_r with (bpow radix2 e); lra. }
  destruct (Z_le_dec 0 e) as [He0|He0].
  - rewrite E. rewrite <- IZR_Zpower by auto. rewrite <- mult_IZR, Zfloor_IZR. replace (IZR (m * radix2 ^ e) - IZR (m * radix2 ^ e)) with 0 by ring. apply generic_format_0.
  - set (k := (- e)%Z) in *. assert (Pk : (0 < 2 ^ k)%Z) by (apply Z.pow_pos_nonneg; lia).
    assert (B : bpow radix2 e = / IZR (2 ^ k)). { replace e with (- k)%Z by lia. rewrite bpow_opp, <- IZR_Zpower by lia. reflexivity. }
    assert (Hk : 0 < IZR (2 ^ k)) by (apply IZR_lt; auto).
    pose proof (Z.div_mod m (2 ^ k) ltac:(lia)) as D. pose proof (Z.mod_pos_bound m (2 ^ k) Pk) as MB.
    assert (FL : Zfloor x = (m / 2 ^ k)%Z).
    { apply Zfloor_imp. rewrite E, B. rewrite D at 2 3. rewrite !plus_IZR, !mult_IZR. assert (0 <= IZR (m mod 2 ^ k)) by (apply IZR_le; lia). assert (IZR (m mod 2 ^ k) < IZR (2 ^ k)) by (apply IZR_lt; lia).
      split; [apply Rmult_le_reg_r with (IZR (2 ^ k))|apply Rmult_lt_reg_r with (IZR (2 ^ k))]; auto; rewrite Rmult_assoc, Rinv_l by lra; nra. }
    replace (x - IZR (Zfloor x)) with (IZR (m mod 2 ^ k) * bpow radix2 e).
    + apply fmt_F2R; [|lia]. change (radix2 ^ 53)%Z with (2 ^ 53)%Z in Hm. pose proof (Z.mod_le m (2 ^ k) M0 Pk). lia.
    + rewrite FL, E, B. rewrite D at 2. rewrite plus_IZR, mult_IZR. field. lra.
Qed.
