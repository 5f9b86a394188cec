(** HSL and HSV colours in binary64 (C116). *)
From Coq Require Import ZArith Reals Rtrigo1 Rtrigo_alt Ratan List Lia Lra Bool.
From Flocq Require Import Core BinarySingleNaN.
From Verif Require Import GoBase Num TileF64_Model TileF64_Proofs F64 Json Color_Model Color_Props ColorF64_Model ColorF64_Proofs.
Import ListNotations.
Open Scope R_scope.
#[local] Existing Instance vexp.

(** ** Pi and the arc cosine *)
Lemma fact_step n k : INR (fact n) = IZR k -> INR (fact (S n)) = IZR (Z.of_nat (S n) * k).
Proof. intros H. rewrite fact_simpl, mult_INR, H, INR_IZR_INZ, mult_IZR. reflexivity. Qed.
Lemma facts : INR (fact 1) = 1 /\ INR (fact 3) = 6 /\ INR (fact 5) = 120 /\ INR (fact 7) = 5040 /\ INR (fact 9) = 362880 /\ INR (fact 11) = 39916800.
Proof.
  assert (F1 : INR (fact 1) = IZR 1) by reflexivity.
  pose proof (fact_step _ _ F1) as F2. pose proof (fact_step _ _ F2) as F3. pose proof (fact_step _ _ F3) as F4. pose proof (fact_step _ _ F4) as F5. pose proof (fact_step _ _ F5) as F6. pose proof (fact_step _ _ F6) as F7.
  pose proof (fact_step _ _ F7) as F8. pose proof (fact_step _ _ F8) as F9. pose proof (fact_step _ _ F9) as F10. pose proof (fact_step _ _ F10) as F11. exact (conj F1 (conj F3 (conj F5 (conj F7 (conj F9 F11))))).
Qed.
Lemma approx4 a : sin_approx a 4 = a - a ^ 3 / 6 + a ^ 5 / 120 - a ^ 7 / 5040 + a ^ 9 / 362880.
Proof.
  destruct facts as (F1 & F3 & F5 & F7 & F9 & _). unfold sin_approx. cbn [sum_f_R0]. unfold sin_term. cbn [Nat.mul Nat.add]. rewrite F1, F3, F5, F7, F9. field.
Qed.
Lemma approx5 a : sin_approx a 5 = a - a ^ 3 / 6 + a ^ 5 / 120 - a ^ 7 / 5040 + a ^ 9 / 362880 - a ^ 11 / 39916800.
Proof.
  destruct facts as (F1 & F3 & F5 & F7 & F9 & F11). unfold sin_approx. cbn [sum_f_R0]. unfold sin_term. cbn [Nat.mul Nat.add]. rewrite F1, F3, F5, F7, F9, F11. field.
Qed.
Lemma approx1 a : sin_approx a 1 = a - a ^ 3 / 6.
Proof. destruct facts as (F1 & F3 & _). unfold sin_approx. cbn [sum_f_R0]. unfold sin_term. cbn [Nat.mul Nat.add]. rewrite F1, F3. field. Qed.
Lemma pi_lo : 314159265 / 100000000 < PI.
Proof.
  pose proof PI2_3_2 as P3. set (c := 314159265 / 600000000). assert (E : 314159265 / 100000000 = 6 * c) by (unfold c; lra). rewrite E.
  pose proof (sin_bound c 1 ltac:(unfold c; lra) ltac:(unfold c; lra)) as [_ B]. change (2 * (1 + 1))%nat with 4%nat in B. rewrite approx4 in B.
  assert (S : sin c < sin (PI / 6)) by (rewrite sin_PI6; eapply Rle_lt_trans; [exact B|]; unfold c; lra).
  apply Rnot_le_lt. intros L. pose proof (sin_incr_1 (PI / 6) c ltac:(lra) ltac:(lra) ltac:(unfold c; lra) ltac:(unfold c; lra) ltac:(lra)). lra.
Qed.
Lemma pi_hi : PI < 314159266 / 100000000.
Proof.
  pose proof PI2_3_2 as P3. set (c := 314159266 / 600000000). assert (E : 314159266 / 100000000 = 6 * c) by (unfold c; lra). rewrite E.
  pose proof (sin_bound c 2 ltac:(unfold c; lra) ltac:(unfold c; lra)) as [B _]. change (2 * 2 + 1)%nat with 5%nat in B. rewrite approx5 in B.
  assert (S : sin (PI / 6) < sin c) by (rewrite sin_PI6; eapply Rlt_le_trans; [|exact B]; unfold c; lra).
  apply Rnot_le_lt. intros L. pose proof PI_4. pose proof (sin_incr_1 c (PI / 6) ltac:(unfold c; lra) ltac:(unfold c; lra) ltac:(lra) ltac:(lra) ltac:(lra)). lra.
Qed.
Lemma pi64_f : is_f pi64 (7074237752028440 / 2251799813685248).
Proof. split; [reflexivity|]. unfold pi64, B2R, F2R. cbn [Fnum Fexp cond_Zopp]. change (bpow radix2 (-51)) with (bpow radix2 (- (51))). rewrite (bpm 51 2251799813685248 ltac:(lia) eq_refl). reflexivity. Qed.
Definition vpi : R := 7074237752028440 / 2251799813685248.
Lemma vpi_near : Rabs (vpi - PI) <= / 100000000.
Proof. pose proof pi_lo. pose proof pi_hi. apply ab. unfold vpi. lra. Qed.

Lemma sin_half t : 0 <= t <= PI / 2 -> t / 2 <= sin t.
Proof. intros H. pose proof pi_hi. pose proof (sin_bound t 0 ltac:(lra) ltac:(lra)) as [B _]. change (2 * 0 + 1)%nat with 1%nat in B. rewrite approx1 in B. eapply Rle_trans; [|exact B]. assert (t * t <= 3) by nra. nra. Qed.
(** The arc cosine is continuous with a modulus of a square root. *)
Lemma acos_near x y d : -1 <= x <= 1 -> -1 <= y <= 1 -> 0 <= d -> 8 * Rabs (x - y) <= d * d -> Rabs (acos x - acos y) <= d.
Proof.
  assert (W : forall x y d, -1 <= x <= 1 -> -1 <= y <= 1 -> 0 <= d -> 8 * Rabs (x - y) <= d * d -> acos y <= acos x -> acos x - acos y <= d).
  { clear. intros x y d Hx Hy Hd H L. pose proof (acos_bound x) as Bx. pose proof (acos_bound y) as By. set (a := acos x) in *. set (b := acos y) in *.
    assert (E : y - x = 2 * sin ((a - b) / 2) * sin ((a + b) / 2)).
    { rewrite <- (cos_acos y Hy), <- (cos_acos x Hx). fold a b. rewrite form2. replace ((b - a) / 2) with (- ((a - b) / 2)) by field. rewrite sin_neg. replace ((b + a) / 2) with ((a + b) / 2) by field. ring. }
    pose proof (sin_half ((a - b) / 2) ltac:(lra)) as S1.
    assert (S2 : sin ((a - b) / 2) <= sin ((a + b) / 2)).
    { destruct (Rle_lt_dec ((a + b) / 2) (PI / 2)) as [K|K]; [apply sin_incr_1; lra|]. rewrite <- (sin_PI_x ((a + b) / 2)). apply sin_incr_1; lra. }
    assert (S3 : (a - b) / 2 / 2 * ((a - b) / 2 / 2) <= sin ((a - b) / 2) * sin ((a + b) / 2)) by (apply Rmult_le_compat; lra).
    assert (A : y - x <= Rabs (x - y)) by (rewrite Rabs_minus_sym; apply Rle_abs). apply Rsqr_incr_0_var; [|exact Hd]. unfold Rsqr. lra. }
  intros Hx Hy Hd H. apply ab. destruct (Rle_lt_dec (acos y) (acos x)) as [L|L].
  - pose proof (W x y d Hx Hy Hd H L). lra.
  - rewrite Rabs_minus_sym in H. pose proof (W y x d Hy Hx Hd H ltac:(lra)). lra.
Qed.

(** ** The hue *)

(** An implementation of math.Acos: on [-1, 1] the result is between 0 and math.Pi and within a billionth of the arc cosine. *)
Definition good_acos (acos64 : f64 -> f64) : Prop :=
  forall x, is_finite x = true -> -1 <= B2R x <= 1 -> is_finite (acos64 x) = true /\ 0 <= B2R (acos64 x) <= B2R pi64 /\ Rabs (B2R (acos64 x) - acos (B2R x)) <= / 100000000.

Lemma isf_int x n : is_f x (rnd (IZR n)) -> (Z.abs n < 2 ^ 53)%Z -> is_f x (IZR n).
Proof. intros H K. rewrite (fi n K) in H. exact H. Qed.
Lemma mul_int a b : (0 <= a <= 255)%Z -> (0 <= b <= 255)%Z -> is_f (fmul (fint a) (fint b)) (IZR (a * b)).
Proof.
  intros Ha Hb. apply isf_int; [|nia]. rewrite mult_IZR. apply fmul_f; [apply f_int; lia|apply f_int; lia|]. rewrite <- mult_IZR. apply small. rewrite Rabs_right; [apply IZR_le; nia|apply Rle_ge, IZR_le; nia].
Qed.
Lemma add_int x y a b : is_f x (IZR a) -> is_f y (IZR b) -> (0 <= a <= 1000000)%Z -> (0 <= b <= 1000000)%Z -> is_f (fadd x y) (IZR (a + b)).
Proof. intros X Y Ha Hb. apply isf_int; [|lia]. rewrite plus_IZR. apply fadd_f; auto. rewrite <- plus_IZR. apply small. rewrite Rabs_right; [apply IZR_le; lia|apply Rle_ge, IZR_le; lia]. Qed.
Definition nunder (r g b : Z) : Z := (r * r + g * g + b * b - (r * g + r * b + g * b))%Z.
Lemma nunder_sq r g b : (4 * nunder r g b = (2 * r - (g + b)) * (2 * r - (g + b)) + 3 * ((g - b) * (g - b)))%Z.
Proof. unfold nunder. ring. Qed.
Lemma nunder_pos r g b : (0 <= nunder r g b)%Z. Proof. pose proof (nunder_sq r g b). pose proof (Z.square_nonneg (2 * r - (g + b))). pose proof (Z.square_nonneg (g - b)). lia. Qed.
Lemma nunder_0 r g b : nunder r g b = 0%Z <-> (r = g /\ g = b)%Z.
Proof. pose proof (nunder_sq r g b). split; [|intros [-> ->]; unfold nunder; lia]. intros E. pose proof (Z.square_nonneg (2 * r - (g + b))) as A. pose proof (Z.square_nonneg (g - b)) as B.
  assert (B1 : ((g - b) * (g - b) = 0)%Z) by lia. assert (A1 : ((2 * r - (g + b)) * (2 * r - (g + b)) = 0)%Z) by lia. apply Z.mul_eq_0 in A1, B1. lia.
Qed.
Lemma under_f r g b : (0 <= r <= 255)%Z -> (0 <= g <= 255)%Z -> (0 <= b <= 255)%Z ->
  is_f (fsub (fadd (fadd (fmul (fint r) (fint r)) (fmul (fint g) (fint g))) (fmul (fint b) (fint b))) (fadd (fadd (fmul (fint r) (fint g)) (fmul (fint r) (fint b))) (fmul (fint g) (fint b)))) (IZR (nunder r g b)).
Proof.
  intros Hr Hg Hb. pose proof (nunder_pos r g b) as N. assert (N2 : (nunder r g b <= 1000000)%Z) by (unfold nunder; nia). apply isf_int; [|lia]. unfold nunder. rewrite minus_IZR. apply fsub_f.
  - apply add_int; [apply add_int; [apply mul_int; auto..|nia|nia]|apply mul_int; auto|nia|nia].
  - apply add_int; [apply add_int; [apply mul_int; auto..|nia|nia]|apply mul_int; auto|nia|nia].
  - rewrite <- minus_IZR. fold (nunder r g b). apply small. rewrite Rabs_right; [apply IZR_le; lia|apply Rle_ge, IZR_le; lia].
Qed.
Lemma fmt_half n : (Z.abs n < 2 ^ 53)%Z -> fmt (IZR n / 2).
Proof. intros H. replace (IZR n / 2) with (IZR n * bpow radix2 (-1)); [apply fmt_F2R; [exact H|lia]|]. change (bpow radix2 (-1)) with (/ 2). reflexivity. Qed.
Lemma before_f r g b : (0 <= r <= 255)%Z -> (0 <= g <= 255)%Z -> (0 <= b <= 255)%Z ->
  is_f (fsub (fint r) (fadd (fdiv (fint g) (fint 2)) (fdiv (fint b) (fint 2)))) (IZR r - (IZR g / 2 + IZR b / 2)) /\ fmt (IZR r - (IZR g / 2 + IZR b / 2)).
Proof.
  intros Hr Hg Hb. assert (Rr : 0 <= IZR r <= 255) by (split; apply IZR_le; lia). assert (Rg : 0 <= IZR g <= 255) by (split; apply IZR_le; lia). assert (Rb : 0 <= IZR b <= 255) by (split; apply IZR_le; lia).
  assert (D : forall n, (0 <= n <= 255)%Z -> is_f (fdiv (fint n) (fint 2)) (IZR n / 2)).
  { intros n Hn. assert (0 <= IZR n <= 255) by (split; apply IZR_le; lia). rewrite <- (rnd_id _ (fmt_half n ltac:(lia))). apply fdiv_f; [apply f_int; lia|apply f_int; lia|lra|]. apply small, ab. lra. }
  assert (A : is_f (fadd (fdiv (fint g) (fint 2)) (fdiv (fint b) (fint 2))) (IZR g / 2 + IZR b / 2)).
  { assert (F : fmt (IZR g / 2 + IZR b / 2)) by (replace (IZR g / 2 + IZR b / 2) with (IZR (g + b) / 2) by (rewrite plus_IZR; field); apply fmt_half; lia). rewrite <- (rnd_id _ F). apply fadd_f; auto. apply small, ab. lra. }
  assert (F : fmt (IZR r - (IZR g / 2 + IZR b / 2))) by (replace (IZR r - (IZR g / 2 + IZR b / 2)) with (IZR (2 * r - (g + b)) / 2) by (rewrite minus_IZR, mult_IZR, plus_IZR; field); apply fmt_half; lia).
  split; [|exact F]. rewrite <- (rnd_id _ F). apply fsub_f; [apply f_int; lia|exact A|]. apply small, ab. lra.
Qed.
Lemma mulb x y a b : Rabs x <= a -> Rabs y <= b -> Rabs (x * y) <= a * b.
Proof. intros Hx Hy. rewrite Rabs_mult. apply Rmult_le_compat; auto; apply Rabs_pos. Qed.
Lemma div_le_1 a b : 0 < b -> - b <= a <= b -> -1 <= a / b <= 1.
Proof. intros Hb H. split; apply Rmult_le_reg_r with b; auto; unfold Rdiv; rewrite Rmult_assoc, Rinv_l by lra; lra. Qed.
(** The argument of the arc cosine is a double in [-1, 1]. *)
Lemma ratio64 r g b : (0 <= r <= 255)%Z -> (0 <= g <= 255)%Z -> (0 <= b <= 255)%Z -> (nunder r g b <> 0)%Z ->
  let before := IZR r - (IZR g / 2 + IZR b / 2) in let w := sqrt (IZR (nunder r g b)) in
  -1 <= before / w <= 1 /\ exists x, is_f (fdiv (fsub (fint r) (fadd (fdiv (fint g) (fint 2)) (fdiv (fint b) (fint 2)))) (fsqrt (fsub (fadd (fadd (fmul (fint r) (fint r)) (fmul (fint g) (fint g))) (fmul (fint b) (fint b))) (fadd (fadd (fmul (fint r) (fint g)) (fmul (fint r) (fint b))) (fmul (fint g) (fint b)))))) x /\
    -1 <= x <= 1 /\ Rabs (x - before / w) <= 600 * uu.
Proof.
  intros Hr Hg Hb HN before w. pose proof uu_pos as U0. assert (U1 : uu < / 1000000000) by (unfold uu; lra). pose proof (nunder_pos r g b) as NP. assert (N1 : (1 <= nunder r g b <= 195075)%Z) by (split; [lia|unfold nunder; nia]).
  assert (NR : 1 <= IZR (nunder r g b) <= 195075) by (split; apply IZR_le; lia).
  pose proof (sqrt_sqrt (IZR (nunder r g b)) ltac:(lra)) as WW. fold w in WW. pose proof (sqrt_pos (IZR (nunder r g b))) as W0. fold w in W0. assert (W1 : 1 <= w <= 512) by (split; nra).
  assert (BB : before * before <= w * w).
  { rewrite WW. unfold before. assert (E : 4 * IZR (nunder r g b) = (2 * IZR r - (IZR g + IZR b)) * (2 * IZR r - (IZR g + IZR b)) + 3 * ((IZR g - IZR b) * (IZR g - IZR b))).
    { rewrite <- !plus_IZR, <- !mult_IZR, <- !minus_IZR, <- !mult_IZR, <- !plus_IZR. f_equal. apply nunder_sq. }
    assert (0 <= (IZR g - IZR b) * (IZR g - IZR b)) by (apply Rle_0_sqr). nra. }
  assert (BW : - w <= before <= w) by (split; nra). split; [apply div_le_1; lra|].
  destruct (before_f r g b Hr Hg Hb) as [F1 F2]. fold before in F1, F2. pose proof (fsqrt_f _ _ (under_f r g b Hr Hg Hb) ltac:(lra)) as S. fold w in S.
  pose proof (re 9 512 ltac:(lia) ltac:(lia) eq_refl w ltac:(apply ab; lra)) as SE. set (v := rnd w) in *. apply ab in SE.
  assert (BV : - v <= before <= v).
  { split; [|rewrite <- (rnd_id _ F2); apply rnd_mono; lra]. assert (F3 : fmt (- before)) by (apply generic_format_opp, F2). assert (- before <= v); [|lra]. rewrite <- (rnd_id _ F3). apply rnd_mono. lra. }
  assert (V1 : 1 <= v) by (apply (rnd_ge_int _ 1); [reflexivity|lra]). pose proof (div_le_1 before v ltac:(lra) BV) as Q.
  pose proof (fdiv_f _ _ _ _ F1 S ltac:(lra) ltac:(apply small, ab; lra)) as X. pose proof (re1 (before / v) ltac:(apply ab; lra)) as XE. apply ab in XE.
  exists (rnd (before / v)). split; [exact X|]. split; [split; [apply (rnd_ge_int _ (-1))|apply (rnd_le_int _ 1)]; try reflexivity; lra|].
  assert (D : Rabs (before / v - before / w) <= 512 * uu).
  { replace (before / v - before / w) with (before / v * ((w - v) / w)) by (field; lra). rewrite Rabs_mult. assert (A1 : Rabs (before / v) <= 1) by (apply ab; lra).
    assert (A2 : Rabs ((w - v) / w) <= 512 * uu). { apply ab. assert (I : 0 < / w <= 1) by (split; [apply Rinv_0_lt_compat; lra|rewrite <- Rinv_1; apply Rinv_le_contravar; lra]). unfold Rdiv. split; nra. }
    pose proof (Rabs_pos (before / v)). pose proof (Rabs_pos ((w - v) / w)). nra. }
  apply ab in D. apply ab. lra.
Qed.

Section Hue.
Variable acos64 : f64 -> f64.
Hypothesis GA : good_acos acos64.
Lemma pi_back : rnd (rnd (vpi * 180) / vpi) = 180.
Proof.
  pose proof pi64_f as P. fold vpi in P. assert (V : 3 <= vpi <= 4) by (unfold vpi; lra). pose proof (fmul_f _ _ _ _ P (f_int 180 ltac:(lia)) ltac:(apply small, ab; lra)) as M.
  assert (B : 540 <= rnd (vpi * 180) <= 720) by (split; [apply (rnd_ge_int _ 540)|apply (rnd_le_int _ 720)]; try reflexivity; lra).
  assert (B2 : 0 <= rnd (vpi * 180) / vpi <= 720).
  { split; [apply Rmult_le_pos; [lra|left; apply Rinv_0_lt_compat; lra]|]. apply Rmult_le_reg_r with vpi; [lra|]. unfold Rdiv. rewrite Rmult_assoc, Rinv_l by lra. lra. }
  pose proof (fdiv_f _ _ _ _ M P ltac:(lra) ltac:(apply small, ab; lra)) as D. assert (E : fdiv (fmul pi64 (fint 180)) pi64 = fint 180) by (apply B2SF_inj; vm_compute; reflexivity). rewrite E in D. destruct D as [_ <-]. apply (f_int 180). lia.
Qed.
(** The arc cosine in degrees *)
Lemma deg64 x c : is_f x c -> -1 <= c <= 1 -> forall c', -1 <= c' <= 1 -> Rabs (c - c') <= 600 * uu ->
  exists v, is_f (fdiv (fmul (acos64 x) (fint 180)) pi64) v /\ 0 <= v <= 180 /\ Rabs (v - acos c' * 180 / PI) <= / 10000.
Proof.
  intros [FX <-] Hc c' Hc' HN. destruct (GA x FX Hc) as (A1 & A2 & A3). set (y := B2R (acos64 x)) in *. assert (Y : is_f (acos64 x) y) by (split; auto). pose proof pi64_f as P. fold vpi in P. rewrite (proj2 P) in A2.
  assert (V : 3 <= vpi <= 4) by (unfold vpi; lra). pose proof uu_pos as U0. assert (U1 : uu < / 8000000000000000) by (unfold uu; lra).
  pose proof (fmul_f _ _ _ _ Y (f_int 180 ltac:(lia)) ltac:(apply small, ab; lra)) as M. pose proof (re1024 (y * 180) ltac:(apply ab; lra)) as ME. set (m := rnd (y * 180)) in *. apply ab in ME.
  assert (M0 : 0 <= m) by (apply rnd_nonneg; lra). assert (M1 : m <= 720) by (apply (rnd_le_int _ 720); [reflexivity|lra]).
  assert (Iv : 0 < / vpi <= 1) by (split; [apply Rinv_0_lt_compat; lra|rewrite <- Rinv_1; apply Rinv_le_contravar; lra]).
  assert (Q : 0 <= m / vpi <= 720) by (clear - M0 M1 Iv; unfold Rdiv; split; nra).
  pose proof (fdiv_f _ _ _ _ M P ltac:(lra) ltac:(apply small, ab; lra)) as D. pose proof (re1024 (m / vpi) ltac:(apply ab; lra)) as DE. set (d := rnd (m / vpi)) in *. apply ab in DE.
  exists d. split; [exact D|]. split.
  { split; [apply rnd_nonneg; lra|]. rewrite <- pi_back. apply rnd_mono. apply Rmult_le_compat_r; [lra|]. apply rnd_mono. lra. }
  pose proof (acos_near (B2R x) c' (/ 1000000) Hc Hc' ltac:(lra)) as AN. assert (8 * Rabs (B2R x - c') <= / 1000000 * / 1000000) by lra. specialize (AN H). apply ab in AN, A3. set (a := acos c') in *. pose proof (acos_bound c') as AB. fold a in AB.
  pose proof vpi_near as VN. apply ab in VN. pose proof pi_hi as PH. pose proof pi_lo as PL.
  assert (E : d - a * 180 / PI = (d - m / vpi) + (m - y * 180) * / vpi + (y - a) * 180 * / vpi + a * 180 * ((PI - vpi) * (/ vpi * / PI))) by (field; lra). rewrite E.
  assert (I3 : 0 < / vpi <= 1 / 3) by (split; [lra|]; replace (1 / 3) with (/ 3) by lra; apply Rinv_le_contravar; lra). assert (I4 : 0 < / PI <= 1 / 3) by (split; [apply Rinv_0_lt_compat; lra|]; replace (1 / 3) with (/ 3) by lra; apply Rinv_le_contravar; lra).
  assert (KP : Rabs (PI - vpi) <= / 100000000) by (apply ab; lra). assert (A3v : Rabs (/ vpi) <= 1 / 3) by (apply ab; lra). assert (A4v : Rabs (/ PI) <= 1 / 3) by (apply ab; lra).
  pose proof (mulb (m - y * 180) (/ vpi) (1024 * uu) (1 / 3) ltac:(apply ab; lra) A3v) as T1.
  pose proof (mulb ((y - a) * 180) (/ vpi) (180 * (11 / 10000000)) (1 / 3) ltac:(apply ab; lra) A3v) as T2.
  pose proof (mulb (a * 180) ((PI - vpi) * (/ vpi * / PI)) 720 (/ 100000000 * (1 / 3 * (1 / 3))) ltac:(apply ab; lra) (mulb _ _ _ _ KP (mulb _ _ _ _ A3v A4v))) as T3.
  apply ab in T1, T2, T3. apply ab. lra.
Qed.
Lemma hue64 r g b : (0 <= r <= 255)%Z -> (0 <= g <= 255)%Z -> (0 <= b <= 255)%Z ->
  exists v, is_f (getHue64 acos64 r g b) v /\ 0 <= v <= 360 /\ Rabs (v - getHue r g b) <= / 5000.
Proof.
  intros Hr Hg Hb. unfold getHue64, getHue. cbv zeta. pose proof uu_pos as U0. assert (U1 : uu < / 1000000000) by (unfold uu; lra).
  pose proof (f_int 360 ltac:(lia)) as C360. pose proof (f_int 0 ltac:(lia)) as C0. pose proof (f_int 1 ltac:(lia)) as C1.
  replace (IZR r ^ 2 + IZR g ^ 2 + IZR b ^ 2 - (IZR r * IZR g + IZR r * IZR b + IZR g * IZR b)) with (IZR (nunder r g b)) by (unfold nunder; rewrite minus_IZR, !plus_IZR, !mult_IZR; ring).
  rewrite (Bltb_f _ _ _ _ C0 (under_f r g b Hr Hg Hb)). rewrite (Bleb_f _ _ _ _ (f_int b ltac:(lia)) (f_int g ltac:(lia))).
  set (x64 := if Rltb 0 (IZR (nunder r g b)) then _ else fint 1). set (x := if Rltb 0 (IZR (nunder r g b)) then _ else 1).
  assert (X : exists c, is_f x64 c /\ -1 <= c <= 1 /\ -1 <= x <= 1 /\ Rabs (c - x) <= 600 * uu).
  { unfold x64, x. destruct (Rltb_spec 0 (IZR (nunder r g b))) as [L|L].
    - apply lt_IZR in L. destruct (ratio64 r g b Hr Hg Hb ltac:(lia)) as (Q1 & c & Q2 & Q3 & Q4). cbv zeta in *. exists c. auto.
    - exists 1. split; [exact C1|]. repeat (split; [lra|]). apply ab. lra. }
  destruct X as (c & X1 & X2 & X3 & X4). destruct (deg64 x64 c X1 X2 x X3 X4) as (d & D1 & D2 & D3). apply ab in D3. destruct (Rleb_spec (IZR b) (IZR g)).
  - exists d. split; [exact D1|]. split; [lra|]. apply ab. lra.
  - pose proof (fsub_f _ _ _ _ C360 D1 ltac:(apply small, ab; lra)) as S. pose proof (re1024 (360 - d) ltac:(apply ab; lra)) as SE. apply ab in SE. exists (rnd (360 - d)). split; [exact S|].
    split; [split; [apply rnd_nonneg; lra|apply (rnd_le_int _ 360); [reflexivity|lra]]|]. apply ab. lra.
Qed.
End Hue.

(** ** Saturation and luminosity *)
Definition ch (n : Z) : R := rnd (IZR n / 255).
Lemma byteR n : (0 <= n <= 255)%Z -> 0 <= IZR n <= 255.
Proof. intros H. split; apply IZR_le; lia. Qed.
Lemma ch_f n : (0 <= n <= 255)%Z -> is_f (fdiv (fint n) (fint 255)) (ch n).
Proof. intros H. pose proof (byteR n H). apply fdiv_f; [apply f_int; lia|apply f_int; lia|lra|apply small, ab; lra]. Qed.
Lemma ch_mono x y : (x <= y)%Z -> ch x <= ch y.
Proof. intros H. apply IZR_le in H. apply rnd_mono. lra. Qed.
Lemma ch_range n : (0 <= n <= 255)%Z -> 0 <= ch n <= 1.
Proof. intros H. pose proof (byteR n H). split; [apply rnd_nonneg; lra|apply (rnd_le_int _ 1); [reflexivity|lra]]. Qed.
Lemma ch_near n : (0 <= n <= 255)%Z -> - uu <= ch n - IZR n / 255 <= uu.
Proof. intros H. pose proof (byteR n H). apply ab, re1, ab. lra. Qed.
Lemma ch_fmt n : fmt (ch n). Proof. apply generic_format_round; [apply vexp|apply valid_rnd_N]. Qed.
Lemma ch_max x y : Rmax (ch x) (ch y) = ch (Z.max x y).
Proof. destruct (Z.max_spec x y) as [[H ->]|[H ->]]; [apply Rmax_right|apply Rmax_left]; apply ch_mono; lia. Qed.
Lemma ch_min x y : Rmin (ch x) (ch y) = ch (Z.min x y).
Proof. destruct (Z.min_spec x y) as [[H ->]|[H ->]]; [apply Rmin_left|apply Rmin_right]; apply ch_mono; lia. Qed.
Lemma max_f r g b : (0 <= r <= 255)%Z -> (0 <= g <= 255)%Z -> (0 <= b <= 255)%Z -> is_f (fmax (fdiv (fint r) (fint 255)) (fmax (fdiv (fint g) (fint 255)) (fdiv (fint b) (fint 255)))) (ch (hi r g b)).
Proof. intros Hr Hg Hb. unfold hi. rewrite <- !ch_max. apply fmax_f; [|apply fmax_f]; apply ch_f; auto. Qed.
Lemma min_f r g b : (0 <= r <= 255)%Z -> (0 <= g <= 255)%Z -> (0 <= b <= 255)%Z -> is_f (fmin (fdiv (fint r) (fint 255)) (fmin (fdiv (fint g) (fint 255)) (fdiv (fint b) (fint 255)))) (ch (lo r g b)).
Proof. intros Hr Hg Hb. unfold lo. rewrite <- !ch_min. apply fmin_f; [|apply fmin_f]; apply ch_f; auto. Qed.

Lemma quot_near d e D E k : / 256 <= e -> / 256 <= E -> 0 <= D <= E -> Rabs (d - D) <= k -> Rabs (e - E) <= k -> Rabs (d / e - D / E) <= 512 * k.
Proof.
  intros He HE HD H1 H2. pose proof (Rabs_pos (d - D)) as K0. replace (d / e - D / E) with (((d - D) + - (D / E * (e - E))) * / e) by (field; lra).
  assert (Q : Rabs (D / E) <= 1) by (apply ab, div_le_1; lra). pose proof (mulb _ _ _ _ Q H2) as T. assert (I : Rabs (/ e) <= 256).
  { assert (0 < / e) by (apply Rinv_0_lt_compat; lra). apply ab. split; [lra|]. replace 256 with (/ / 256) by (apply Rinv_inv). apply Rinv_le_contravar; lra. }
  apply ab in T, H1. pose proof (mulb ((d - D) + - (D / E * (e - E))) (/ e) (2 * k) 256 ltac:(apply ab; lra) I). lra.
Qed.
(** The saturation: [d] over a denominator that is not smaller *)
Lemma sat_f x y d e D E : is_f x d -> is_f y e -> / 256 <= d -> d <= e -> e <= 2 -> / 256 <= E -> 0 <= D <= E -> Rabs (d - D) <= 6 * uu -> Rabs (e - E) <= 6 * uu ->
  exists s, is_f (fdiv x y) s /\ 0 < s <= 1 /\ Rabs (s - D / E) <= 4000 * uu.
Proof.
  intros X Y Hd Hde He HE HD H1 H2. pose proof uu_pos as U0. assert (U1 : uu < / 1000000000) by (unfold uu; lra). pose proof (div_le_1 d e ltac:(lra) ltac:(lra)) as Q.
  assert (L : / 512 <= d / e). { apply Rmult_le_reg_r with e; [lra|]. unfold Rdiv. rewrite (Rmult_assoc d), Rinv_l by lra. lra. }
  pose proof (fdiv_f _ _ _ _ X Y ltac:(lra) ltac:(apply small, ab; lra)) as S. pose proof (re1 (d / e) ltac:(apply ab; lra)) as SE. apply ab in SE. exists (rnd (d / e)). split; [exact S|].
  split; [split; [lra|apply (rnd_le_int _ 1); [reflexivity|lra]]|]. pose proof (quot_near d e D E (6 * uu) ltac:(lra) HE HD H1 H2) as QN. apply ab in QN. apply ab. lra.
Qed.

Section Hsl.
Variable acos64 : f64 -> f64.
Hypothesis GA : good_acos acos64.
Lemma hsl64 r g b : (0 <= r <= 255)%Z -> (0 <= g <= 255)%Z -> (0 <= b <= 255)%Z -> (lo r g b < hi r g b)%Z ->
  exists h s l h' s' l', NewHSLFromRGB64 acos64 r g b = (h', s', l') /\ is_f h' h /\ is_f s' s /\ is_f l' l /\ 0 <= h <= 360 /\ 0 < s <= 1 /\ 0 <= l <= 1 /\
    Rabs (h - getHue r g b) <= / 5000 /\ Rabs (hsl_q s l - IZR (hi r g b) / 255) <= 5000 * uu /\ Rabs (2 * l - hsl_q s l - IZR (lo r g b) / 255) <= 5000 * uu.
Proof.
  intros Hr Hg Hb HL. unfold NewHSLFromRGB64. cbv zeta. pose proof (max_f r g b Hr Hg Hb) as MX. pose proof (min_f r g b Hr Hg Hb) as MN. set (mx := fmax _ _) in *. set (mn := fmin _ _) in *. clearbody mx mn.
  destruct (hue64 acos64 GA r g b Hr Hg Hb) as (h & H1 & H2 & H3). assert (BM : (0 <= hi r g b <= 255)%Z) by (unfold hi; lia). assert (Bm : (0 <= lo r g b <= 255)%Z) by (unfold lo; lia). set (M := hi r g b) in *. set (m := lo r g b) in *. clearbody M m.
  pose proof (byteR M BM) as RM. pose proof (byteR m Bm) as Rm. pose proof (ch_range M BM) as CM. pose proof (ch_range m Bm) as Cm. pose proof (ch_near M BM) as NM. pose proof (ch_near m Bm) as Nm. pose proof (ch_fmt M) as FM.
  assert (HL1 : IZR m + 1 <= IZR M) by (rewrite <- plus_IZR; apply IZR_le; lia). pose proof uu_pos as U0. assert (U1 : uu < / 1000000000) by (unfold uu; lra).
  set (a := ch M) in *. set (c := ch m) in *. clearbody a c.
  rewrite (Beqb_f _ _ _ _ MX MN). destruct (Reqb_spec a c) as [X|_]; [lra|].
  pose proof (fadd_f _ _ _ _ MX MN ltac:(apply small, ab; lra)) as S. pose proof (re2 (a + c) ltac:(apply ab; lra)) as SE. apply ab in SE. assert (SR : 0 <= rnd (a + c) <= 2) by (split; [apply rnd_nonneg; lra|apply (rnd_le_int _ 2); [reflexivity|lra]]).
  assert (SD : rnd (a - c) <= rnd (a + c)) by (apply rnd_mono; lra). set (ls := rnd (a + c)) in *. clearbody ls.
  pose proof (fdiv_f _ _ _ _ S (f_int 2 ltac:(lia)) ltac:(lra) ltac:(apply small, ab; lra)) as L. pose proof (re1 (ls / 2) ltac:(apply ab; lra)) as LE. apply ab in LE. assert (LR : 0 <= rnd (ls / 2) <= 1) by (split; [apply rnd_nonneg; lra|apply (rnd_le_int _ 1); [reflexivity|lra]]). set (l := rnd (ls / 2)) in *. clearbody l.
  assert (LN : Rabs (l - (IZR M + IZR m) / 510) <= 4 * uu) by (apply ab; lra).
  pose proof (fsub_f _ _ _ _ MX MN ltac:(apply small, ab; lra)) as D. pose proof (re1 (a - c) ltac:(apply ab; lra)) as DE. apply ab in DE.
  rewrite (Bltb_f _ _ _ _ half_f L).
  (* the two formulas *)
  assert (K : exists s, is_f (if Rltb (1 / 2) l then fdiv (fsub mx mn) (fsub (fsub (fint 2) mx) mn) else fdiv (fsub mx mn) (fadd mx mn)) s /\ 0 < s <= 1 /\
     Rabs (hsl_q s l - IZR M / 255) <= 4500 * uu).
  { destruct (Rltb_spec (1 / 2) l) as [G|G].
    - assert (MM : (255 <= M + m)%Z). { destruct (Z_le_gt_dec 255 (M + m)) as [|X]; auto. assert (Y : IZR M + IZR m <= 254) by (rewrite <- plus_IZR; apply IZR_le; lia). apply ab in LN. lra. }
      apply IZR_le in MM. rewrite plus_IZR in MM. assert (RM2 : IZR M + IZR m <= 509) by lra.
      pose proof (fsub_f _ _ _ _ (f_int 2 ltac:(lia)) MX ltac:(apply small, ab; lra)) as E. pose proof (re2 (2 - a) ltac:(apply ab; lra)) as EE. apply ab in EE. assert (EA : a <= rnd (2 - a)) by (rewrite <- (rnd_id a FM) at 1; apply rnd_mono; lra).
      assert (EB : rnd (2 - a) <= 2) by (apply (rnd_le_int _ 2); [reflexivity|lra]). set (e1 := rnd (2 - a)) in *. clearbody e1.
      pose proof (fsub_f _ _ _ _ E MN ltac:(apply small, ab; lra)) as F. pose proof (re2 (e1 - c) ltac:(apply ab; lra)) as FE. apply ab in FE. assert (FD : rnd (a - c) <= rnd (e1 - c)) by (apply rnd_mono; lra).
      assert (FB : rnd (e1 - c) <= 2) by (apply (rnd_le_int _ 2); [reflexivity|lra]).
      destruct (sat_f _ _ _ _ ((IZR M - IZR m) / 255) ((510 - IZR M - IZR m) / 255) D F) as (s & S1 & S2 & S3); [lra|lra|lra|lra|lra|apply ab; lra|apply ab; lra|].
      exists s. split; [exact S1|]. split; [exact S2|]. unfold hsl_q. destruct (Rltb_spec l (1 / 2)); [lra|]. set (sr := (IZR M - IZR m) / 255 / ((510 - IZR M - IZR m) / 255)) in *.
      assert (SR1 : -1 <= sr <= 1) by (apply div_le_1; lra).
      assert (Q : IZR M / 255 = (IZR M + IZR m) / 510 + sr - (IZR M + IZR m) / 510 * sr) by (unfold sr; field; lra). rewrite Q.
      replace (l + s - l * s - ((IZR M + IZR m) / 510 + sr - (IZR M + IZR m) / 510 * sr)) with ((l - (IZR M + IZR m) / 510) * (1 - s) + (s - sr) * (1 - (IZR M + IZR m) / 510)) by ring.
      pose proof (mulb _ (1 - s) _ 1 LN ltac:(apply ab; lra)) as T1. pose proof (mulb _ (1 - (IZR M + IZR m) / 510) _ 1 S3 ltac:(apply ab; lra)) as T2. apply ab in T1, T2. apply ab. lra.
    - assert (MM : (M + m <= 255)%Z). { destruct (Z_le_gt_dec (M + m) 255) as [|X]; auto. assert (Y : 256 <= IZR M + IZR m) by (rewrite <- plus_IZR; apply IZR_le; lia). apply ab in LN. lra. }
      apply IZR_le in MM. rewrite plus_IZR in MM.
      destruct (sat_f _ _ _ _ ((IZR M - IZR m) / 255) ((IZR M + IZR m) / 255) D S) as (s & S1 & S2 & S3); [lra|lra|lra|lra|lra|apply ab; lra|apply ab; lra|].
      exists s. split; [exact S1|]. split; [exact S2|]. assert (HQ : hsl_q s l = l * (1 + s)). { unfold hsl_q. destruct (Rltb_spec l (1 / 2)); [reflexivity|]. replace l with (1 / 2) by lra. field. } rewrite HQ.
      set (sr := (IZR M - IZR m) / 255 / ((IZR M + IZR m) / 255)) in *.
      assert (SR1 : -1 <= sr <= 1) by (apply div_le_1; lra).
      assert (Q : IZR M / 255 = (IZR M + IZR m) / 510 * (1 + sr)) by (unfold sr; field; lra). rewrite Q.
      replace (l * (1 + s) - (IZR M + IZR m) / 510 * (1 + sr)) with ((l - (IZR M + IZR m) / 510) * (1 + s) + (s - sr) * ((IZR M + IZR m) / 510)) by ring.
      pose proof (mulb _ (1 + s) _ 2 LN ltac:(apply ab; lra)) as T1. pose proof (mulb _ ((IZR M + IZR m) / 510) _ 1 S3 ltac:(apply ab; lra)) as T2. apply ab in T1, T2. apply ab. lra. }
  destruct K as (s & K1 & K2 & K3). exists h, s, l. do 3 eexists. split; [reflexivity|]. split; [exact H1|]. split; [exact K1|]. split; [exact L|]. do 3 (split; [assumption|]). split; [exact H3|]. apply ab in K3, LN. split; apply ab; lra.
Qed.
End Hsl.

(** ** C116 *)

(** A number is let through when it is NaN or finite and in range. *)
Definition passes (x : f64) (b : R) : Prop := is_nan x = true \/ (is_finite x = true /\ 0 <= B2R x <= b).
Lemma passes_iff x n : (0 <= n <= 360)%Z -> in_range64 x (fint 0) (fint n) = true <-> passes x (IZR n).
Proof.
  intros Hn. unfold in_range64, passes. destruct (is_finite x) eqn:F.
  - assert (X : is_f x (B2R x)) by (split; auto). rewrite (Bltb_f _ _ _ _ X (f_int 0 ltac:(lia))), (Bltb_f _ _ _ _ (f_int n ltac:(lia)) X).
    assert (NN : is_nan x = false) by (destruct x; try discriminate; reflexivity). rewrite NN.
    destruct (Rltb_spec (B2R x) 0), (Rltb_spec (IZR n) (B2R x)); cbn [orb negb]; split; intros K; try discriminate; try reflexivity; try (right; split; [reflexivity|lra]); (destruct K as [K|[_ K]]; [discriminate|lra]).
  - assert (Zn : is_finite (fint n) = true) by (apply (f_int n); lia). destruct x as [s|s| |s m e B]; try discriminate.
    + destruct s.
      * split; [intros K; exfalso|intros [K|[K _]]; discriminate]. assert (E : Bltb (B754_infinity true) (fint 0) = true) by reflexivity. rewrite E in K. discriminate.
      * split; [intros K; exfalso|intros [K|[K _]]; discriminate]. assert (E : Bltb (fint n) (B754_infinity false) = true) by (clear - Zn; destruct (fint n) as [[]|[]| |[] m e B]; try discriminate Zn; reflexivity). rewrite E, orb_true_r in K. discriminate.
    + split; [left; reflexivity|]. intros _. assert (E1 : Bltb B754_nan (fint 0) = false) by reflexivity. assert (E2 : Bltb (fint n) B754_nan = false) by (destruct (fint n) as [[]|[]| |[]]; reflexivity). rewrite E1, E2. reflexivity.
Qed.
Theorem C116_range : forall h s l a,
  (NewColor64 h s l a = Val (h, s, l, a) <-> passes h 360 /\ passes s 1 /\ passes l 1) /\ (NewColor64 h s l a = Val (h, s, l, a) \/ NewColor64 h s l a = Err).
Proof.
  intros h s l a. rewrite <- (passes_iff h 360 ltac:(lia)), <- (passes_iff s 1 ltac:(lia)), <- (passes_iff l 1 ltac:(lia)). unfold NewColor64.
  destruct (in_range64 h (fint 0) (fint 360)), (in_range64 s (fint 0) (fint 1)), (in_range64 l (fint 0) (fint 1)); cbn [negb]; (split; [split; [intros K; try discriminate; auto|intros (K1 & K2 & K3); try discriminate; reflexivity]|auto]).
Qed.
Print Assumptions C116_range.
Example C116_nan_refuted : ~ (forall h s l a c, NewColor64 h s l a = Val c -> is_finite s = true).
Proof. intros H. discriminate (H (fint 0) B754_nan (fint 1) 255%Z _ eq_refl). Qed.

Definition legal (c : f64 * f64 * f64) : Prop :=
  let '(h, s, l) := c in (is_finite h = true /\ 0 <= B2R h <= 360) /\ (is_finite s = true /\ 0 <= B2R s <= 1) /\ (is_finite l = true /\ 0 <= B2R l <= 1).
Lemma isf_legal x a b : is_f x a -> 0 <= a <= b -> is_finite x = true /\ 0 <= B2R x <= b.
Proof. intros [F <-] H. auto. Qed.
(** The colours made from bytes are finite and in range, so the constructors accept them. *)
Theorem C116_legal : forall acos64, good_acos acos64 -> forall r g b a, (0 <= r <= 255)%Z -> (0 <= g <= 255)%Z -> (0 <= b <= 255)%Z ->
  (legal (NewHSLFromRGB64 acos64 r g b) /\ legal (NewHSVFromRGB64 acos64 r g b)) /\
  (forall h s l, (h, s, l) = NewHSLFromRGB64 acos64 r g b \/ (h, s, l) = NewHSVFromRGB64 acos64 r g b -> NewColor64 h s l a = Val (h, s, l, a)) /\
  (let '(h, s, v) := NewHSVFromRGB64 acos64 r g b in
   Rabs (B2R h - getHue r g b) <= / 5000 /\ Rabs (255 * B2R v - IZR (hi r g b)) <= 256 * uu /\ (hi r g b <> 0%Z -> Rabs (B2R s - (1 - IZR (lo r g b) / IZR (hi r g b))) <= 4000 * uu)).
Proof.
  intros acos64 GA r g b a Hr Hg Hb.
  assert (L : (legal (NewHSLFromRGB64 acos64 r g b) /\ legal (NewHSVFromRGB64 acos64 r g b)) /\
    (let '(h, s, v) := NewHSVFromRGB64 acos64 r g b in
     Rabs (B2R h - getHue r g b) <= / 5000 /\ Rabs (255 * B2R v - IZR (hi r g b)) <= 256 * uu /\ (hi r g b <> 0%Z -> Rabs (B2R s - (1 - IZR (lo r g b) / IZR (hi r g b))) <= 4000 * uu))).
  { split; [split|].
    - destruct (Z_lt_le_dec (lo r g b) (hi r g b)) as [K|K].
      + destruct (hsl64 acos64 GA r g b Hr Hg Hb K) as (h & s & l & h' & s' & l' & -> & H1 & H2 & H3 & H4 & H5 & H6 & _). repeat split; try apply H1; try apply H2; try apply H3; rewrite ?(proj2 H1), ?(proj2 H2), ?(proj2 H3); lra.
      + unfold NewHSLFromRGB64. cbv zeta. pose proof (max_f r g b Hr Hg Hb) as MX. pose proof (min_f r g b Hr Hg Hb) as MN. rewrite (Beqb_f _ _ _ _ MX MN).
        assert (E : hi r g b = lo r g b) by (unfold hi, lo in *; lia). rewrite E, Reqb_refl. rewrite E in MX. set (mx := fmax _ _) in *. set (mn := fmin _ _) in *. clearbody mx mn. pose proof (ch_range (lo r g b) ltac:(unfold lo; lia)) as C. set (c := ch (lo r g b)) in *. clearbody c.
        pose proof (fadd_f _ _ _ _ MX MN ltac:(apply small, ab; lra)) as S. assert (SR : 0 <= rnd (c + c) <= 2) by (split; [apply rnd_nonneg; lra|apply (rnd_le_int _ 2); [reflexivity|lra]]). set (ls := rnd (c + c)) in *. clearbody ls.
        pose proof (fdiv_f _ _ _ _ S (f_int 2 ltac:(lia)) ltac:(lra) ltac:(apply small, ab; lra)) as L. assert (LR : 0 <= rnd (ls / 2) <= 1) by (split; [apply rnd_nonneg; lra|apply (rnd_le_int _ 1); [reflexivity|lra]]).
        split; [apply (isf_legal _ 0); [apply f_int; lia|lra]|]. split; [apply (isf_legal _ 0); [apply f_int; lia|lra]|]. exact (isf_legal _ _ _ L LR).
    - unfold NewHSVFromRGB64. cbv zeta. destruct (hue64 acos64 GA r g b Hr Hg Hb) as (h & H1 & H2 & _). split; [exact (isf_legal _ _ _ H1 H2)|].
      pose proof (max_f r g b Hr Hg Hb) as MX. pose proof (min_f r g b Hr Hg Hb) as MN. pose proof (ch_range (hi r g b) ltac:(unfold hi; lia)) as CM. pose proof (ch_range (lo r g b) ltac:(unfold lo; lia)) as Cm. pose proof (ch_mono (lo r g b) (hi r g b) ltac:(unfold lo, hi; lia)) as CC.
      split; [|exact (isf_legal _ _ _ MX CM)]. rewrite (Bltb_f _ _ _ _ (f_int 0 ltac:(lia)) MX). destruct (Rltb_spec 0 (ch (hi r g b))) as [P|P]; [|apply (isf_legal _ 0); [apply f_int; lia|lra]].
      pose proof (div_le_1 (ch (lo r g b)) (ch (hi r g b)) P ltac:(lra)) as Q. assert (Q0 : 0 <= ch (lo r g b) / ch (hi r g b)) by (apply Rmult_le_pos; [lra|left; apply Rinv_0_lt_compat; lra]).
      pose proof (fdiv_f _ _ _ _ MN MX ltac:(lra) ltac:(apply small, ab; lra)) as D. assert (DR : 0 <= rnd (ch (lo r g b) / ch (hi r g b)) <= 1) by (split; [apply rnd_nonneg; lra|apply (rnd_le_int _ 1); [reflexivity|lra]]).
      pose proof (fsub_f _ _ _ _ (f_int 1 ltac:(lia)) D ltac:(apply small, ab; lra)) as S. apply (isf_legal _ _ _ S). split; [apply rnd_nonneg; lra|apply (rnd_le_int _ 1); [reflexivity|lra]].
    - unfold NewHSVFromRGB64. cbv zeta. destruct (hue64 acos64 GA r g b Hr Hg Hb) as (h & H1 & _ & H3). rewrite (proj2 H1). split; [exact H3|].
      pose proof (max_f r g b Hr Hg Hb) as MX. pose proof (min_f r g b Hr Hg Hb) as MN. rewrite (proj2 MX). assert (BM : (0 <= hi r g b <= 255)%Z) by (unfold hi; lia). assert (Bm : (0 <= lo r g b <= hi r g b)%Z) by (unfold lo, hi; lia).
      set (M := hi r g b) in *. set (m := lo r g b) in *. clearbody M m. pose proof (ch_near M BM) as NM. pose proof (ch_near m ltac:(lia)) as Nm. pose proof (byteR M BM) as RM. pose proof (byteR m ltac:(lia)) as Rm. pose proof uu_pos as U0. assert (U1 : uu < / 1000000000) by (unfold uu; lra).
      split; [apply ab; lra|]. intros NZ. assert (M1 : 1 <= IZR M) by (apply IZR_le; lia). assert (mM : IZR m <= IZR M) by (apply IZR_le; lia). pose proof (ch_mono m M ltac:(lia)) as CC. pose proof (ch_range m ltac:(lia)) as Cm. pose proof (ch_range M ltac:(lia)) as CM.
      rewrite (Bltb_f _ _ _ _ (f_int 0 ltac:(lia)) MX). destruct (Rltb_spec 0 (ch M)) as [P|P]; [|lra].
      pose proof (div_le_1 (ch m) (ch M) P ltac:(lra)) as Q. pose proof (fdiv_f _ _ _ _ MN MX ltac:(lra) ltac:(apply small, ab; lra)) as D. pose proof (re1 (ch m / ch M) ltac:(apply ab; lra)) as DE. apply ab in DE.
      pose proof (quot_near (ch m) (ch M) (IZR m / 255) (IZR M / 255) uu ltac:(lra) ltac:(lra) ltac:(lra) ltac:(apply ab; lra) ltac:(apply ab; lra)) as QN. replace (IZR m / 255 / (IZR M / 255)) with (IZR m / IZR M) in QN by (field; lra). apply ab in QN.
      assert (T0 : 0 <= rnd (ch m / ch M)) by (apply rnd_nonneg, Rmult_le_pos; [lra|left; apply Rinv_0_lt_compat; lra]).
      set (t := rnd (ch m / ch M)) in *. clearbody t. pose proof (fsub_f _ _ _ _ (f_int 1 ltac:(lia)) D ltac:(apply small, ab; lra)) as S. pose proof (re2 (1 - t) ltac:(apply ab; lra)) as SE. apply ab in SE. rewrite (proj2 S). apply ab. lra. }
  destruct L as [[L1 L2] L3]. split; [split; assumption|]. split; [|exact L3]. intros h s l H. apply C116_range. destruct H as [H|H]; rewrite <- H in *; (match goal with K : legal (h, s, l) |- _ => destruct K as (A & B & C) end); split; [right; exact A|split; right; auto|right; exact A|split; right; auto].
Qed.
Print Assumptions C116_legal.

(** Every legal colour gives the channels of the CSS formula, within half a step and a ten-billionth. *)
Theorem C116_channels : forall h s l a, legal (h, s, l) -> (0 <= a <= 255)%Z ->
  exists k0 k1 k2, hslRGBA64 h s l a = (257 * k0, 257 * k1, 257 * k2, 257 * a)%Z /\
    forall k n, In (k, n) [(k0, 0); (k1, 8); (k2, 4)] -> (0 <= k <= 255)%Z /\ Rabs (IZR k - 255 * css_hsl (B2R h) (B2R s) (B2R l) n) <= 1 / 2 + / 10000000000.
Proof.
  intros h s l a ((F1 & R1) & (F2 & R2) & (F3 & R3)) Ha. destruct (rgba64_near h s l _ _ _ a (conj F1 eq_refl) (conj F2 eq_refl) (conj F3 eq_refl) R1 R2 R3 Ha) as (k0 & k1 & k2 & E & B0 & B1 & B2 & N0 & N1 & N2).
  exists k0, k1, k2. split; [exact E|]. intros k n [K|[K|[K|[]]]]; injection K as <- <-; auto.
Qed.
Print Assumptions C116_channels.

(** The channels of the exact hue *)
Lemma hue_channels r g b : (0 <= r <= 255)%Z -> (0 <= g <= 255)%Z -> (0 <= b <= 255)%Z -> (lo r g b < hi r g b)%Z ->
  let M := hi r g b in let m := lo r g b in let p := IZR m / 255 in let q := IZR M / 255 in let h := getHue r g b in
  (r = M -> hueToRGB p q (h + 120) = q)%Z /\ (r = m -> hueToRGB p q (h + 120) = p)%Z /\ (g = M -> hueToRGB p q h = q)%Z /\ (g = m -> hueToRGB p q h = p)%Z /\ (b = M -> hueToRGB p q (h - 120) = q)%Z /\ (b = m -> hueToRGB p q (h - 120) = p)%Z.
Proof.
  intros Hr Hg Hb NE M m p q h. unfold M, m, hi, lo in *. destruct (Z.lt_trichotomy g b) as [L|[L|L]].
  - pose proof (hue_blue r g b L) as (S6 & S5 & S4). fold h in S6, S5, S4.
    split; [intros K; apply hueToRGB_q; specialize (S6 ltac:(lia)); lra|]. split; [intros K; apply hueToRGB_p; specialize (S4 ltac:(lia)); lra|]. split; [lia|].
    split; [intros K; apply hueToRGB_p; destruct (Z_le_gt_dec b r); [specialize (S6 ltac:(lia))|specialize (S5 ltac:(lia))]; lra|]. split; [|lia].
    intros K. apply hueToRGB_q. destruct (Z_le_gt_dec r g); [specialize (S4 ltac:(lia))|specialize (S5 ltac:(lia))]; lra.
  - assert (N1 : (r <> g)%Z) by lia. assert (HE : h = if (g <? r)%Z then 0 else 180) by (unfold h; rewrite <- L; apply hue_even; auto). destruct (Z.ltb_spec g r) as [K|K]; rewrite HE.
    + split; [intros _; apply hueToRGB_q; lra|]. split; [lia|]. split; [lia|]. split; [intros _; apply hueToRGB_p; lra|]. split; [lia|]. intros _. apply hueToRGB_p. lra.
    + split; [lia|]. split; [intros _; apply hueToRGB_p; lra|]. split; [intros _; apply hueToRGB_q; lra|]. split; [lia|]. split; [|lia]. intros _. apply hueToRGB_q. lra.
  - pose proof (hue_green r g b L) as (S1 & S2 & S3). fold h in S1, S2, S3.
    split; [intros K; apply hueToRGB_q; specialize (S1 ltac:(lia)); lra|]. split; [intros K; apply hueToRGB_p; specialize (S3 ltac:(lia)); lra|].
    split; [intros K; apply hueToRGB_q; destruct (Z_le_gt_dec r b); [specialize (S3 ltac:(lia))|specialize (S2 ltac:(lia))]; lra|]. split; [lia|]. split; [lia|].
    intros K. apply hueToRGB_p. destruct (Z_le_gt_dec g r); [specialize (S1 ltac:(lia))|specialize (S2 ltac:(lia))]; lra.
Qed.
(** There and back: within half a step and a hundredth of the channels for the exact hue *)
Lemma back64 acos64 r g b a h s l : good_acos acos64 -> (0 <= r <= 255)%Z -> (0 <= g <= 255)%Z -> (0 <= b <= 255)%Z -> (0 <= a <= 255)%Z -> (lo r g b < hi r g b)%Z ->
  NewHSLFromRGB64 acos64 r g b = (h, s, l) -> let v := hueToRGB (IZR (lo r g b) / 255) (IZR (hi r g b) / 255) in
  exists k0 k1 k2, hslRGBA64 h s l a = (257 * k0, 257 * k1, 257 * k2, 257 * a)%Z /\
    Rabs (IZR k0 - 255 * v (getHue r g b + 120)) <= 1 / 2 + / 100 /\ Rabs (IZR k1 - 255 * v (getHue r g b)) <= 1 / 2 + / 100 /\ Rabs (IZR k2 - 255 * v (getHue r g b - 120)) <= 1 / 2 + / 100.
Proof.
  intros GA Hr Hg Hb Ha NE EQ v. destruct (hsl64 acos64 GA r g b Hr Hg Hb NE) as (x & y & z & h' & s' & l' & E & H & S & L & Hx & Hy & Hz & Nh & Nq & Np). rewrite EQ in E. injection E as <- <- <-.
  destruct (rgba64_near h s l x y z a H S L Hx ltac:(lra) Hz Ha) as (k0 & k1 & k2 & E & _ & _ & _ & N0 & N1 & N2). exists k0, k1, k2. split; [exact E|].
  destruct (css_hue x y z Hx ltac:(lra) Hz) as (S0 & S8 & S4). rewrite <- S0 in N0. rewrite <- S8 in N1. rewrite <- S4 in N2. clear S0 S8 S4 E.
  assert (NG : (g <> b \/ r <> g)%Z) by (unfold lo, hi in NE; lia). pose proof (hue_range r g b NG) as HR. set (hr := getHue r g b) in *.
  assert (B1 : 0 <= IZR (lo r g b) /\ IZR (hi r g b) <= 255 /\ IZR (lo r g b) <= IZR (hi r g b)) by (unfold lo, hi in *; repeat split; apply IZR_le; lia).
  pose proof uu_pos as U0. assert (U1 : uu < / 8000000000000000) by (unfold uu; lra).
  assert (Li : forall t t', -120 <= t <= 480 -> -120 <= t' <= 480 -> Rabs (t - t') <= / 5000 -> Rabs (hueToRGB (2 * z - hsl_q y z) (hsl_q y z) t - v t') <= / 100000).
  { intros t t' Ht Ht' D. pose proof (hue_lip _ _ t _ _ t' _ _ Ht Ht' Np Nq D ltac:(apply ab; lra)) as Q. unfold v. apply ab in Q. apply ab. lra. }
  assert (D0 : Rabs (x + 120 - (hr + 120)) <= / 5000) by (replace (x + 120 - (hr + 120)) with (x - hr) by ring; exact Nh). assert (D2 : Rabs (x - 120 - (hr - 120)) <= / 5000) by (replace (x - 120 - (hr - 120)) with (x - hr) by ring; exact Nh).
  pose proof (Li (x + 120) (hr + 120) ltac:(lra) ltac:(lra) D0) as L0. pose proof (Li x hr ltac:(lra) ltac:(lra) Nh) as L1. pose proof (Li (x - 120) (hr - 120) ltac:(lra) ltac:(lra) D2) as L2. apply ab in L0, L1, L2, N0, N1, N2. repeat split; apply ab; lra.
Qed.
Theorem C116_back : forall acos64, good_acos acos64 -> forall r g b a, (0 <= r <= 255)%Z -> (0 <= g <= 255)%Z -> (0 <= b <= 255)%Z -> (0 <= a <= 255)%Z ->
  forall h s l, NewHSLFromRGB64 acos64 r g b = (h, s, l) ->
  exists r' g' b', hslRGBA64 h s l a = (257 * r', 257 * g', 257 * b', 257 * a)%Z /\
    forall x x', In (x, x') [(r, r'); (g, g'); (b, b')] ->
      (Z.min r (Z.min g b) <= x' <= Z.max r (Z.max g b))%Z /\ (x = Z.min r (Z.min g b) -> x' = x) /\ (x = Z.max r (Z.max g b) -> x' = x).
Proof.
  intros acos64 GA r g b a Hr Hg Hb Ha h s l EQ. fold (lo r g b) (hi r g b). destruct (Z_lt_le_dec (lo r g b) (hi r g b)) as [NE|K].
  - destruct (back64 acos64 r g b a h s l GA Hr Hg Hb Ha NE EQ) as (k0 & k1 & k2 & E & N0 & N1 & N2). exists k0, k1, k2. split; [exact E|].
    assert (NG : (g <> b \/ r <> g)%Z) by (unfold lo, hi in NE; lia). pose proof (hue_range r g b NG) as HR. pose proof (hue_channels r g b Hr Hg Hb NE) as C. cbv zeta in C. destruct C as (C1 & C2 & C3 & C4 & C5 & C6).
    set (M := hi r g b) in *. set (m := lo r g b) in *. set (hr := getHue r g b) in *. pose proof (IZR_lt _ _ NE) as NR.
    assert (Mid : forall t, -120 <= t <= 480 -> IZR m / 255 <= hueToRGB (IZR m / 255) (IZR M / 255) t <= IZR M / 255) by (intros t Ht; apply hueToRGB_mid; lra).
    assert (Kx : forall k t x, -120 <= t <= 480 -> Rabs (IZR k - 255 * hueToRGB (IZR m / 255) (IZR M / 255) t) <= 1 / 2 + / 100 ->
      (x = M -> hueToRGB (IZR m / 255) (IZR M / 255) t = IZR M / 255) -> (x = m -> hueToRGB (IZR m / 255) (IZR M / 255) t = IZR m / 255) -> (m <= k <= M)%Z /\ (x = m -> k = x) /\ (x = M -> k = x)).
    { intros k t x Ht N X1 X2. apply ab in N. pose proof (Mid t Ht) as MT. split; [split; apply Z.lt_succ_r, lt_IZR; rewrite succ_IZR; lra|]. split; intros ->.
      - rewrite (X2 eq_refl) in N. assert ((k < m + 1)%Z) by (apply lt_IZR; rewrite plus_IZR; lra). assert ((m - 1 < k)%Z) by (apply lt_IZR; rewrite minus_IZR; lra). lia.
      - rewrite (X1 eq_refl) in N. assert ((k < M + 1)%Z) by (apply lt_IZR; rewrite plus_IZR; lra). assert ((M - 1 < k)%Z) by (apply lt_IZR; rewrite minus_IZR; lra). lia. }
    intros x x' [K|[K|[K|[]]]]; injection K as <- <-; [apply (Kx k0 (hr + 120) r ltac:(lra) N0); auto|apply (Kx k1 hr g ltac:(lra) N1); auto|apply (Kx k2 (hr - 120) b ltac:(lra) N2); auto].
  - unfold NewHSLFromRGB64 in EQ. cbv zeta in EQ. pose proof (max_f r g b Hr Hg Hb) as MX. pose proof (min_f r g b Hr Hg Hb) as MN. rewrite (Beqb_f _ _ _ _ MX MN) in EQ. assert (E : hi r g b = lo r g b) by (unfold hi, lo in *; lia). rewrite E, Reqb_refl in EQ. rewrite E in MX.
    assert (G : (r = lo r g b /\ g = lo r g b /\ b = lo r g b)%Z) by (unfold lo, hi in *; lia). rewrite E. assert (Bm : (0 <= lo r g b <= 255)%Z) by (unfold lo; lia). set (m := lo r g b) in *.
    set (mx := fmax _ _) in *. set (mn := fmin _ _) in *. assert (s = fint 0) as -> by congruence. assert (l = fdiv (fadd mx mn) (fint 2)) as -> by congruence. clear EQ. clearbody mx mn. clearbody m. pose proof (ch_range m Bm) as C. pose proof (ch_near m Bm) as N. pose proof (byteR m Bm) as Rm. set (c := ch m) in *. clearbody c. pose proof uu_pos as U0. assert (U1 : uu < / 1000000000) by (unfold uu; lra).
    pose proof (fadd_f _ _ _ _ MX MN ltac:(apply small, ab; lra)) as S. pose proof (re2 (c + c) ltac:(apply ab; lra)) as SE. apply ab in SE. assert (SR : 0 <= rnd (c + c) <= 2) by (split; [apply rnd_nonneg; lra|apply (rnd_le_int _ 2); [reflexivity|lra]]). set (ls := rnd (c + c)) in *. clearbody ls.
    pose proof (fdiv_f _ _ _ _ S (f_int 2 ltac:(lia)) ltac:(lra) ltac:(apply small, ab; lra)) as L. pose proof (re1 (ls / 2) ltac:(apply ab; lra)) as LE. apply ab in LE.
    unfold hslRGBA64. cbv zeta. rewrite (proj2 (byte_257 a Ha)). rewrite (Beqb_f _ _ _ _ (f_int 0 ltac:(lia)) (f_int 0 ltac:(lia))), Reqb_refl. destruct (zto64 _ _ L ltac:(lra)) as (k & _ & K2 & K3). rewrite K2. apply ab in K3.
    assert (Ek : k = m). { assert ((k < m + 1)%Z) by (apply lt_IZR; rewrite plus_IZR; lra). assert ((m - 1 < k)%Z) by (apply lt_IZR; rewrite minus_IZR; lra). lia. }
    exists k, k, k. split; [reflexivity|]. destruct G as (-> & -> & ->). rewrite Ek. intros x x' [Q|[Q|[Q|[]]]]; injection Q as <- <-; lia.
Qed.
Print Assumptions C116_back.
(** So greys and colours with two equal channels survive *)
Theorem C116_two_equal : forall acos64, good_acos acos64 -> forall r g b a, (0 <= r <= 255)%Z -> (0 <= g <= 255)%Z -> (0 <= b <= 255)%Z -> (0 <= a <= 255)%Z ->
  r = g \/ g = b \/ r = b -> forall h s l, NewHSLFromRGB64 acos64 r g b = (h, s, l) -> hslRGBA64 h s l a = (257 * r, 257 * g, 257 * b, 257 * a)%Z.
Proof.
  intros acos64 GA r g b a Hr Hg Hb Ha HE h s l EQ. destruct (C116_back acos64 GA r g b a Hr Hg Hb Ha h s l EQ) as (r' & g' & b' & E' & K). rewrite E'.
  pose proof (K r r' ltac:(left; auto)) as (_ & Kr1 & Kr2). pose proof (K g g' ltac:(right; left; auto)) as (_ & Kg1 & Kg2). pose proof (K b b' ltac:(right; right; left; auto)) as (_ & Kb1 & Kb2).
  assert (r' = r) as -> by (destruct (Z.le_ge_cases g b), (Z.le_ge_cases r b); lia). assert (g' = g) as -> by (destruct (Z.le_ge_cases g b), (Z.le_ge_cases r b); lia). assert (b' = b) as -> by (destruct (Z.le_ge_cases g b), (Z.le_ge_cases r g); lia). reflexivity.
Qed.
Print Assumptions C116_two_equal.
(** (255, 68, 0) does not: its green comes back as at most 64. *)
Theorem C116_round_trip_refuted : forall acos64, good_acos acos64 -> forall h s l, NewHSLFromRGB64 acos64 255 68 0 = (h, s, l) ->
  exists g', hslRGBA64 h s l 255 = (257 * 255, 257 * g', 257 * 0, 257 * 255)%Z /\ (0 <= g' <= 64)%Z.
Proof.
  intros acos64 GA h s l EQ. destruct (C116_back acos64 GA 255 68 0 255 ltac:(lia) ltac:(lia) ltac:(lia) ltac:(lia) h s l EQ) as (r' & g' & b' & E & K).
  pose proof (K 255%Z r' ltac:(left; auto)) as (_ & _ & Kr). pose proof (K 0%Z b' ltac:(right; right; left; auto)) as (_ & Kb & _). pose proof (K 68%Z g' ltac:(right; left; auto)) as (Kg & _ & _). specialize (Kr eq_refl). specialize (Kb eq_refl). subst r' b'. exists g'. split; [exact E|].
  destruct (back64 acos64 255 68 0 255 h s l GA ltac:(lia) ltac:(lia) ltac:(lia) ltac:(lia) ltac:(reflexivity) EQ) as (k0 & k1 & k2 & E2 & _ & N1 & _). rewrite E in E2. assert (Ek : (257 * g' = 257 * k1)%Z) by congruence. assert (k1 = g') as -> by lia.
  change (lo 255 68 0) with 0%Z in N1. change (hi 255 68 0) with 255%Z in N1.
  assert (H : 0 <= getHue 255 68 0 <= 15).
  { pose proof (hue_green 255 68 0 ltac:(lia)) as (S1 & _ & _). specialize (S1 ltac:(lia)). split; [lra|]. rewrite getHue_bra by lia. destruct (Rleb_spec 0 68) as [_|L]; [|lra].
    assert (N : IZR 68 <> IZR 0 \/ IZR 255 <> IZR 68) by (left; lra). apply dacos_le; [apply bra_range; auto|lra|]. replace (15 * (PI / 180)) with (PI / 12) by field. destruct cos_15 as [C0 C2].
    unfold bra, under. replace (255 ^ 2 + 68 ^ 2 + 0 ^ 2 - (255 * 68 + 255 * 0 + 68 * 0)) with 52309 by ring. replace (255 - (68 / 2 + 0 / 2)) with 221 by field.
    assert (W : 0 < sqrt 52309) by (apply sqrt_lt_R0; lra). assert (W2 : sqrt 52309 * sqrt 52309 = 52309) by (apply sqrt_sqrt; lra).
    assert (T : 0 <= sqrt 3) by apply sqrt_pos. assert (T2 : sqrt 3 * sqrt 3 = 3) by (apply sqrt_sqrt; lra). assert (T3 : sqrt 3 <= 1733 / 1000) by nra.
    apply Rmult_le_reg_r with (sqrt 52309); auto. unfold Rdiv at 2. rewrite Rmult_assoc, Rinv_l by lra. apply Rsqr_incr_0_var; [|lra]. unfold Rsqr. replace (cos (PI / 12) * sqrt 52309 * (cos (PI / 12) * sqrt 52309)) with (cos (PI / 12) ^ 2 * (sqrt 52309 * sqrt 52309)) by ring. rewrite C2, W2. lra. }
  assert (V : hueToRGB (IZR 0 / 255) (IZR 255 / 255) (getHue 255 68 0) <= 1 / 4).
  { unfold hueToRGB. destruct (Rltb_spec (getHue 255 68 0) 0); [lra|]. destruct (Rltb_spec 360 (getHue 255 68 0)); [lra|]. destruct (Rltb_spec (getHue 255 68 0) 60); lra. }
  apply ab in N1. split; [apply Kg|]. apply Z.lt_succ_r, lt_IZR. rewrite succ_IZR. lra.
Qed.
Print Assumptions C116_round_trip_refuted.

(** The rounded arc cosine is such an implementation. *)
Definition of_R (x : R) : f64 := binary_normalize 53 1024 _ _ mode_NE (Ztrunc (scaled_mantissa radix2 (FLT_exp (-1074) 53) x)) (cexp radix2 (FLT_exp (-1074) 53) x) false.
Lemma of_R_f x : fmt x -> Rabs x <= 100 -> is_f (of_R x) x.
Proof.
  intros F H. unfold of_R. pose proof (binary_normalize_correct 53 1024 _ _ mode_NE (Ztrunc (scaled_mantissa radix2 (FLT_exp (-1074) 53) x)) (cexp radix2 (FLT_exp (-1074) 53) x) false) as K. cbv zeta in K. rewrite fexp_eq in K. cbn [round_mode] in K.
  unfold generic_format in F. rewrite <- F in K. rewrite (rnd_id x) in K by exact F. rewrite small_lt_emax in K by (apply small; lra). destruct K as (K1 & K2 & _). split; auto.
Qed.
Definition acos_rounded (x : f64) : f64 := of_R (Rmin (rnd (acos (B2R x))) vpi).
Lemma acos_good : good_acos acos_rounded.
Proof.
  intros x _ Hx. pose proof (acos_bound (B2R x)) as B. pose proof pi_hi as PH. pose proof pi_lo as PL. pose proof (re4 (acos (B2R x)) ltac:(apply ab; lra)) as E. apply ab in E. pose proof uu_pos as U0. assert (U1 : uu < / 1000000000000) by (unfold uu; lra).
  pose proof pi64_f as P. fold vpi in P. pose proof (rnd_nonneg (acos (B2R x)) ltac:(lra)) as N. assert (V : vpi = 7074237752028440 / 2251799813685248) by reflexivity.
  assert (F : is_f (acos_rounded x) (Rmin (rnd (acos (B2R x))) vpi)).
  { apply of_R_f; [|apply ab; unfold Rmin; destruct (Rle_dec _ _); lra]. unfold Rmin. destruct (Rle_dec _ _); [apply generic_format_round; [apply vexp|apply valid_rnd_N]|]. rewrite <- (proj2 P). apply generic_format_B2R. }
  destruct F as [F1 F2]. split; [exact F1|]. rewrite F2, (proj2 P). unfold Rmin. destruct (Rle_dec _ _); (split; [lra|apply ab; lra]).
Qed.
Example C116_nonvacuous :
  (exists acos64, good_acos acos64) /\ legal (fint 120, fint 1, half64) /\ hslRGBA64 (fint 120) (fint 1) half64 255 = (0, 65535, 0, 65535)%Z /\ hslRGBA64 (fint 30) (fint 1) half64 255 = (257 * 255, 257 * 128, 0, 257 * 255)%Z /\ NewColor64 (fint 361) (fint 1) half64 255 = Err /\ (forall acos64, good_acos acos64 -> legal (NewHSLFromRGB64 acos64 255 68 0)).
Proof.
  split; [exists acos_rounded; apply acos_good|]. split; [split; [apply (isf_legal _ _ _ (f_int 120 ltac:(lia))); lra|split; [apply (isf_legal _ _ _ (f_int 1 ltac:(lia))); lra|apply (isf_legal _ _ _ half_f); lra]]|].
  split; [vm_compute; reflexivity|]. split; [vm_compute; reflexivity|]. split; [vm_compute; reflexivity|].
  intros acos64 GA. apply (C116_legal acos64 GA 255 68 0 0); lia.
Qed.
