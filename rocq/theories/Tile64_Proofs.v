(** Lemmas about Tile64_Model: exact longitudes, Lipschitz bounds of the projection, error of the latitudes. *)
From Coq Require Import ZArith Reals Rtrigo1 Rtrigo_alt Ratan List Lia Lra Bool.
From Flocq Require Import Core BinarySingleNaN.
From Verif Require Import GoBase Num Tileid_Model TileR_Model TileR_Proofs TileF64_Model TileF64_Proofs F64 ColorF64_Model ColorF64_Proofs ColorF64_Props Tile64_Model.
Import ListNotations.
Open Scope R_scope.
#[local] Existing Instance vexp.

(** ** Longitudes *)
Lemma big x : Rabs x <= 1000000000000000000000 -> Rabs x <= bpow radix2 100.
Proof. intros H. eapply Rle_trans; [exact H|]. rewrite (bp 100 (2 ^ 100) ltac:(lia) eq_refl). apply IZR_le. vm_compute. discriminate. Qed.
Lemma c180_f : is_f c180 180. Proof. split; [reflexivity|apply B2R_c180]. Qed.
Lemma c360_f : is_f c360 360. Proof. split; [reflexivity|apply B2R_c360]. Qed.
Lemma fpow2_f z : (0 <= z <= 62)%Z -> is_f (fpow2 z) (bpow radix2 z).
Proof. intros H. destruct (fpow2_ok z H) as [A B]. split; auto. Qed.
Lemma bz z : (0 <= z)%Z -> bpow radix2 z = IZR (2 ^ z).
Proof. intros H. rewrite <- IZR_Zpower by auto. reflexivity. Qed.
Lemma pz z : (0 <= z)%Z -> (0 < 2 ^ z)%Z. Proof. intros. apply Z.pow_pos_nonneg; lia. Qed.
Lemma p43 z k : (0 <= z <= k)%Z -> (2 ^ z <= 2 ^ k)%Z. Proof. intros. apply Z.pow_le_mono_r; lia. Qed.
Lemma bmul z : (0 <= z)%Z -> bpow radix2 z * bpow radix2 (- z) = 1.
Proof. intros. rewrite <- bpow_plus. replace (z + - z)%Z with 0%Z by lia. reflexivity. Qed.
(** [m / 2^k] is exact *)
Definition dy (m k : Z) : R := IZR m * bpow radix2 (- k).
Lemma dy_rnd m k : (Z.abs m < 2 ^ 53)%Z -> (0 <= k <= 1000)%Z -> rnd (dy m k) = dy m k.
Proof. intros. apply rnd_id, fmt_F2R; lia. Qed.
Lemma dy_eq m k : (0 <= k)%Z -> dy m k = IZR m / IZR (2 ^ k).
Proof. intros H. unfold dy. rewrite bpow_opp, bz by auto. reflexivity. Qed.
Lemma dy_big m k : (Z.abs m < 2 ^ 53)%Z -> (0 <= k)%Z -> Rabs (dy m k) <= bpow radix2 100.
Proof.
  intros Hm Hk. unfold dy. rewrite Rabs_mult, (Rabs_pos_eq (bpow radix2 (- k))) by apply bpow_ge_0. assert (bpow radix2 (- k) <= 1) by (change 1 with (bpow radix2 0); apply bpow_le; lia). pose proof (bpow_gt_0 radix2 (- k)).
  assert (Rabs (IZR m) <= bpow radix2 53). { rewrite <- abs_IZR. rewrite bz by lia. apply IZR_le. lia. } pose proof (Rabs_pos (IZR m)). assert (bpow radix2 53 <= bpow radix2 100) by (apply bpow_le; lia). nra.
Qed.
Lemma dy_int m k : (0 <= k)%Z -> IZR m = dy (m * 2 ^ k) k.
Proof. intros H. unfold dy. rewrite mult_IZR, <- bz, Rmult_assoc, bmul by auto. ring. Qed.
Lemma dy_add a b k : dy a k + dy b k = dy (a + b) k. Proof. unfold dy. rewrite plus_IZR. ring. Qed.
Lemma dy_sub a b k : dy a k - dy b k = dy (a - b) k. Proof. unfold dy. rewrite minus_IZR. ring. Qed.
Lemma dy_mul a b k : IZR a * dy b k = dy (a * b) k. Proof. unfold dy. rewrite mult_IZR. ring. Qed.
Lemma dy_half a k : dy a k / 2 = dy a (k + 1).
Proof. unfold dy. replace (- (k + 1))%Z with (- k + -1)%Z by lia. rewrite bpow_plus. change (bpow radix2 (-1)) with (/ 2). field. Qed.
Lemma dy_up a k : dy a k = dy (2 * a) (k + 1).
Proof. rewrite <- dy_half. unfold dy. rewrite mult_IZR. field. Qed.

Lemma f_dy_add x y a b k : is_f x (dy a k) -> is_f y (dy b k) -> (Z.abs (a + b) < 2 ^ 53)%Z -> (0 <= k <= 1000)%Z -> is_f (fadd x y) (dy (a + b) k).
Proof. intros X Y H K. pose proof (fadd_f _ _ _ _ X Y) as F. rewrite dy_add, dy_rnd in F by auto. apply F, dy_big; lia. Qed.
Lemma f_dy_sub x y a b k : is_f x (dy a k) -> is_f y (dy b k) -> (Z.abs (a - b) < 2 ^ 53)%Z -> (0 <= k <= 1000)%Z -> is_f (fsub x y) (dy (a - b) k).
Proof. intros X Y H K. pose proof (fsub_f _ _ _ _ X Y) as F. rewrite dy_sub, dy_rnd in F by auto. apply F, dy_big; lia. Qed.
Lemma f_dy_mul x y a b k : is_f x (IZR a) -> is_f y (dy b k) -> (Z.abs (a * b) < 2 ^ 53)%Z -> (0 <= k <= 1000)%Z -> is_f (fmul y x) (dy (a * b) k).
Proof. intros X Y H K. pose proof (fmul_f _ _ _ _ Y X) as F. rewrite Rmult_comm, dy_mul, dy_rnd in F by auto. apply F, dy_big; lia. Qed.
Lemma f_dy_half x a k : is_f x (dy a k) -> (Z.abs a < 2 ^ 53)%Z -> (0 <= k <= 999)%Z -> is_f (fdiv x (fint 2)) (dy a (k + 1)).
Proof. intros X H K. pose proof (fdiv_f _ _ _ _ X (f_int 2 ltac:(lia)) ltac:(lra)) as F. rewrite dy_half, dy_rnd in F by lia. apply F, dy_big; lia. Qed.
Lemma f_dy_div x a z : is_f x (IZR a) -> (Z.abs a < 2 ^ 53)%Z -> (0 <= z <= 62)%Z -> is_f (fdiv x (fpow2 z)) (dy a z).
Proof.
  intros X H K. pose proof (bpow_gt_0 radix2 z). pose proof (fdiv_f _ _ _ _ X (fpow2_f z K) ltac:(lra)) as F. replace (IZR a / bpow radix2 z) with (dy a z) in F by (unfold dy; rewrite bpow_opp; reflexivity).
  rewrite dy_rnd in F by lia. apply F, dy_big; lia.
Qed.
Lemma f_dy_const x c k : is_f x (IZR c) -> (0 <= k)%Z -> is_f x (dy (c * 2 ^ k) k).
Proof. intros X H. rewrite <- dy_int by auto. exact X. Qed.

Lemma ul_lon_f x z : (0 <= z <= 44)%Z -> (0 <= x <= 2 ^ z)%Z -> is_f (ul_lon x z) (dy (360 * x - 180 * 2 ^ z) z).
Proof.
  intros Hz Hx. pose proof (p43 z 44 Hz). unfold ul_lon. apply f_dy_sub; try lia.
  - apply f_dy_mul; [apply c360_f| |lia|lia]. apply f_dy_div; [apply fint_f; lia|lia|lia].
  - apply f_dy_const; [apply c180_f|lia].
Qed.
(** The column of a dyadic longitude *)
Lemma col_dyadic lng m k z : (0 <= k <= 44)%Z -> (0 <= m <= 2 ^ k)%Z -> (0 <= z <= 62)%Z -> is_f lng (dy (360 * m - 180 * 2 ^ k) k) -> tile_col lng z = (m * 2 ^ z / 2 ^ k)%Z.
Proof.
  intros Hk Hm Hz F. pose proof (p43 k 44 Hk). pose proof (pz k ltac:(lia)) as PK. pose proof (pz z ltac:(lia)) as PZ. unfold tile_col.
  pose proof (f_dy_add _ _ _ _ k F (f_dy_const _ _ k c180_f ltac:(lia)) ltac:(lia) ltac:(lia)) as F1. replace (360 * m - 180 * 2 ^ k + 180 * 2 ^ k)%Z with (360 * m)%Z in F1 by lia.
  assert (F2 : is_f (fdiv (fadd lng c180) c360) (dy m k)).
  { pose proof (fdiv_f _ _ _ _ F1 c360_f ltac:(lra)) as G. replace (dy (360 * m) k / 360) with (dy m k) in G by (rewrite <- dy_mul; field). rewrite dy_rnd in G by lia. apply G, dy_big; lia. }
  assert (E : dy m k * bpow radix2 z = IZR m * bpow radix2 (z - k)) by (unfold dy; rewrite Rmult_assoc, <- bpow_plus; f_equal; f_equal; lia).
  assert (F3 : is_f (fmul (fdiv (fadd lng c180) c360) (fpow2 z)) (IZR m * bpow radix2 (z - k))).
  { pose proof (fmul_f _ _ _ _ F2 (fpow2_f z Hz)) as G. rewrite E in G. rewrite rnd_id in G by (apply fmt_F2R; lia). apply G. rewrite Rabs_mult, (Rabs_pos_eq (bpow _ _)) by apply bpow_ge_0. rewrite <- abs_IZR.
    apply Rle_trans with (bpow radix2 k * bpow radix2 (z - k)); [apply Rmult_le_compat_r; [apply bpow_ge_0|rewrite bz by lia; apply IZR_le; lia]|]. rewrite <- bpow_plus. apply bpow_le. lia. }
  destruct F3 as [_ ->]. apply Zfloor_imp. rewrite <- E, dy_eq, bz by lia. assert (0 < IZR (2 ^ k)) by (apply IZR_lt; lia). pose proof (Z.div_mod (m * 2 ^ z) (2 ^ k) ltac:(lia)) as D. pose proof (Z.mod_pos_bound (m * 2 ^ z) (2 ^ k) PK) as B.
  set (q := (m * 2 ^ z / 2 ^ k)%Z) in *. set (r := (m * 2 ^ z mod 2 ^ k)%Z) in *. apply (f_equal IZR) in D. rewrite plus_IZR, !mult_IZR in D. rewrite plus_IZR.
  replace (IZR m / IZR (2 ^ k) * IZR (2 ^ z)) with (IZR q + IZR r / IZR (2 ^ k)) by (apply Rmult_eq_reg_r with (IZR (2 ^ k)); [field_simplify; lra|lra]).
  assert (0 <= IZR r < IZR (2 ^ k)) by (split; [apply IZR_le|apply IZR_lt]; lia). assert (0 <= IZR r / IZR (2 ^ k) < 1); [|lra]. split; [apply Rmult_le_pos; [lra|apply Rlt_le, Rinv_0_lt_compat; lra]|]. apply Rmult_lt_reg_r with (IZR (2 ^ k)); [lra|]. unfold Rdiv. rewrite Rmult_assoc, Rinv_l by lra. lra.
Qed.
(** The column is monotone in the longitude *)
Lemma tile_col_eq lng z : is_finite lng = true -> -180 <= B2R lng <= 180 -> (0 <= z <= 62)%Z -> tile_col lng z = Zfloor (rnd (rnd (rnd (B2R lng + 180) / 360) * bpow radix2 z)).
Proof.
  intros F H Hz. pose proof (fadd_f _ _ _ _ (conj F eq_refl) c180_f ltac:(apply big, ab; lra)) as F1. assert (0 <= rnd (B2R lng + 180) <= 360) by (split; [apply rnd_nonneg; lra|apply (rnd_le_int _ 360); [lia|lra]]).
  pose proof (fdiv_f _ _ _ _ F1 c360_f ltac:(lra) ltac:(apply big, ab; lra)) as F2. assert (0 <= rnd (rnd (B2R lng + 180) / 360) <= 1) by (split; [apply rnd_nonneg; lra|apply (rnd_le_int _ 1); [lia|lra]]).
  pose proof (bpow_gt_0 radix2 z). pose proof (fmul_f _ _ _ _ F2 (fpow2_f z Hz)) as F3. unfold tile_col. destruct F3 as [_ ->]; [|reflexivity]. rewrite Rabs_pos_eq by (apply Rmult_le_pos; lra). apply Rle_trans with (bpow radix2 z); [nra|apply bpow_le; lia].
Qed.
Lemma tile_col_mono a b z : is_finite a = true -> is_finite b = true -> -180 <= B2R a -> B2R b <= 180 -> B2R a <= B2R b -> (0 <= z <= 62)%Z -> (tile_col a z <= tile_col b z)%Z.
Proof.
  intros Fa Fb Ha Hb L Hz. rewrite !tile_col_eq by (auto; lra). apply Zfloor_le. apply rnd_mono. apply Rmult_le_compat_r; [apply bpow_ge_0|]. apply rnd_mono. assert (rnd (B2R a + 180) <= rnd (B2R b + 180)) by (apply rnd_mono; lra). lra.
Qed.
Lemma col_edge x z : (0 <= z <= 44)%Z -> (0 <= x <= 2 ^ z)%Z -> tile_col (ul_lon x z) z = x.
Proof. intros Hz Hx. rewrite (col_dyadic _ x z z) by (try lia; apply ul_lon_f; auto). apply Z.div_mul. pose proof (pz z). lia. Qed.
Lemma ul_lon_eq x z : (0 <= z)%Z -> dy (360 * x - 180 * 2 ^ z) z = IZR x / IZR (2 ^ z) * 360 - 180.
Proof. intros Hz. rewrite <- dy_sub, <- !dy_mul, !dy_eq by auto. assert (0 < IZR (2 ^ z)) by (apply IZR_lt, pz; auto). field. lra. Qed.
Lemma ul_lon_range x z : (0 <= z)%Z -> (0 <= x <= 2 ^ z)%Z -> -180 <= IZR x / IZR (2 ^ z) * 360 - 180 <= 180.
Proof.
  intros Hz Hx. assert (0 < IZR (2 ^ z)) by (apply IZR_lt, pz; auto). assert (0 <= IZR x <= IZR (2 ^ z)) by (split; apply IZR_le; lia).
  assert (0 <= IZR x / IZR (2 ^ z) <= 1); [|lra]. split; [apply Rmult_le_pos; [lra|apply Rlt_le, Rinv_0_lt_compat; lra]|]. apply Rmult_le_reg_r with (IZR (2 ^ z)); [lra|]. unfold Rdiv. rewrite Rmult_assoc, Rinv_l by lra. lra.
Qed.
Lemma col_ge lng x z : (0 <= z <= 44)%Z -> (0 <= x <= 2 ^ z)%Z -> is_finite lng = true -> IZR x / IZR (2 ^ z) * 360 - 180 <= B2R lng <= 180 -> (x <= tile_col lng z)%Z.
Proof.
  intros Hz Hx F H. rewrite <- (col_edge x z Hz Hx) at 1. pose proof (ul_lon_f x z Hz Hx) as [A B]. rewrite ul_lon_eq in B by lia. pose proof (ul_lon_range x z ltac:(lia) Hx). apply tile_col_mono; auto; rewrite ?B; lra || lia.
Qed.
Lemma col_le lng x z : (0 <= z <= 44)%Z -> (0 <= x <= 2 ^ z)%Z -> is_finite lng = true -> -180 <= B2R lng <= IZR x / IZR (2 ^ z) * 360 - 180 -> (tile_col lng z <= x)%Z.
Proof.
  intros Hz Hx F H. rewrite <- (col_edge x z Hz Hx) at 1. pose proof (ul_lon_f x z Hz Hx) as [A B]. rewrite ul_lon_eq in B by lia. pose proof (ul_lon_range x z ltac:(lia) Hx). apply tile_col_mono; auto; rewrite ?B; lra || lia.
Qed.
(** A margin of 2^-42 degrees keeps the column below the eastern edge *)
Lemma col_lt lng x z : (0 <= z <= 44)%Z -> (0 <= x <= 2 ^ z)%Z -> is_finite lng = true -> -180 <= B2R lng <= IZR x / IZR (2 ^ z) * 360 - 180 - / 4398046511104 -> (tile_col lng z < x)%Z.
Proof.
  intros Hz Hx F H. pose proof (ul_lon_range x z ltac:(lia) Hx) as R. rewrite tile_col_eq by (auto; lra || lia). apply lt_IZR. eapply Rle_lt_trans; [apply Zfloor_lb|]. set (l := B2R lng) in *.
  pose proof (re 9 512 ltac:(lia) ltac:(lia) eq_refl (l + 180) ltac:(apply ab; lra)) as E1. apply ab in E1. set (s := rnd (l + 180)) in *. assert (U : 512 * uu = / 17592186044416) by (unfold uu; lra). pose proof uu_pos as U0.
  assert (S0 : 0 <= s <= 360) by (unfold s; split; [apply rnd_nonneg; lra|apply (rnd_le_int _ 360); [lia|lra]]).
  pose proof (re1 (s / 360) ltac:(apply ab; lra)) as E2. apply ab in E2. set (q := rnd (s / 360)) in *. assert (Q0 : 0 <= q <= 1) by (unfold q; split; [apply rnd_nonneg; lra|apply (rnd_le_int _ 1); [lia|lra]]).
  pose proof (bpow_gt_0 radix2 z) as N0. pose proof (rnd_err z (q * bpow radix2 z) ltac:(lia) ltac:(rewrite Rabs_pos_eq by (apply Rmult_le_pos; lra); nra)) as E3. replace (z - 53)%Z with (z + -53)%Z in E3 by lia. rewrite bpow_plus, bp53 in E3. apply ab in E3.
  rewrite <- (bz z) in * by lia. set (n := bpow radix2 z) in *. assert (XN : IZR x = IZR x / n * n) by (field; lra). rewrite XN. set (c := IZR x / n) in *.
  assert (QC : q <= c - 2 * uu) by (unfold uu in *; lra). clearbody q c n. nra.
Qed.

(** ** Numbers *)
Lemma fact_more : INR (fact 13) = 6227020800 /\ INR (fact 15) = 1307674368000 /\ INR (fact 17) = 355687428096000.
Proof.
  destruct facts as (_ & _ & _ & _ & _ & F11). change 39916800 with (IZR 39916800) in F11. pose proof (fact_step _ _ F11) as F12. pose proof (fact_step _ _ F12) as F13. pose proof (fact_step _ _ F13) as F14. pose proof (fact_step _ _ F14) as F15. pose proof (fact_step _ _ F15) as F16. pose proof (fact_step _ _ F16) as F17.
  exact (conj F13 (conj F15 F17)).
Qed.
Lemma approx7 a : sin_approx a 7 = a - a ^ 3 / 6 + a ^ 5 / 120 - a ^ 7 / 5040 + a ^ 9 / 362880 - a ^ 11 / 39916800 + a ^ 13 / 6227020800 - a ^ 15 / 1307674368000.
Proof.
  destruct facts as (F1 & F3 & F5 & F7 & F9 & F11). destruct fact_more as (F13 & F15 & _). unfold sin_approx. cbn [sum_f_R0]. unfold sin_term. cbn [Nat.mul Nat.add]. rewrite F1, F3, F5, F7, F9, F11, F13, F15. field.
Qed.
Lemma approx8 a : sin_approx a 8 = a - a ^ 3 / 6 + a ^ 5 / 120 - a ^ 7 / 5040 + a ^ 9 / 362880 - a ^ 11 / 39916800 + a ^ 13 / 6227020800 - a ^ 15 / 1307674368000 + a ^ 17 / 355687428096000.
Proof.
  destruct facts as (F1 & F3 & F5 & F7 & F9 & F11). destruct fact_more as (F13 & F15 & F17). unfold sin_approx. cbn [sum_f_R0]. unfold sin_term. cbn [Nat.mul Nat.add]. rewrite F1, F3, F5, F7, F9, F11, F13, F15, F17. field.
Qed.
Lemma PI_lo : 314159265358979323 / 100000000000000000 < PI.
Proof.
  pose proof PI2_3_2 as P3. set (c := 314159265358979323 / 600000000000000000). assert (E : 314159265358979323 / 100000000000000000 = 6 * c) by (unfold c; lra). rewrite E.
  pose proof (sin_bound c 3 ltac:(unfold c; lra) ltac:(unfold c; lra)) as [_ B]. change (2 * (3 + 1))%nat with 8%nat in B. rewrite approx8 in B.
  assert (S : sin c < sin (PI / 6)) by (rewrite sin_PI6; eapply Rle_lt_trans; [exact B|]; unfold c; lra).
  apply Rnot_le_lt. intros L. pose proof (sin_incr_1 (PI / 6) c ltac:(lra) ltac:(lra) ltac:(unfold c; lra) ltac:(unfold c; lra) ltac:(lra)). lra.
Qed.
Lemma PI_hi : PI < 314159265358979324 / 100000000000000000.
Proof.
  pose proof PI2_3_2 as P3. set (c := 314159265358979324 / 600000000000000000). assert (E : 314159265358979324 / 100000000000000000 = 6 * c) by (unfold c; lra). rewrite E.
  pose proof (sin_bound c 3 ltac:(unfold c; lra) ltac:(unfold c; lra)) as [B _]. change (2 * 3 + 1)%nat with 7%nat in B. rewrite approx7 in B.
  assert (S : sin (PI / 6) < sin c) by (rewrite sin_PI6; eapply Rlt_le_trans; [|exact B]; unfold c; lra).
  apply Rnot_le_lt. intros L. pose proof PI_4. pose proof (sin_incr_1 c (PI / 6) ltac:(unfold c; lra) ltac:(unfold c; lra) ltac:(lra) ltac:(lra) ltac:(lra)). lra.
Qed.
Lemma vpi_pi : Rabs (vpi - PI) <= / 4000000000000000.
Proof. pose proof PI_lo. pose proof PI_hi. apply ab. unfold vpi. lra. Qed.
Definition vdeg : R := 8063664102031864 / 140737488355328.
Definition vrad : R := 5030569068109113 / 288230376151711744.
Lemma deg_f : is_f deg64 vdeg.
Proof. split; [reflexivity|]. unfold deg64, B2R, F2R. cbn [Fnum Fexp cond_Zopp]. change (bpow radix2 (-47)) with (bpow radix2 (- (47))). rewrite (bpm 47 140737488355328 ltac:(lia) eq_refl). reflexivity. Qed.
Lemma rad_f : is_f rad64 vrad.
Proof. split; [reflexivity|]. unfold rad64, B2R, F2R. cbn [Fnum Fexp cond_Zopp]. change (bpow radix2 (-58)) with (bpow radix2 (- (58))). rewrite (bpm 58 288230376151711744 ltac:(lia) eq_refl). reflexivity. Qed.
Lemma pi_f : is_f pi64 vpi. Proof. exact pi64_f. Qed.
Lemma vdeg_near : Rabs (vdeg - 180 / PI) <= / 100000000000000.
Proof.
  pose proof PI_lo as L. pose proof PI_hi as H. assert (P : 0 < PI) by lra. apply ab. assert (E : 180 / PI * PI = 180) by (field; lra). set (d := 180 / PI) in *. clearbody d.
  assert (V : vdeg = 8063664102031864 / 140737488355328) by reflexivity. split; apply Rmult_le_reg_r with PI; auto; rewrite V; lra.
Qed.
Lemma vrad_near : Rabs (vrad - PI / 180) <= / 100000000000000000.
Proof. pose proof PI_lo. pose proof PI_hi. apply ab. unfold vrad. lra. Qed.

(** exp on [-3.142, 3.142] *)
Lemma exp_hi x : x < 1 -> exp x <= / (1 - x).
Proof. intros H. pose proof (exp_ineq1_le (- x)) as E. rewrite exp_Ropp in E. pose proof (exp_pos x). rewrite <- (Rinv_inv (exp x)). apply Rinv_le_contravar; lra. Qed.
Lemma sq_step a x b : exp x <= a -> a * a <= b -> exp (2 * x) <= b.
Proof. intros H K. replace (2 * x) with (x + x) by ring. rewrite exp_plus. pose proof (exp_pos x). nra. Qed.
Lemma exp_24 : exp (3142 / 1000) <= 24.
Proof.
  assert (E0 : exp (3142 / 1000 / 256) <= 10124261 / 10000000) by (eapply Rle_trans; [apply exp_hi; lra|]; lra).
  pose proof (sq_step _ _ (102500661 / 100000000) E0 ltac:(lra)) as E1. pose proof (sq_step _ _ (105063856 / 100000000) E1 ltac:(lra)) as E2. pose proof (sq_step _ _ (110384139 / 100000000) E2 ltac:(lra)) as E3.
  pose proof (sq_step _ _ (121846582 / 100000000) E3 ltac:(lra)) as E4. pose proof (sq_step _ _ (148465896 / 100000000) E4 ltac:(lra)) as E5. pose proof (sq_step _ _ (220421223 / 100000000) E5 ltac:(lra)) as E6. pose proof (sq_step _ _ (485855156 / 100000000) E6 ltac:(lra)) as E7.
  pose proof (sq_step _ _ 24 E7 ltac:(lra)) as E8. eapply Rle_trans; [|exact E8]. right. f_equal. lra.
Qed.
Lemma exp_range u : Rabs u <= 3142 / 1000 -> / 24 <= exp u <= 24.
Proof.
  intros H. apply ab in H. assert (M : forall a b, a <= b -> exp a <= exp b) by (intros a b [L| ->]; [left; apply exp_increasing; auto|lra]). pose proof exp_24. split.
  - rewrite <- (Ropp_involutive u), exp_Ropp. apply Rinv_le_contravar; [apply exp_pos|]. eapply Rle_trans; [apply M|exact exp_24]. lra.
  - eapply Rle_trans; [apply M|exact exp_24]. lra.
Qed.
Lemma cosh_range u : Rabs u <= 3142 / 1000 -> 1 <= cosh u <= 121 / 10.
Proof.
  intros H. split.
  - pose proof (cosh_sinh u). pose proof (cosh_pos u). apply Rnot_lt_le. intros L. assert (0 <= sinh u * sinh u) by nra. nra.
  - pose proof (exp_range u H) as E. pose proof (exp_range (- u) ltac:(rewrite Rabs_Ropp; auto)) as F. unfold cosh. pose proof (exp_plus u (- u)) as P. rewrite Rplus_opp_r, exp_0 in P. set (e := exp u) in *. set (f := exp (- u)) in *. clearbody e f.
    assert (0 <= (e - / 24) * (f - / 24)) by (apply Rmult_le_pos; lra). lra.
Qed.
Lemma sinh_range u : Rabs u <= 3142 / 1000 -> Rabs (sinh u) <= 12.
Proof. intros H. pose proof (exp_range u H) as E. pose proof (exp_range (- u) ltac:(rewrite Rabs_Ropp; auto)). unfold sinh. apply ab. lra. Qed.

(** ** Lipschitz bounds *)
Lemma mvt f f' a b : (forall c, derivable_pt_lim f c (f' c)) -> a <= b -> exists c, f b - f a = f' c * (b - a) /\ a <= c <= b.
Proof.
  intros D [L| ->]; [|exists b; split; [ring|lra]]. destruct (MVT_cor2 f f' a b L) as (c & E & H); [intros; apply D|]. exists c. split; [exact E|lra].
Qed.
Lemma between a b c u v M : a <= c <= b -> (a = u /\ b = v) \/ (a = v /\ b = u) -> Rabs u <= M -> Rabs v <= M -> Rabs c <= M.
Proof. intros H [[-> ->]|[-> ->]] A B; apply ab in A; apply ab in B; apply ab; lra. Qed.
Lemma lip f f' M K u v : (forall c, derivable_pt_lim f c (f' c)) -> (forall c, Rabs c <= M -> Rabs (f' c) <= K) -> Rabs u <= M -> Rabs v <= M -> Rabs (f u - f v) <= K * Rabs (u - v).
Proof.
  intros D B Hu Hv. assert (W : forall a b, a <= b -> (a = u /\ b = v) \/ (a = v /\ b = u) -> Rabs (f b - f a) <= K * Rabs (b - a)).
  { intros a b L S. destruct (mvt f f' a b D L) as (c & E & H). rewrite E, Rabs_mult. apply Rmult_le_compat_r; [apply Rabs_pos|]. apply B. eapply between; eauto. }
  destruct (Rle_or_lt u v) as [L|L].
  - rewrite (Rabs_minus_sym (f u)), (Rabs_minus_sym u). apply W; auto.
  - apply W; [lra|auto].
Qed.
Lemma atan_lip a b : Rabs (atan a - atan b) <= Rabs (a - b).
Proof.
  rewrite <- (Rmult_1_l (Rabs (a - b))). apply (lip atan (fun x => / (1 + x ^ 2)) (Rmax (Rabs a) (Rabs b))); [intros; apply derivable_pt_lim_atan| |apply Rmax_l|apply Rmax_r].
  intros c _. pose proof (pow2_ge_0 c). rewrite Rabs_pos_eq by (apply Rlt_le, Rinv_0_lt_compat; lra). rewrite <- Rinv_1. apply Rinv_le_contravar; lra.
Qed.
Lemma sinh_lip a b : Rabs a <= 3142 / 1000 -> Rabs b <= 3142 / 1000 -> Rabs (sinh a - sinh b) <= 121 / 10 * Rabs (a - b).
Proof. apply (lip sinh cosh); [intros; apply derivable_pt_lim_sinh|]. intros c H. pose proof (cosh_range c H). rewrite Rabs_pos_eq; lra. Qed.
Lemma gd_deriv c : derivable_pt_lim gd c (/ cosh c).
Proof.
  replace (/ cosh c) with (/ (1 + sinh c ^ 2) * cosh c). 2:{ pose proof (cosh_pos c). replace (1 + sinh c ^ 2) with (cosh c * cosh c) by (rewrite cosh_sinh; ring). field. lra. }
  apply (derivable_pt_lim_comp sinh atan); [apply derivable_pt_lim_sinh|apply derivable_pt_lim_atan].
Qed.
(** The projection: distances grow by at most 12.1 from angles to map coordinates *)
Lemma gd_low u v : Rabs u <= 3142 / 1000 -> Rabs v <= 3142 / 1000 -> Rabs (u - v) <= 121 / 10 * Rabs (gd u - gd v).
Proof.
  intros Hu Hv. assert (W : forall a b, a <= b -> (a = u /\ b = v) \/ (a = v /\ b = u) -> Rabs (b - a) <= 121 / 10 * Rabs (gd b - gd a)).
  { intros a b L S. destruct (mvt gd (fun c => / cosh c) a b gd_deriv L) as (c & E & H). pose proof (between a b c u v _ H S Hu Hv) as C. pose proof (cosh_range c C) as R. rewrite E, Rabs_mult. rewrite (Rabs_pos_eq (/ _)) by (apply Rlt_le, Rinv_0_lt_compat; lra).
    assert (1 <= 121 / 10 * / cosh c). { apply Rmult_le_reg_r with (cosh c); [lra|]. rewrite Rmult_assoc, Rinv_l by lra. lra. } pose proof (Rabs_pos (b - a)). nra. }
  destruct (Rle_or_lt u v) as [L|L].
  - rewrite (Rabs_minus_sym u), (Rabs_minus_sym (gd u)). apply W; auto.
  - apply W; [lra|auto].
Qed.
Lemma gd_up u v : Rabs (gd u - gd v) <= Rabs (u - v).
Proof.
  rewrite <- (Rmult_1_l (Rabs (u - v))). apply (lip gd (fun c => / cosh c) (Rmax (Rabs u) (Rabs v))); [apply gd_deriv| |apply Rmax_l|apply Rmax_r].
  intros c _. assert (1 <= cosh c). { pose proof (cosh_sinh c). pose proof (cosh_pos c). apply Rnot_lt_le. intros L. assert (0 <= sinh c * sinh c) by nra. nra. }
  rewrite Rabs_pos_eq by (apply Rlt_le, Rinv_0_lt_compat; lra). rewrite <- Rinv_1. apply Rinv_le_contravar; lra.
Qed.
Lemma ln_lip a b e : / 24 <= b -> Rabs (a - b) <= e -> e <= / 1000000 -> Rabs (ln a - ln b) <= 25 * e.
Proof.
  intros Hb H He. apply ab in H. assert (A : / 25 <= a) by lra. assert (Y : forall x y, 0 < x -> 0 < y -> ln x - ln y <= (x - y) / y).
  { intros x y X Yy. replace (ln x - ln y) with (ln (x / y)). 2:{ unfold Rdiv. rewrite ln_mult, ln_Rinv by (auto using Rinv_0_lt_compat). ring. }
    assert (P : 0 < x / y) by (apply Rdiv_lt_0_compat; auto). pose proof (exp_ineq1_le (ln (x / y))) as E. rewrite exp_ln in E by auto. replace ((x - y) / y) with (x / y - 1) by (field; lra). lra. }
  assert (E0 : 0 <= e) by lra. assert (I : forall x y, / 25 <= y -> x - y <= e -> (x - y) / y <= 25 * e).
  { intros x y Hy Hx. apply Rmult_le_reg_r with y; [lra|]. unfold Rdiv. rewrite Rmult_assoc, Rinv_l by lra. nra. }
  apply ab. pose proof (Y a b ltac:(lra) ltac:(lra)). pose proof (Y b a ltac:(lra) ltac:(lra)). pose proof (I a b ltac:(lra) ltac:(lra)). pose proof (I b a ltac:(lra) ltac:(lra)). lra.
Qed.

(** ** Latitudes *)
(** The functions of package math, on the ranges where Ul and Tile call them, are right within 1e-13 or 1e-14. *)
Definition t13 : R := / 10000000000000.
Definition t14 : R := / 100000000000000.
Definition ok1 (f : f64 -> f64) (g : R -> R) (P : R -> Prop) (tol : R) : Prop := forall x, is_finite x = true -> P (B2R x) -> is_finite (f x) = true /\ Rabs (B2R (f x) - g (B2R x)) <= tol.
Definition good_libm (m : libm) : Prop :=
  ok1 (mSinh m) sinh (fun x => Rabs x <= 3142 / 1000) t13 /\ ok1 (mAtan m) atan (fun x => Rabs x <= 13) t14 /\
  ok1 (mTan m) tan (fun x => Rabs x <= gd (3142 / 1000)) t13 /\ ok1 (mCos m) cos (fun x => Rabs x <= gd (3142 / 1000)) t14 /\
  ok1 (mLog m) ln (fun x => / 25 <= x <= 25) t14.

Lemma PI_range : 31415926 / 10000000 < PI < 31415927 / 10000000.
Proof. pose proof PI_lo. pose proof PI_hi. lra. Qed.
Lemma gd_odd u : gd (- u) = - gd u.
Proof. unfold gd. replace (sinh (- u)) with (- sinh u) by (unfold sinh; rewrite Ropp_involutive; lra). apply atan_opp. Qed.
Lemma gd_abs u M : Rabs u <= M -> Rabs (gd u) <= gd M.
Proof. intros H. apply ab in H. apply ab. rewrite <- gd_odd. split; apply (proj1 (gd_le _ _)); lra. Qed.

Section Lat.
Variable m : libm.
Hypothesis G : good_libm m.
(** [1 - 2 y / 2^z], exact *)
Lemma frac_f y z : (0 <= z <= 44)%Z -> (0 <= y <= 2 ^ z)%Z -> is_f (fsub (fint 1) (fdiv (fmul (fint 2) (fint y)) (fpow2 z))) (1 - 2 * IZR y / IZR (2 ^ z)) /\ -1 <= 1 - 2 * IZR y / IZR (2 ^ z) <= 1.
Proof.
  intros Hz Hy. pose proof (p43 z 44 Hz). pose proof (ul_lon_range y z ltac:(lia) Hy) as R. split.
  - assert (F1 : is_f (fmul (fint 2) (fint y)) (IZR (2 * y))).
    { pose proof (fmul_f _ _ _ _ (f_int 2 ltac:(lia)) (fint_f y ltac:(lia))) as F. rewrite <- mult_IZR, fi in F by lia. apply F. apply big. rewrite Rabs_pos_eq by (apply (IZR_le 0); lia). apply IZR_le. lia. }
    pose proof (f_dy_sub _ _ _ _ z (f_dy_const _ 1 z (f_int 1 ltac:(lia)) ltac:(lia)) (f_dy_div _ _ z F1 ltac:(lia) ltac:(lia)) ltac:(lia) ltac:(lia)) as F. replace (dy (1 * 2 ^ z - 2 * y) z) with (1 - 2 * IZR y / IZR (2 ^ z)) in F; [exact F|].
    rewrite <- dy_sub, <- dy_mul, !dy_eq by lia. rewrite mult_IZR. assert (0 < IZR (2 ^ z)) by (apply IZR_lt, pz; lia). field. lra.
  - replace (2 * IZR y / IZR (2 ^ z)) with (2 * (IZR y / IZR (2 ^ z))) by (unfold Rdiv; ring). lra.
Qed.
Lemma ul_lat_near y z : (0 <= z <= 44)%Z -> (0 <= y <= 2 ^ z)%Z -> exists r, is_f (ul_lat m y z) r /\ Rabs (r - edge_lat (IZR y) (IZR (2 ^ z))) <= 8 / 1000000000000.
Proof.
  intros Hz Hy. destruct G as (GS & GA & _). destruct (frac_f y z Hz Hy) as [F R]. unfold edge_lat. set (k := 1 - 2 * IZR y / IZR (2 ^ z)) in *. pose proof vpi_pi as VP. pose proof PI_range as PR. apply ab in VP.
  assert (U : uu <= / 9000000000000000) by (unfold uu; lra). pose proof uu_pos as U0. assert (Tt : t14 = / 100000000000000 /\ t13 = / 10000000000000) by (split; reflexivity). destruct Tt as [T14 T13].
  assert (PK : Rabs (vpi * k) <= 4) by (apply ab; nra). pose proof (fmul_f _ _ _ _ pi_f F ltac:(apply big; lra)) as F1. pose proof (re4 _ PK) as E1. apply ab in E1. set (u := rnd (vpi * k)) in *.
  assert (EU : Rabs (u - PI * k) <= / 1000000000000000). { assert (Rabs ((vpi - PI) * k) <= / 4000000000000000) by (rewrite Rabs_mult; assert (Rabs k <= 1) by (apply ab; lra); assert (Rabs (vpi - PI) <= / 4000000000000000) by (apply ab; lra); pose proof (Rabs_pos k); pose proof (Rabs_pos (vpi - PI)); nra). apply ab in H. apply ab. lra. }
  assert (BK : Rabs (PI * k) <= 31415927 / 10000000) by (apply ab; nra). assert (BU : Rabs u <= 3142 / 1000) by (apply ab in BK; apply ab in EU; apply ab; lra). assert (BK' : Rabs (PI * k) <= 3142 / 1000) by lra.
  destruct F1 as [F1 V1]. destruct (GS _ F1 ltac:(rewrite V1; exact BU)) as [F2 E2]. rewrite V1 in E2. pose proof (sinh_lip u (PI * k) BU BK') as E3. set (s := B2R (mSinh m _)) in *. pose proof (sinh_range _ BK') as BS.
  assert (ES : Rabs (s - sinh (PI * k)) <= 113 / 1000000000000000) by (apply ab in E2; apply ab in E3; apply ab in EU; apply ab; unfold Rabs in E3; destruct (Rcase_abs (u - PI * k)); lra).
  destruct (GA _ F2) as [F3 E4]. { fold s. apply ab in ES. apply ab in BS. apply ab. lra. }
  fold s in E4. pose proof (atan_lip s (sinh (PI * k))) as E5. set (a := B2R (mAtan m _)) in *. assert (EA : Rabs (a - gd (PI * k)) <= 124 / 1000000000000000) by (unfold gd; apply ab in E4; apply ab in E5; apply ab; lra).
  pose proof (gd_bound (PI * k)) as BG. set (g := gd (PI * k)) in *. apply ab in EA. pose proof vdeg_near as VD. apply ab in VD. assert (D : 57 <= 180 / PI <= 58). { assert (E : 180 / PI * PI = 180) by (field; lra). set (d := 180 / PI) in *. clearbody d. nra. }
  set (d := 180 / PI) in *. assert (DA : Rabs (vdeg * a - d * g) <= 74 / 10000000000000). { replace (vdeg * a - d * g) with (vdeg * (a - g) + (vdeg - d) * g) by ring. apply ab. assert (Rabs (vdeg * (a - g)) <= 59 * (124 / 1000000000000000)). { rewrite Rabs_mult. apply Rmult_le_compat; try apply Rabs_pos; apply ab; lra. }
    assert (Rabs ((vdeg - d) * g) <= / 100000000000000 * 2). { rewrite Rabs_mult. apply Rmult_le_compat; try apply Rabs_pos; apply ab; lra. } apply ab in H. apply ab in H0. lra. }
  assert (BD : Rabs (d * g) <= 90). { unfold d. assert (Rabs g <= PI / 2) by (apply ab; lra). rewrite Rabs_mult, (Rabs_pos_eq (180 / PI)) by (fold d; lra). replace 90 with (180 / PI * (PI / 2)) by (field; lra). apply Rmult_le_compat_l; [fold d; lra|auto]. }
  apply ab in DA. apply ab in BD. assert (BV : Rabs (vdeg * a) <= 128) by (apply ab; lra). pose proof (fmul_f _ _ _ _ deg_f (conj F3 eq_refl) ltac:(apply big; unfold a in BV; lra)) as F4. fold a in F4.
  exists (rnd (vdeg * a)). split; [exact F4|]. pose proof (re 7 128 ltac:(lia) ltac:(lia) eq_refl _ BV) as E6. apply ab in E6. apply ab. lra.
Qed.
Lemma inv_near a b e K : 1 <= b <= K -> K <= 13 -> Rabs (a - / b) <= e -> e <= / 1000000 -> Rabs (/ a - b) <= K * K * e * (1001 / 1000).
Proof.
  intros Hb HK H He. apply ab in H. assert (IB : / 13 <= / b) by (apply Rinv_le_contravar; lra). assert (B : b * / b = 1) by (apply Rinv_r; lra). set (i := / b) in *. clearbody i.
  assert (A : / 14 <= a) by lra. replace (/ a - b) with ((i - a) * b * / a) by (apply Rmult_eq_reg_r with a; [field_simplify; try lra; nra|lra]). rewrite !Rabs_mult. rewrite (Rabs_pos_eq b) by lra. rewrite (Rabs_pos_eq (/ a)) by (apply Rlt_le, Rinv_0_lt_compat; lra).
  assert (IA : / a <= K * (1001 / 1000)). { apply Rmult_le_reg_r with a; [lra|]. rewrite Rinv_l by lra. assert (1 <= K * i) by nra. assert (13 * e <= / 70000) by lra. nra. }
  assert (IA0 : 0 <= / a) by (apply Rlt_le, Rinv_0_lt_compat; lra). assert (E : Rabs (i - a) <= e) by (apply ab; lra). pose proof (Rabs_pos (i - a)).
  replace (K * K * e * (1001 / 1000)) with (e * K * (K * (1001 / 1000))) by ring. apply Rmult_le_compat; auto; [apply Rmult_le_pos; lra|]. apply Rmult_le_compat; lra.
Qed.
Definition e12 (k : R) : R := k / 1000000000000.
Lemma phi_near lat u : is_finite lat = true -> B2R lat = 180 / PI * gd u -> Rabs u <= 31417 / 10000 -> exists v, is_f (fmul lat rad64) (gd v) /\ Rabs v <= 3142 / 1000 /\ Rabs (v - u) <= e12 (25 / 1000).
Proof.
  intros F E Hu. pose proof PI_range as PR. pose proof (gd_bound u) as BG. assert (BL : Rabs (B2R lat) <= 90). { rewrite E. assert (180 / PI * (PI / 2) = 90) by (field; lra). assert (0 < 180 / PI) by (apply Rdiv_lt_0_compat; lra). apply ab. nra. }
  assert (E' : B2R lat * (PI / 180) = gd u) by (rewrite E; field; lra). pose proof vrad_near as VR. assert (U : 0 < uu <= / 9000000000000000) by (unfold uu; lra).
  assert (D : Rabs (B2R lat * vrad - gd u) <= 90 * / 100000000000000000). { rewrite <- E'. replace (B2R lat * vrad - B2R lat * (PI / 180)) with (B2R lat * (vrad - PI / 180)) by ring. rewrite Rabs_mult. apply Rmult_le_compat; auto; apply Rabs_pos. }
  apply ab in D. assert (B2 : Rabs (B2R lat * vrad) <= 2) by (apply ab; lra). pose proof (re2 _ B2) as E2. apply ab in E2. pose proof (fmul_f _ _ _ _ (conj F eq_refl) rad_f ltac:(apply big; lra)) as F1. set (p := rnd (B2R lat * vrad)) in *.
  assert (PD : Rabs (p - gd u) <= 2 / 1000000000000000) by (apply ab; lra). pose proof (gd_abs u _ Hu) as GU. pose proof (gd_low (3142 / 1000) (31417 / 10000) ltac:(rewrite Rabs_pos_eq; lra) ltac:(rewrite Rabs_pos_eq; lra)) as GL.
  rewrite !Rabs_pos_eq in GL by (try lra; apply Rge_le, Rge_minus, Rle_ge, (proj1 (gd_le _ _)); lra). pose proof (gd_bound (3142 / 1000)) as GB. apply ab in PD. apply ab in GU. assert (PB : - gd (3142 / 1000) <= p <= gd (3142 / 1000)) by lra.
  assert (GM : gd (merc p) = p) by (apply gd_merc; lra). exists (merc p). rewrite GM. split; [exact F1|]. assert (BM : Rabs (merc p) <= 3142 / 1000). { apply ab. split; apply gd_le; rewrite ?gd_odd, GM; lra. }
  split; [exact BM|]. pose proof (gd_low (merc p) u BM ltac:(lra)) as L. rewrite GM in L. eapply Rle_trans; [exact L|]. assert (Rabs (p - gd u) <= 2 / 1000000000000000) by (apply ab; lra). unfold e12. lra.
Qed.
(** The relative row, before it is scaled to the zoom *)
Definition rel_row (lat : f64) : f64 :=
  let lat := fmul lat rad64 in
  fdiv (fsub (fint 1) (fdiv (mLog m (fadd (mTan m lat) (fdiv (fint 1) (mCos m lat)))) pi64)) (fint 2).
Lemma row_rel lat u : is_finite lat = true -> B2R lat = 180 / PI * gd u -> Rabs u <= 31417 / 10000 ->
  exists h, is_f (rel_row lat) h /\ Rabs (h - (1 - u / PI) / 2) <= 65 / 10 / 1000000000000 /\ Rabs h <= 2.
Proof.
  intros F E Hu. destruct (phi_near lat u F E Hu) as (w & F1 & BW & DW). destruct G as (_ & _ & GT & GC & GL). pose proof PI_range as PR. assert (U : 0 < uu <= / 9000000000000000) by (unfold uu; lra).
  assert (T14 : t14 = / 100000000000000) by reflexivity. assert (T13 : t13 = / 10000000000000) by reflexivity. unfold rel_row. cbv zeta. set (p := fmul lat rad64) in *. destruct F1 as [F1 V1].
  assert (BP : Rabs (B2R p) <= gd (3142 / 1000)) by (rewrite V1; apply gd_abs, BW). destruct (GT p F1 BP) as [FT ET]. destruct (GC p F1 BP) as [FC EC]. rewrite V1 in ET, EC. unfold gd in ET, EC. rewrite tan_atan in ET. rewrite cos_atan, sqrt_cosh in EC.
  pose proof (cosh_range w BW) as CH. pose proof (sinh_range w BW) as SH. pose proof (exp_range w BW) as EX. replace (1 / cosh w) with (/ cosh w) in EC by (unfold Rdiv; ring).
  set (tt := B2R (mTan m p)) in *. set (c := B2R (mCos m p)) in *. pose proof (inv_near c (cosh w) t14 (121 / 10) CH ltac:(lra) EC ltac:(lra)) as EI. rewrite T14 in EI. apply ab in EI. apply ab in EC.
  assert (IC : / 13 <= / cosh w) by (apply Rinv_le_contravar; lra). assert (C0 : c <> 0) by lra. pose proof (f_int 1 ltac:(lia)) as F1'.
  pose proof (fdiv_f _ _ _ _ F1' (conj FC eq_refl) C0) as FQ. fold c in FQ. replace (1 / c) with (/ c) in FQ by (unfold Rdiv; ring). specialize (FQ ltac:(apply big, ab; lra)). pose proof (re 4 16 ltac:(lia) ltac:(lia) eq_refl (/ c) ltac:(apply ab; lra)) as EQ. apply ab in EQ. set (q := rnd (/ c)) in *.
  apply ab in ET. apply ab in SH. rewrite T13 in ET. pose proof (fadd_f _ _ _ _ (conj FT eq_refl) FQ ltac:(fold tt; apply big, ab; lra)) as FS. fold tt in FS. pose proof (re 5 32 ltac:(lia) ltac:(lia) eq_refl (tt + q) ltac:(apply ab; lra)) as ES. apply ab in ES. set (s := rnd (tt + q)) in *.
  assert (XS : exp w = sinh w + cosh w) by (unfold sinh, cosh; lra). assert (DS : Rabs (s - exp w) <= e12 (158 / 100)) by (unfold e12; apply ab; rewrite XS; lra).
  destruct FS as [FS VS]. destruct (GL _ FS) as [FL EL]. { rewrite VS. unfold e12 in DS. apply ab in DS. lra. }
  rewrite VS in EL. pose proof (ln_lip s (exp w) _ ltac:(lra) DS ltac:(unfold e12; lra)) as LN. rewrite ln_exp in LN. set (l := B2R (mLog m _)) in *.
  assert (DL : Rabs (l - u) <= e12 (396 / 10)) by (unfold e12 in *; apply ab in LN; apply ab in EL; apply ab in DW; apply ab; lra).
  pose proof vpi_pi as VP. apply ab in VP. assert (VQ : vpi <> 0) by lra. assert (EP : Rabs (l / vpi - u / PI) <= e12 (127 / 10)).
  { assert (I1 : 0 <= / vpi <= 10 / 31). { split; [apply Rlt_le, Rinv_0_lt_compat; lra|]. replace (10 / 31) with (/ (31 / 10)) by lra. apply Rinv_le_contravar; lra. } assert (I2 : 0 <= / PI <= 10 / 31). { split; [apply Rlt_le, Rinv_0_lt_compat; lra|]. replace (10 / 31) with (/ (31 / 10)) by lra. apply Rinv_le_contravar; lra. }
    replace (l / vpi - u / PI) with ((l - u) * / vpi + u * (PI - vpi) * (/ vpi * / PI)) by (field; split; lra). unfold e12 in *.
    assert (A : Rabs ((l - u) * / vpi) <= 396 / 10 / 1000000000000 * (100 / 314)). { rewrite Rabs_mult. apply Rmult_le_compat; try apply Rabs_pos; auto. rewrite Rabs_pos_eq by lra. replace (100 / 314) with (/ (314 / 100)) by lra. apply Rinv_le_contravar; lra. }
    assert (B : Rabs (u * (PI - vpi) * (/ vpi * / PI)) <= 4 * / 4000000000000000 * 1). { rewrite !Rabs_mult. apply Rmult_le_compat; try (apply Rmult_le_pos; apply Rabs_pos); [apply Rmult_le_compat; try apply Rabs_pos; [lra|apply ab; lra]|]. rewrite !Rabs_pos_eq by lra. nra. }
    apply ab in A. apply ab in B. apply ab. lra. }
  assert (BUP : Rabs (u / PI) <= 101 / 100). { unfold Rdiv. rewrite Rabs_mult, (Rabs_pos_eq (/ PI)) by (apply Rlt_le, Rinv_0_lt_compat; lra). apply Rmult_le_reg_r with PI; [lra|]. rewrite Rmult_assoc, Rinv_l by lra. lra. }
  set (k := u / PI) in *. unfold e12 in *. apply ab in EP. apply ab in BUP. pose proof (fdiv_f _ _ _ _ (conj FL eq_refl) pi_f VQ ltac:(fold l; apply big, ab; lra)) as FM. fold l in FM. pose proof (re2 (l / vpi) ltac:(apply ab; lra)) as EM. apply ab in EM. set (mm := rnd (l / vpi)) in *.
  pose proof (fsub_f _ _ _ _ F1' FM ltac:(apply big, ab; lra)) as FR. pose proof (re4 (1 - mm) ltac:(apply ab; lra)) as ER. apply ab in ER. set (r := rnd (1 - mm)) in *.
  pose proof (fdiv_f _ _ _ _ FR (f_int 2 ltac:(lia)) ltac:(lra) ltac:(apply big, ab; lra)) as FH. pose proof (re2 (r / 2) ltac:(apply ab; lra)) as EH. apply ab in EH. set (h := rnd (r / 2)) in *.
  assert (DH : Rabs (h - (1 - k) / 2) <= 65 / 10 / 1000000000000) by (apply ab; lra). assert (BH : Rabs h <= 2) by (apply ab in DH; apply ab; lra).
  exists h. auto.
Qed.
Lemma row_near lat u z : is_finite lat = true -> B2R lat = 180 / PI * gd u -> Rabs u <= 31417 / 10000 -> (0 <= z <= 44)%Z ->
  exists v, tile_row m lat z = Zfloor v /\ Rabs (v - (1 - u / PI) / 2 * IZR (2 ^ z)) <= IZR (2 ^ z) * e12 7.
Proof.
  intros F E Hu Hz. destruct (row_rel lat u F E Hu) as (h & FH & DH & BH). unfold tile_row. cbv zeta. unfold rel_row in FH. cbv zeta in FH. set (k := u / PI) in *. unfold e12. assert (U : 0 < uu <= / 9000000000000000) by (unfold uu; lra).
  pose proof (bpow_gt_0 radix2 z) as N0. assert (NB : bpow radix2 z <= 17592186044416) by (rewrite bz by lia; apply IZR_le; apply (p43 z 44); lia). rewrite <- bz by lia. set (n := bpow radix2 z) in *.
  assert (BN : Rabs (h * n) <= bpow radix2 (z + 1)). { rewrite bpow_plus. change (bpow radix2 1) with 2. fold n. rewrite Rabs_mult, (Rabs_pos_eq n) by lra. rewrite (Rmult_comm n). apply Rmult_le_compat_r; lra. }
  pose proof (fmul_f _ _ _ _ FH (fpow2_f z ltac:(lia))) as FV. fold n in FV. destruct FV as [_ FV]. { eapply Rle_trans; [exact BN|]. apply bpow_le. lia. }
  rewrite FV. exists (rnd (h * n)). split; [reflexivity|]. pose proof (rnd_err (z + 1) (h * n) ltac:(lia) BN) as EV. replace (z + 1 - 53)%Z with (z + -53 + 1)%Z in EV by lia. rewrite !bpow_plus, bp53 in EV. change (bpow radix2 1) with 2 in EV. fold n in EV. apply ab in EV.
  apply ab in DH. apply ab. assert (Rabs ((h - (1 - k) / 2) * n) <= 65 / 10 / 1000000000000 * n). { rewrite Rabs_mult, (Rabs_pos_eq n) by lra. apply Rmult_le_compat_r; [lra|]. apply ab; lra. } apply ab in H. assert (n * uu <= n * / 9000000000000000) by (apply Rmult_le_compat_l; lra). lra.
Qed.
End Lat.

(** ** Tiles and their middle *)
Lemma cosh_ratio a b H : Rabs (a - b) <= H -> cosh b * exp (- H) <= cosh a.
Proof.
  intros D. apply ab in D. unfold cosh. assert (M : forall x y, x <= y -> exp x <= exp y) by (intros x y [L| ->]; [left; apply exp_increasing; auto|lra]).
  assert (A : exp b * exp (- H) <= exp a) by (rewrite <- exp_plus; apply M; lra). assert (B : exp (- b) * exp (- H) <= exp (- a)) by (rewrite <- exp_plus; apply M; lra). lra.
Qed.
(** The latitude half-way between two edges projects between them, at least [exp (-H) / 2] of the height [H] from each. *)
Lemma mid_margin s n u : s <= n -> gd u = (gd n + gd s) / 2 -> (n - s) / 2 * exp (- (n - s)) <= u - s /\ (n - s) / 2 * exp (- (n - s)) <= n - u.
Proof.
  intros L E. assert (SG : gd s <= gd n) by (apply (proj1 (gd_le _ _)); exact L). assert (S1 : s <= u) by (apply gd_le; lra). assert (S2 : u <= n) by (apply gd_le; lra).
  destruct (mvt gd (fun c => / cosh c) s n gd_deriv L) as (c & Ec & Hc). destruct (mvt gd (fun c => / cosh c) s u gd_deriv S1) as (a & Ea & Ha). destruct (mvt gd (fun c => / cosh c) u n gd_deriv S2) as (b & Eb & Hb).
  set (H := n - s) in *. pose proof (cosh_ratio a c H ltac:(apply ab; unfold H; lra)) as Ra. pose proof (cosh_ratio b c H ltac:(apply ab; unfold H; lra)) as Rb. pose proof (cosh_pos a). pose proof (cosh_pos b). pose proof (cosh_pos c). pose proof (exp_pos (- H)).
  assert (Fa : u - s = cosh a * / cosh c * (H / 2)). { apply Rmult_eq_reg_l with (/ cosh a); [|apply Rinv_neq_0_compat; lra]. rewrite <- Ea, <- !Rmult_assoc, Rinv_l by lra. lra. }
  assert (Fb : n - u = cosh b * / cosh c * (H / 2)). { apply Rmult_eq_reg_l with (/ cosh b); [|apply Rinv_neq_0_compat; lra]. rewrite <- Eb, <- !Rmult_assoc, Rinv_l by lra. lra. }
  assert (Ia : exp (- H) <= cosh a * / cosh c). { apply Rmult_le_reg_r with (cosh c); [lra|]. rewrite (Rmult_assoc (cosh a)), Rinv_l by lra. lra. }
  assert (Ib : exp (- H) <= cosh b * / cosh c). { apply Rmult_le_reg_r with (cosh c); [lra|]. rewrite (Rmult_assoc (cosh b)), Rinv_l by lra. lra. }
  rewrite Fa, Fb. assert (0 <= H / 2) by (unfold H; lra). rewrite (Rmult_comm (H / 2)). split; apply Rmult_le_compat_r; auto.
Qed.
Lemma exp_2pi n : 1 <= n -> / 576 <= exp (- (2 * PI / n)) /\ (2 <= n -> / 24 <= exp (- (2 * PI / n))).
Proof.
  intros Hn. pose proof PI_range as PR. assert (M : forall x y, x <= y -> exp x <= exp y) by (intros x y [L| ->]; [left; apply exp_increasing; auto|lra]). pose proof (exp_range (- PI) ltac:(apply ab; lra)) as E. split.
  - apply Rle_trans with (exp (- PI) * exp (- PI)); [nra|]. rewrite <- exp_plus. apply M. assert (2 * PI / n <= 2 * PI); [|lra]. apply Rmult_le_reg_r with n; [lra|]. unfold Rdiv. rewrite Rmult_assoc, Rinv_l by lra. nra.
  - intros H2. eapply Rle_trans; [apply E|]. apply M. assert (2 * PI / n <= PI); [|lra]. apply Rmult_le_reg_r with n; [lra|]. unfold Rdiv. rewrite Rmult_assoc, Rinv_l by lra. nra.
Qed.
