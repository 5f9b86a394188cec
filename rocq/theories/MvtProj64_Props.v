(** Reading a grid point to longitude/latitude and writing it again, in binary64 (C120). *)
From Coq Require Import ZArith Reals Rtrigo1 Ratan List Lia Lra Bool.
From Flocq Require Import Core BinarySingleNaN.
From Verif Require Import GoBase Num Tileid_Model TileR_Model TileR_Proofs MvtProj_Model MvtProj_Proofs TileF64_Model TileF64_Proofs F64 ColorF64_Model ColorF64_Proofs ColorF64_Props Tile64_Model Tile64_Proofs Tile64_Props MvtProj64_Model MvtProj64_Proofs.
Import ListNotations.
Open Scope R_scope.
#[local] Existing Instance vexp.

Section Lib.
Variable m : libm.
Variable mExp : f64 -> f64.
Hypothesis G : good_proj m mExp.
Variable t : TileID.
Variable e : Z.
Hypothesis M : on_map t.
Hypothesis He : (1 <= e < 2 ^ 31)%Z.
Hypothesis HN : (e * 2 ^ tZ t <= 2 ^ 36)%Z.

Lemma nz : (1 <= 2 ^ tZ t <= 2 ^ 36)%Z. Proof. destruct M as (Z0 & _). pose proof (pz _ Z0). nia. Qed.
Lemma z36 : (0 <= tZ t <= 36)%Z.
Proof. destruct M as (Z0 & _). split; [exact Z0|]. pose proof nz. destruct (Z_le_gt_dec (tZ t) 36) as [|K]; [assumption|]. pose proof (Z.pow_lt_mono_r 2 36 (tZ t) ltac:(lia) ltac:(lia) ltac:(lia)). lia. Qed.
Lemma size_f : is_f (fmul (fint e) (fpow2 (tZ t))) (IZR (e * 2 ^ tZ t)).
Proof. pose proof z36. pose proof nz. pose proof (fpow2_f (tZ t) ltac:(lia)) as F. rewrite bz in F by lia. apply f_mulz; [apply fint_f; lia|exact F|]. rewrite Z.abs_eq by nia. lia. Qed.
Lemma off_f x p : (0 <= p < 2 ^ tZ t)%Z -> (- e <= x <= 2 * e)%Z -> is_f (fadd (fint x) (fmul (fint e) (fint p))) (IZR (x + e * p)).
Proof. intros Hp Hx. pose proof nz. assert (P : (0 <= e * p <= 2 ^ 36)%Z) by nia. apply f_addz; [apply fint_f; lia| |lia]. apply f_mulz; [apply fint_f; lia|apply fint_f; nia|lia]. Qed.
Let n := IZR (2 ^ tZ t).
Lemma n_rng : 1 <= n <= 68719476736. Proof. unfold n. pose proof nz. split; apply IZR_le; lia. Qed.
Lemma e_rng : 1 <= IZR e <= 2147483648. Proof. split; apply IZR_le; lia. Qed.
Lemma en_rng : IZR e * n <= 68719476736. Proof. unfold n. rewrite <- mult_IZR. apply IZR_le. exact HN. Qed.

Lemma col_back x : (- e <= x <= 2 * e)%Z -> in_i32 x ->
  let c := NewCursorExtent64 m t e true in
  round32 (fmul (fdiv (fsub (fmul pole180 (ProjLon64 (fint x) (fmul (fint e) (fint (tX t))) (fmul (fint e) (fpow2 (tZ t))))) (e6W (k6B c))) (k6DX c)) (fint e)) = x.
Proof.
  intros Hx X c. destruct M as (Z0 & HX & HY). pose proof z36 as Z36. pose proof nz as NZ. pose proof n_rng as NR. pose proof e_rng as ER. pose proof en_rng as EN. assert (U : 0 < uu <= / 9000000000000000) by (unfold uu; lra).
  destruct (bounds_near m (proj1 G) t M ltac:(lia)) as (FW & FE & _). destruct (Bounds_exact t M) as (BW & BE & _). fold n in BW, BE. rewrite BW in FW. rewrite BE in FE. set (w := IZR (tX t) / n * 360 - 180) in *. set (ee := IZR (tX t + 1) / n * 360 - 180) in *.
  assert (ZE : (e <= e * 2 ^ tZ t)%Z) by nia. assert (ZX : (0 <= e * tX t /\ e * tX t + e <= e * 2 ^ tZ t)%Z) by nia. destruct (ProjLon_near _ _ _ _ _ (off_f x (tX t) HX Hx) size_f ltac:(lia) ltac:(lia)) as (r & FR & DR). set (lt := 360 * (IZR (x + e * tX t) / IZR (e * 2 ^ tZ t)) - 180) in *.
  assert (I0 : 0 < / n <= 1) by (split; [apply Rinv_0_lt_compat; lra|rewrite <- Rinv_1; apply Rinv_le_contravar; lra]). set (k := IZR x / IZR e). assert (KE : k * IZR e = IZR x) by (unfold k; field; lra).
  assert (BK : -1 <= k <= 2). { assert (- IZR e <= IZR x <= 2 * IZR e) by (rewrite <- opp_IZR, <- mult_IZR; split; apply IZR_le; lia). clearbody k. split; apply Rmult_le_reg_r with (IZR e); lra. }
  assert (EL : lt = w + k * (360 * / n)). { unfold lt, w, k. rewrite plus_IZR, !mult_IZR. fold n. field. lra. } assert (EE : ee = w + 360 * / n). { unfold ee, w. rewrite plus_IZR. field. lra. }
  assert (RW : -180 <= w <= 180 /\ -180 <= ee <= 180). { pose proof (ul_lon_range (tX t) (tZ t) Z0 ltac:(lia)) as A. pose proof (ul_lon_range (tX t + 1) (tZ t) Z0 ltac:(lia)) as B. fold n in A, B. unfold w, ee. lra. } clearbody w ee lt.
  assert (C1 : 11131949 / 100 <= vp180 <= 1113195 / 10) by (unfold vp180; lra). set (c1 := vp180) in *. assert (RL : -540 <= lt <= 540) by (clear - EL EE BK I0 RW; nra). apply ab in DR.
  assert (B1 : Rabs (c1 * r) <= 67108864) by (apply ab; clear - RL DR C1 U; nra). pose proof (fmul_f _ _ _ _ p180_f FR ltac:(apply big; fold c1; lra)) as F1. fold c1 in F1. pose proof (re 26 67108864 ltac:(lia) ltac:(lia) eq_refl _ B1) as E1. apply ab in E1. apply ab in B1.
  assert (B2 : Rabs (c1 * w) <= 33554432) by (apply ab; clear - RW C1; nra). pose proof (fmul_f _ _ _ _ p180_f FW ltac:(apply big; fold c1; lra)) as F2. fold c1 in F2. pose proof (re 25 33554432 ltac:(lia) ltac:(lia) eq_refl _ B2) as E2. apply ab in E2. apply ab in B2.
  assert (B3 : Rabs (c1 * ee) <= 33554432) by (apply ab; clear - RW C1; nra). pose proof (fmul_f _ _ _ _ p180_f FE ltac:(apply big; fold c1; lra)) as F3. fold c1 in F3. pose proof (re 25 33554432 ltac:(lia) ltac:(lia) eq_refl _ B3) as E3. apply ab in E3. apply ab in B3.
  unfold c, NewCursorExtent64, ConvertCursor64, ConvertPoint64. cbn [fst snd k6B k6DX e6W]. set (xm := rnd (c1 * r)) in *. set (wm := rnd (c1 * w)) in *. set (em := rnd (c1 * ee)) in *.
  pose proof (fsub_f _ _ _ _ F1 F2 ltac:(apply big, ab; lra)) as F4. pose proof (re 27 134217728 ltac:(lia) ltac:(lia) eq_refl (xm - wm) ltac:(apply ab; lra)) as E4. apply ab in E4.
  pose proof (fsub_f _ _ _ _ F3 F2 ltac:(apply big, ab; lra)) as F5. pose proof (re 27 134217728 ltac:(lia) ltac:(lia) eq_refl (em - wm) ltac:(apply ab; lra)) as E5. apply ab in E5.
  set (D := c1 * (360 * / n)). assert (D0 : 40075000 * / n <= D) by (unfold D; clear - C1 I0; nra). assert (ND : n * / n = 1) by (apply Rinv_r; lra). set (i := / n) in *. assert (IL : / 68719476736 <= i) by (unfold i; apply Rinv_le_contravar; lra).
  assert (XR : Rabs (c1 * r - c1 * lt) <= 111320 * (2048 * uu)) by (replace (c1 * r - c1 * lt) with (c1 * (r - lt)) by ring; rewrite Rabs_mult; apply Rmult_le_compat; try apply Rabs_pos; apply ab; lra). apply ab in XR.
  assert (CL : c1 * lt = c1 * w + k * D) by (rewrite EL; unfold D; ring). assert (CE : c1 * ee = c1 * w + D) by (rewrite EE; unfold D; ring).
  apply (grid_back _ _ _ _ D k x e (462864384 * uu) (201326592 * uu) (n * (3 / 1000000000000000)) F4 F5); auto; try lra; try lia.
  - apply ab. lra.
  - apply ab. lra.
  - apply ab. lra.
  - apply Rle_trans with (n * i * (3 / 1000000000000000 * 40000000)); [rewrite ND; lra|]. replace (n * i * (3 / 1000000000000000 * 40000000)) with (n * (3 / 1000000000000000) * (40000000 * i)) by ring. apply Rmult_le_compat_l; lra.
Qed.
Lemma row_back y : (- e <= y <= 2 * e)%Z -> in_i32 y -> (0 <= e * tY t + y <= e * 2 ^ tZ t)%Z ->
  let c := NewCursorExtent64 m t e true in
  round32 (fmul (fdiv (fsub (e6N (k6B c)) (Merc64 m (ProjLat64 m mExp (fint y) (fmul (fint e) (fint (tY t))) (fmul (fint e) (fpow2 (tZ t)))))) (k6DY c)) (fint e)) = y.
Proof.
  intros Hx X Hr c. destruct M as (Z0 & HX & HY). pose proof z36 as Z36. pose proof nz as NZ. pose proof n_rng as NR. pose proof e_rng as ER. pose proof en_rng as EN. assert (U : 0 < uu <= / 9000000000000000) by (unfold uu; lra). pose proof PI_range as PR.
  destruct (bounds_near m (proj1 G) t M ltac:(lia)) as (_ & _ & (rn & FN & DN) & (rs & FS & DS)). destruct (Bounds_exact t M) as (_ & _ & BN & BS). fold n in BN, BS. rewrite BN in DN. rewrite BS in DS. destruct (u_range t M) as (U1 & U2 & U3 & _). fold n in U1, U2, U3.
  destruct (ProjLat_near m mExp G _ _ _ _ _ (off_f y (tY t) HY Hx) size_f ltac:(nia) ltac:(lia)) as (r & FR & DR). set (q := IZR (y + e * tY t) / IZR (e * 2 ^ tZ t)) in *.
  assert (I0 : 0 < / n <= 1) by (split; [apply Rinv_0_lt_compat; lra|rewrite <- Rinv_1; apply Rinv_le_contravar; lra]). set (k := IZR y / IZR e). assert (KE : k * IZR e = IZR y) by (unfold k; field; lra).
  assert (BK : -1 <= k <= 2). { assert (- IZR e <= IZR y <= 2 * IZR e) by (rewrite <- opp_IZR, <- mult_IZR; split; apply IZR_le; lia). clearbody k. split; apply Rmult_le_reg_r with (IZR e); lra. }
  assert (EQ : q = IZR (tY t) * / n + k * / n). { unfold q, k. rewrite plus_IZR, !mult_IZR. fold n. field. lra. }
  assert (Q01 : 0 <= q <= 1). { assert (E : q * IZR (e * 2 ^ tZ t) = IZR (y + e * tY t)) by (unfold q; field; apply not_0_IZR; nia). assert (S0 : 0 < IZR (e * 2 ^ tZ t)) by (apply IZR_lt; nia). assert (0 <= IZR (y + e * tY t) <= IZR (e * 2 ^ tZ t)) by (split; apply IZR_le; lia). clearbody q. clear - E S0 H. split; apply Rmult_le_reg_r with (IZR (e * 2 ^ tZ t)); lra. }
  destruct (Merc64_near m mExp G _ _ _ _ FN (conj (Rle_trans _ _ _ U1 U2) U3) DN ltac:(unfold e12; lra)) as (ym & FNm & DNm). destruct (Merc64_near m mExp G _ _ _ _ FS (conj U1 (Rle_trans _ _ _ U2 U3)) DS ltac:(unfold e12; lra)) as (ys & FSm & DSm).
  assert (PQ : - PI <= PI * (1 - 2 * q) <= PI) by (clear - PR Q01; split; nra). destruct (Merc64_near m mExp G _ _ _ _ FR PQ DR ltac:(unfold e12; lra)) as (yr & FRm & DRm).
  replace (PI * (1 - 2 * IZR (tY t) / n) / PI) with (1 - 2 * (IZR (tY t) * / n)) in DNm by (field; lra). replace (PI * (1 - 2 * (IZR (tY t) + 1) / n) / PI) with (1 - 2 * (IZR (tY t) * / n) - 2 * / n) in DSm by (field; lra). replace (PI * (1 - 2 * q) / PI) with (1 - 2 * (IZR (tY t) * / n) - 2 * (k * / n)) in DRm by (rewrite EQ; field; lra).
  assert (RY : 0 <= IZR (tY t) * / n <= 1). { assert (0 <= IZR (tY t) <= n) by (unfold n; split; apply IZR_le; lia). assert (n * / n = 1) by (apply Rinv_r; lra). clear - H H0 I0. nra. } set (b := IZR (tY t) * / n) in *. rewrite EQ in Q01. clear EQ PQ DR q DN DS FR FN FS.
  assert (VB : 20037508 <= vpole <= 20037509) by (unfold vpole; lra). set (P := vpole) in *. clearbody P b. assert (ND : n * / n = 1) by (apply Rinv_r; lra). assert (IL : / 68719476736 <= / n) by (apply Rinv_le_contravar; lra). set (i := / n) in *. clearbody i. unfold e12 in *. apply ab in DNm. apply ab in DSm. apply ab in DRm.
  assert (PB : 0 <= P * b <= P) by (clear - VB RY; nra). assert (PI_ : 0 <= P * i <= P) by (clear - VB I0; nra). assert (PK : - P <= P * (k * i) <= 2 * P) by (assert (-1 <= k * i <= 2) by (clear - BK I0; nra); clear - VB H; nra).
  assert (XB : 0 <= P * b + P * (k * i) <= P) by (clear - VB Q01; nra). assert (XS : P * b + P * i <= 2 * P) by lra.
  replace (P * (1 - 2 * b)) with (P - 2 * (P * b)) in DNm by ring. replace (P * (1 - 2 * b - 2 * i)) with (P - 2 * (P * b) - 2 * (P * i)) in DSm by ring. replace (P * (1 - 2 * b - 2 * (k * i))) with (P - 2 * (P * b) - 2 * (P * (k * i))) in DRm by ring.
  assert (XK : P * (k * i) = k * (P * i)) by ring. set (Pb := P * b) in *. set (Pi := P * i) in *. set (Pk := P * (k * i)) in *.
  unfold c, NewCursorExtent64, ConvertCursor64, ConvertPoint64. cbn [fst snd k6B k6DY e6N e6S].
  pose proof (fsub_f _ _ _ _ FNm FRm ltac:(apply big, ab; lra)) as F4. pose proof (re 27 134217728 ltac:(lia) ltac:(lia) eq_refl (ym - yr) ltac:(apply ab; lra)) as E4. apply ab in E4.
  pose proof (fsub_f _ _ _ _ FNm FSm ltac:(apply big, ab; lra)) as F5. pose proof (re 27 134217728 ltac:(lia) ltac:(lia) eq_refl (ym - ys) ltac:(apply ab; lra)) as E5. apply ab in E5.
  assert (DI : P * / 68719476736 <= Pi) by (unfold Pi; apply Rmult_le_compat_l; lra).
  apply (grid_back _ _ _ _ (2 * Pi) k y e (P * (242 / 100 / 1000000000000)) (P * (279 / 100 / 1000000000000)) (n * (46 / 10 / 1000000000000)) F4 F5); auto; try lra; try lia.
  - apply ab. replace (k * (2 * Pi)) with (2 * Pk) by (rewrite XK; ring). lra.
  - apply ab. lra.
  - apply ab. lra.
  - assert (EX : n * (46 / 10 / 1000000000000) * (2 * Pi - P * (279 / 100 / 1000000000000)) = P * (n * i) * (92 / 10 / 1000000000000) - P * n * (46 / 10 / 1000000000000 * (279 / 100 / 1000000000000))) by (unfold Pi; field). rewrite EX, ND. assert (PN : P * n <= P * 68719476736) by (apply Rmult_le_compat_l; lra). lra.
Qed.
End Lib.

(** ** C120 *)
(** A grid point of a tile that is read to longitude and latitude and written into the same tile again comes back, if
    it is no further from the tile than the width of the tile and not beyond the poles of the map. *)
Theorem C120_regrid : forall m mExp t e eb x y, good_proj m mExp -> on_map t -> (1 <= e < 2 ^ 31)%Z -> (e * 2 ^ tZ t <= 2 ^ 36)%Z ->
  (- e <= x <= 2 * e)%Z -> (- e <= y <= 2 * e)%Z -> in_i32 x -> in_i32 y -> (0 <= e * tY t + y <= e * 2 ^ tZ t)%Z -> (eb = true -> 0 <= x <= e /\ 0 <= y <= e)%Z ->
  SinglePoint64 m (NewCursorExtent64 m t e eb) (ToLngLat64 m mExp t e (x, y)) = (x, y).
Proof.
  intros m mExp t e eb x y G M He HN Hx Hy X Y Hr HE. pose proof (col_back m mExp G t e M He HN x Hx X) as CX. pose proof (row_back m mExp G t e M He HN y Hy Y Hr) as CY. cbv zeta in CX, CY. unfold SinglePoint64. cbv zeta.
  assert (KE : k6Extent (NewCursorExtent64 m t e eb) = e) by reflexivity. assert (KB : k6ExtentBool (NewCursorExtent64 m t e eb) = eb) by reflexivity. rewrite KE, KB. unfold ToLngLat64, ConvertPoint64. cbn [fst snd].
  change (k6B (NewCursorExtent64 m t e eb)) with (k6B (NewCursorExtent64 m t e true)). change (k6DX (NewCursorExtent64 m t e eb)) with (k6DX (NewCursorExtent64 m t e true)). change (k6DY (NewCursorExtent64 m t e eb)) with (k6DY (NewCursorExtent64 m t e true)). rewrite CX, CY.
  destruct eb; [|reflexivity]. destruct (HE eq_refl). rewrite !clampExtent_id by lia. reflexivity.
Qed.
Print Assumptions C120_regrid.
(** Beyond the northern edge of the map every row becomes the edge, already in exact arithmetic. *)
Theorem C120_off_map_refuted : forall t e x y, on_map t -> tY t = 0%Z -> (1 <= e < 2 ^ 31)%Z -> (y < 0)%Z -> snd (SinglePoint (NewCursorExtent t e false) (ToLngLat t e (IZR x, IZR y))) = 0%Z.
Proof.
  intros t e x y M TY He Hy. pose proof M as (Z0 & _). rewrite ToLngLat_eq by lia. pose proof PI_range as PR. assert (P0 : 0 < pow2 (tZ t)) by apply pow2_pos. assert (E0 : 1 <= IZR e) by (apply IZR_le; lia). assert (Y0 : IZR y < 0) by (apply IZR_lt; lia).
  unfold SinglePoint, NewCursorExtent, ConvertCursor. cbv zeta. cbn [cExtentBool cB cDX cDY cExtent]. cbn [snd eN eS eW eE]. destruct (Bounds_eq t) as (_ & _ & BN & _). rewrite BN, TY. set (n := pow2 (tZ t)) in *.
  assert (N1 : snd (ConvertPoint (eE (Bounds t), edge_lat 0 n)) = mercatorPole) by (rewrite snd_Convert_edge by lra; field; lra).
  assert (N2 : forall lng, snd (ConvertPoint (lng, edge_lat (IZR y / IZR e + 0) n)) = mercatorPole).
  { intros lng. unfold ConvertPoint. cbn [fst snd]. rewrite ln_tan_merc by apply edge_lat_range. rewrite merc_edge. pose proof mp_pos as MP. assert (Q : IZR y / IZR e < 0) by (unfold Rdiv; assert (0 < / IZR e) by (apply Rinv_0_lt_compat; lra); nra). set (q := IZR y / IZR e + 0). assert (Q2 : 2 * q / n <= 0) by (unfold q, Rdiv; assert (0 < / n) by (apply Rinv_0_lt_compat; lra); set (a := IZR y * / IZR e) in *; unfold Rdiv in Q; fold a in Q; nra).
    replace (PI * (1 - 2 * q / n) / PI * mercatorPole) with ((1 - 2 * q / n) * mercatorPole) by (field; lra). rewrite Rmin_right by nra. apply Rmax_right. lra. }
  rewrite N1, N2. replace ((mercatorPole - mercatorPole) / (mercatorPole - snd (ConvertPoint (eW (Bounds t), eS (Bounds t)))) * IZR e) with (IZR 0) by (unfold Rdiv; ring). rewrite RoundHA_IZR. reflexivity.
Qed.
Print Assumptions C120_off_map_refuted.

Lemma ok1_rnd32 g (P : R -> Prop) tol : (forall x, P x -> Rabs (g x) <= 32) -> 32 * uu <= tol -> ok1 (fun x => of_R (rnd (g (B2R x)))) g P tol.
Proof.
  intros H T x F Px. specialize (H _ Px). pose proof (re 5 32 ltac:(lia) ltac:(lia) eq_refl (g (B2R x)) H) as E. assert (U : 0 < uu <= / 9000000000000000) by (unfold uu; lra). pose proof E as E'. apply ab in E'. pose proof H as H'. apply ab in H'.
  assert (K : is_f (of_R (rnd (g (B2R x)))) (rnd (g (B2R x)))) by (apply of_R_f; [apply generic_format_round; [apply vexp|apply valid_rnd_N]|apply ab; lra]). destruct K as [K1 K2]. split; [exact K1|]. rewrite K2. eapply Rle_trans; [exact E|lra].
Qed.
Definition exact_exp (x : f64) : f64 := of_R (rnd (exp (B2R x))).
Example C120_nonvacuous : good_proj exact_libm exact_exp /\ SinglePoint64 exact_libm (NewCursorExtent64 exact_libm (mkTile 3 5 3) 4096 false) (ToLngLat64 exact_libm exact_exp (mkTile 3 5 3) 4096 (-64, 4100)%Z) = (-64, 4100)%Z.
Proof.
  assert (U : 0 < uu <= / 9000000000000000) by (unfold uu; lra). assert (G : good_proj exact_libm exact_exp).
  { split; [apply C118_nonvacuous|]. unfold exact_libm, exact_exp, t13, t14. cbn [mAtan mTan]. split; [|split]; apply ok1_rnd32; try lra.
    - intros x _. pose proof (atan_bound x). pose proof PI_range. apply ab. lra.
    - intros x [H1 H2]. pose proof (exp_range (3142 / 1000) ltac:(apply ab; lra)) as E1. pose proof (exp_pos (- (3142 / 1000))) as E2. pose proof (atan_bound (exp (- (3142 / 1000)))). pose proof (atan_bound (exp (3142 / 1000))) as AB. pose proof PI_range. assert (A0 : 0 < atan (exp (- (3142 / 1000)))) by (rewrite <- atan_0; apply atan_increasing, E2).
      assert (T1 : 0 <= tan x) by (apply Rlt_le, tan_gt_0; lra). assert (T2 : tan x <= exp (3142 / 1000)). { rewrite <- (tan_atan (exp (3142 / 1000))). destruct H2 as [H2| ->]; [|lra]. left. apply tan_increasing; lra. } apply ab. lra.
    - intros x Hx. pose proof (exp_range x Hx). apply ab. lra. }
  split; [exact G|]. apply C120_regrid; auto; try discriminate; cbn; unfold on_map, in_i32; cbn; lia.
Qed.
