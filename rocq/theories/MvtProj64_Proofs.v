(** Error bounds for the projection in binary64. *)
From Coq Require Import ZArith Reals Rtrigo1 Ratan List Lia Lra Bool.
From Flocq Require Import Core BinarySingleNaN.
From Verif Require Import GoBase Num Tileid_Model TileR_Model TileR_Proofs MvtProj_Model MvtProj_Proofs TileF64_Model TileF64_Proofs F64 ColorF64_Model ColorF64_Proofs ColorF64_Props Tile64_Model Tile64_Proofs MvtProj64_Model.
Import ListNotations.
Open Scope R_scope.
#[local] Existing Instance vexp.

Definition vpole : R := 5378777688351703 / 268435456.
Lemma pole_f : is_f pole64 vpole.
Proof. split; [reflexivity|]. unfold pole64, B2R, F2R. cbn [Fnum Fexp cond_Zopp]. change (bpow radix2 (-28)) with (bpow radix2 (- (28))). rewrite (bpm 28 268435456 ltac:(lia) eq_refl). unfold vpole. lra. Qed.
Lemma npole_f : is_f npole64 (- vpole).
Proof. split; [reflexivity|]. unfold npole64, B2R, F2R. cbn [Fnum Fexp cond_Zopp Z.opp]. change (bpow radix2 (-28)) with (bpow radix2 (- (28))). rewrite (bpm 28 268435456 ltac:(lia) eq_refl). unfold vpole. lra. Qed.
Definition vp180 : R := 7649817156766867 / 68719476736.
Lemma p180_f : is_f pole180 vp180.
Proof. split; [reflexivity|]. unfold pole180, B2R, F2R. cbn [Fnum Fexp cond_Zopp]. change (bpow radix2 (-36)) with (bpow radix2 (- (36))). rewrite (bpm 36 68719476736 ltac:(lia) eq_refl). unfold vp180. lra. Qed.
Definition vdeg2 : R := 8063664102031864 / 70368744177664.
Lemma deg2_f : is_f deg2 vdeg2.
Proof. split; [reflexivity|]. unfold deg2, B2R, F2R. cbn [Fnum Fexp cond_Zopp]. change (bpow radix2 (-46)) with (bpow radix2 (- (46))). rewrite (bpm 46 70368744177664 ltac:(lia) eq_refl). unfold vdeg2. lra. Qed.
Lemma vdeg2_near : Rabs (vdeg2 - 360 / PI) <= 2 / 100000000000000.
Proof. pose proof vdeg_near as H. apply ab in H. replace (360 / PI) with (2 * (180 / PI)) by (unfold Rdiv; ring). apply ab. unfold vdeg2, vdeg in *. lra. Qed.

(** What is asked of package math *)
Definition good_proj (m : libm) (mExp : f64 -> f64) : Prop :=
  good_libm m /\ ok1 (mAtan m) atan (fun x => Rabs x <= 25) t14 /\ ok1 (mTan m) tan (fun x => atan (exp (- (3142 / 1000))) <= x <= atan (exp (3142 / 1000))) t13 /\ ok1 mExp exp (fun x => Rabs x <= 3142 / 1000) t14.

Definition half_angle (u : R) : R := atan (exp u).
Lemma half_gd u : half_angle u = (gd u + PI / 2) / 2.
Proof. unfold half_angle. rewrite gd_atan_exp. lra. Qed.
Lemma atan_mono a b : a <= b -> atan a <= atan b.
Proof. intros [H| ->]; [left; apply atan_increasing, H|lra]. Qed.
Lemma clamp_near p y b : 0 <= p -> - p <= b <= p -> Rabs (Rmax (- p) (Rmin y p) - b) <= Rabs (y - b).
Proof. intros P B. unfold Rmax, Rmin. destruct (Rle_dec y p); match goal with |- context [Rle_dec ?a ?b] => destruct (Rle_dec a b) end; unfold Rabs; repeat match goal with |- context [Rcase_abs ?a] => destruct (Rcase_abs a) end; lra. Qed.

Section Lib.
Variable m : libm.
Variable mExp : f64 -> f64.
Hypothesis G : good_proj m mExp.

(** The projected latitude, in units of the pole *)
Lemma Merc64_near lat r u e : is_f lat r -> -PI <= u <= PI -> Rabs (r - 180 / PI * gd u) <= e -> 0 <= e <= / 10000000000 ->
  exists y, is_f (Merc64 m lat) y /\ Rabs (y - vpole * (u / PI)) <= vpole * (e12 (83 / 100) + e * (7 / 100)).
Proof.
  intros FL Hu He He1. destruct G as ((_ & _ & _ & _ & GL) & _ & GT & _). pose proof PI_range as PR. assert (U : 0 < uu <= / 9000000000000000) by (unfold uu; lra). assert (T14 : t14 = / 100000000000000) by reflexivity. assert (T13 : t13 = / 10000000000000) by reflexivity.
  pose proof (gd_bound u) as GB. assert (G1 : - gd PI <= gd u <= gd PI) by (rewrite <- gd_odd; split; apply (proj1 (gd_le _ _)); lra).
  assert (GLW : gd PI + / 1000000 <= gd (3142 / 1000)). { pose proof (gd_low (3142 / 1000) PI ltac:(apply ab; lra) ltac:(apply ab; lra)) as L. assert (gd PI <= gd (3142 / 1000)) by (apply (proj1 (gd_le _ _)); lra). rewrite !Rabs_pos_eq in L by lra. lra. } pose proof (gd_bound (3142 / 1000)) as GB2.
  assert (P90 : 180 / PI * (PI / 2) = 90) by (field; lra). assert (PD : 180 / PI * (PI / 180) = 1) by (field; lra). assert (D0 : 57 <= 180 / PI <= 58). { assert (E : 180 / PI * PI = 180) by (field; lra). set (d := 180 / PI) in *. clearbody d. clear - E PR. nra. }
  set (d := 180 / PI) in *. apply ab in He. assert (LB : -90 <= d * gd u <= 90) by (clear - GB D0 P90 PR; nra). unfold Merc64. cbv zeta.
  pose proof (fadd_f _ _ _ _ (f_int 90 ltac:(lia)) FL ltac:(apply big, ab; lra)) as F1. pose proof (re256 (90 + r) ltac:(apply ab; lra)) as E1. apply ab in E1. set (s := rnd (90 + r)) in *.
  pose proof vpi_pi as VP. apply ab in VP. assert (BSV : Rabs (s * vpi) <= 1024) by (apply ab; nra). pose proof (fmul_f _ _ _ _ F1 pi_f ltac:(apply big; lra)) as F2. pose proof (re1024 _ BSV) as E2. apply ab in E2. apply ab in BSV. set (p := rnd (s * vpi)) in *.
  pose proof (fdiv_f _ _ _ _ F2 c360_f ltac:(lra) ltac:(apply big, ab; lra)) as F3. assert (BP : Rabs (p / 360) <= 4) by (apply ab; lra). pose proof (re4 _ BP) as E3. apply ab in E3. set (q := rnd (p / 360)) in *.
  assert (EQ : Rabs (q - half_angle u) <= 2 / 1000000000000000 + e * (88 / 10000)).
  { rewrite half_gd. assert (X : Rabs (s * vpi - (90 + r) * PI) <= 256 * uu * 4 + 181 * / 4000000000000000). { replace (s * vpi - (90 + r) * PI) with ((s - (90 + r)) * vpi + (90 + r) * (vpi - PI)) by ring. eapply Rle_trans; [apply Rabs_triang|]. rewrite !Rabs_mult. apply Rplus_le_compat; apply Rmult_le_compat; try apply Rabs_pos; apply ab; lra. }
    assert (Y : Rabs ((r - d * gd u) * PI / 360) <= e * (88 / 10000)). { replace ((r - d * gd u) * PI / 360) with ((r - d * gd u) * (PI / 360)) by field. rewrite Rabs_mult. apply Rmult_le_compat; try apply Rabs_pos; apply ab; lra. }
    assert (Z : (90 + r) * PI / 360 = (gd u + PI / 2) / 2 + (r - d * gd u) * PI / 360). { replace ((90 + r) * PI / 360) with (90 * PI / 360 + d * gd u * PI / 360 + (r - d * gd u) * PI / 360) by field. replace (d * gd u * PI / 360) with (d * (PI / 180) * gd u / 2) by field. rewrite PD. field. }
    set (yy := (r - d * gd u) * PI / 360) in *. set (xx := (90 + r) * PI) in *. apply ab in X. apply ab in Y. apply ab. lra. }
  pose proof EQ as EQ'. rewrite half_gd in EQ'. apply ab in EQ'. assert (GQ : gd (merc (2 * q - PI / 2)) = 2 * q - PI / 2) by (apply gd_merc; lra). set (w := merc (2 * q - PI / 2)) in *.
  assert (BW : Rabs w <= 3142 / 1000) by (apply ab; split; apply gd_le; rewrite ?gd_odd, GQ; lra). assert (HW : half_angle w = q) by (rewrite half_gd, GQ; field).
  pose proof (gd_low w u BW ltac:(apply ab; lra)) as DW. assert (DW2 : Rabs (w - u) <= 49 / 1000000000000000 + e * (2130 / 10000)).
  { eapply Rle_trans; [exact DW|]. rewrite GQ. replace (2 * q - PI / 2 - gd u) with (2 * (q - half_angle u)) by (rewrite half_gd; field). rewrite Rabs_mult, (Rabs_pos_eq 2) by lra. lra. }
  destruct F3 as [F3 V3]. apply ab in BW. destruct (GT _ F3) as [F4 E4]. { rewrite V3, <- HW. unfold half_angle. split; apply atan_mono; (destruct (Req_dec w (3142 / 1000)) as [->|]; [|]); try (destruct (Req_dec w (- (3142 / 1000))) as [->|]); try lra; left; apply exp_increasing; lra. }
  rewrite V3, <- HW in E4. unfold half_angle in E4. rewrite tan_atan in E4. set (T := B2R (mTan m _)) in *. pose proof (exp_range w ltac:(apply ab; lra)) as EX. rewrite T13 in E4. pose proof (ln_lip T (exp w) _ ltac:(lra) E4 ltac:(lra)) as LN. rewrite ln_exp in LN. apply ab in E4.
  destruct (GL _ F4) as [F5 E5]; [fold T; lra|]. fold T in E5. set (l := B2R (mLog m _)) in *. rewrite T14 in E5. assert (DL : Rabs (l - u) <= e12 (257 / 100) + e * (2130 / 10000)) by (unfold e12; apply ab in LN; apply ab in E5; apply ab in DW2; apply ab; lra).
  assert (VQ : vpi <> 0) by lra. assert (EP : Rabs (l / vpi - u / PI) <= e12 (8205 / 10000) + e * (68 / 1000)).
  { assert (I1 : 0 <= / vpi <= 1000 / 3141). { split; [apply Rlt_le, Rinv_0_lt_compat; lra|]. replace (1000 / 3141) with (/ (3141 / 1000)) by lra. apply Rinv_le_contravar; lra. } assert (I2 : 0 <= / PI <= 10 / 31). { split; [apply Rlt_le, Rinv_0_lt_compat; lra|]. replace (10 / 31) with (/ (31 / 10)) by lra. apply Rinv_le_contravar; lra. }
    replace (l / vpi - u / PI) with ((l - u) * / vpi + u * (PI - vpi) * (/ vpi * / PI)) by (field; split; lra). unfold e12 in *.
    assert (A : Rabs ((l - u) * / vpi) <= (257 / 100 / 1000000000000 + e * (2130 / 10000)) * (1000 / 3141)). { rewrite Rabs_mult. apply Rmult_le_compat; try apply Rabs_pos; auto. rewrite Rabs_pos_eq by lra. lra. }
    assert (B : Rabs (u * (PI - vpi) * (/ vpi * / PI)) <= 4 * / 4000000000000000 * 1). { rewrite !Rabs_mult. apply Rmult_le_compat; try (apply Rmult_le_pos; apply Rabs_pos); [apply Rmult_le_compat; try apply Rabs_pos; apply ab; lra|]. rewrite !Rabs_pos_eq by lra. clear - I1 I2. nra. }
    apply ab in A. apply ab in B. apply ab. lra. }
  assert (BK : -1 <= u / PI <= 1). { assert (u / PI * PI = u) by (field; lra). set (k := u / PI) in *. clearbody k. clear - H Hu PR. nra. } set (k := u / PI) in *. unfold e12 in *. apply ab in EP.
  pose proof (fdiv_f _ _ _ _ (conj F5 eq_refl) pi_f VQ ltac:(fold l; apply big, ab; lra)) as F6. fold l in F6. pose proof (re2 (l / vpi) ltac:(apply ab; lra)) as E6. apply ab in E6. set (g := rnd (l / vpi)) in *.
  assert (VB : 20037508 <= vpole <= 20037509) by (unfold vpole; lra). assert (BG : Rabs (g * vpole) <= 33554432) by (rewrite Rabs_mult, (Rabs_pos_eq vpole) by lra; replace 33554432 with (33554432 / 20037509 * 20037509) by field; apply Rmult_le_compat; try apply Rabs_pos; try lra; apply ab; lra).
  pose proof (fmul_f _ _ _ _ F6 pole_f ltac:(apply big; lra)) as F7. pose proof (re 25 33554432 ltac:(lia) ltac:(lia) eq_refl _ BG) as E7. apply ab in E7. set (y := rnd (g * vpole)) in *.
  assert (DY : Rabs (y - vpole * k) <= vpole * (83 / 100 / 1000000000000 + e * (7 / 100))).
  { assert (X : Rabs ((g - k) * vpole) <= (8205 / 10000 / 1000000000000 + e * (68 / 1000) + 2 * uu) * vpole) by (rewrite Rabs_mult, (Rabs_pos_eq vpole) by lra; apply Rmult_le_compat_r; [lra|]; apply ab; lra). apply ab in X. apply ab.
    assert (33554432 * uu <= vpole * (2 * uu)) by (clear - U VB; nra). assert (X1 : vpole * e >= 0) by (clear - VB He1; nra). assert (X2 : vpole * uu <= vpole * / 9000000000000000) by (clear - U VB; nra). set (ve := vpole * e) in *. set (vu := vpole * uu) in *.
    replace ((8205 / 10000 / 1000000000000 + e * (68 / 1000) + 2 * uu) * vpole) with (8205 / 10000 / 1000000000000 * vpole + ve * (68 / 1000) + 2 * vu) in X by (unfold ve, vu; ring). replace (vpole * (83 / 100 / 1000000000000 + e * (7 / 100))) with (83 / 100 / 1000000000000 * vpole + ve * (7 / 100)) by (unfold ve; ring). replace (vpole * (2 * uu)) with (2 * vu) in H by (unfold vu; ring). replace ((g - k) * vpole) with (g * vpole - vpole * k) in X by ring. clearbody ve vu. lra. }
  exists (Rmax (- vpole) (Rmin y vpole)). split; [apply fmax_f; [exact npole_f|apply fmin_f; [exact F7|exact pole_f]]|]. assert (KB : - vpole <= vpole * k <= vpole) by (clear - BK VB; nra). eapply Rle_trans; [|exact DY]. apply clamp_near; lra.
Qed.

Lemma f_mulz a b x y : is_f a (IZR x) -> is_f b (IZR y) -> (Z.abs (x * y) < 2 ^ 53)%Z -> is_f (fmul a b) (IZR (x * y)).
Proof. intros A B H. pose proof (fmul_f _ _ _ _ A B) as F. rewrite <- mult_IZR, fi in F by exact H. apply F, big. rewrite <- abs_IZR. apply IZR_le. lia. Qed.
Lemma f_addz a b x y : is_f a (IZR x) -> is_f b (IZR y) -> (Z.abs (x + y) < 2 ^ 53)%Z -> is_f (fadd a b) (IZR (x + y)).
Proof. intros A B H. pose proof (fadd_f _ _ _ _ A B) as F. rewrite <- plus_IZR, fi in F by exact H. apply F, big. rewrite <- abs_IZR. apply IZR_le. lia. Qed.
Lemma ProjLat_near y y0 size N yy : is_f (fadd y y0) (IZR yy) -> is_f size (IZR N) -> (0 < N <= 2 ^ 43)%Z -> (0 <= yy <= N)%Z ->
  exists r, is_f (ProjLat64 m mExp y y0 size) r /\ Rabs (r - 180 / PI * gd (PI * (1 - 2 * (IZR yy / IZR N)))) <= e12 (27 / 10).
Proof.
  intros FY FS HN Hy. destruct G as (_ & GA & _ & GE). pose proof PI_range as PR. assert (U : 0 < uu <= / 9000000000000000) by (unfold uu; lra). assert (T14 : t14 = / 100000000000000) by reflexivity.
  assert (N0 : 0 < IZR N) by (apply IZR_lt; lia). assert (Q : 0 <= IZR yy / IZR N <= 1). { assert (0 <= IZR yy <= IZR N) by (split; apply IZR_le; lia). split; [apply Rmult_le_pos; [lra|apply Rlt_le, Rinv_0_lt_compat, N0]|]. apply Rmult_le_reg_r with (IZR N); [exact N0|]. unfold Rdiv. rewrite Rmult_assoc, Rinv_l by lra. lra. }
  unfold ProjLat64. cbv zeta. assert (C360 : is_f c360 (IZR 360)) by exact c360_f. pose proof (f_mulz _ _ _ _ FY C360 ltac:(lia)) as F1. assert (EQ : IZR (yy * 360) / IZR N = 360 * (IZR yy / IZR N)) by (rewrite mult_IZR; field; lra).
  set (k := IZR yy / IZR N) in *. pose proof (fdiv_f _ _ _ _ F1 FS ltac:(lra)) as F2. rewrite EQ in F2. specialize (F2 ltac:(apply big, ab; lra)). pose proof (re 9 512 ltac:(lia) ltac:(lia) eq_refl (360 * k) ltac:(apply ab; lra)) as E2. apply ab in E2. set (a := rnd (360 * k)) in *.
  pose proof (fsub_f _ _ _ _ c180_f F2 ltac:(apply big, ab; lra)) as F3. pose proof (re256 (180 - a) ltac:(apply ab; lra)) as E3. apply ab in E3. set (y2 := rnd (180 - a)) in *. pose proof vpi_pi as VP. apply ab in VP.
  assert (B4 : Rabs (y2 * vpi) <= 1024) by (apply ab; nra). pose proof (fmul_f _ _ _ _ F3 pi_f ltac:(apply big; lra)) as F4. pose proof (re1024 _ B4) as E4. apply ab in E4. apply ab in B4. set (p := rnd (y2 * vpi)) in *.
  pose proof (fdiv_f _ _ _ _ F4 c180_f ltac:(lra) ltac:(apply big, ab; lra)) as F5. set (u := PI * (1 - 2 * k)). assert (BU : - (31415927 / 10000000) <= u <= 31415927 / 10000000) by (unfold u; clear - PR Q; nra).
  assert (X : Rabs (y2 * vpi - 180 * u) <= 4 * (768 * uu) + 180 * / 4000000000000000). { replace (y2 * vpi - 180 * u) with ((y2 - 180 * (1 - 2 * k)) * vpi + 180 * (1 - 2 * k) * (vpi - PI)) by (unfold u; ring). eapply Rle_trans; [apply Rabs_triang|]. rewrite (Rabs_mult (y2 - _)), (Rabs_mult (180 * _) (vpi - PI)). apply Rplus_le_compat; [rewrite Rmult_comm|]; apply Rmult_le_compat; try apply Rabs_pos; apply ab; lra. }
  apply ab in X. pose proof (re4 (p / 180) ltac:(apply ab; lra)) as E5. apply ab in E5. set (w := rnd (p / 180)) in *. assert (DW : Rabs (w - u) <= 4 / 1000000000000000) by (apply ab; lra). pose proof DW as DW'. apply ab in DW'.
  destruct F5 as [F5 V5]. destruct (GE _ F5) as [F6 E6]; [rewrite V5; apply ab; lra|]. rewrite V5 in E6. set (x := B2R (mExp _)) in *. pose proof (exp_range w ltac:(apply ab; lra)) as EX. pose proof (atan_lip x (exp w)) as AL. rewrite T14 in E6. pose proof (Rle_trans _ _ _ AL E6) as AL2. apply ab in E6. apply ab in AL2.
  destruct (GA _ F6) as [F7 E7]; [fold x; apply ab; lra|]. fold x in E7. rewrite T14 in E7. set (al := B2R (mAtan m _)) in *. apply ab in E7. pose proof (gd_up w u) as GU. pose proof (Rle_trans _ _ _ GU DW) as GU2. apply ab in GU2. pose proof (half_gd w) as HW. unfold half_angle in HW.
  assert (DA : - (22 / 1000000000000000) <= al - (gd u + PI / 2) / 2 <= 22 / 1000000000000000) by lra. pose proof (gd_bound u) as GB. pose proof vdeg2_near as VD. apply ab in VD.
  assert (D0 : 114 <= 360 / PI <= 115). { assert (E : 360 / PI * PI = 360) by (field; lra). set (d := 360 / PI) in *. clearbody d. clear - E PR. nra. } assert (PD : 360 / PI * (PI / 4) = 90) by (field; lra). assert (EG : 180 / PI * gd u = 360 / PI * ((gd u + PI / 2) / 2) - 90) by (field; lra). rewrite EG. set (d := 360 / PI) in *. set (b := (gd u + PI / 2) / 2) in *. assert (BB : 0 <= b <= 1571 / 1000) by (unfold b; lra).
  assert (DM : Rabs (vdeg2 * al - d * b) <= 257 / 100000000000000). { replace (vdeg2 * al - d * b) with (vdeg2 * (al - b) + (vdeg2 - d) * b) by ring. eapply Rle_trans; [apply Rabs_triang|]. rewrite !Rabs_mult. apply Rle_trans with (11501 / 100 * (22 / 1000000000000000) + 2 / 100000000000000 * (1571 / 1000)); [|lra]. apply Rplus_le_compat; apply Rmult_le_compat; try apply Rabs_pos; apply ab; lra. }
  apply ab in DM. assert (BD : 0 <= d * b <= 181) by (clear - D0 BB; nra). pose proof (fmul_f _ _ _ _ deg2_f (conj F7 eq_refl) ltac:(fold al; apply big, ab; lra)) as F8. fold al in F8. pose proof (re256 (vdeg2 * al) ltac:(apply ab; lra)) as E8. apply ab in E8. set (q := rnd (vdeg2 * al)) in *.
  pose proof (fsub_f _ _ _ _ F8 (f_int 90 ltac:(lia)) ltac:(apply big, ab; lra)) as F9. pose proof (re256 (q - 90) ltac:(apply ab; lra)) as E9. apply ab in E9. exists (rnd (q - 90)). split; [exact F9|]. unfold e12. apply ab. lra.
Qed.
Lemma ProjLon_near x x0 size N xx : is_f (fadd x x0) (IZR xx) -> is_f size (IZR N) -> (0 < N <= 2 ^ 42)%Z -> (- N <= xx <= 2 * N)%Z ->
  exists r, is_f (ProjLon64 x x0 size) r /\ Rabs (r - (360 * (IZR xx / IZR N) - 180)) <= 2048 * uu.
Proof.
  intros FX FS HN Hx. assert (U : 0 < uu <= / 9000000000000000) by (unfold uu; lra). assert (N0 : 0 < IZR N) by (apply IZR_lt; lia). assert (EN : IZR xx / IZR N * IZR N = IZR xx) by (field; lra).
  assert (Q : -1 <= IZR xx / IZR N <= 2). { assert (- IZR N <= IZR xx <= 2 * IZR N) by (rewrite <- opp_IZR, <- mult_IZR; split; apply IZR_le; lia). set (k := IZR xx / IZR N) in *. clearbody k. split; apply Rmult_le_reg_r with (IZR N); lra. }
  unfold ProjLon64. assert (C360 : is_f c360 (IZR 360)) by exact c360_f. pose proof (f_mulz _ _ _ _ FX C360 ltac:(lia)) as F1. assert (EQ : IZR (xx * 360) / IZR N = 360 * (IZR xx / IZR N)) by (rewrite mult_IZR; field; lra).
  set (k := IZR xx / IZR N) in *. pose proof (fdiv_f _ _ _ _ F1 FS ltac:(lra)) as F2. rewrite EQ in F2. specialize (F2 ltac:(apply big, ab; lra)). pose proof (re1024 (360 * k) ltac:(apply ab; lra)) as E2. apply ab in E2. set (a := rnd (360 * k)) in *.
  pose proof (fsub_f _ _ _ _ F2 c180_f ltac:(apply big, ab; lra)) as F3. pose proof (re1024 (a - 180) ltac:(apply ab; lra)) as E3. apply ab in E3. exists (rnd (a - 180)). split; [exact F3|]. apply ab. lra.
Qed.
(** From the difference of projected coordinates back to the grid *)
Lemma grid_back num den a b D k v e nu eta eps : is_f num a -> is_f den b -> 0 < D -> Rabs (a - k * D) <= nu -> Rabs (b - D) <= eta -> Rabs k <= 2 -> (1 <= e < 2 ^ 31)%Z -> k * IZR e = IZR v -> in_i32 v ->
  0 <= eta < D -> nu + 2 * eta <= eps * (D - eta) -> 0 <= eps -> eps * IZR e <= 4 / 10 -> round32 (fmul (fdiv num den) (fint e)) = v.
Proof.
  intros FA FB D0 HA HB HK He EV V Heta Heps E0 E1. apply ab in HA. apply ab in HB. apply ab in HK. assert (U : 0 < uu <= / 9000000000000000) by (unfold uu; lra). assert (B0 : 0 < b) by lra.
  assert (ER : 1 <= IZR e <= 2147483648) by (split; apply IZR_le; lia).
  assert (DF : Rabs (a / b - k) <= eps). { replace (a / b - k) with ((a - k * b) * / b) by (field; lra). rewrite Rabs_mult, (Rabs_pos_eq (/ b)) by (apply Rlt_le, Rinv_0_lt_compat, B0). apply Rmult_le_reg_r with b; [exact B0|]. rewrite Rmult_assoc, Rinv_l, Rmult_1_r by lra.
    replace (a - k * b) with ((a - k * D) + - (k * (b - D))) by ring. eapply Rle_trans; [apply Rabs_triang|]. rewrite Rabs_Ropp, Rabs_mult. assert (Rabs (a - k * D) <= nu) by (apply ab; lra). assert (Rabs k * Rabs (b - D) <= 2 * eta) by (apply Rmult_le_compat; try apply Rabs_pos; apply ab; lra). assert (eps * (D - eta) <= eps * b) by (apply Rmult_le_compat_l; lra). lra. }
  assert (EP : eps <= 4 / 10) by (clear - E0 E1 ER; nra). apply ab in DF. pose proof (fdiv_f _ _ _ _ FA FB ltac:(lra) ltac:(apply big, ab; lra)) as F1. pose proof (re4 (a / b) ltac:(apply ab; lra)) as E2. apply ab in E2. set (f := rnd (a / b)) in *.
  assert (FE : is_f (fint e) (IZR e)) by (apply fint_f; lia). assert (DV : Rabs (f * IZR e - IZR v) <= 4 / 10 + 4 * uu * 2147483648). { rewrite <- EV. replace (f * IZR e - k * IZR e) with ((f - k) * IZR e) by ring. rewrite Rabs_mult, (Rabs_pos_eq (IZR e)) by lra. assert (Rabs (f - k) <= eps + 4 * uu) by (apply ab; lra). pose proof (Rabs_pos (f - k)). clear - H H0 E1 ER U E0. nra. }
  assert (BV : Rabs (IZR v) <= 2147483648) by (rewrite <- abs_IZR; apply IZR_le; unfold in_i32 in V; lia). apply ab in DV. apply ab in BV. assert (BF : Rabs (f * IZR e) <= 4294967296) by (apply ab; lra).
  pose proof (fmul_f _ _ _ _ F1 FE ltac:(apply big; lra)) as F2. pose proof (re 32 4294967296 ltac:(lia) ltac:(lia) eq_refl _ BF) as E3. apply ab in E3. set (r := rnd (f * IZR e)) in *. unfold round32.
  destruct (Bnearbyint_correct 53 1024 _ mode_NA (fmul (fdiv num den) (fint e))) as (K1 & _ & _). rewrite (proj2 F2) in K1.
  assert (K2 : B2R (Bnearbyint mode_NA (fmul (fdiv num den) (fint e))) = IZR (ZnearestA r)). { rewrite K1. unfold round, F2R, scaled_mantissa, cexp, FIX_exp. cbn [Fnum Fexp round_mode]. change (bpow radix2 (- 0)) with 1. change (bpow radix2 0) with 1. rewrite !Rmult_1_r. reflexivity. }
  rewrite (trunc_int _ _ K2). rewrite (Znearest_imp _ r v); [apply wrap32_id, V|]. assert (- (1 / 2) < r - IZR v < 1 / 2) by lra. unfold Rabs. destruct (Rcase_abs _); lra.
Qed.
End Lib.
