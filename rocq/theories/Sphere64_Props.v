(** Great-circle distances in binary64 (C139). *)
From Coq Require Import ZArith Reals Rtrigo1 Ratan List Lia Lra Bool.
From Flocq Require Import Core BinarySingleNaN.
From Verif Require Import GoBase Num Sphere_Model Sphere_Props TileF64_Model TileF64_Proofs F64 ColorF64_Model ColorF64_Proofs ColorF64_Props Tile64_Model Tile64_Proofs Tile64_Props Sphere64_Model.
From Verif Require Style64_Props Line64_Props.
Import ListNotations.
Open Scope R_scope.
#[local] Existing Instance vexp.

(** The functions of package math are within 1e-14. *)
Definition good_smath (s : smath) : Prop :=
  ok1 (sSin s) sin (fun x => Rabs x <= 4) t14 /\ ok1 (sCos s) cos (fun x => Rabs x <= 2) t14 /\
  forall y x, is_finite y = true -> is_finite x = true -> 0 <= B2R y <= 2 -> 0 < B2R x <= 2 ->
    is_finite (sAtan2 s y x) = true /\ Rabs (B2R (sAtan2 s y x) - atan (B2R y / B2R x)) <= t14.
(** Special cases documented in package math *)
Definition special_smath (s : smath) : Prop :=
  (forall x y, is_finite x = true -> is_finite y = true -> B2R y = - B2R x -> B2R (sSin s y) = - B2R (sSin s x)) /\
  (forall x y, is_finite x = true -> is_finite y = true -> B2R y = 0 -> 0 < B2R x -> is_finite (sAtan2 s y x) = true /\ B2R (sAtan2 s y x) = 0) /\
  (forall y, sAtan2 s y B754_nan = B754_nan).
(** A point of the map in degrees *)
Definition degrees (x y : f64) : Prop := is_finite x = true /\ is_finite y = true /\ -180 <= B2R x <= 180 /\ -90 <= B2R y <= 90.

Definition nf (x : f64) (e r : R) : Prop := exists v, is_f x v /\ Rabs (v - r) <= e.
Lemma sin_lip a b : Rabs (sin a - sin b) <= Rabs (a - b).
Proof.
  rewrite <- (Rmult_1_l (Rabs (a - b))). apply (lip sin cos (Rmax (Rabs a) (Rabs b)) 1); [apply derivable_pt_lim_sin| |apply Rmax_l|apply Rmax_r]. intros c _. pose proof (COS_bound c). apply ab. lra.
Qed.
Lemma cos_lip a b : Rabs (cos a - cos b) <= Rabs (a - b).
Proof.
  rewrite <- (Rmult_1_l (Rabs (a - b))). apply (lip cos (fun x => - sin x) (Rmax (Rabs a) (Rabs b)) 1); [apply derivable_pt_lim_cos| |apply Rmax_l|apply Rmax_r]. intros c _. pose proof (SIN_bound c). apply ab. lra.
Qed.
Lemma uu15 : 0 < uu <= / 9000000000000000. Proof. unfold uu. lra. Qed.

Lemma rad_near d e r : nf d e r -> Rabs r <= 361 -> 0 <= e <= / 10 ^ 12 -> nf (deg2rad64 d) (e / 50 + 4 / 10 ^ 15) (deg2rad r).
Proof.
  intros (v & F & E) R HE. pose proof uu15 as U. pose proof vpi_pi as VP. pose proof PI_range as P. apply ab in E, R, VP. unfold deg2rad64.
  assert (V : Rabs (v * vpi - r * PI) <= 32 / 10 * e + 362 / 4000000000000000).
  { replace (v * vpi - r * PI) with ((v - r) * PI + v * (vpi - PI)) by ring. eapply Rle_trans; [apply Rabs_triang|]. rewrite !Rabs_mult. apply Rplus_le_compat.
    - rewrite (Rmult_comm (32 / 10)). apply Rmult_le_compat; try apply Rabs_pos; apply ab; lra.
    - unfold Rdiv. apply Rmult_le_compat; try apply Rabs_pos; apply ab; lra. }
  assert (B1 : Rabs (v * vpi) <= 2048).
  { assert (Rabs (r * PI) <= 1200). { rewrite Rabs_mult. replace 1200 with (375 * (32 / 10)) by lra. apply Rmult_le_compat; try apply Rabs_pos; apply ab; lra. } apply ab in H, V. apply ab. lra. }
  pose proof (fmul_f _ _ _ _ F pi_f ltac:(apply big; apply ab in B1; apply ab; lra)) as F1.
  pose proof (re 11 2048 ltac:(lia) ltac:(lia) eq_refl _ B1) as E1. set (p := rnd (v * vpi)) in *. apply ab in E1, V, B1.
  assert (B2 : Rabs (p / 180) <= 16) by (apply ab; lra).
  pose proof (fdiv_f _ _ _ _ F1 c180_f ltac:(lra) ltac:(apply big; apply ab in B2; apply ab; lra)) as F2.
  pose proof (re 4 16 ltac:(lia) ltac:(lia) eq_refl _ B2) as E2. apply ab in E2.
  exists (rnd (p / 180)). split; auto. apply ab. unfold deg2rad. lra.
Qed.
Lemma half_near d e r : nf d e r -> Rabs r <= 7 -> 0 <= e <= / 10 ^ 12 -> nf (fdiv d (fint 2)) (e / 2 + 5 / 10 ^ 16) (r / 2).
Proof.
  intros (v & F & E) R HE. pose proof uu15 as U. apply ab in E, R.
  assert (B2 : Rabs (v / 2) <= 4) by (apply ab; lra).
  pose proof (fdiv_f _ _ _ _ F (fint_f 2 ltac:(lia)) ltac:(lra) ltac:(apply big; apply ab in B2; apply ab; lra)) as F2.
  pose proof (re4 _ B2) as E2. apply ab in E2. exists (rnd (v / 2)). split; auto. apply ab. lra.
Qed.
Lemma mul_near x y e1 e2 X Y : nf x e1 X -> nf y e2 Y -> Rabs X <= 1 -> Rabs Y <= 1 -> 0 <= e1 <= / 10 ^ 12 -> 0 <= e2 <= / 10 ^ 12 -> nf (fmul x y) (e1 + e2 + 3 / 10 ^ 16) (X * Y).
Proof.
  intros (v & F & E) (w & G & E') HX HY H1 H2. pose proof uu15 as U.
  assert (V : Rabs (v * w - X * Y) <= e1 + e2 + / 10 ^ 20).
  { replace (v * w - X * Y) with ((v - X) * Y + X * (w - Y) + (v - X) * (w - Y)) by ring. eapply Rle_trans; [apply Rabs_triang|]. apply Rplus_le_compat; [eapply Rle_trans; [apply Rabs_triang|]; apply Rplus_le_compat|]; rewrite Rabs_mult.
    - rewrite <- (Rmult_1_r e1). apply Rmult_le_compat; auto using Rabs_pos.
    - rewrite <- (Rmult_1_l e2). apply Rmult_le_compat; auto using Rabs_pos.
    - apply Rle_trans with (/ 10 ^ 12 * / 10 ^ 12); [|lra]. apply Rmult_le_compat; try apply Rabs_pos; lra. }
  assert (B0 : Rabs (X * Y) <= 1). { rewrite Rabs_mult, <- (Rmult_1_l 1). apply Rmult_le_compat; auto using Rabs_pos. }
  apply ab in V, B0. assert (B1 : Rabs (v * w) <= 2) by (apply ab; lra).
  pose proof (fmul_f _ _ _ _ F G ltac:(apply big; apply ab in B1; apply ab; lra)) as F1. pose proof (re 1 2 ltac:(lia) ltac:(lia) eq_refl _ B1) as E1. apply ab in E1.
  exists (rnd (v * w)). split; auto. apply ab. lra.
Qed.
Lemma nf_le x e e' r : nf x e r -> e <= e' -> nf x e' r.
Proof. intros (v & F & E) H. exists v. split; auto. lra. Qed.
Lemma nf_sub x y a b : is_f x a -> is_f y b -> Rabs (a - b) <= 512 -> nf (fsub x y) (6 / 10 ^ 14) (a - b).
Proof.
  intros F G H. pose proof uu15 as U. pose proof (fsub_f _ _ _ _ F G ltac:(apply big; apply ab in H; apply ab; lra)) as F1. pose proof (re 9 512 ltac:(lia) ltac:(lia) eq_refl _ H) as E. exists (rnd (a - b)). split; auto. lra.
Qed.
Lemma rad_bound r k : Rabs r <= k -> 0 <= k -> Rabs (deg2rad r) <= k * (175 / 10000).
Proof.
  intros H K. pose proof PI_range. unfold deg2rad. replace (r * PI / 180) with (r * (PI / 180)) by field. rewrite Rabs_mult. apply Rmult_le_compat; auto using Rabs_pos. apply ab. lra.
Qed.

(** The exact square of half the chord *)
Definition hav (x1 y1 x2 y2 : R) : R :=
  sin (deg2rad (y2 - y1) / 2) * sin (deg2rad (y2 - y1) / 2) + cos (deg2rad y1) * cos (deg2rad y2) * sin (Rabs (deg2rad (x2 - x1)) / 2) * sin (Rabs (deg2rad (x2 - x1)) / 2).
Lemma abs_sin a : Rabs (sin a) <= 1. Proof. pose proof (SIN_bound a). apply ab. lra. Qed.
Lemma abs_cos a : Rabs (cos a) <= 1. Proof. pose proof (COS_bound a). apply ab. lra. Qed.
Lemma abs_mul1 a b : Rabs a <= 1 -> Rabs b <= 1 -> Rabs (a * b) <= 1.
Proof. intros A B. rewrite Rabs_mult, <- (Rmult_1_l 1). apply Rmult_le_compat; auto using Rabs_pos. Qed.

(** Signs of products *)
Lemma fmul_b x y : B2R (fmul x y) = rnd (B2R x * B2R y) \/ B2R (fmul x y) = 0.
Proof.
  pose proof (Bmult_correct 53 1024 _ _ mode_NE x y) as K. rewrite fexp_eq in K. cbn [round_mode] in K. fold (fmul x y) in K. destruct (Rlt_bool _ _); [left; apply K|right].
  destruct (fmul x y); auto; cbn in K; discriminate.
Qed.
Lemma fmul_pos x y : 0 <= B2R x * B2R y -> 0 <= B2R (fmul x y).
Proof. intros H. destruct (fmul_b x y) as [->| ->]; [apply rnd_nonneg; auto|lra]. Qed.
Lemma fmul_neg x y : B2R x * B2R y <= 0 -> B2R (fmul x y) <= 0.
Proof. intros H. destruct (fmul_b x y) as [->| ->]; [|lra]. rewrite <- (rnd_id 0) by apply generic_format_0. apply rnd_mono. auto. Qed.
Lemma prod_pos c t : 0 <= B2R c -> 0 <= B2R (fmul (fmul c t) t).
Proof.
  intros C. apply fmul_pos. destruct (Rle_lt_dec 0 (B2R t)) as [T|T].
  - apply Rmult_le_pos; auto. apply fmul_pos. apply Rmult_le_pos; auto.
  - assert (K : B2R (fmul c t) <= 0) by (apply fmul_neg; assert (0 <= B2R c * - B2R t) by (apply Rmult_le_pos; lra); lra). assert (0 <= - B2R (fmul c t) * - B2R t) by (apply Rmult_le_pos; lra). lra.
Qed.

Lemma hav_near s x1 y1 x2 y2 : good_smath s -> degrees x1 y1 -> degrees x2 y2 ->
  nf (hav64 s x1 y1 x2 y2) (/ 10 ^ 13) (hav (B2R x1) (B2R y1) (B2R x2) (B2R y2)) /\
  (0 <= B2R (sCos s (deg2rad64 y1)) -> 0 <= B2R (sCos s (deg2rad64 y2)) -> 0 <= B2R (hav64 s x1 y1 x2 y2)) /\
  nf (sCos s (deg2rad64 y1)) (14 / 10 ^ 15) (cos (deg2rad (B2R y1))) /\ nf (sCos s (deg2rad64 y2)) (14 / 10 ^ 15) (cos (deg2rad (B2R y2))).
Proof.
  intros (GS & GC & _) (X1 & Y1 & BX1 & BY1) (X2 & Y2 & BX2 & BY2). pose proof uu15 as U.
  set (a1 := B2R x1) in *. set (b1 := B2R y1) in *. set (a2 := B2R x2) in *. set (b2 := B2R y2) in *.
  assert (FA1 : is_f x1 a1) by (split; auto). assert (FB1 : is_f y1 b1) by (split; auto). assert (FA2 : is_f x2 a2) by (split; auto). assert (FB2 : is_f y2 b2) by (split; auto).
  assert (C : forall y b, is_f y b -> -90 <= b <= 90 -> nf (sCos s (deg2rad64 y)) (14 / 10 ^ 15) (cos (deg2rad b))).
  { intros y b F Hb. destruct (rad_near y 0 b) as (v & G & E); [exists b; split; auto; rewrite Rminus_diag_eq, Rabs_R0 by auto; lra|apply ab; lra|lra|].
    assert (Q := rad_bound b 90 ltac:(apply ab; lra) ltac:(lra)). apply ab in Q. destruct G as [G1 G2]. destruct (GC _ G1) as [K1 K2]. { rewrite G2. apply ab in E. apply ab. lra. }
    exists (B2R (sCos s (deg2rad64 y))). split; [split; auto|]. rewrite G2 in K2. pose proof (cos_lip v (deg2rad b)) as L. unfold t14 in K2. apply ab in K2. assert (L' : Rabs (cos v - cos (deg2rad b)) <= 4 / 10 ^ 15) by lra. apply ab in L'. apply ab. lra. }
  assert (S : forall d e, nf d (6 / 10 ^ 15) e -> Rabs e <= 64 / 10 -> nf (sSin s (fdiv d (fint 2))) (14 / 10 ^ 15) (sin (e / 2))).
  { intros d e N He. destruct (half_near d _ e N) as (v & [G1 G2] & E); [apply ab in He; apply ab; lra|lra|]. apply ab in He. destruct (GS _ G1) as [K1 K2]. { rewrite G2. apply ab in E. apply ab. lra. }
    exists (B2R (sSin s (fdiv d (fint 2)))). split; [split; auto|]. rewrite G2 in K2. pose proof (sin_lip v (e / 2)) as L. unfold t14 in K2. apply ab in K2. assert (L' : Rabs (sin v - sin (e / 2)) <= 6 / 10 ^ 15 / 2 + 5 / 10 ^ 16) by lra. apply ab in L'. apply ab. lra. }
  assert (D : forall u v c d, is_f u c -> is_f v d -> Rabs (c - d) <= 360 -> nf (deg2rad64 (fsub u v)) (6 / 10 ^ 15) (deg2rad (c - d)) /\ Rabs (deg2rad (c - d)) <= 64 / 10).
  { intros u v c d F G H. split; [|pose proof (rad_bound _ 360 H ltac:(lra)); lra]. eapply nf_le; [apply rad_near; [apply nf_sub; eauto; lra|lra|lra]|lra]. }
  destruct (D _ _ _ _ FB2 FB1 ltac:(apply ab; lra)) as [D1 D1']. destruct (D _ _ _ _ FA2 FA1 ltac:(apply ab; lra)) as [D2 D2'].
  assert (D3 : nf (Babs (deg2rad64 (fsub x2 x1))) (6 / 10 ^ 15) (Rabs (deg2rad (a2 - a1)))).
  { destruct D2 as (v & F & E). exists (Rabs v). split; [apply Style64_Props.fabs_f; auto|]. eapply Rle_trans; [apply Rabs_triang_inv2|exact E]. }
  pose proof (S _ _ D1 D1') as S1. pose proof (S _ _ D3 ltac:(rewrite Rabs_Rabsolu; exact D2')) as S2.
  pose proof (mul_near _ _ _ _ _ _ S1 S1 (abs_sin _) (abs_sin _) ltac:(lra) ltac:(lra)) as P1.
  pose proof (mul_near _ _ _ _ _ _ (C _ _ FB1 BY1) (C _ _ FB2 BY2) (abs_cos _) (abs_cos _) ltac:(lra) ltac:(lra)) as P2.
  pose proof (mul_near _ _ _ _ _ _ P2 S2 (abs_mul1 _ _ (abs_cos _) (abs_cos _)) (abs_sin _) ltac:(lra) ltac:(lra)) as P3.
  pose proof (mul_near _ _ _ _ _ _ P3 S2 (abs_mul1 _ _ (abs_mul1 _ _ (abs_cos _) (abs_cos _)) (abs_sin _)) (abs_sin _) ltac:(lra) ltac:(lra)) as P4.
  unfold hav64, hav. cbv zeta. destruct P1 as (p & F1 & E1), P4 as (q & F4 & E4).
  pose proof (abs_mul1 _ _ (abs_sin (deg2rad (b2 - b1) / 2)) (abs_sin (deg2rad (b2 - b1) / 2))) as Q1.
  pose proof (abs_mul1 _ _ (abs_mul1 _ _ (abs_mul1 _ _ (abs_cos (deg2rad b1)) (abs_cos (deg2rad b2))) (abs_sin (Rabs (deg2rad (a2 - a1)) / 2))) (abs_sin (Rabs (deg2rad (a2 - a1)) / 2))) as Q4.
  set (P := sin (deg2rad (b2 - b1) / 2) * sin (deg2rad (b2 - b1) / 2)) in *. set (Q := cos (deg2rad b1) * cos (deg2rad b2) * sin (Rabs (deg2rad (a2 - a1)) / 2) * sin (Rabs (deg2rad (a2 - a1)) / 2)) in *.
  apply ab in E1, E4, Q1, Q4. assert (B1 : Rabs (p + q) <= 4) by (apply ab; lra).
  pose proof (fadd_f _ _ _ _ F1 F4 ltac:(apply big; apply ab in B1; apply ab; lra)) as F. pose proof (re4 _ B1) as E. apply ab in E. split; [exists (rnd (p + q)); split; auto; apply ab; lra|]. split; [|split; apply C; auto].
  intros C1 C2. destruct F as [_ ->]. apply rnd_nonneg. destruct F1 as [_ <-], F4 as [_ <-]. apply Rplus_le_le_0_compat; [apply fmul_pos, Rle_0_sqr|]. apply prod_pos. apply fmul_pos. apply Rmult_le_pos; auto.
Qed.

(** Angles *)
Lemma hav_dot x1 y1 x2 y2 : 1 - 2 * hav x1 y1 x2 y2 = dot (on_sphere x1 y1) (on_sphere x2 y2).
Proof.
  unfold hav.
  assert (H2 : forall z, sin (z / 2) * sin (z / 2) = (1 - cos z) / 2). { intros z. replace (cos z) with (cos (2 * (z / 2))) by (f_equal; field). rewrite cos_2a_sin. field. }
  assert (AB : cos (Rabs (deg2rad (x2 - x1))) = cos (deg2rad (x2 - x1))). { unfold Rabs. destruct (Rcase_abs _); auto. apply cos_neg. }
  rewrite Rmult_assoc with (r1 := cos (deg2rad y1) * cos (deg2rad y2)). rewrite !H2, AB.
  unfold dot, on_sphere, deg2rad. replace ((y2 - y1) * PI / 180) with (y2 * (PI / 180) - y1 * (PI / 180)) by field. replace ((x2 - x1) * PI / 180) with (x2 * (PI / 180) - x1 * (PI / 180)) by field.
  replace (y1 * PI / 180) with (y1 * (PI / 180)) by field. replace (y2 * PI / 180) with (y2 * (PI / 180)) by field. rewrite !cos_minus. field.
Qed.
Lemma sin_low t : 12616 / 10 ^ 8 <= t <= PI / 2 -> 126 / 10 ^ 6 <= sin t.
Proof.
  intros H. pose proof PI_range as P. apply Rle_trans with (sin (12616 / 10 ^ 8)); [|apply sin_incr_1; lra].
  destruct (mvt sin cos 0 (12616 / 10 ^ 8) derivable_pt_lim_sin ltac:(lra)) as (c & E & Hc). rewrite sin_0, !Rminus_0_r in E. rewrite E.
  pose proof (cos_lip c 0) as L. rewrite cos_0, Rminus_0_r, (Rabs_right c) in L by lra. apply ab in L.
  apply Rle_trans with ((1 - 12616 / 10 ^ 8) * (12616 / 10 ^ 8)); [lra|]. apply Rmult_le_compat_r; lra.
Qed.
Lemma sqrt_near u v e k : 0 <= u -> 0 <= v -> 0 < k -> k * k <= v -> Rabs (u - v) <= e -> Rabs (sqrt u - sqrt v) <= e / k.
Proof.
  intros Hu Hv K KV E. assert (S : k <= sqrt v). { rewrite <- (sqrt_square k) by lra. apply sqrt_le_1; auto. nra. }
  pose proof (sqrt_pos u) as U. apply Rmult_le_reg_r with (sqrt u + sqrt v); [lra|]. rewrite <- (Rabs_right (sqrt u + sqrt v)) at 1 by lra. rewrite <- Rabs_mult.
  replace ((sqrt u - sqrt v) * (sqrt u + sqrt v)) with (sqrt u * sqrt u - sqrt v * sqrt v) by ring. rewrite !sqrt_sqrt by auto. eapply Rle_trans; [exact E|].
  pose proof (Rabs_pos (u - v)). replace e with (e / k * k) at 1 by (field; lra). apply Rmult_le_compat_l; [|lra]. apply Rmult_le_pos; [lra|left; apply Rinv_0_lt_compat; auto].
Qed.
Lemma atan_abs z : Rabs (atan z) <= Rabs z.
Proof. pose proof (atan_lip z 0) as L. rewrite atan_0, !Rminus_0_r in L. exact L. Qed.
Lemma atan_nonneg z : 0 <= z -> 0 <= atan z.
Proof. intros [H| <-]; [|rewrite atan_0; lra]. rewrite <- atan_0. left. apply atan_increasing. auto. Qed.
Lemma div_nonneg y x : 0 <= y -> 0 < x -> 0 <= y / x.
Proof. intros. apply Rmult_le_pos; auto. left. apply Rinv_0_lt_compat. auto. Qed.
Lemma atan_quot y x y0 x0 : 0 <= y -> 0 < x -> 0 <= y0 -> 0 < x0 -> Rabs (atan (y / x) - atan (y0 / x0)) <= Rabs (y * x0 - x * y0) / (x * x0 + y * y0).
Proof.
  intros Hy Hx Hy0 Hx0. pose proof (div_nonneg y x Hy Hx) as U. pose proof (div_nonneg y0 x0 Hy0 Hx0) as V.
  pose proof (atan_nonneg _ U) as AU. pose proof (atan_nonneg _ V) as AV. pose proof (atan_bound (y / x)) as BU. pose proof (atan_bound (y0 / x0)) as BV.
  assert (UV : 0 <= y / x * (y0 / x0)) by (apply Rmult_le_pos; auto).
  rewrite (atan_sub_correct (y / x) (y0 / x0)); [|lra|lra|apply atan_bound].
  replace (atan (y0 / x0) + atan (atan_sub (y / x) (y0 / x0)) - atan (y0 / x0)) with (atan (atan_sub (y / x) (y0 / x0))) by ring.
  eapply Rle_trans; [apply atan_abs|]. unfold atan_sub. pose proof (Rmult_lt_0_compat _ _ Hx Hx0) as P. pose proof (Rmult_le_pos _ _ Hy Hy0) as Q.
  replace ((y / x - y0 / x0) / (1 + y / x * (y0 / x0))) with ((y * x0 - x * y0) / (x * x0 + y * y0)) by (field; repeat split; lra).
  unfold Rdiv. rewrite Rabs_mult, (Rabs_right (/ _)); [lra|]. left. apply Rinv_0_lt_compat. lra.
Qed.

Definition vR : R := 8715148277992898 / 2199023255552.
Lemma R_f : is_f EarthRadius64 vR.
Proof. split; [reflexivity|]. unfold B2R, EarthRadius64, F2R. cbn [Fnum Fexp cond_Zopp]. change (bpow radix2 (-41)) with (bpow radix2 (- (41))). rewrite (bpm 41 2199023255552 ltac:(lia) eq_refl). unfold vR. lra. Qed.

Lemma FR : is_f (fmul (fint 2) EarthRadius64) (2 * vR).
Proof.
  assert (K := fmul_f _ _ _ _ (fint_f 2 ltac:(lia)) R_f ltac:(apply big; apply ab; unfold vR; lra)). rewrite rnd_id in K; auto.
  apply generic_format_FLT. exists (Float radix2 8715148277992898 (-40)); [unfold F2R; cbn [Fnum Fexp]; change (bpow radix2 (-40)) with (bpow radix2 (- (40))); rewrite (bpm 40 1099511627776 ltac:(lia) eq_refl); unfold vR; lra|cbn [Fnum]; vm_compute; reflexivity|cbn [Fexp]; lia].
Qed.

(** From the square of half the chord to the distance; [dy] bounds the error of its root *)
Lemma finish s A a h th dy : good_smath s -> is_f A a -> 0 <= a -> 0 <= h -> Rabs (a - h) <= / 10 ^ 13 -> (126 / 10 ^ 6) * (126 / 10 ^ 6) <= 1 - h ->
  2 * atan2 (sqrt h) (sqrt (1 - h)) = th -> 0 <= th <= PI -> Rabs (sqrt a - sqrt h) <= dy -> 796 / 10 ^ 12 <= dy <= 4 / 10 ^ 7 ->
  let d := fmul (fmul (fint 2) EarthRadius64) (sAtan2 s (fsqrt A) (fsqrt (fsub (fint 1) A))) in
  is_finite d = true /\ Rabs (B2R d - EarthRadius * th) <= 12000 * dy.
Proof.
  intros GM FA Ha Hh EA H2 A2 TH EY HY. cbv zeta. pose proof uu15 as U. pose proof PI_range as P.
  pose proof EA as EA'. apply ab in EA'.
  pose proof (fsqrt_f _ _ FA ltac:(lra)) as FY.
  assert (B1 : Rabs (1 - a) <= 2) by (apply ab; lra).
  pose proof (fsub_f _ _ _ _ (fint_f 1 ltac:(lia)) FA ltac:(apply big; apply ab in B1; apply ab; lra)) as FB. pose proof (re 1 2 ltac:(lia) ltac:(lia) eq_refl _ B1) as EB. set (b := rnd (1 - a)) in *. apply ab in EB.
  pose proof (fsqrt_f _ _ FB ltac:(lra)) as FX. pose proof (sqrt_near b (1 - h) (10023 / 10 ^ 17) (126 / 10 ^ 6) ltac:(lra) ltac:(lra) ltac:(lra) H2 ltac:(apply ab; lra)) as EX.
  set (y0 := sqrt h) in *. set (x0 := sqrt (1 - h)) in *.
  assert (Y0 : y0 * y0 = h) by (apply sqrt_sqrt; lra). assert (X0 : x0 * x0 = 1 - h) by (apply sqrt_sqrt; lra).
  assert (Y0p : 0 <= y0 <= 1). { unfold y0. split; [apply sqrt_pos|apply Rle_trans with (sqrt 1); [apply sqrt_le_1; lra|rewrite sqrt_1; lra]]. }
  assert (X0p : 126 / 10 ^ 6 <= x0 <= 1). { unfold x0. split; [rewrite <- (sqrt_square (126 / 10 ^ 6)) by lra; apply sqrt_le_1; lra|apply Rle_trans with (sqrt 1); [apply sqrt_le_1; lra|rewrite sqrt_1; lra]]. }
  apply ab in EY, EX. pose proof (sqrt_pos a) as SA.
  pose proof (re 1 2 ltac:(lia) ltac:(lia) eq_refl (sqrt a) ltac:(apply ab; lra)) as RY. pose proof (re 1 2 ltac:(lia) ltac:(lia) eq_refl (sqrt b) ltac:(apply ab; lra)) as RX. apply ab in RY, RX.
  pose proof (rnd_nonneg _ SA) as YP.
  set (y := rnd (sqrt a)) in *. set (x := rnd (sqrt b)) in *. set (E := dy + 3 / 10 ^ 16).
  assert (DY : - E <= y - y0 <= E) by (unfold E; lra). assert (DX : - E <= x - x0 <= E) by (unfold E; lra). assert (HE : 796 / 10 ^ 12 <= E <= 5 / 10 ^ 7) by (unfold E; lra).
  destruct FY as [FY1 FY2], FX as [FX1 FX2]. destruct GM as (_ & _ & GA).
  destruct (GA _ _ FY1 FX1) as [T1 T2]; [rewrite FY2; lra|rewrite FX2; lra|]. rewrite FY2, FX2 in T2.
  set (t := B2R (sAtan2 s (fsqrt A) (fsqrt (fsub (fint 1) A)))) in *.
  assert (SUM : x0 + y0 <= 15 / 10). { pose proof (pow2_ge_0 (x0 - y0)) as W. apply Rnot_lt_le. intros W'. assert (15 / 10 * (15 / 10) <= (x0 + y0) * (x0 + y0)) by (apply Rmult_le_compat; lra). lra. }
  assert (ES : E * (x0 + y0) <= E * (15 / 10)) by (apply Rmult_le_compat_l; lra).
  assert (Q : Rabs (atan (y / x) - th / 2) <= 15001 / 10000 * E).
  { replace (th / 2) with (atan (y0 / x0)). 2:{ unfold atan2 in A2. destruct (Rltb_spec 0 x0); lra. }
    eapply Rle_trans; [apply atan_quot; lra|].
    assert (DEN : 1 - E * (15 / 10) <= x * x0 + y * y0). { replace (x * x0 + y * y0) with (1 + (x - x0) * x0 + (y - y0) * y0) by lra. assert (- E * x0 <= (x - x0) * x0) by (apply Rmult_le_compat_r; lra). assert (- E * y0 <= (y - y0) * y0) by (apply Rmult_le_compat_r; lra). lra. }
    assert (NUM : Rabs (y * x0 - x * y0) <= E * (15 / 10)).
    { replace (y * x0 - x * y0) with ((y - y0) * x0 - (x - x0) * y0) by ring. assert (K1 : Rabs ((y - y0) * x0) <= E * x0) by (rewrite Rabs_mult, (Rabs_right x0) by lra; apply Rmult_le_compat_r; [lra|apply ab; lra]).
      assert (K2 : Rabs ((x - x0) * y0) <= E * y0) by (rewrite Rabs_mult, (Rabs_right y0) by lra; apply Rmult_le_compat_r; [lra|apply ab; lra]). apply ab in K1, K2. apply ab. lra. }
    apply Rmult_le_reg_r with (x * x0 + y * y0); [lra|]. unfold Rdiv. rewrite Rmult_assoc, Rinv_l, Rmult_1_r by lra.
    assert (K : 15001 / 10000 * E * (99999 / 100000) <= 15001 / 10000 * E * (x * x0 + y * y0)) by (apply Rmult_le_compat_l; lra). lra. }
  unfold t14 in T2. apply ab in T2, Q.
  assert (FT : is_f (sAtan2 s (fsqrt A) (fsqrt (fsub (fint 1) A))) t) by (split; auto).
  assert (TB : Rabs (2 * vR * t - EarthRadius * th) <= 11990 * dy + / 10 ^ 9).
  { replace (2 * vR * t - EarthRadius * th) with (2 * vR * (t - th / 2) + (vR - EarthRadius) * th) by field. set (w := 15001 / 10000 * E + / 10 ^ 14). assert (K1 : Rabs (2 * vR * (t - th / 2)) <= 7927 * w) by (rewrite Rabs_mult; apply Rmult_le_compat; try apply Rabs_pos; apply ab; unfold vR, w; lra).
    assert (K2 : Rabs ((vR - EarthRadius) * th) <= / 10 ^ 12 * 4) by (rewrite Rabs_mult; apply Rmult_le_compat; try apply Rabs_pos; apply ab; [unfold vR, EarthRadius; lra|lra]). apply ab in K1, K2. apply ab. unfold w, E in K1. lra. }
  apply ab in TB. assert (B3 : Rabs (2 * vR * t) <= 16384) by (apply ab; unfold EarthRadius in *; lra).
  pose proof (fmul_f _ _ _ _ FR FT ltac:(apply big; apply ab in B3; apply ab; lra)) as [F1 F2]. pose proof (re 14 16384 ltac:(lia) ltac:(lia) eq_refl _ B3) as E3. apply ab in E3.
  split; [exact F1|]. rewrite F2. apply ab. lra.
Qed.

Lemma sin_cos_half u th : th = acos u -> -1 <= u <= 1 -> (1 - u) / 2 = sin (th / 2) * sin (th / 2) /\ 1 - (1 - u) / 2 = cos (th / 2) * cos (th / 2).
Proof.
  intros -> DB. pose proof (cos_acos u DB) as CU. set (th := acos u) in *. pose proof (cos_2a_sin (th / 2)) as K. replace (2 * (th / 2)) with th in K by field. pose proof (sin2_cos2 (th / 2)) as K2. unfold Rsqr in K2. lra.
Qed.
(** The arc between two points *)
Definition arc (x1 y1 x2 y2 : f64) : R := EarthRadius * angle (on_sphere (B2R x1) (B2R y1)) (on_sphere (B2R x2) (B2R y2)).

(** The result is within a hundred-thousandth of a mile of the arc, for points a mile or more apart
    and a mile or more short of opposite. *)
Theorem C139_accuracy : forall s x1 y1 r1 x2 y2 r2, good_smath s -> degrees x1 y1 -> degrees x2 y2 -> 1 <= arc x1 y1 x2 y2 <= PI * EarthRadius - 1 ->
  exists d, Distance64 s (x1 :: y1 :: r1) (x2 :: y2 :: r2) = Ok d /\ is_finite d = true /\ Rabs (B2R d - arc x1 y1 x2 y2) <= / 10 ^ 5.
Proof.
  intros s x1 y1 r1 x2 y2 r2 GM D1 D2. unfold arc, angle. intros HD. pose proof PI_range as P.
  destruct (hav_near s x1 y1 x2 y2 GM D1 D2) as ((a & FA & EA) & _). pose proof (hav_dot (B2R x1) (B2R y1) (B2R x2) (B2R y2)) as HV.
  pose proof (dot_bound _ _ (on_sphere_unit (B2R x1) (B2R y1)) (on_sphere_unit (B2R x2) (B2R y2))) as DB.
  set (u := dot (on_sphere (B2R x1) (B2R y1)) (on_sphere (B2R x2) (B2R y2))) in *. set (h := hav (B2R x1) (B2R y1) (B2R x2) (B2R y2)) in *.
  pose proof (acos_bound u) as AB. assert (A2 := cos_atan2 h ltac:(lra)). rewrite HV in A2. destruct (sin_cos_half u _ eq_refl DB) as [S2 C2].
  replace ((1 - u) / 2) with h in S2, C2 by lra. set (th := acos u) in *. unfold EarthRadius in HD.
  assert (L1 : 126 / 10 ^ 6 <= sin (th / 2)) by (apply sin_low; lra).
  assert (L2 : 126 / 10 ^ 6 <= cos (th / 2)) by (rewrite cos_sin, <- (sin_PI_x (PI / 2 + th / 2)); replace (PI - (PI / 2 + th / 2)) with (PI / 2 - th / 2) by field; apply sin_low; lra).
  assert (H1 : (126 / 10 ^ 6) * (126 / 10 ^ 6) <= h) by (rewrite S2; apply Rmult_le_compat; lra).
  assert (H2 : (126 / 10 ^ 6) * (126 / 10 ^ 6) <= 1 - h) by (rewrite C2; apply Rmult_le_compat; lra).
  pose proof EA as EA'. apply ab in EA'. pose proof (sqrt_near a h _ (126 / 10 ^ 6) ltac:(lra) ltac:(lra) ltac:(lra) H1 EA) as EY.
  destruct (finish s _ a h th (8 / 10 ^ 10) GM FA ltac:(lra) ltac:(lra) EA H2 A2 AB ltac:(lra) ltac:(lra)) as [F E].
  eexists. split; [reflexivity|]. split; [exact F|]. eapply Rle_trans; [exact E|lra].
Qed.
Print Assumptions C139_accuracy.

(** Nearer than that, and up to the 89th parallels, it is within a 250th of a mile, some twenty feet. *)
Lemma sqrt_gap u v : 0 <= u -> 0 <= v -> Rabs (sqrt u - sqrt v) <= sqrt (Rabs (u - v)).
Proof.
  assert (W : forall u v, 0 <= u -> u <= v -> Rabs (sqrt u - sqrt v) <= sqrt (Rabs (u - v))).
  { intros a b Ha Hb. pose proof (sqrt_le_1 a b Ha ltac:(lra) Hb) as L. pose proof (sqrt_pos a) as A. rewrite (Rabs_left1 (sqrt a - sqrt b)), (Rabs_left1 (a - b)) by lra.
    rewrite <- (sqrt_square (- (sqrt a - sqrt b))) by lra. apply sqrt_le_1; [apply Rle_0_sqr|lra|]. pose proof (sqrt_sqrt a Ha). pose proof (sqrt_sqrt b ltac:(lra)).
    assert (0 <= sqrt a * (sqrt b - sqrt a)) by (apply Rmult_le_pos; lra). lra. }
  intros Hu Hv. destruct (Rle_lt_dec u v); [apply W; auto|]. rewrite Rabs_minus_sym, (Rabs_minus_sym u). apply W; lra.
Qed.
Theorem C139_near : forall s x1 y1 r1 x2 y2 r2, good_smath s -> degrees x1 y1 -> degrees x2 y2 -> Rabs (B2R y1) <= 89 -> Rabs (B2R y2) <= 89 -> arc x1 y1 x2 y2 <= PI * EarthRadius - 1 ->
  exists d, Distance64 s (x1 :: y1 :: r1) (x2 :: y2 :: r2) = Ok d /\ is_finite d = true /\ Rabs (B2R d - arc x1 y1 x2 y2) <= 1 / 250.
Proof.
  intros s x1 y1 r1 x2 y2 r2 GM D1 D2 N1 N2. unfold arc, angle. intros HD. pose proof PI_range as P.
  destruct (hav_near s x1 y1 x2 y2 GM D1 D2) as ((a & FA & EA) & HP & (c1 & [_ FC1] & EC1) & (c2 & [_ FC2] & EC2)). pose proof (hav_dot (B2R x1) (B2R y1) (B2R x2) (B2R y2)) as HV.
  assert (CP : forall b, Rabs b <= 89 -> 126 / 10 ^ 6 <= cos (deg2rad b)).
  { intros b Hb. assert (W : forall d, 0 <= d <= 89 -> 126 / 10 ^ 6 <= cos (deg2rad d)).
    { intros d Hd. rewrite cos_sin, <- (sin_PI_x (PI / 2 + deg2rad d)). replace (PI - (PI / 2 + deg2rad d)) with (PI / 2 - deg2rad d) by field. apply sin_low. unfold deg2rad.
      assert (0 <= d * PI <= 89 * PI) by (split; [apply Rmult_le_pos; lra|apply Rmult_le_compat_r; lra]). lra. }
    apply ab in Hb. destruct (Rle_lt_dec 0 b); [apply W; lra|]. rewrite <- cos_neg. replace (- deg2rad b) with (deg2rad (- b)) by (unfold deg2rad; field). apply W; lra. }
  pose proof (CP _ N1) as K1. pose proof (CP _ N2) as K2. apply ab in EC1, EC2. rewrite FC1, FC2 in HP. specialize (HP ltac:(lra) ltac:(lra)).
  pose proof (dot_bound _ _ (on_sphere_unit (B2R x1) (B2R y1)) (on_sphere_unit (B2R x2) (B2R y2))) as DB.
  set (u := dot (on_sphere (B2R x1) (B2R y1)) (on_sphere (B2R x2) (B2R y2))) in *. set (h := hav (B2R x1) (B2R y1) (B2R x2) (B2R y2)) in *.
  pose proof (acos_bound u) as AB. assert (A2 := cos_atan2 h ltac:(lra)). rewrite HV in A2. destruct (sin_cos_half u _ eq_refl DB) as [S2 C2].
  replace ((1 - u) / 2) with h in S2, C2 by lra. set (th := acos u) in *. unfold EarthRadius in HD.
  assert (L2 : 126 / 10 ^ 6 <= cos (th / 2)) by (rewrite cos_sin, <- (sin_PI_x (PI / 2 + th / 2)); replace (PI - (PI / 2 + th / 2)) with (PI / 2 - th / 2) by field; apply sin_low; lra).
  assert (H2 : (126 / 10 ^ 6) * (126 / 10 ^ 6) <= 1 - h) by (rewrite C2; apply Rmult_le_compat; lra).
  assert (A0 : 0 <= a) by (destruct FA as [_ <-]; exact HP).
  assert (EY : Rabs (sqrt a - sqrt h) <= 33 / 10 ^ 8).
  { eapply Rle_trans; [apply sqrt_gap; lra|]. rewrite <- (sqrt_square (33 / 10 ^ 8)) by lra. apply sqrt_le_1; [apply Rabs_pos|lra|lra]. }
  destruct (finish s _ a h th (33 / 10 ^ 8) GM FA ltac:(lra) ltac:(lra) EA H2 A2 AB EY ltac:(lra)) as [F E].
  eexists. split; [reflexivity|]. split; [exact F|]. eapply Rle_trans; [exact E|lra].
Qed.
Print Assumptions C139_near.

(** The distance of a point to itself is nothing at all. *)
Lemma rnd0 : rnd 0 = 0. Proof. apply rnd_id, generic_format_0. Qed.
Lemma fmul0 x y a : is_f x a -> is_f y 0 -> is_f (fmul x y) 0.
Proof. intros X Y. assert (K := fmul_f _ _ _ _ X Y). rewrite Rmult_0_r, rnd0 in K. apply K. apply big. apply ab. lra. Qed.
Lemma fmul0l x y a : is_f x 0 -> is_f y a -> is_f (fmul x y) 0.
Proof. intros X Y. assert (K := fmul_f _ _ _ _ X Y). rewrite Rmult_0_l, rnd0 in K. apply K. apply big. apply ab. lra. Qed.
Lemma fdiv0 x y b : is_f x 0 -> is_f y b -> b <> 0 -> is_f (fdiv x y) 0.
Proof. intros X Y B. assert (K := fdiv_f _ _ _ _ X Y B). unfold Rdiv in K. rewrite Rmult_0_l, rnd0 in K. apply K. apply big. apply ab. lra. Qed.
Lemma rad0 x : is_f x 0 -> is_f (deg2rad64 x) 0.
Proof. intros X. unfold deg2rad64. eapply fdiv0; [eapply fmul0l; [exact X|exact pi_f]|exact c180_f|lra]. Qed.
Theorem C139_same : forall s x y r r', good_smath s -> special_smath s -> degrees x y -> exists d, Distance64 s (x :: y :: r) (x :: y :: r') = Ok d /\ is_finite d = true /\ B2R d = 0.
Proof.
  intros s x y r r' GM (SO & SA & _) D. destruct (hav_near s x y x y GM D D) as (_ & _ & (c & C & EC) & _). pose proof (abs_cos (deg2rad (B2R y))) as BC. apply ab in EC, BC. destruct D as (FX & FY & _). unfold Distance64. eexists. split; [reflexivity|].
  assert (Z : forall v, is_finite v = true -> is_f (fsub v v) 0).
  { intros v V. assert (K := fsub_f v v _ _ (conj V eq_refl) (conj V eq_refl)). rewrite Rminus_diag_eq, rnd0 in K by auto. apply K. apply big. apply ab. lra. }
  assert (H0 : forall v, is_f v 0 -> is_f (sSin s (fdiv v (fint 2))) 0).
  { intros v V. assert (K := fdiv0 _ _ _ V (fint_f 2 ltac:(lia)) ltac:(lra)). destruct K as [K1 K2]. destruct GM as (GS & _). destruct (GS _ K1) as [G _]; [rewrite K2; apply ab; lra|]. split; auto.
    pose proof (SO _ _ K1 K1) as W. rewrite K2 in W. specialize (W ltac:(lra)). lra. }
  assert (A : is_f (hav64 s x y x y) 0).
  { unfold hav64. cbv zeta. assert (S1 := H0 _ (rad0 _ (Z _ FY))). assert (W := Style64_Props.fabs_f _ _ (rad0 _ (Z _ FX))). rewrite Rabs_R0 in W. assert (S2 := H0 _ W).
    assert (CC : exists q, is_f (fmul (sCos s (deg2rad64 y)) (sCos s (deg2rad64 y))) q). { eexists. apply (fmul_f _ _ _ _ C C). apply big. rewrite Rabs_mult. apply Rle_trans with (2 * 2); [|lra]. apply Rmult_le_compat; try apply Rabs_pos; apply ab; lra. }
    destruct CC as [q CC]. assert (K := fadd_f _ _ _ _ (fmul0 _ _ _ S1 S1) (fmul0 _ _ _ (fmul0 _ _ _ CC S2) S2)). rewrite Rplus_0_r, rnd0 in K. apply K. apply big. apply ab. lra. }
  assert (SQ := fsqrt_f _ _ A ltac:(lra)). rewrite sqrt_0, rnd0 in SQ.
  assert (F1 := fint_f 1 ltac:(lia)). assert (R1 : rnd 1 = 1) by (apply rnd_id; exact (is_f_fmt _ _ F1)).
  assert (OB := fsub_f _ _ _ _ F1 A ltac:(apply big; apply ab; lra)). rewrite Rminus_0_r, R1 in OB. assert (OS := fsqrt_f _ _ OB ltac:(lra)). rewrite sqrt_1, R1 in OS.
  destruct SQ as [SQ1 SQ2], OS as [OS1 OS2]. exact (fmul0 _ _ _ FR (SA _ _ OS1 SQ1 SQ2 ltac:(lra))).
Qed.
Print Assumptions C139_same.

(** The distance is the same both ways. *)
Lemma rnd_opp x : rnd (- x) = - rnd x. Proof. apply round_NE_opp. Qed.
Lemma fmul_same s t : is_finite s = true -> is_finite t = true -> B2R t = - B2R s -> fmul s s = fmul t t.
Proof.
  intros S T E. destruct s as [b|b| |b m e H]; try discriminate.
  - destruct t as [b'|b'| |b' m' e' H']; try discriminate; [destruct b, b'; reflexivity|]. cbn [B2R] in E. exfalso. rewrite Ropp_0 in E. apply (f_equal (fun r => r <> 0)) in E. assert (K : F2R (Float radix2 (cond_Zopp b' (Z.pos m')) e') <> 0) by (apply F2R_neq_0; destruct b'; discriminate). rewrite E in K. apply K. reflexivity.
  - assert (E2 : t = Bopp (B754_finite b m e H)).
    { apply B2R_inj; [|reflexivity|rewrite B2R_Bopp; exact E]. destruct t as [b'|b'| |b' m' e' H']; try discriminate; [|reflexivity]. exfalso. cbn [B2R] in E. assert (K : F2R (Float radix2 (cond_Zopp b (Z.pos m)) e) <> 0) by (apply F2R_neq_0; destruct b; discriminate). apply K. lra. }
    rewrite E2. apply B2SF_inj. unfold fmul, Bmult, Bopp. rewrite !B2SF_SF2B. destruct b; reflexivity.
Qed.
Lemma fmul_comm x y : is_finite x = true -> is_finite y = true -> Rabs (B2R x * B2R y) <= bpow radix2 100 -> fmul x y = fmul y x.
Proof.
  intros X Y H. assert (K := fmul_f x y _ _ (conj X eq_refl) (conj Y eq_refl) H). assert (K' := fmul_f y x _ _ (conj Y eq_refl) (conj X eq_refl) ltac:(rewrite Rmult_comm; exact H)).
  rewrite Rmult_comm in K'. destruct K as [K1 K2], K' as [K1' K2']. apply B2R_Bsign_inj; auto; [congruence|].
  assert (N : forall v : f64, is_finite v = true -> is_nan v = false) by (intros [ | | | ]; auto; discriminate).
  assert (SG : forall u v, is_finite (fmul u v) = true -> Rabs (B2R u * B2R v) <= bpow radix2 100 -> Bsign (fmul u v) = xorb (Bsign u) (Bsign v)).
  { intros u v F B. pose proof (Bmult_correct 53 1024 _ _ mode_NE u v) as C. rewrite fexp_eq in C. cbn [round_mode] in C. rewrite small_lt_emax in C by (apply rnd_abs; [lia|auto]). apply C. apply N. exact F. }
  rewrite !SG; auto; [apply xorb_comm|rewrite Rmult_comm; auto].
Qed.
Lemma rad_opp x y a : is_f x a -> is_f y (- a) -> Rabs a <= 361 -> exists w, is_f (deg2rad64 x) w /\ is_f (deg2rad64 y) (- w) /\ Rabs w <= 7.
Proof.
  intros X Y A. assert (B1 : Rabs (a * vpi) <= 361 * (32 / 10)). { rewrite Rabs_mult. apply Rmult_le_compat; auto using Rabs_pos. apply ab. unfold vpi. lra. }
  assert (U := uu15). pose proof (re 11 2048 ltac:(lia) ltac:(lia) eq_refl (a * vpi) ltac:(lra)) as E1. apply ab in E1. apply ab in B1.
  assert (F1 := fmul_f _ _ _ _ X pi_f ltac:(apply big; apply ab; lra)). assert (F2 := fmul_f _ _ _ _ Y pi_f ltac:(apply big; apply ab; lra)). rewrite Ropp_mult_distr_l_reverse, rnd_opp in F2.
  set (p := rnd (a * vpi)) in *. assert (F3 := fdiv_f _ _ _ _ F1 c180_f ltac:(lra) ltac:(apply big; apply ab; lra)). assert (F4 := fdiv_f _ _ _ _ F2 c180_f ltac:(lra) ltac:(apply big; apply ab; lra)).
  replace (- p / 180) with (- (p / 180)) in F4 by field. rewrite rnd_opp in F4. pose proof (re 4 16 ltac:(lia) ltac:(lia) eq_refl (p / 180) ltac:(apply ab; lra)) as E2. apply ab in E2.
  exists (rnd (p / 180)). repeat split; try apply F3; try apply F4. apply ab. lra.
Qed.
Theorem C139_symmetric : forall s x1 y1 r1 x2 y2 r2, good_smath s -> special_smath s -> degrees x1 y1 -> degrees x2 y2 ->
  Distance64 s (x1 :: y1 :: r1) (x2 :: y2 :: r2) = Distance64 s (x2 :: y2 :: r2) (x1 :: y1 :: r1).
Proof.
  intros s x1 y1 r1 x2 y2 r2 GM (SO & _) D1 D2. unfold Distance64. replace (hav64 s x2 y2 x1 y1) with (hav64 s x1 y1 x2 y2); auto.
  destruct (hav_near s x1 y1 x2 y2 GM D1 D2) as (_ & _ & (c1 & C1 & EC1) & (c2 & C2 & EC2)). pose proof (abs_cos (deg2rad (B2R y1))) as BC1. pose proof (abs_cos (deg2rad (B2R y2))) as BC2. apply ab in EC1, BC1, EC2, BC2.
  destruct D1 as (X1 & Y1 & BX1 & BY1), D2 as (X2 & Y2 & BX2 & BY2). assert (U := uu15).
  assert (SW : forall u v, is_finite u = true -> is_finite v = true -> -180 <= B2R u <= 180 -> -180 <= B2R v <= 180 -> exists w, is_f (deg2rad64 (fsub u v)) w /\ is_f (deg2rad64 (fsub v u)) (- w) /\ Rabs w <= 7).
  { intros u v Fu Fv Bu Bv. assert (K := fsub_f _ _ _ _ (conj Fu eq_refl) (conj Fv eq_refl) ltac:(apply big; apply ab; lra)). assert (K' := fsub_f _ _ _ _ (conj Fv eq_refl) (conj Fu eq_refl) ltac:(apply big; apply ab; lra)).
    replace (B2R v - B2R u) with (- (B2R u - B2R v)) in K' by ring. rewrite rnd_opp in K'. apply (rad_opp _ _ _ K K'). pose proof (re 9 512 ltac:(lia) ltac:(lia) eq_refl (B2R u - B2R v) ltac:(apply ab; lra)) as E. apply ab in E. apply ab. lra. }
  unfold hav64. cbv zeta. f_equal.
  - destruct (SW y2 y1) as (w & W1 & W2 & B); auto; try lra.
    assert (K : forall v e, is_f v e -> Rabs e <= 7 -> is_f (fdiv v (fint 2)) (rnd (e / 2)) /\ Rabs (rnd (e / 2)) <= 4).
    { intros v e V E. apply ab in E. split; [apply (fdiv_f _ _ _ _ V (fint_f 2 ltac:(lia))); [lra|apply big; apply ab; lra]|]. pose proof (re 4 16 ltac:(lia) ltac:(lia) eq_refl (e / 2) ltac:(apply ab; lra)) as E'. apply ab in E'. apply ab. lra. }
    destruct (K _ _ W1 B) as [[A1 A2] A3]. destruct (K _ _ W2 ltac:(rewrite Rabs_Ropp; exact B)) as [[B1 B2] B3]. replace (- w / 2) with (- (w / 2)) in B2, B3 by field. rewrite rnd_opp in B2. rewrite rnd_opp in B3.
    destruct GM as (GS & _). apply fmul_same; [apply GS; auto; rewrite A2; auto|apply GS; auto; rewrite B2; auto|]. apply SO; auto. rewrite A2, B2. reflexivity.
  - replace (Babs (deg2rad64 (fsub x1 x2))) with (Babs (deg2rad64 (fsub x2 x1))).
    + rewrite (fmul_comm (sCos s (deg2rad64 y1))); auto; [apply C1|apply C2|]. destruct C1 as [_ ->], C2 as [_ ->]. apply big. rewrite Rabs_mult. apply Rle_trans with (2 * 2); [|lra]. apply Rmult_le_compat; try apply Rabs_pos; apply ab; lra.
    + destruct (SW x2 x1) as (w & W1 & W2 & B); auto. assert (N : forall v : f64, is_finite v = true -> Bsign (Babs v) = false) by (intros [ | | | ]; auto; discriminate).
      destruct W1 as [W1 W1'], W2 as [W2 W2']. apply B2R_Bsign_inj; rewrite ?is_finite_Babs; auto; [|rewrite !N; auto]. rewrite !B2R_Babs, W1', W2', Rabs_Ropp. reflexivity.
Qed.
Print Assumptions C139_symmetric.

Theorem C139_panics : forall s p q, Distance64 s p q = Panic <-> (length p < 2 \/ length q < 2)%nat.
Proof.
  intros s p q. destruct p as [|x1 [|y1 r1]]; [|destruct q|destruct q as [|x2 [|y2 r2]]]; cbn [Distance64 length]; split; intros H; auto; try discriminate; try lia.
Qed.
Print Assumptions C139_panics.

(** Opposite each other, two points can have no distance: with sines and cosines as exact as a float64
    allows, the distance from (0, 8) to (180, -8) is not a number, since the square of half the chord rounds to more than 1. *)
Definition rounded_smath (s : smath) : Prop := forall x, is_finite x = true -> Rabs (B2R x) <= 4 -> is_f (sSin s x) (rnd (sin (B2R x))) /\ is_f (sCos s x) (rnd (cos (B2R x))).
Lemma rnd_to x m e : (-1074 <= e)%Z -> bpow radix2 (52 + e) <= Rabs x < bpow radix2 (53 + e) -> Rabs (x * bpow radix2 (- e) - IZR m) < / 2 -> rnd x = F2R (Float radix2 m e).
Proof.
  intros He Hx Hm. unfold round. assert (CE : cexp radix2 (FLT_exp (-1074) 53) x = e).
  { unfold cexp. rewrite (mag_unique radix2 x (53 + e)); [unfold FLT_exp; lia|]. replace (53 + e - 1)%Z with (52 + e)%Z by lia. exact Hx. }
  unfold scaled_mantissa. rewrite CE. rewrite (Znearest_imp _ _ m Hm). reflexivity.
Qed.
Definition v8 : R := 5030569068109113 / 36028797018963968.
Lemma sin_v8 : 1391731009600654417 / 10 ^ 19 <= sin v8 <= 1391731009600654418 / 10 ^ 19.
Proof.
  pose proof PI_range as P. pose proof (sin_bound v8 3 ltac:(unfold v8; lra) ltac:(unfold v8; lra)) as [L H]. change (2 * (3 + 1))%nat with 8%nat in H. change (2 * 3 + 1)%nat with 7%nat in L. rewrite approx8 in H. rewrite approx7 in L.
  split; [eapply Rle_trans; [|exact L]|eapply Rle_trans; [exact H|]]; unfold v8; lra.
Qed.
Lemma cos_v8 : 1 - 2 * (69756473744125299600 / 10 ^ 21) ^ 2 <= cos v8 <= 1 - 2 * (69756473744125299599 / 10 ^ 21) ^ 2.
Proof.
  pose proof PI_range as P. set (c := v8 / 2). pose proof (sin_bound c 3 ltac:(unfold c, v8; lra) ltac:(unfold c, v8; lra)) as [L H]. change (2 * (3 + 1))%nat with 8%nat in H. change (2 * 3 + 1)%nat with 7%nat in L. rewrite approx8 in H. rewrite approx7 in L.
  assert (B : 69756473744125299599 / 10 ^ 21 <= sin c <= 69756473744125299600 / 10 ^ 21) by (split; [eapply Rle_trans; [|exact L]|eapply Rle_trans; [exact H|]]; unfold c, v8; lra).
  replace (cos v8) with (1 - 2 * (sin c * sin c)). 2:{ pose proof (cos_2a_sin c) as K. replace (2 * c) with v8 in K by (unfold c; field). lra. }
  clearbody c. clear -B. assert (69756473744125299599 / 10 ^ 21 * (69756473744125299599 / 10 ^ 21) <= sin c * sin c) by (apply Rmult_le_compat; lra). assert (sin c * sin c <= 69756473744125299600 / 10 ^ 21 * (69756473744125299600 / 10 ^ 21)) by (apply Rmult_le_compat; lra). lra.
Qed.
Definition lit (s : bool) (m : positive) (e : Z) (H : SpecFloat.bounded 53 1024 m e = true) : f64 := B754_finite s m e H.
Lemma b_v8 : B2R (lit false 5030569068109113 (-55) eq_refl) = v8.
Proof. unfold B2R, lit, F2R. cbn [Fnum Fexp cond_Zopp]. change (bpow radix2 (-55)) with (bpow radix2 (- (55))). rewrite (bpm 55 36028797018963968 ltac:(lia) eq_refl). unfold v8. lra. Qed.
Lemma b_v8n : B2R (lit true 5030569068109113 (-55) eq_refl) = - v8.
Proof. unfold B2R, lit, F2R. cbn [Fnum Fexp cond_Zopp Z.opp]. change (bpow radix2 (-55)) with (bpow radix2 (- (55))). rewrite (bpm 55 36028797018963968 ltac:(lia) eq_refl). unfold v8. lra. Qed.
Lemma b_hpi : B2R (lit false 7074237752028440 (-52) eq_refl) = vpi / 2.
Proof. unfold B2R, lit, F2R. cbn [Fnum Fexp cond_Zopp Z.opp]. change (bpow radix2 (-52)) with (bpow radix2 (- (52))). rewrite (bpm 52 4503599627370496 ltac:(lia) eq_refl). unfold vpi. lra. Qed.
Lemma is_lit x s m e H : is_f x (F2R (Float radix2 (cond_Zopp s (Z.pos m)) e)) -> x = lit s m e H.
Proof.
  intros [F E]. apply B2R_inj; [|reflexivity|exact E]. destruct x as [b|b| |b m' e' H']; try discriminate; [|reflexivity]. exfalso. cbn [B2R] in E. assert (K : F2R (Float radix2 (cond_Zopp s (Z.pos m)) e) <> 0) by (apply F2R_neq_0; destruct s; discriminate). apply K. auto.
Qed.
Lemma r_sin8 : rnd (sin (- v8)) = F2R (Float radix2 (-5014239404989977) (-55)).
Proof.
  rewrite sin_neg. pose proof sin_v8 as S. apply rnd_to; [lia| |]; change (- (-55))%Z with 55%Z.
  - rewrite Rabs_Ropp, Rabs_right by lra. change (52 + -55)%Z with (- (3))%Z. change (53 + -55)%Z with (- (2))%Z. rewrite (bpm 3 8 ltac:(lia) eq_refl), (bpm 2 4 ltac:(lia) eq_refl). lra.
  - rewrite (bp 55 36028797018963968 ltac:(lia) eq_refl). apply Rabs_def1; lra.
Qed.
Lemma r_cos8 : rnd (cos v8) = F2R (Float radix2 8919541810762874 (-53)).
Proof.
  pose proof cos_v8 as S. apply rnd_to; [lia| |]; change (- (-53))%Z with 53%Z.
  - rewrite Rabs_right by lra. change (52 + -53)%Z with (- (1))%Z. change (53 + -53)%Z with 0%Z. rewrite (bpm 1 2 ltac:(lia) eq_refl). change (bpow radix2 0) with 1. lra.
  - rewrite (bp 53 9007199254740992 ltac:(lia) eq_refl). apply Rabs_def1; lra.
Qed.
Lemma r_hpi : rnd (sin (vpi / 2)) = F2R (Float radix2 4503599627370496 (-52)).
Proof.
  assert (ONE : F2R (Float radix2 4503599627370496 (-52)) = 1). { unfold F2R. cbn [Fnum Fexp]. change (bpow radix2 (-52)) with (bpow radix2 (- (52))). rewrite (bpm 52 4503599627370496 ltac:(lia) eq_refl). lra. }
  rewrite ONE. pose proof vpi_pi as V. apply ab in V. set (x := sin (vpi / 2)). assert (X : 1 - / 10 ^ 20 <= x <= 1).
  { split; [|apply SIN_bound]. unfold x. rewrite <- (cos_shift (vpi / 2)). set (d := PI / 2 - vpi / 2). replace d with (2 * (d / 2)) by field. rewrite cos_2a_sin. pose proof (sin_lip (d / 2) 0) as L. rewrite sin_0, !Rminus_0_r in L.
    assert (B : Rabs (sin (d / 2)) <= / 10 ^ 15). { eapply Rle_trans; [exact L|]. apply ab. unfold d. lra. }
    assert (Q : sin (d / 2) * sin (d / 2) <= / 10 ^ 15 * / 10 ^ 15). { rewrite <- (Rabs_right (sin (d / 2) * sin (d / 2))) by (apply Rle_ge, Rle_0_sqr). rewrite Rabs_mult. apply Rmult_le_compat; auto using Rabs_pos. } lra. }
  clearbody x. destruct (Req_dec x 1) as [->|N]; [apply rnd_id; exact (is_f_fmt _ _ (fint_f 1 ltac:(lia)))|].
  rewrite (rnd_to x 9007199254740992 (-53)); [|lia| |].
  - unfold F2R. cbn [Fnum Fexp]. change (bpow radix2 (-53)) with (bpow radix2 (- (53))). rewrite (bpm 53 9007199254740992 ltac:(lia) eq_refl). lra.
  - rewrite Rabs_right by lra. change (52 + -53)%Z with (- (1))%Z. change (53 + -53)%Z with 0%Z. rewrite (bpm 1 2 ltac:(lia) eq_refl). change (bpow radix2 0) with 1. lra.
  - change (- (-53))%Z with 53%Z. rewrite (bp 53 9007199254740992 ltac:(lia) eq_refl). apply Rabs_def1; lra.
Qed.
Theorem C139_opposite_refuted : forall s, rounded_smath s -> special_smath s ->
  degrees (fint 0) (fint 8) /\ degrees (fint 180) (fint (-8)) /\ Distance64 s [fint 0; fint 8] [fint 180; fint (-8)] = Ok B754_nan.
Proof.
  intros s R (_ & _ & NAN).
  destruct (fint_f 0 ltac:(lia)) as [F0 V0], (fint_f 8 ltac:(lia)) as [F8 V8], (fint_f 180 ltac:(lia)) as [F180 V180], (fint_f (-8) ltac:(lia)) as [Fm8 Vm8].
  split; [unfold degrees; rewrite V0, V8; repeat split; auto; lra|]. split; [unfold degrees; rewrite V180, Vm8; repeat split; auto; lra|].
  clear F0 V0 F8 V8 F180 V180 Fm8 Vm8.
  assert (E1 : fdiv (deg2rad64 (fsub (fint (-8)) (fint 8))) (fint 2) = lit true 5030569068109113 (-55) eq_refl) by (apply B2SF_inj; vm_compute; reflexivity).
  assert (E2 : fdiv (Babs (deg2rad64 (fsub (fint 180) (fint 0)))) (fint 2) = lit false 7074237752028440 (-52) eq_refl) by (apply B2SF_inj; vm_compute; reflexivity).
  assert (E3 : deg2rad64 (fint 8) = lit false 5030569068109113 (-55) eq_refl) by (apply B2SF_inj; vm_compute; reflexivity).
  assert (E4 : deg2rad64 (fint (-8)) = lit true 5030569068109113 (-55) eq_refl) by (apply B2SF_inj; vm_compute; reflexivity).
  assert (B8 : Rabs v8 <= 4) by (apply ab; unfold v8; lra).
  destruct (R (lit true 5030569068109113 (-55) eq_refl) eq_refl) as [S1 C2]; [rewrite b_v8n, Rabs_Ropp; exact B8|]. rewrite b_v8n in S1, C2. rewrite cos_neg, r_cos8 in C2. rewrite r_sin8 in S1.
  destruct (R (lit false 5030569068109113 (-55) eq_refl) eq_refl) as [_ C1]; [rewrite b_v8; exact B8|]. rewrite b_v8, r_cos8 in C1.
  destruct (R (lit false 7074237752028440 (-52) eq_refl) eq_refl) as [S2 _]; [rewrite b_hpi; apply ab; unfold vpi; lra|]. rewrite b_hpi, r_hpi in S2.
  apply (is_lit _ true 5014239404989977 (-55) eq_refl) in S1. apply (is_lit _ false 8919541810762874 (-53) eq_refl) in C1, C2. apply (is_lit _ false 4503599627370496 (-52) eq_refl) in S2.
  unfold Distance64. assert (H : hav64 s (fint 0) (fint 8) (fint 180) (fint (-8)) = lit false 4503599627370497 (-52) eq_refl).
  { unfold hav64. cbv zeta. rewrite E1, E2, E3, E4, S1, S2, C1, C2. apply B2SF_inj. vm_compute. reflexivity. }
  rewrite H. replace (fsqrt (fsub (fint 1) (lit false 4503599627370497 (-52) eq_refl))) with (@B754_nan 53 1024) by (apply B2SF_inj; vm_compute; reflexivity). rewrite NAN. reflexivity.
Qed.
Print Assumptions C139_opposite_refuted.

(** Functions rounded exactly satisfy every hypothesis. *)
Definition exact_smath : smath :=
  mkSmath (fun x => of_R (rnd (sin (B2R x)))) (fun x => of_R (rnd (cos (B2R x))))
    (fun y x => if is_nan x then B754_nan else of_R (rnd (atan2 (B2R y) (B2R x)))).
Lemma of_rnd r : Rabs r <= 4 -> is_f (of_R (rnd r)) (rnd r) /\ Rabs (rnd r - r) <= 4 * uu.
Proof.
  intros H. pose proof (re4 _ H) as E. split; auto. apply of_R_f; [apply generic_format_round; [apply vexp|apply valid_rnd_N]|]. pose proof uu15. apply ab in E, H. apply ab. lra.
Qed.
Example C139_nonvacuous : good_smath exact_smath /\ special_smath exact_smath /\ rounded_smath exact_smath /\
  degrees (fint 0) (fint 0) /\ degrees (fint 90) (fint 0) /\ 1 <= arc (fint 0) (fint 0) (fint 90) (fint 0) <= PI * EarthRadius - 1.
Proof.
  pose proof uu15 as U. pose proof PI_range as P.
  assert (T14 : 4 * uu <= t14) by (unfold t14; lra).
  assert (KS : forall a, Rabs (sin a) <= 4) by (intros a; pose proof (abs_sin a); lra). assert (KC : forall a, Rabs (cos a) <= 4) by (intros a; pose proof (abs_cos a); lra).
  assert (NN : forall v : f64, is_finite v = true -> is_nan v = false) by (intros [ | | | ]; auto; discriminate).
  assert (AT : forall y x, 0 < x -> atan2 y x = atan (y / x)) by (intros y x Hx; unfold atan2; destruct (Rltb_spec 0 x); [auto|contradiction]).
  split; [|split; [|split]].
  - split; [|split].
    + intros x F _. cbn [sSin exact_smath]. destruct (of_rnd _ (KS (B2R x))) as [[A ->] B]. split; auto. lra.
    + intros x F _. cbn [sCos exact_smath]. destruct (of_rnd _ (KC (B2R x))) as [[A ->] B]. split; auto. lra.
    + intros y x Fy Fx Hy Hx. cbn [sAtan2 exact_smath]. rewrite (NN _ Fx), AT by lra. pose proof (atan_bound (B2R y / B2R x)). destruct (of_rnd (atan (B2R y / B2R x)) ltac:(apply ab; lra)) as [[A ->] B]. split; auto. lra.
  - split; [|split].
    + intros x y Fx Fy E. cbn [sSin exact_smath]. destruct (of_rnd _ (KS (B2R x))) as [[_ ->] _]. destruct (of_rnd _ (KS (B2R y))) as [[_ ->] _]. rewrite E, sin_neg, rnd_opp. reflexivity.
    + intros x y Fx Fy E Hx. cbn [sAtan2 exact_smath]. rewrite (NN _ Fx), E, AT by lra. unfold Rdiv. rewrite Rmult_0_l, atan_0. destruct (of_rnd 0 ltac:(rewrite Rabs_R0; lra)) as [[A ->] _]. split; auto. apply rnd0.
    + intros y. reflexivity.
  - intros x F _. split; [exact (proj1 (of_rnd _ (KS (B2R x))))|exact (proj1 (of_rnd _ (KC (B2R x))))].
  - destruct (fint_f 0 ltac:(lia)) as [F0 V0], (fint_f 90 ltac:(lia)) as [F9 V9]. split; [unfold degrees; rewrite V0; repeat split; auto; lra|]. split; [unfold degrees; rewrite V0, V9; repeat split; auto; lra|].
    unfold arc. rewrite V0, V9. destruct C106_nonvacuous as [E _]. rewrite C106_arc in E. injection E as E. rewrite E. unfold EarthRadius. lra.
Qed.
