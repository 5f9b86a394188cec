(** Error bounds for the colour conversions in binary64. *)
From Coq Require Import ZArith Reals Rtrigo1 Ratan List Lia Lra Bool.
From Flocq Require Import Core BinarySingleNaN.
From Verif Require Import GoBase Num TileF64_Model TileF64_Proofs F64 Json Color_Model Color_Props ColorF64_Model.
Import ListNotations.
Open Scope R_scope.
#[local] Existing Instance vexp.

(** The unit roundoff *)
Definition uu : R := / 9007199254740992.
Lemma uu_pos : 0 < uu. Proof. unfold uu. lra. Qed.
Lemma bp53 : bpow radix2 (-53) = uu. Proof. exact (bpm 53 9007199254740992 ltac:(lia) eq_refl). Qed.
Lemma re k m : (-1000 <= k)%Z -> (0 <= k)%Z -> (2 ^ k = m)%Z -> forall x, Rabs x <= IZR m -> Rabs (rnd x - x) <= IZR m * uu.
Proof.
  intros Hk H0 E x Hx. eapply Rle_trans; [apply (rnd_err k); auto; rewrite (bp k m H0 E); exact Hx|]. replace (k - 53)%Z with (k + -53)%Z by lia. rewrite bpow_plus, bp53, (bp k m H0 E). lra.
Qed.
Lemma re1 x : Rabs x <= 1 -> Rabs (rnd x - x) <= uu.
Proof. intros H. pose proof (re 0 1 ltac:(lia) ltac:(lia) eq_refl x H). lra. Qed.
Lemma re2 x : Rabs x <= 2 -> Rabs (rnd x - x) <= 2 * uu.
Proof. apply (re 1 2); auto; lia. Qed.
Lemma re4 x : Rabs x <= 4 -> Rabs (rnd x - x) <= 4 * uu.
Proof. apply (re 2 4); auto; lia. Qed.
Lemma re256 x : Rabs x <= 256 -> Rabs (rnd x - x) <= 256 * uu.
Proof. apply (re 8 256); auto; lia. Qed.
Lemma re1024 x : Rabs x <= 1024 -> Rabs (rnd x - x) <= 1024 * uu.
Proof. apply (re 10 1024); auto; lia. Qed.
Lemma ab x a : Rabs x <= a <-> - a <= x <= a.
Proof. split; [intros H; apply Rabs_def2_le; auto|intros H; apply Rabs_le; lra]. Qed.
Ltac bnd := apply ab; try lra; try (split; nra).
Lemma rnd_nonneg x : 0 <= x -> 0 <= rnd x.
Proof. intros H. apply rnd_mono in H. rewrite (rnd_id 0 fmt_0) in H. exact H. Qed.
Lemma fi n : (Z.abs n < 2 ^ 53)%Z -> rnd (IZR n) = IZR n.
Proof. intros H. apply rnd_id, fmt_int, H. Qed.
Lemma rnd_le_int x n : (Z.abs n < 2 ^ 53)%Z -> x <= IZR n -> rnd x <= IZR n.
Proof. intros H K. rewrite <- (fi n H). apply rnd_mono, K. Qed.
Lemma rnd_ge_int x n : (Z.abs n < 2 ^ 53)%Z -> IZR n <= x -> IZR n <= rnd x.
Proof. intros H K. rewrite <- (fi n H). apply rnd_mono, K. Qed.

Lemma small x : Rabs x <= 100000000 -> Rabs x <= bpow radix2 100.
Proof. intros H. eapply Rle_trans; [exact H|]. rewrite (bp 100 (2 ^ 100) ltac:(lia) eq_refl). apply IZR_le. vm_compute. discriminate. Qed.
Lemma f_int n : (Z.abs n <= 1000000)%Z -> is_f (fint n) (IZR n).
Proof. intros H. apply fint_f. lia. Qed.
Lemma half_f : is_f half64 (1 / 2).
Proof. split; [reflexivity|]. unfold half64, B2R, F2R. cbn [Fnum Fexp cond_Zopp]. rewrite bp53. unfold uu. lra. Qed.
Lemma Bltb_f x y a b : is_f x a -> is_f y b -> Bltb x y = Rltb a b.
Proof. intros [F1 <-] [F2 <-]. rewrite Bltb_correct by auto. destruct (Rlt_bool_spec (B2R x) (B2R y)), (Rltb_spec (B2R x) (B2R y)); auto; lra. Qed.
Lemma Bleb_f x y a b : is_f x a -> is_f y b -> Bleb x y = Rleb a b.
Proof. intros [F1 <-] [F2 <-]. rewrite Bleb_correct by auto. destruct (Rle_bool_spec (B2R x) (B2R y)), (Rleb_spec (B2R x) (B2R y)); auto; lra. Qed.
Lemma Beqb_f x y a b : is_f x a -> is_f y b -> Beqb x y = Reqb a b.
Proof. intros [F1 <-] [F2 <-]. rewrite Beqb_correct by auto. destruct (Req_bool_spec (B2R x) (B2R y)), (Reqb_spec (B2R x) (B2R y)); auto; lra. Qed.
Lemma fsqrt_f x a : is_f x a -> 0 <= a -> is_f (fsqrt x) (rnd (sqrt a)).
Proof.
  intros [F <-] H. unfold fsqrt. destruct (Bsqrt_correct 53 1024 _ _ mode_NE x) as (K1 & K2 & _). rewrite fexp_eq in K1. cbn [round_mode] in K1. split; [|exact K1]. rewrite K2.
  destruct x as [s|s| |s m e B]; auto; try discriminate. destruct s; auto. exfalso. exact (Rlt_not_le _ _ (F2R_lt_0 radix2 (Float radix2 (Z.neg m) e) eq_refl) H).
Qed.
Lemma fmax_f x y a b : is_f x a -> is_f y b -> is_f (fmax x y) (Rmax a b).
Proof. intros X Y. unfold fmax. rewrite (Bltb_f y x b a) by auto. destruct (Rltb_spec b a); [rewrite Rmax_left by lra; auto|rewrite Rmax_right by lra; auto]. Qed.
Lemma fmin_f x y a b : is_f x a -> is_f y b -> is_f (fmin x y) (Rmin a b).
Proof. intros X Y. unfold fmin. rewrite (Bltb_f x y a b) by auto. destruct (Rltb_spec a b); [rewrite Rmin_left by lra; auto|rewrite Rmin_right by lra; auto]. Qed.

(** Rounding to bytes *)
Lemma trunc_int y (x : f64) : B2R x = IZR y -> Btrunc x = y.
Proof.
  intros H. pose proof (Btrunc_correct 53 1024 _ x) as K. rewrite H in K. apply eq_IZR. rewrite K. unfold round, F2R, scaled_mantissa, cexp, FIX_exp. cbn [Fnum Fexp]. change (bpow radix2 (- 0)) with 1. change (bpow radix2 0) with 1. rewrite !Rmult_1_r, Ztrunc_IZR. reflexivity.
Qed.
Lemma fround_near x a : is_f x a -> - / 4 <= a <= 255 + / 4 -> (0 <= fround x <= 255)%Z /\ Rabs (IZR (fround x) - a) <= 1 / 2.
Proof.
  intros [F <-] H. unfold fround. destruct (Bnearbyint_correct 53 1024 _ mode_NA x) as (K1 & _ & _).
  assert (E : B2R (Bnearbyint mode_NA x) = IZR (ZnearestA (B2R x))).
  { rewrite K1. unfold round, F2R, scaled_mantissa, cexp, FIX_exp. cbn [Fnum Fexp round_mode]. change (bpow radix2 (- 0)) with 1. change (bpow radix2 0) with 1. rewrite !Rmult_1_r. reflexivity. }
  rewrite (trunc_int _ _ E). pose proof (Znearest_half (fun z => Z.leb 0 z) (B2R x)) as N. set (k := ZnearestA (B2R x)) in *. apply ab in N.
  assert (B : (0 <= k <= 255)%Z). { split; apply Z.lt_succ_r, lt_IZR; rewrite succ_IZR; lra. }
  assert (U : u32 k = k) by (apply Z.mod_small; lia). rewrite U. split; [exact B|]. apply ab. lra.
Qed.
Lemma zto64 x a : is_f x a -> - / 1024 <= a <= 1 + / 1024 -> exists k, (0 <= k <= 255)%Z /\ zeroToOne64 x = (257 * k)%Z /\ Rabs (IZR k - 255 * a) <= 1 / 2 + 256 * uu.
Proof.
  intros X H. pose proof (f_int 255 ltac:(lia)) as C. assert (A : Rabs (255 * a) <= 256) by bnd. pose proof (fmul_f _ _ _ _ C X ltac:(apply small; lra)) as M. pose proof (re256 _ A) as E. apply ab in E. pose proof uu_pos.
  destruct (fround_near _ _ M) as [K1 K2]; [unfold uu in *; lra|]. exists (fround (fmul (fint 255) x)). split; [exact K1|]. split; [apply byte_257, K1|]. apply ab in K2. apply ab. lra.
Qed.

(** hueToRGB as a continuous function of the hue *)
Definition tri (t : R) : R := Rmax 0 (Rmin 1 (Rmin (t / 60) (4 - t / 60))).
Definition ramp (t : R) : R := tri t + tri (t - 360).
Ltac rm := unfold ramp, tri, Rmax, Rmin in *; repeat match goal with |- context [Rle_dec ?a ?b] => destruct (Rle_dec a b) | H : context [Rle_dec ?a ?b] |- _ => destruct (Rle_dec a b) end.
Lemma tri_range t : 0 <= tri t <= 1. Proof. rm; lra. Qed.
Lemma tri_lip t t' : Rabs (tri t - tri t') <= Rabs (t - t') / 60.
Proof. unfold Rabs at 2. destruct (Rcase_abs (t - t')); apply ab; rm; lra. Qed.
Lemma ramp_range t : -120 <= t <= 480 -> 0 <= ramp t <= 1. Proof. intros H. rm; lra. Qed.
Lemma ramp_lip t t' : Rabs (ramp t - ramp t') <= Rabs (t - t') / 30.
Proof.
  unfold ramp. pose proof (tri_lip t t') as A. pose proof (tri_lip (t - 360) (t' - 360)) as B. replace (t - 360 - (t' - 360)) with (t - t') in B by ring. apply ab in A, B. apply ab. lra.
Qed.
Lemma hue_ramp p q t : -120 <= t <= 480 -> hueToRGB p q t = p + (q - p) * ramp t.
Proof.
  intros H. unfold hueToRGB. destruct (Rltb_spec t 0) as [T0|T0].
  - destruct (Rltb_spec 360 (t + 360)); [lra|]. destruct (Rltb_spec (t + 360) 60); [lra|]. destruct (Rltb_spec (t + 360) 180); [lra|]. destruct (Rltb_spec (t + 360) 240); [lra|].
    replace (ramp t) with 0 by (rm; lra). ring.
  - destruct (Rltb_spec 360 t) as [T1|T1].
    + destruct (Rltb_spec (t - 360) 60); [|destruct (Rltb_spec (t - 360) 180); [|lra]].
      * replace (ramp t) with ((t - 360) / 60) by (rm; lra). reflexivity.
      * replace (ramp t) with 1 by (rm; lra). ring.
    + destruct (Rltb_spec t 60); [|destruct (Rltb_spec t 180); [|destruct (Rltb_spec t 240)]].
      * replace (ramp t) with (t / 60) by (rm; lra). reflexivity.
      * replace (ramp t) with 1 by (rm; lra). ring.
      * replace (ramp t) with ((240 - t) / 60) by (rm; lra). field.
      * replace (ramp t) with 0 by (rm; lra). ring.
Qed.
Lemma hue_lip p q t p' q' t' e d : -120 <= t <= 480 -> -120 <= t' <= 480 -> Rabs (p - p') <= e -> Rabs (q - q') <= e -> Rabs (t - t') <= d -> Rabs (q' - p') <= 1 ->
  Rabs (hueToRGB p q t - hueToRGB p' q' t') <= e + d / 30.
Proof.
  intros Ht Ht' Hp Hq Hd H1. rewrite !hue_ramp by auto. pose proof (ramp_range t Ht) as G. pose proof (ramp_lip t t') as L.
  replace (p + (q - p) * ramp t - (p' + (q' - p') * ramp t')) with ((p - p') * (1 - ramp t) + (q - q') * ramp t + (q' - p') * (ramp t - ramp t')) by ring.
  assert (A : Rabs ((q' - p') * (ramp t - ramp t')) <= d / 30).
  { rewrite Rabs_mult. pose proof (Rabs_pos (q' - p')). pose proof (Rabs_pos (ramp t - ramp t')). nra. }
  apply ab in Hp, Hq, A. set (g := ramp t) in *. set (z := (q' - p') * _) in *. clearbody g z. apply ab. split; nra.
Qed.

(** hueToRGB in binary64 *)
Lemma hue64_near p q t a b c : is_f p a -> is_f q b -> is_f t c -> -2 <= a <= 2 -> -2 <= b <= 2 -> -120 <= c <= 480 ->
  exists v, is_f (hueToRGB64 p q t) v /\ Rabs (v - hueToRGB a b c) <= 100 * uu.
Proof.
  intros P Q T Ha Hb Hc. pose proof uu_pos as U0. assert (U1 : uu < / 1000000000) by (unfold uu; lra). rewrite hue_ramp by auto. unfold hueToRGB64. cbv zeta.
  pose proof (f_int 0 ltac:(lia)) as C0. pose proof (f_int 60 ltac:(lia)) as C60. pose proof (f_int 180 ltac:(lia)) as C180. pose proof (f_int 240 ltac:(lia)) as C240. pose proof (f_int 360 ltac:(lia)) as C360.
  rewrite (Bltb_f t (fint 0) c 0) by auto. destruct (Rltb_spec c 0) as [T0|T0].
  - assert (S : Rabs (c + 360) <= 1024) by bnd. pose proof (fadd_f _ _ _ _ T C360 ltac:(apply small; lra)) as A. set (w := rnd (c + 360)) in *.
    assert (W : 240 <= w <= 360) by (unfold w; split; [apply (rnd_ge_int _ 240)|apply (rnd_le_int _ 360)]; try reflexivity; lra).
    rewrite (Bltb_f _ _ _ _ C360 A). destruct (Rltb_spec 360 w); [lra|]. rewrite (Bltb_f _ _ _ _ A C60), (Bltb_f _ _ _ _ A C180), (Bltb_f _ _ _ _ A C240).
    destruct (Rltb_spec w 60); [lra|]. destruct (Rltb_spec w 180); [lra|]. destruct (Rltb_spec w 240); [lra|]. exists a. split; [exact P|]. replace (ramp c) with 0 by (rm; lra). apply ab. lra.
  - rewrite (Bltb_f _ _ _ _ C360 T).
    assert (D1 : Rabs (b - a) <= 4) by bnd. pose proof (fsub_f _ _ _ _ Q P ltac:(apply small; lra)) as D. pose proof (re4 _ D1) as D2. set (d := rnd (b - a)) in *. apply ab in D2.
    (* the two slopes *)
    assert (Up : forall x w g, is_f x w -> 0 <= w <= 60 -> Rabs (g - w / 60) <= 8 * uu -> exists v, is_f (fadd p (fmul (fsub q p) (fdiv x (fint 60)))) v /\ Rabs (v - (a + (b - a) * g)) <= 100 * uu).
    { intros x w g X W G. assert (E1 : Rabs (w / 60) <= 1) by (apply ab; lra). pose proof (fdiv_f _ _ _ _ X C60 ltac:(lra) ltac:(apply small; lra)) as E. pose proof (re1 _ E1) as E2. set (e := rnd (w / 60)) in *. apply ab in E2.
      assert (E3 : 0 <= e <= 1) by (unfold e; split; [apply rnd_nonneg|apply (rnd_le_int _ 1); [reflexivity|]]; lra).
      assert (F1 : Rabs (d * e) <= 8) by (apply ab; split; nra). pose proof (fmul_f _ _ _ _ D E ltac:(apply small; lra)) as F. pose proof (re 3 8 ltac:(lia) ltac:(lia) eq_refl _ F1) as F2. set (f := rnd (d * e)) in *. apply ab in F2, F1.
      assert (H1 : Rabs (a + f) <= 16) by (apply ab; lra). pose proof (fadd_f _ _ _ _ P F ltac:(apply small; lra)) as H. pose proof (re 4 16 ltac:(lia) ltac:(lia) eq_refl _ H1) as H2. set (h := rnd (a + f)) in *. apply ab in H2.
      exists h. split; [exact H|]. apply ab in G. apply ab. replace (h - (a + (b - a) * g)) with ((h - (a + f)) + (f - d * e) + (d - (b - a)) * e + (b - a) * ((e - w / 60) - (g - w / 60))) by ring.
      assert (G1 : Rabs ((d - (b - a)) * e) <= 4 * uu) by (apply ab; split; nra). assert (G2 : Rabs ((b - a) * ((e - w / 60) - (g - w / 60))) <= 36 * uu).
      { rewrite Rabs_mult. assert (Rabs ((e - w / 60) - (g - w / 60)) <= 9 * uu) by (apply ab; lra). pose proof (Rabs_pos ((e - w / 60) - (g - w / 60))). nra. }
      apply ab in G1, G2. lra. }
    assert (Flat : forall g, Rabs (g - 1) <= 8 * uu -> Rabs (b - (a + (b - a) * g)) <= 100 * uu).
    { intros g G. replace (b - (a + (b - a) * g)) with (- ((b - a) * (g - 1))) by ring. rewrite Rabs_Ropp, Rabs_mult. pose proof (Rabs_pos (g - 1)). nra. }
    assert (Down : forall x w g, is_f x w -> 180 <= w <= 240 -> Rabs (g - (240 - w) / 60) <= 8 * uu -> exists v, is_f (fadd p (fdiv (fmul (fsub q p) (fsub (fint 240) x)) (fint 60))) v /\ Rabs (v - (a + (b - a) * g)) <= 100 * uu).
    { intros x w g X W G. assert (E1 : Rabs (240 - w) <= 64) by (apply ab; lra). pose proof (fsub_f _ _ _ _ C240 X ltac:(apply small; lra)) as E. pose proof (re 6 64 ltac:(lia) ltac:(lia) eq_refl _ E1) as E2. set (e := rnd (240 - w)) in *. apply ab in E2.
      assert (E3 : 0 <= e <= 60) by (unfold e; split; [apply rnd_nonneg|apply (rnd_le_int _ 60); [reflexivity|]]; lra).
      assert (F1 : Rabs (d * e) <= 256) by (apply ab; split; nra). pose proof (fmul_f _ _ _ _ D E ltac:(apply small; lra)) as F. pose proof (re256 _ F1) as F2. set (f := rnd (d * e)) in *. apply ab in F2, F1.
      assert (J1 : Rabs (f / 60) <= 8) by (apply ab; lra). pose proof (fdiv_f _ _ _ _ F C60 ltac:(lra) ltac:(apply small; lra)) as J. pose proof (re 3 8 ltac:(lia) ltac:(lia) eq_refl _ J1) as J2. set (j := rnd (f / 60)) in *. apply ab in J2, J1.
      assert (H1 : Rabs (a + j) <= 16) by (apply ab; lra). pose proof (fadd_f _ _ _ _ P J ltac:(apply small; lra)) as H. pose proof (re 4 16 ltac:(lia) ltac:(lia) eq_refl _ H1) as H2. set (h := rnd (a + j)) in *. apply ab in H2.
      exists h. split; [exact H|]. apply ab in G. apply ab. replace (h - (a + (b - a) * g)) with ((h - (a + j)) + (j - f / 60) + (f - d * e) / 60 + (d - (b - a)) * e / 60 + (b - a) * ((e - (240 - w)) / 60 - (g - (240 - w) / 60))) by field.
      assert (G1 : Rabs ((d - (b - a)) * e / 60) <= 4 * uu) by (apply ab; split; nra). assert (G2 : Rabs ((b - a) * ((e - (240 - w)) / 60 - (g - (240 - w) / 60))) <= 40 * uu).
      { rewrite Rabs_mult. assert (Rabs ((e - (240 - w)) / 60 - (g - (240 - w) / 60)) <= 10 * uu) by (apply ab; lra). pose proof (Rabs_pos ((e - (240 - w)) / 60 - (g - (240 - w) / 60))). nra. }
      apply ab in G1, G2. lra. }
    destruct (Rltb_spec 360 c) as [T1|T1].
    + assert (S : Rabs (c - 360) <= 128) by bnd. pose proof (fsub_f _ _ _ _ T C360 ltac:(apply small; lra)) as A. pose proof (re 7 128 ltac:(lia) ltac:(lia) eq_refl _ S) as A2. set (w := rnd (c - 360)) in *. apply ab in A2.
      assert (W : 0 <= w <= 120) by (unfold w; split; [apply rnd_nonneg|apply (rnd_le_int _ 120); [reflexivity|]]; lra).
      rewrite (Bltb_f _ _ _ _ A C60), (Bltb_f _ _ _ _ A C180). destruct (Rltb_spec w 60).
      * apply (Up _ w); [exact A|lra|]. apply ab. rm; lra.
      * destruct (Rltb_spec w 180); [|lra]. exists b. split; [exact Q|]. apply Flat. apply ab. rm; lra.
    + rewrite (Bltb_f _ _ _ _ T C60), (Bltb_f _ _ _ _ T C180), (Bltb_f _ _ _ _ T C240). destruct (Rltb_spec c 60); [|destruct (Rltb_spec c 180); [|destruct (Rltb_spec c 240)]].
      * apply (Up _ c); [exact T|lra|]. apply ab. rm; lra.
      * exists b. split; [exact Q|]. apply Flat. apply ab. rm; lra.
      * apply (Down _ c); [exact T|lra|]. apply ab. rm; lra.
      * exists a. split; [exact P|]. replace (ramp c) with 0 by (rm; lra). apply ab. lra.
Qed.

(** The channels of the real formula *)
Definition hsl_q (s l : R) : R := if Rltb l (1 / 2) then l * (1 + s) else l + s - l * s.
Lemma css_hue h s l : 0 <= h <= 360 -> 0 <= s <= 1 -> 0 <= l <= 1 ->
  hueToRGB (2 * l - hsl_q s l) (hsl_q s l) (h + 120) = css_hsl h s l 0 /\ hueToRGB (2 * l - hsl_q s l) (hsl_q s l) h = css_hsl h s l 8 /\ hueToRGB (2 * l - hsl_q s l) (hsl_q s l) (h - 120) = css_hsl h s l 4.
Proof.
  intros Hh Hs Hl. pose proof (pq_css s l (proj1 Hs) Hl) as [Eq Ep]. fold (hsl_q s l) in Eq, Ep. rewrite Ep, Eq. rewrite !hue_css by lra.
  assert (R : rmod (8 + (h + 120) / 30) 12 = rmod (0 + h / 30) 12).
  { unfold rmod. replace ((8 + (h + 120) / 30) / 12) with ((0 + h / 30) / 12 + 1) by field. rewrite (MvtProj_Proofs.Rfloor_unique ((0 + h / 30) / 12 + 1) (TileR_Model.Rfloor ((0 + h / 30) / 12) + 1)).
    - rewrite plus_IZR. field.
    - pose proof (proj1 (TileR_Proofs.Rfloor_spec ((0 + h / 30) / 12) _) eq_refl). rewrite plus_IZR. lra. }
  rewrite R. replace (8 + (h - 120) / 30) with (4 + h / 30) by field. repeat split; reflexivity.
Qed.
Lemma hsl_q_range s l : 0 <= s <= 1 -> 0 <= l <= 1 -> 0 <= 2 * l - hsl_q s l /\ 2 * l - hsl_q s l <= hsl_q s l /\ hsl_q s l <= 1.
Proof. intros Hs Hl. unfold hsl_q. destruct (Rltb_spec l (1 / 2)); repeat split; nra. Qed.

(** HSLColor.RGBA in binary64: within half a step and a little of the exact channels *)
Lemma rgba64_near h s l x y z a : is_f h x -> is_f s y -> is_f l z -> 0 <= x <= 360 -> 0 <= y <= 1 -> 0 <= z <= 1 -> (0 <= a <= 255)%Z ->
  exists k0 k1 k2, hslRGBA64 h s l a = (257 * k0, 257 * k1, 257 * k2, 257 * a)%Z /\
    (0 <= k0 <= 255)%Z /\ (0 <= k1 <= 255)%Z /\ (0 <= k2 <= 255)%Z /\
    Rabs (IZR k0 - 255 * css_hsl x y z 0) <= 1 / 2 + / 10000000000 /\ Rabs (IZR k1 - 255 * css_hsl x y z 8) <= 1 / 2 + / 10000000000 /\ Rabs (IZR k2 - 255 * css_hsl x y z 4) <= 1 / 2 + / 10000000000.
Proof.
  intros H S L Hx Hy Hz Ha. pose proof uu_pos as U0. assert (U1 : uu < / 1000000000000000) by (unfold uu; lra). unfold hslRGBA64. cbv zeta. rewrite (proj2 (byte_257 a Ha)).
  pose proof (f_int 0 ltac:(lia)) as C0. pose proof (f_int 1 ltac:(lia)) as C1. pose proof (f_int 2 ltac:(lia)) as C2. pose proof (f_int 120 ltac:(lia)) as C120.
  rewrite (Beqb_f _ _ _ _ S C0). destruct (Reqb_spec y 0) as [->|N].
  { destruct (zto64 _ _ L ltac:(lra)) as (k & K1 & K2 & K3). exists k, k, k. rewrite K2. split; [reflexivity|]. do 3 (split; [exact K1|]). assert (E : forall n, css_hsl x 0 z n = z) by (intros; unfold css_hsl; cbv zeta; ring). rewrite !E. apply ab in K3. repeat split; apply ab; lra. }
  rewrite (Bltb_f _ _ _ _ L half_f). set (q64 := if Rltb z (1 / 2) then fmul l (fadd (fint 1) s) else fsub (fadd l s) (fmul l s)).
  assert (Q : exists q, is_f q64 q /\ Rabs (q - hsl_q y z) <= 10 * uu).
  { unfold q64, hsl_q. destruct (Rltb_spec z (1 / 2)).
    - assert (E1 : Rabs (1 + y) <= 2) by (apply ab; lra). pose proof (fadd_f _ _ _ _ C1 S ltac:(apply small; lra)) as E. pose proof (re2 _ E1) as E2. set (e := rnd (1 + y)) in *. apply ab in E2.
      assert (F1 : Rabs (z * e) <= 2) by (apply ab; split; nra). pose proof (fmul_f _ _ _ _ L E ltac:(apply small; lra)) as F. pose proof (re2 _ F1) as F2. apply ab in F2. eexists. split; [exact F|]. apply ab. split; nra.
    - assert (E1 : Rabs (z + y) <= 2) by (apply ab; lra). pose proof (fadd_f _ _ _ _ L S ltac:(apply small; lra)) as E. pose proof (re2 _ E1) as E2. set (e := rnd (z + y)) in *. apply ab in E2.
      assert (F1 : Rabs (z * y) <= 1) by (apply ab; split; nra). pose proof (fmul_f _ _ _ _ L S ltac:(apply small; lra)) as F. pose proof (re1 _ F1) as F2. set (f := rnd (z * y)) in *. apply ab in F2, F1.
      assert (G1 : Rabs (e - f) <= 4) by (apply ab; lra). pose proof (fsub_f _ _ _ _ E F ltac:(apply small; lra)) as G. pose proof (re4 _ G1) as G2. apply ab in G2. eexists. split; [exact G|]. apply ab. lra. }
  destruct Q as (q & Q1 & Q2). pose proof (hsl_q_range y z Hy Hz) as (R1 & R2 & R3). set (qr := hsl_q y z) in *. apply ab in Q2.
  assert (P : exists p, is_f (fsub (fmul (fint 2) l) q64) p /\ Rabs (p - (2 * z - qr)) <= 20 * uu).
  { assert (E1 : Rabs (2 * z) <= 2) by (apply ab; lra). pose proof (fmul_f _ _ _ _ C2 L ltac:(apply small; lra)) as E. pose proof (re2 _ E1) as E2. set (e := rnd (2 * z)) in *. apply ab in E2.
    assert (G1 : Rabs (e - q) <= 4) by (apply ab; lra). pose proof (fsub_f _ _ _ _ E Q1 ltac:(apply small; lra)) as G. pose proof (re4 _ G1) as G2. apply ab in G2. eexists. split; [exact G|]. apply ab. lra. }
  destruct P as (p & P1 & P2). set (p64 := fsub (fmul (fint 2) l) q64) in *. apply ab in P2.
  assert (Ch : forall t u v, is_f t u -> -120 <= u <= 480 -> -120 <= v <= 480 -> Rabs (u - v) <= 1024 * uu ->
    exists k, (0 <= k <= 255)%Z /\ zeroToOne64 (hueToRGB64 p64 q64 t) = (257 * k)%Z /\ Rabs (IZR k - 255 * hueToRGB (2 * z - qr) qr v) <= 1 / 2 + / 10000000000).
  { intros t u v T Hu Hv Huv. destruct (hue64_near _ _ _ _ _ _ P1 Q1 T ltac:(lra) ltac:(lra) Hu) as (w & W1 & W2). apply ab in W2.
    pose proof (hue_lip p q u (2 * z - qr) qr v (20 * uu) (1024 * uu) Hu Hv ltac:(apply ab; lra) ltac:(apply ab; lra) Huv ltac:(apply ab; lra)) as W3. apply ab in W3.
    pose proof (hueToRGB_mid (2 * z - qr) qr v ltac:(lra) Hv) as M. destruct (zto64 _ _ W1 ltac:(lra)) as (k & K1 & K2 & K3). apply ab in K3. exists k. split; [exact K1|]. split; [exact K2|]. apply ab. lra. }
  destruct (css_hue x y z Hx Hy Hz) as (S0 & S8 & S4). fold qr in S0, S8, S4. rewrite <- S0, <- S8, <- S4.
  assert (T1 : Rabs (x + 120) <= 1024) by (apply ab; lra). pose proof (fadd_f _ _ _ _ H C120 ltac:(apply small; lra)) as T2. pose proof (re1024 _ T1) as T3.
  assert (V1 : Rabs (x - 120) <= 1024) by (apply ab; lra). pose proof (fsub_f _ _ _ _ H C120 ltac:(apply small; lra)) as V2. pose proof (re1024 _ V1) as V3.
  assert (B1 : -120 <= rnd (x + 120) <= 480) by (split; [apply (rnd_ge_int _ (-120))|apply (rnd_le_int _ 480)]; try reflexivity; lra).
  assert (B2 : -120 <= rnd (x - 120) <= 480) by (split; [apply (rnd_ge_int _ (-120))|apply (rnd_le_int _ 480)]; try reflexivity; lra).
  destruct (Ch _ _ (x + 120) T2 B1 ltac:(lra) T3) as (k0 & K01 & K02 & K03). destruct (Ch _ _ x H ltac:(lra) ltac:(lra)) as (k1 & K11 & K12 & K13); [apply ab; lra|]. destruct (Ch _ _ (x - 120) V2 B2 ltac:(lra) V3) as (k2 & K21 & K22 & K23).
  exists k0, k1, k2. rewrite K02, K12, K22. auto 10.
Qed.
