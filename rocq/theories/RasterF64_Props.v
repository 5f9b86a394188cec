(** Elevation packing in binary64. *)
From Coq Require Import ZArith Reals Lia Lra Bool List.
From Flocq Require Import Core Mult_error BinarySingleNaN.
From Verif Require Import GoBase TileF64_Model TileF64_Proofs F64 Raster_Model Raster_Proofs Raster_Props RasterF64_Model.
Import ListNotations.
Open Scope R_scope.
#[local] Existing Instance vexp.

(** 24-bit number of a pixel *)
Definition num24 (v : px) : Z := (pR v * 65536 + pG v * 256 + pB v)%Z.

Lemma bpn n m : (0 < n)%Z -> (2 ^ n = m)%Z -> bpow radix2 (- n) = 1 / IZR m.
Proof. intros H E. rewrite (bpm n m) by auto. unfold Rdiv. ring. Qed.
Lemma const_f m e k q : (Z.pos m < 2 ^ 53)%Z -> e = (- k)%Z -> (0 < k)%Z -> (2 ^ k = q)%Z -> forall H : SpecFloat.bounded 53 1024 m e = true,
  is_f (@B754_finite 53 1024 false m e H) (IZR (Z.pos m) / IZR q).
Proof.
  intros Hm -> Hk Hq H. split; [reflexivity|]. unfold B2R, F2R. cbn [Fnum Fexp cond_Zopp]. rewrite (bpm k q) by auto. reflexivity.
Qed.
Definition T : R := 7205759403792794.
Lemma c6553_6_f : is_f c6553_6 (T / 1099511627776). Proof. apply const_f with (k := 40%Z); try lia; reflexivity. Qed.
Lemma c25_6_f : is_f c25_6 (T / 281474976710656). Proof. apply const_f with (k := 48%Z); try lia; reflexivity. Qed.
Lemma c0_1_f : is_f c0_1 (T / 72057594037927936). Proof. apply const_f with (k := 56%Z); try lia; reflexivity. Qed.
Lemma c10000_f : is_f c10000 10000.
Proof. replace 10000 with (5497558138880000 / 549755813888) by lra. apply const_f with (k := 39%Z); try lia; reflexivity. Qed.
Lemma c256_f : is_f c256 256.
Proof. replace 256 with (4503599627370496 / 17592186044416) by lra. apply const_f with (k := 44%Z); try lia; reflexivity. Qed.

Lemma mod256 : bpow radix2 (-8) = 1 / 256. Proof. apply (bpn 8 256); [lia|reflexivity]. Qed.
Lemma p100 x : Rabs x <= 100000000 -> Rabs x <= bpow radix2 100.
Proof. intros H. eapply Rle_trans; [exact H|]. apply Rle_trans with (bpow radix2 40); [rewrite (bp 40 1099511627776) by (try lia; reflexivity); lra|apply bpow_le; lia]. Qed.
Lemma abs_le x b : - b <= x <= b -> Rabs x <= b.
Proof. intros. apply Rabs_le. lra. Qed.

Lemma IZR_mod_frac Q : IZR Q / 256 - IZR (Q / 256) = IZR (Q mod 256) * bpow radix2 (-8).
Proof. rewrite mod256. rewrite (Zmod_eq Q 256) by lia. rewrite minus_IZR, mult_IZR. lra. Qed.
Lemma floor256 Q : Zfloor (IZR Q / 256) = (Q / 256)%Z.
Proof.
  apply Zfloor_imp. pose proof (Z.div_mod Q 256 ltac:(lia)) as D. pose proof (Z.mod_pos_bound Q 256 ltac:(lia)) as [M1 M2].
  apply IZR_le in M1. apply IZR_lt in M2. rewrite D at 2 3. rewrite !plus_IZR, mult_IZR. lra.
Qed.

(** One byte of the packed number, from an exact whole number *)
Lemma digit_ok q Q : is_f q (IZR Q) -> (0 <= Q < 2 ^ 24)%Z ->
  is_f (ffloor (fdiv q c256)) (IZR (Q / 256)) /\ fbyte (fmul (fsub (fdiv q c256) (ffloor (fdiv q c256))) c256) = (Q mod 256)%Z.
Proof.
  intros Hq HQ. assert (B : 0 <= IZR Q <= 16777216) by (split; apply IZR_le; lia).
  assert (X : is_f (fdiv q c256) (IZR Q / 256)).
  { replace (IZR Q / 256) with (rnd (IZR Q / 256)); [apply fdiv_f; auto using c256_f; try lra; apply p100, abs_le; lra|].
    apply rnd_id. replace (IZR Q / 256) with (IZR Q * bpow radix2 (-8)) by (rewrite mod256; lra). apply fmt_F2R; lia. }
  assert (Y : is_f (ffloor (fdiv q c256)) (IZR (Q / 256))) by (rewrite <- floor256; apply ffloor_f; auto).
  split; auto. pose proof (Z.mod_pos_bound Q 256 ltac:(lia)) as M. assert (MR : 0 <= IZR (Q mod 256) <= 255) by (split; apply IZR_le; lia).
  assert (S : is_f (fsub (fdiv q c256) (ffloor (fdiv q c256))) (IZR (Q mod 256) * bpow radix2 (-8))).
  { rewrite <- IZR_mod_frac. replace (IZR Q / 256 - IZR (Q / 256)) with (rnd (IZR Q / 256 - IZR (Q / 256))).
    - apply fsub_f; auto. rewrite IZR_mod_frac, mod256. apply p100, abs_le. lra.
    - apply rnd_id. rewrite IZR_mod_frac. apply fmt_F2R; lia. }
  assert (P : is_f (fmul (fsub (fdiv q c256) (ffloor (fdiv q c256))) c256) (IZR (Q mod 256))).
  { replace (IZR (Q mod 256)) with (rnd (IZR (Q mod 256) * bpow radix2 (-8) * 256)).
    - apply fmul_f; auto using c256_f. rewrite mod256. apply p100, abs_le. lra.
    - replace (IZR (Q mod 256) * bpow radix2 (-8) * 256) with (IZR (Q mod 256)) by (rewrite mod256; lra). apply rnd_id. apply fmt_int. lia. }
  rewrite (fbyte_f _ _ P) by lra. rewrite Zfloor_IZR. apply Z.mod_small. lia.
Qed.

(** ... and the low byte, from any value *)
Lemma low_ok val V : is_f val V -> 0 <= V < 16777216 ->
  is_f (ffloor (fdiv val c256)) (IZR (Zfloor V / 256)) /\ fbyte (fmul (fsub (fdiv val c256) (ffloor (fdiv val c256))) c256) = (Zfloor V mod 256)%Z.
Proof.
  intros Hv HV. pose proof (Zfloor_lb V) as L1. pose proof (Zfloor_ub V) as L2. set (n := Zfloor V) in *.
  assert (N0 : (0 <= n)%Z) by (apply Zfloor_lub; cbn; lra).
  assert (X : is_f (fdiv val c256) (rnd (V / 256))) by (apply fdiv_f; auto using c256_f; try lra; apply p100, abs_le; lra).
  assert (B0 : 0 <= rnd (V / 256) <= 65536). { apply rnd_between; [apply fmt_0|apply fmt_int; lia|lra]. }
  set (x := rnd (V / 256)) in *.
  assert (Hfx : fmt x) by (eapply is_f_fmt; eauto).
  assert (K : Zfloor x = (n / 256)%Z /\ 0 <= x - IZR (n / 256) /\ Zfloor (256 * (x - IZR (n / 256))) = (n mod 256)%Z /\ fmt (256 * (x - IZR (n / 256))) /\ x - IZR (n / 256) <= 1).
  { destruct (Rlt_dec V (bpow radix2 (-1000))) as [Small|Big].
    - assert (S1 : bpow radix2 (-1000) <= 1 / 256) by (rewrite <- mod256; apply bpow_le; lia).
      assert (n = 0)%Z as ->. { unfold n. apply Zfloor_imp. cbn. lra. }
      assert (Xs : 0 <= x <= bpow radix2 (-1000)). { apply rnd_between; [apply fmt_0|apply generic_format_bpow; unfold FLT_exp; lia|lra]. }
      assert (S2 : bpow radix2 (-1000) * 256 <= 1 / 256). { replace 256 with (bpow radix2 8) by reflexivity. rewrite <- bpow_plus. replace (1 / bpow radix2 8) with (bpow radix2 (-8)) by (rewrite mod256; reflexivity). apply bpow_le. lia. }
      change (0 / 256)%Z with 0%Z. change (0 mod 256)%Z with 0%Z. rewrite Rminus_0_r. repeat split; try lra.
      + apply Zfloor_imp. cbn. lra.
      + apply Zfloor_imp. cbn. lra.
      + destruct (Req_dec x 0) as [->|Nx]; [rewrite Rmult_0_r; apply generic_format_0|].
        replace (256 * x) with (x * bpow radix2 8) by (change (bpow radix2 8) with 256; ring). apply mult_bpow_pos_exact_FLT; auto; lia.
    - assert (E : x = V / 256).
      { unfold x. apply rnd_id. replace (V / 256) with (V * bpow radix2 (-8)) by (rewrite mod256; lra). apply mult_bpow_exact_FLT; [eapply is_f_fmt; eauto|].
        assert (-999 <= mag radix2 V)%Z; [|lia]. apply mag_ge_bpow. rewrite Rabs_right by lra. change (-999 - 1)%Z with (-1000)%Z. lra. }
      assert (FX : Zfloor x = (n / 256)%Z).
      { rewrite E. apply Zfloor_imp. pose proof (Z.div_mod n 256 ltac:(lia)) as D. pose proof (Z.mod_pos_bound n 256 ltac:(lia)) as [M1 M2].
        apply IZR_le in M1. assert (M2' : (n mod 256 <= 255)%Z) by lia. apply IZR_le in M2'. rewrite D in L1, L2. rewrite plus_IZR, mult_IZR in L1, L2. rewrite plus_IZR. lra. }
      assert (FR : fmt (x - IZR (n / 256))) by (rewrite <- FX; apply fmt_frac; auto; lra).
      pose proof (Zfloor_lb x) as X1. pose proof (Zfloor_ub x) as X2. rewrite FX in X1, X2.
      split; auto. split; [lra|]. split.
      + apply Zfloor_imp. rewrite E. pose proof (Z.div_mod n 256 ltac:(lia)) as D. rewrite plus_IZR. rewrite D in L1, L2. rewrite plus_IZR, mult_IZR in L1, L2. lra.
      + split; [|lra]. replace (256 * (x - IZR (n / 256))) with ((x - IZR (n / 256)) * bpow radix2 8) by (change (bpow radix2 8) with 256; ring). apply mult_bpow_pos_exact_FLT; auto; lia. }
  destruct K as (K1 & K2 & K3 & K4 & K5).
  assert (Y : is_f (ffloor (fdiv val c256)) (IZR (n / 256))) by (rewrite <- K1; apply ffloor_f; auto).
  split; auto.
  assert (S : is_f (fsub (fdiv val c256) (ffloor (fdiv val c256))) (x - IZR (n / 256))).
  { replace (x - IZR (n / 256)) with (rnd (x - IZR (n / 256))); [apply fsub_f; auto; apply p100, abs_le; lra|]. apply rnd_id. rewrite <- K1. apply fmt_frac; auto. lra. }
  assert (P : is_f (fmul (fsub (fdiv val c256) (ffloor (fdiv val c256))) c256) (256 * (x - IZR (n / 256)))).
  { replace (256 * (x - IZR (n / 256))) with (rnd ((x - IZR (n / 256)) * 256)).
    - apply fmul_f; auto using c256_f. apply p100, abs_le. lra.
    - rewrite Rmult_comm. apply rnd_id. auto. }
  rewrite (fbyte_f _ _ P) by lra. rewrite K3. apply Z.mod_small. apply Z.mod_pos_bound. lia.
Qed.

(** The packed number is the floor of the scaled height as computed. *)
Lemma Pack64_digits h V : is_f (fdiv (fadd h c10000) c0_1) V -> 0 <= V < 16777216 ->
  Pack64 h = mkPx (Zfloor V / 65536 mod 256) (Zfloor V / 256 mod 256) (Zfloor V mod 256) 255 /\ num24 (Pack64 h) = Zfloor V.
Proof.
  intros Hv HV. assert (N : (0 <= Zfloor V < 2 ^ 24)%Z). { split; [apply Zfloor_lub; cbn; lra|]. apply lt_IZR. apply Rle_lt_trans with V; [apply Zfloor_lb|]. change (2 ^ 24)%Z with 16777216%Z. lra. }
  assert (E : Pack64 h = mkPx (Zfloor V / 65536 mod 256) (Zfloor V / 256 mod 256) (Zfloor V mod 256) 255).
  { unfold Pack64. cbv zeta. set (val := fdiv (fadd h c10000) c0_1) in *. destruct (low_ok val V Hv HV) as [Q L]. rewrite L. clear L.
    destruct (digit_ok _ _ Q) as [Q2 G]; [lia|]. rewrite G. clear G. destruct (digit_ok _ _ Q2) as [_ G]; [lia|]. rewrite G.
    rewrite Z.div_div by lia. change (256 * 256)%Z with 65536%Z. reflexivity. }
  split; auto. rewrite E. unfold num24. cbn [pR pG pB]. apply digits24. auto.
Qed.

Lemma err_between a x : (-1000 <= a)%Z -> - bpow radix2 a <= x <= bpow radix2 a -> x - bpow radix2 (a - 53) <= rnd x <= x + bpow radix2 (a - 53).
Proof. intros Ha Hx. pose proof (rnd_err a x Ha (abs_le _ _ Hx)) as E. unfold Rabs in E. destruct (Rcase_abs _); lra. Qed.

(** The scaled height is computed to within 2^-27. *)
Lemma val_ok h H : is_f h H -> -10000 <= H <= 26683545 / 16 ->
  exists V, is_f (fdiv (fadd h c10000) c0_1) V /\ 0 <= V < 16777216 /\ 10 * (H + 10000) - / 134217728 <= V <= 10 * (H + 10000) + / 134217728.
Proof.
  intros Hh HB. assert (S : is_f (fadd h c10000) (rnd (H + 10000))) by (apply fadd_f; auto using c10000_f; apply p100, abs_le; lra).
  assert (S1 : 0 <= rnd (H + 10000) <= 26843545 / 16).
  { apply rnd_between; [apply fmt_0| |lra]. replace (26843545 / 16) with (IZR 26843545 * bpow radix2 (-4)); [apply fmt_F2R; lia|]. change (-4)%Z with (- (4))%Z; rewrite (bpn 4 16) by (try lia; reflexivity); lra. }
  assert (S2 : H + 10000 - / 4294967296 <= rnd (H + 10000) <= H + 10000 + / 4294967296).
  { pose proof (err_between 21 (H + 10000) ltac:(lia)) as E. rewrite (bp 21 2097152) in E by (try lia; reflexivity). change (21 - 53)%Z with (- (32))%Z in E. rewrite (bpm 32 4294967296) in E by (try lia; reflexivity). apply E. lra. }
  set (s := rnd (H + 10000)) in *. clearbody s.
  assert (D : s / (T / 72057594037927936) = s * (72057594037927936 / T)) by (unfold T; field).
  assert (DB : 0 <= s / (T / 72057594037927936) <= 67108863 / 4). { rewrite D. unfold T. lra. }
  exists (rnd (s / (T / 72057594037927936))). split; [apply fdiv_f; auto using c0_1_f; [unfold T; lra|]; apply p100, abs_le; lra|].
  split.
  - assert (0 <= rnd (s / (T / 72057594037927936)) <= 67108863 / 4); [|lra]. apply rnd_between; [apply fmt_0| |auto].
    replace (67108863 / 4) with (IZR 67108863 * bpow radix2 (-2)); [apply fmt_F2R; lia|]. change (-2)%Z with (- (2))%Z; rewrite (bpn 2 4) by (try lia; reflexivity); lra.
  - pose proof (err_between 24 (s / (T / 72057594037927936)) ltac:(lia)) as E. rewrite (bp 24 16777216) in E by (try lia; reflexivity). change (24 - 53)%Z with (- (29))%Z in E. rewrite (bpm 29 536870912) in E by (try lia; reflexivity).
    specialize (E ltac:(lra)). rewrite D in *. unfold T in *. lra.
Qed.

(** Packing any double in the Mapbox range loses at most a tenth of a metre plus a rounding error below 1e-9. *)
Theorem C89_pack_binary64 : forall h, is_finite h = true -> -10000 <= B2R h <= 1667721 + 1 / 2 ->
  let v := Pack64 h in
  byte_px v /\ pA v = 255%Z /\ decode 0 v - / 10 ^ 9 <= B2R h < decode 0 v + 1 / 10 + / 10 ^ 9.
Proof.
  intros h Fh Hh v. destruct (val_ok h (B2R h)) as (V & HV & BV & EV); [split; auto|lra|]. destruct (Pack64_digits h V HV BV) as [E N]. fold v in E, N.
  pose proof (Zfloor_lb V) as L1. pose proof (Zfloor_ub V) as L2. rewrite <- N in L1, L2.
  split; [rewrite E; unfold byte_px, is_byte; cbn [pR pG pB]; repeat split; apply Z.mod_pos_bound; lia|]. split; [rewrite E; reflexivity|].
  rewrite decode_mapbox. fold (num24 v). replace (10 ^ 9) with 1000000000 by lra. lra.
Qed.
Print Assumptions C89_pack_binary64.

(** Reading a pixel gives its elevation to within 2^-29. *)
Lemma get_ok v : byte_px v -> exists G, is_f (Get64 v) G /\ -10000 <= G /\ decode 0 v - / 536870912 <= G <= decode 0 v + / 536870912.
Proof.
  intros (Hr & Hg & Hb). unfold is_byte in *. destruct v as [r g b a]. cbn [pR pG pB] in *. unfold Get64. cbn [pR pG pB].
  assert (Fr := fint_f r ltac:(lia)). assert (Fg := fint_f g ltac:(lia)). assert (Fb := fint_f b ltac:(lia)).
  assert (Br : 0 <= IZR r <= 255) by (split; apply IZR_le; lia). assert (Bg : 0 <= IZR g <= 255) by (split; apply IZR_le; lia). assert (Bb : 0 <= IZR b <= 255) by (split; apply IZR_le; lia).
  assert (M1 : is_f (fmul (fint r) c6553_6) (rnd (IZR r * (T / 1099511627776)))) by (apply fmul_f; auto using c6553_6_f; apply p100, abs_le; unfold T; lra).
  assert (M2 : is_f (fmul (fint g) c25_6) (rnd (IZR g * (T / 281474976710656)))) by (apply fmul_f; auto using c25_6_f; apply p100, abs_le; unfold T; lra).
  assert (M3 : is_f (fmul (fint b) c0_1) (rnd (IZR b * (T / 72057594037927936)))) by (apply fmul_f; auto using c0_1_f; apply p100, abs_le; unfold T; lra).
  assert (R : forall x, 0 <= x <= 2097152 -> 0 <= rnd x <= 2097152 /\ x - / 4294967296 <= rnd x <= x + / 4294967296).
  { intros x Hx. split; [apply rnd_between; [apply fmt_0|apply fmt_int; lia|auto]|]. pose proof (err_between 21 x ltac:(lia)) as E. rewrite (bp 21 2097152) in E by (try lia; reflexivity). change (21 - 53)%Z with (- (32))%Z in E. rewrite (bpm 32 4294967296) in E by (try lia; reflexivity). apply E. lra. }
  assert (R' : forall x, 0 <= x <= 8192 -> 0 <= rnd x <= 8192 /\ x - / 1099511627776 <= rnd x <= x + / 1099511627776).
  { intros x Hx. split; [apply rnd_between; [apply fmt_0|apply fmt_int; lia|auto]|]. pose proof (err_between 13 x ltac:(lia)) as E. rewrite (bp 13 8192) in E by (try lia; reflexivity). change (13 - 53)%Z with (- (40))%Z in E. rewrite (bpm 40 1099511627776) in E by (try lia; reflexivity). apply E. lra. }
  destruct (R (IZR r * (T / 1099511627776))) as [A1 A2]; [unfold T; lra|]. destruct (R' (IZR g * (T / 281474976710656))) as [B1 B2]; [unfold T; lra|]. destruct (R' (IZR b * (T / 72057594037927936))) as [C1 C2]; [unfold T; lra|].
  set (x1 := rnd (IZR r * (T / 1099511627776))) in *. set (x2 := rnd (IZR g * (T / 281474976710656))) in *. set (x3 := rnd (IZR b * (T / 72057594037927936))) in *. clearbody x1 x2 x3.
  assert (U1 : x1 <= 1671170) by (unfold T in *; lra). assert (U2 : x2 <= 6529) by (unfold T in *; lra). assert (U3 : x3 <= 26) by (unfold T in *; lra).
  assert (S1 : is_f (fadd (fmul (fint r) c6553_6) (fmul (fint g) c25_6)) (rnd (x1 + x2))) by (apply fadd_f; auto; apply p100, abs_le; lra).
  destruct (R (x1 + x2)) as [D1 D2]; [lra|]. set (x4 := rnd (x1 + x2)) in *. clearbody x4.
  assert (S2 : is_f (fadd (fadd (fmul (fint r) c6553_6) (fmul (fint g) c25_6)) (fmul (fint b) c0_1)) (rnd (x4 + x3))) by (apply fadd_f; auto; apply p100, abs_le; lra).
  destruct (R (x4 + x3)) as [E1 E2]; [lra|]. set (x5 := rnd (x4 + x3)) in *. clearbody x5.
  exists (rnd (x5 - 10000)). split; [apply fsub_f; auto using c10000_f; apply p100, abs_le; lra|]. split.
  - assert (-10000 <= rnd (x5 - 10000) <= 2097152); [|lra]. apply rnd_between; [replace (-10000) with (IZR (-10000)) by reflexivity; apply fmt_int; lia|apply fmt_int; lia|lra].
  - pose proof (err_between 21 (x5 - 10000) ltac:(lia)) as F. rewrite (bp 21 2097152) in F by (try lia; reflexivity). change (21 - 53)%Z with (- (32))%Z in F. rewrite (bpm 32 4294967296) in F by (try lia; reflexivity). specialize (F ltac:(lra)).
    rewrite decode_mapbox. cbn [pR pG pB]. rewrite !plus_IZR, !mult_IZR. unfold T in *. lra.
Qed.

Theorem C89_get_binary64 : forall v, byte_px v -> is_finite (Get64 v) = true /\ Rabs (B2R (Get64 v) - decode 0 v) <= / 10 ^ 8.
Proof.
  intros v H. destruct (get_ok v H) as (G & [F E] & _ & B). split; auto. rewrite E. apply Rabs_le. replace (10 ^ 8) with 100000000 by lra. lra.
Qed.
Print Assumptions C89_get_binary64.

(** Packing what was read gives the same number or one less, and both happen. *)
Theorem C89_repack_drift : forall v, byte_px v -> num24 (Pack64 (Get64 v)) = num24 v \/ num24 (Pack64 (Get64 v)) = (num24 v - 1)%Z.
Proof.
  intros v H. destruct (get_ok v H) as (G & HG & LG & BG). rewrite decode_mapbox in BG. fold (num24 v) in BG.
  assert (N : (0 <= num24 v <= 16777215)%Z). { destruct H as (Hr & Hg & Hb). unfold is_byte, num24 in *. lia. }
  assert (NR : 0 <= IZR (num24 v) <= 16777215) by (split; apply IZR_le; lia).
  destruct (val_ok (Get64 v) G HG) as (V & HV & BV & EV); [lra|]. destruct (Pack64_digits _ V HV BV) as [_ E]. rewrite E.
  destruct (Rle_dec (IZR (num24 v)) V) as [C|C].
  - left. apply Zfloor_imp. rewrite plus_IZR. lra.
  - right. apply Zfloor_imp. replace (num24 v - 1 + 1)%Z with (num24 v) by lia. rewrite minus_IZR. lra.
Qed.
Print Assumptions C89_repack_drift.

Theorem C89_repack_refuted : exists v, byte_px v /\ pA v = 255%Z /\ Pack64 (Get64 v) <> v /\ Pack64 (Get64 v) = mkPx 0 0 3 255 /\ Pack64 (Get64 (Pack64 (Get64 v))) = mkPx 0 0 2 255.
Proof.
  exists (mkPx 0 0 4 255). split; [unfold byte_px, is_byte; cbn; lia|]. split; auto.
  assert (E : Pack64 (Get64 (mkPx 0 0 4 255)) = mkPx 0 0 3 255) by (vm_compute; reflexivity).
  assert (E2 : Pack64 (Get64 (mkPx 0 0 3 255)) = mkPx 0 0 2 255) by (vm_compute; reflexivity).
  rewrite E. split; [discriminate|]. auto.
Qed.
Print Assumptions C89_repack_refuted.
Example C89_nonvacuous :
  Pack64 (Get64 (mkPx 1 134 160 255)) = mkPx 1 134 160 255 /\ is_finite (Get64 (mkPx 1 134 160 255)) = true /\ B2R (Get64 (mkPx 1 134 160 255)) = 0.
Proof. split; [vm_compute; reflexivity|]. split; vm_compute; reflexivity. Qed.
