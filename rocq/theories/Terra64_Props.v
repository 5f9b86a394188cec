(** Property C133: Terrarium elevations in binary64. *)
From Coq Require Import ZArith Reals Lia Lra Bool List.
From Flocq Require Import Core BinarySingleNaN.
From Verif Require Import GoBase Num TileR_Model TileR_Proofs MvtProj_Proofs TileF64_Model TileF64_Proofs F64 Sdf_Proofs Raster_Model Raster_Proofs Raster_Props RasterF64_Model RasterF64_Props Terra64_Model.
Open Scope R_scope.
#[local] Existing Instance vexp.

(** ** Lemmas *)
Lemma c256th_f : is_f c_256th (1 / 256).
Proof. replace (1 / 256) with (4503599627370496 / 1152921504606846976) by lra. apply const_f with (k := 60%Z); try lia; reflexivity. Qed.
Lemma Rfloor_Zfloor r : Rfloor r = Zfloor r.
Proof. apply Rfloor_unique. split; [apply Zfloor_lb|]. apply Zfloor_ub. Qed.
Lemma trunc_f x a : is_f x a -> 0 <= a -> Btrunc x = Rfloor a.
Proof.
  intros [Fx <-] Ha. rewrite Rfloor_Zfloor. apply eq_IZR. rewrite (Btrunc_correct 53 1024 _ x).
  unfold round, F2R, scaled_mantissa, cexp, FIX_exp. cbn [Fnum Fexp]. change (bpow radix2 (- 0)) with 1. change (bpow radix2 0) with 1. rewrite !Rmult_1_r. f_equal. apply Ztrunc_floor. auto.
Qed.
Lemma fmt_up x : fmt x -> fmt (x * 256).
Proof.
  intros H. apply FLT_format_generic in H; [|reflexivity]. destruct H as [f E Hm He]. apply generic_format_FLT. exists (Float radix2 (Fnum f) (Fexp f + 8)); cbn [Fnum Fexp]; auto; [|lia].
  rewrite E. unfold F2R. cbn [Fnum Fexp]. rewrite bpow_plus. change (bpow radix2 8) with 256. ring.
Qed.
Lemma fmt_down x : fmt x -> 1 <= x -> fmt (x / 256).
Proof.
  intros H Hx. apply FLT_format_generic in H; [|reflexivity]. destruct H as [f E Hm He].
  assert (L : (-60 <= Fexp f)%Z).
  { destruct (Z_le_gt_dec (-60) (Fexp f)) as [|C]; [assumption|]. exfalso. rewrite E in Hx. unfold F2R in Hx.
    assert (B : bpow radix2 (Fexp f) <= bpow radix2 (-61)) by (apply bpow_le; lia). pose proof (bpow_gt_0 radix2 (Fexp f)).
    assert (M : IZR (Fnum f) <= bpow radix2 53) by (change (bpow radix2 53) with (IZR (2 ^ 53)); apply IZR_le; change (radix2 ^ 53)%Z with (2 ^ 53)%Z in Hm; lia).
    assert (P : bpow radix2 53 * bpow radix2 (-61) = bpow radix2 (-8)) by (rewrite <- bpow_plus; reflexivity). rewrite mod256 in P.
    destruct (Rle_dec (IZR (Fnum f)) 0) as [N|N]; [assert (IZR (Fnum f) * bpow radix2 (Fexp f) <= 0) by nra; lra|].
    assert (IZR (Fnum f) * bpow radix2 (Fexp f) <= bpow radix2 53 * bpow radix2 (-61)) by (apply Rmult_le_compat; lra). lra. }
  apply generic_format_FLT. exists (Float radix2 (Fnum f) (Fexp f - 8)); cbn [Fnum Fexp]; auto; [|lia].
  rewrite E. unfold F2R. cbn [Fnum Fexp]. unfold Zminus. rewrite bpow_plus. change (- (8))%Z with (-8)%Z. rewrite mod256. field.
Qed.

(** Packing is exact but for the sum *)
Lemma PackT64_real h V : is_f (fadd h (fint 32768)) V -> 0 <= V < 65536 -> PackT64 h = PackTerrarium (V - 32768).
Proof.
  intros HV BV. unfold PackT64, PackTerrarium. cbv zeta. replace (V - 32768 + 32768) with V by ring.
  assert (FV : fmt V) by (apply (is_f_fmt _ _ HV)).
  pose proof (fdiv_f _ _ _ _ HV c256_f ltac:(lra) ltac:(apply p100, abs_le; lra)) as D. pose proof (fmul_f _ _ _ _ HV c256_f ltac:(apply p100, abs_le; lra)) as M. rewrite (rnd_id (V * 256)) in M by (apply fmt_up, FV).
  rewrite !(Rtrunc_pos) by lra. rewrite (trunc_f _ _ HV) by lra. rewrite (trunc_f _ _ M) by lra. f_equal.
  - assert (FL : Zfloor (rnd (V / 256)) = Rfloor (V / 256)).
    { destruct (Rle_dec 1 V) as [L|L]; [rewrite rnd_id by (apply fmt_down; auto); symmetry; apply Rfloor_Zfloor|].
      assert (B : 0 <= rnd (V / 256) <= 1 / 256) by (apply rnd_between; [apply fmt_0|rewrite <- mod256; apply generic_format_bpow; unfold FLT_exp; lia|lra]).
      rewrite (Rfloor_unique (V / 256) 0) by (cbn; lra). apply Zfloor_imp. cbn [Z.add]. lra. }
    apply ffloor_f in D. rewrite FL in D. assert (P : (0 <= Rfloor (V / 256))%Z) by (apply Rfloor_ge0; lra). rewrite (fbyte_f _ _ D) by (apply IZR_le; exact P).
    rewrite Zfloor_IZR. unfold to_byte, fl. rewrite Rtrunc_pos by (apply IZR_le; exact P). rewrite Rfloor_IZR. reflexivity.
Qed.

(** Reading is exact *)
Theorem C133_get_exact : forall v, byte_px v -> is_finite (GetT64 v) = true /\ B2R (GetT64 v) = decode 1 v.
Proof.
  intros [r g b a] (Hr & Hg & Hb). unfold is_byte in *. cbn [pR pG pB] in *. rewrite decode_terrarium by lia. cbn [pR pG pB]. unfold GetT64. cbn [pR pG pB].
  assert (Br : 0 <= IZR r <= 255) by (split; apply IZR_le; lia). assert (Bg : 0 <= IZR g <= 255) by (split; apply IZR_le; lia). assert (Bb : 0 <= IZR b <= 255) by (split; apply IZR_le; lia).
  pose proof (fmul_f _ _ _ _ (fint_f r ltac:(lia)) c256_f ltac:(apply p100, abs_le; lra)) as M1. rewrite <- mult_IZR in M1. rewrite rnd_id in M1 by (apply fmt_int; lia).
  pose proof (fmul_f _ _ _ _ (fint_f g ltac:(lia)) (fint_f 1 ltac:(lia)) ltac:(apply p100, abs_le; lra)) as M2. rewrite <- mult_IZR in M2. rewrite rnd_id in M2 by (apply fmt_int; lia).
  pose proof (fmul_f _ _ _ _ (fint_f b ltac:(lia)) c256th_f ltac:(apply p100, abs_le; lra)) as M3.
  assert (K : forall n, (Z.abs n < 2 ^ 53)%Z -> fmt (IZR n * (1 / 256))) by (intros n Hn; rewrite <- mod256; apply fmt_F2R; lia).
  rewrite rnd_id in M3 by (apply K; lia).
  pose proof (fadd_f _ _ _ _ M1 M2) as A1. rewrite <- plus_IZR in A1. rewrite rnd_id in A1 by (apply fmt_int; lia). specialize (A1 ltac:(apply p100, abs_le; rewrite plus_IZR, !mult_IZR; lra)).
  pose proof (fadd_f _ _ _ _ A1 M3) as A2. replace (IZR (r * 256 + g * 1) + IZR b * (1 / 256)) with (IZR ((r * 256 + g * 1) * 256 + b) * (1 / 256)) in A2 by (rewrite !plus_IZR, !mult_IZR, ?plus_IZR, ?mult_IZR; field).
  rewrite rnd_id in A2 by (apply K; lia).
  assert (N : 0 <= IZR ((r * 256 + g * 1) * 256 + b) <= 16777215) by (split; apply IZR_le; lia). specialize (A2 ltac:(apply p100, abs_le; lra)).
  pose proof (fsub_f _ _ _ _ A2 (fint_f 32768 ltac:(lia)) ltac:(apply p100, abs_le; lra)) as A3.
  replace (IZR ((r * 256 + g * 1) * 256 + b) * (1 / 256) - 32768) with (IZR ((r * 256 + g * 1) * 256 + b - 8388608) * (1 / 256)) in A3 by (rewrite minus_IZR; field).
  rewrite rnd_id in A3 by (apply K; lia). destruct A3 as [F E]. split; [exact F|]. rewrite E. rewrite minus_IZR, !plus_IZR, !mult_IZR, ?plus_IZR, ?mult_IZR. field.
Qed.
Print Assumptions C133_get_exact.

Lemma sum_ok h : is_finite h = true -> -32768 <= B2R h < 32768 - / 274877906944 ->
  exists V, is_f (fadd h (fint 32768)) V /\ 0 <= V < 65536 /\ - / 137438953472 <= V - (B2R h + 32768) <= / 137438953472.
Proof.
  intros F H. assert (P37 : bpow radix2 (-37) = / 137438953472) by (apply (bpm 37 137438953472); [lia|reflexivity]).
  exists (rnd (B2R h + 32768)). split; [apply fadd_f; [split; auto|apply fint_f; lia|apply p100, abs_le; lra]|].
  pose proof (err_between 16 (B2R h + 32768) ltac:(lia)) as E. rewrite (bp 16 65536) in E by (try lia; reflexivity). change (16 - 53)%Z with (-37)%Z in E. rewrite P37 in E. specialize (E ltac:(lra)). split; [|lra].
  split; [apply (rnd_between 0 65536 (B2R h + 32768)); [apply fmt_0|apply fmt_int; lia|lra]|].
  apply Rle_lt_trans with (65536 - / 137438953472); [|lra].
  assert (FM : fmt (65536 - / 137438953472)).
  { replace (65536 - / 137438953472) with (IZR (2 ^ 53 - 1) * bpow radix2 (-37)) by (rewrite P37; change (2 ^ 53 - 1)%Z with 9007199254740991%Z; lra). apply fmt_F2R; lia. }
  destruct (Rle_dec (B2R h + 32768) (65536 - / 137438953472)) as [C|C]; [apply (rnd_between 0 _ (B2R h + 32768)); [apply fmt_0|exact FM|lra]|].
  assert (DD : Rabs (rnd (B2R h + 32768) - (B2R h + 32768)) <= Rabs ((65536 - / 137438953472) - (B2R h + 32768))) by (apply (round_N_pt radix2 (FLT_exp (-1074) 53) (fun x => negb (Z.even x))); exact FM).
  rewrite (Rabs_left1 (65536 - / 137438953472 - (B2R h + 32768))) in DD by lra. apply Rabs_le_inv in DD.
  assert (L : rnd (B2R h + 32768) < 65536) by lra.
  (* between the two neighbours there is no other number *)
  destruct (Rle_dec (rnd (B2R h + 32768)) (65536 - / 137438953472)) as [|G]; [assumption|]. exfalso.
  assert (FR : fmt (rnd (B2R h + 32768))) by (apply generic_format_round; [apply vexp|apply valid_rnd_N]). set (r := rnd (B2R h + 32768)) in *.
  assert (S : succ radix2 (FLT_exp (-1074) 53) (65536 - / 137438953472) <= r) by (apply succ_le_lt; auto; try apply vexp; lra).
  rewrite succ_eq_pos in S by lra. assert (U : ulp radix2 (FLT_exp (-1074) 53) (65536 - / 137438953472) = bpow radix2 (-37)).
  { rewrite ulp_neq_0 by lra. unfold cexp. rewrite (mag_unique radix2 _ 16); [reflexivity|]. rewrite Rabs_pos_eq by lra. rewrite (bp (16 - 1) 32768), (bp 16 65536) by (try lia; reflexivity). lra. }
  rewrite U, P37 in S. lra.
Qed.

(** ** C133 *)
Theorem C133_terrarium_binary64 : forall h, is_finite h = true -> -32768 <= B2R h < 32768 - / 2 ^ 38 ->
  let v := PackT64 h in
  byte_px v /\ pA v = 255%Z /\ (0 <= pB v < 25)%Z /\ - 1 - / 2 ^ 37 < B2R (GetT64 v) - B2R h < 25 / 256 + / 2 ^ 37.
Proof.
  intros h F H v. replace (2 ^ 38) with 274877906944 in H by lra. replace (2 ^ 37) with 137438953472 by lra.
  destruct (sum_ok h F H) as (V & HV & BV & EV). unfold v. rewrite (PackT64_real h V HV BV).
  destruct (C55_terrarium_within_a_metre (V - 32768) ltac:(lra)) as (B & A & _ & C & D). split; [exact B|]. split; [exact A|]. split; [exact C|].
  rewrite (proj2 (C133_get_exact _ B)). lra.
Qed.
Print Assumptions C133_terrarium_binary64.

(** Heights on the grid of the format are written and read without rounding: they survive exactly as in exact arithmetic. *)
Theorem C133_grid : forall h n, is_finite h = true -> B2R h = IZR n / 256 - 32768 -> (0 <= n < 2 ^ 24)%Z ->
  PackT64 h = PackTerrarium (B2R h) /\ (B2R (GetT64 (PackT64 h)) = B2R h <-> (n mod 256 = n mod 25)%Z).
Proof.
  intros h n F E Hn. assert (N : 0 <= IZR n <= 16777215) by (split; apply IZR_le; lia).
  assert (HV : is_f (fadd h (fint 32768)) (IZR n / 256)).
  { replace (IZR n / 256) with (rnd (B2R h + 32768)); [apply fadd_f; [split; auto|apply fint_f; lia|apply p100, abs_le; lra]|].
    replace (B2R h + 32768) with (IZR n * bpow radix2 (-8)) by (rewrite mod256; lra). rewrite rnd_id by (apply fmt_F2R; lia). rewrite mod256. field. }
  rewrite (PackT64_real h _ HV) by lra. rewrite E. split; [reflexivity|].
  destruct (C55_terrarium_within_a_metre (IZR n / 256 - 32768) ltac:(lra)) as (B & _). rewrite (proj2 (C133_get_exact _ B)). apply C55_terrarium_exact_iff. exact Hn.
Qed.
Print Assumptions C133_grid.

(** The last height below the top: the sum rounds to 65536 and wraps to the bottom of the range. *)
Definition below_top : f64 := @B754_finite 53 1024 false 9007199254740991 (-38) eq_refl.
Theorem C133_top_refuted : is_finite below_top = true /\ B2R below_top = 32768 - / 2 ^ 38 /\ PackT64 below_top = mkPx 0 0 16 255 /\ B2R (GetT64 (PackT64 below_top)) = -32768 + 1 / 16.
Proof.
  assert (E : PackT64 below_top = mkPx 0 0 16 255) by (vm_compute; reflexivity).
  split; [reflexivity|]. split. { unfold below_top, B2R, F2R. cbn [Fnum Fexp cond_Zopp]. change (-38)%Z with (- (38))%Z. rewrite (bpm 38 274877906944) by (try lia; reflexivity). lra. }
  split; [exact E|]. rewrite E. rewrite (proj2 (C133_get_exact (mkPx 0 0 16 255) ltac:(unfold byte_px, is_byte; cbn; lia))). rewrite decode_terrarium by lia. cbn [pR pG pB]. cbn. lra.
Qed.
Print Assumptions C133_top_refuted.
Example C133_nonvacuous : PackT64 (fint 100) = mkPx 128 100 8 255 /\ B2R (GetT64 (mkPx 128 100 8 255)) = 100 + 8 / 256.
Proof.
  split; [vm_compute; reflexivity|]. rewrite (proj2 (C133_get_exact (mkPx 128 100 8 255) ltac:(unfold byte_px, is_byte; cbn; lia))). rewrite decode_terrarium by lia. cbn. lra.
Qed.
