(** The binary64 column computation. *)
From Coq Require Import ZArith Reals Lia Lra Bool.
From Flocq Require Import Core BinarySingleNaN.
From Verif Require Import GoBase TileF64_Model.
Open Scope R_scope.

Notation fmt := (generic_format radix2 (FLT_exp (-1074) 53)).
Notation rnd := (round radix2 (FLT_exp (-1074) 53) ZnearestE).

Lemma fexp_eq : SpecFloat.fexp 53 1024 = FLT_exp (-1074) 53.
Proof. reflexivity. Qed.

Lemma vexp : Valid_exp (FLT_exp (-1074) 53). Proof. apply FLT_exp_valid. reflexivity. Qed.
#[local] Existing Instance vexp.

Lemma rnd_mono x y : x <= y -> rnd x <= rnd y.
Proof. intros. apply round_le; auto; apply vexp || apply valid_rnd_N. Qed.
Lemma rnd_id x : fmt x -> rnd x = x.
Proof. intros. apply round_generic; auto. apply valid_rnd_N. Qed.
Lemma rnd_between a b x : fmt a -> fmt b -> a <= x <= b -> a <= rnd x <= b.
Proof. intros Ha Hb H. rewrite <- (rnd_id a Ha), <- (rnd_id b Hb). split; apply rnd_mono; apply H. Qed.

Lemma fmt_F2R m e : (Z.abs m < 2 ^ 53)%Z -> (-1074 <= e)%Z -> fmt (IZR m * bpow radix2 e).
Proof.
  intros Hm He. apply generic_format_FLT. exists (Float radix2 m e); auto.
Qed.

Lemma B2R_c180 : B2R c180 = 180.
Proof.
  unfold c180, B2R, F2R. cbn [Fnum Fexp cond_Zopp].
  replace (IZR (Z.pos (180 * 2 ^ 45))) with (180 * bpow radix2 45) by (rewrite <- IZR_Zpower by lia; rewrite <- mult_IZR; reflexivity).
  rewrite Rmult_assoc, <- bpow_plus. replace (45 + -45)%Z with 0%Z by lia. simpl. lra.
Qed.
Lemma B2R_c360 : B2R c360 = 360.
Proof.
  unfold c360, B2R, F2R. cbn [Fnum Fexp cond_Zopp].
  replace (IZR (Z.pos (180 * 2 ^ 45))) with (180 * bpow radix2 45) by (rewrite <- IZR_Zpower by lia; rewrite <- mult_IZR; reflexivity).
  rewrite Rmult_assoc, <- bpow_plus. replace (45 + -44)%Z with 1%Z by lia. simpl. lra.
Qed.

Lemma small_lt_emax x : Rabs x <= bpow radix2 100 -> Rlt_bool (Rabs x) (bpow radix2 1024) = true.
Proof. intros H. apply Rlt_bool_true. eapply Rle_lt_trans; [exact H|]. apply bpow_lt. lia. Qed.

Lemma fpow2_ok z : (0 <= z <= 62)%Z -> B2R (fpow2 z) = bpow radix2 z /\ is_finite (fpow2 z) = true.
Proof.
  intros Hz. unfold fpow2.
  pose proof (Bldexp_correct 53 1024 _ _ mode_NE Bone z) as H.
  rewrite Bone_correct, Rmult_1_l in H.
  assert (Hf : fmt (bpow radix2 z)).
  { apply generic_format_bpow. unfold FLT_exp. lia. }
  rewrite fexp_eq in H. cbn [round_mode] in H. rewrite (rnd_id _ Hf) in H.
  rewrite small_lt_emax in H.
  - destruct H as (H1 & H2 & _). split; auto.
  - rewrite Rabs_right by (apply Rle_ge, bpow_ge_0). apply bpow_le. lia.
Qed.

Lemma bp (n m : Z) : (0 <= n)%Z -> (2 ^ n = m)%Z -> bpow radix2 n = IZR m.
Proof. intros H E. rewrite <- IZR_Zpower by auto. simpl radix_val. rewrite E. reflexivity. Qed.
Lemma bpm (n m : Z) : (0 < n)%Z -> (2 ^ n = m)%Z -> bpow radix2 (- n) = / IZR m.
Proof. intros H E. rewrite bpow_opp. rewrite (bp n m); auto. lia. Qed.

Definition t44 : R := / 17592186044416.
Lemma t44_eq : bpow radix2 (-44) = t44. Proof. exact (bpm 44 17592186044416 ltac:(lia) eq_refl). Qed.
Lemma t45_eq : bpow radix2 (-45) = t44 / 2.
Proof. replace (-45)%Z with (-44 + -1)%Z by lia. rewrite bpow_plus, t44_eq. simpl bpow. lra. Qed.
Lemma t53_eq : bpow radix2 (-53) = t44 / 512.
Proof. replace (-53)%Z with (-44 + -9)%Z by lia. rewrite bpow_plus, t44_eq. pose proof (bpm 9 512 ltac:(lia) eq_refl) as E. change (- (9))%Z with (-9)%Z in E. rewrite E. lra. Qed.
Lemma t44_pos : 0 < t44 < 1 / 1000. Proof. unfold t44. lra. Qed.

Lemma fmt_0 : fmt 0. Proof. apply generic_format_0. Qed.
Lemma fmt_360 : fmt (360 - t44).
Proof.
  replace (360 - t44) with (IZR (360 * 2 ^ 44 - 1) * bpow radix2 (-44)).
  - apply fmt_F2R; lia.
  - rewrite t44_eq. unfold t44. change (360 * 2 ^ 44 - 1)%Z with 6333186975989759%Z. lra.
Qed.
Lemma fmt_1 : fmt (1 - t44 / 512).
Proof.
  replace (1 - t44 / 512) with (IZR (2 ^ 53 - 1) * bpow radix2 (-53)).
  - apply fmt_F2R; lia.
  - rewrite t53_eq. unfold t44. change (2 ^ 53 - 1)%Z with 9007199254740991%Z. lra.
Qed.
Lemma fmt_1z z : (0 <= z <= 62)%Z -> fmt ((1 - t44 / 512) * bpow radix2 z).
Proof.
  intros Hz. replace ((1 - t44 / 512) * bpow radix2 z) with (IZR (2 ^ 53 - 1) * bpow radix2 (-53 + z)).
  - apply fmt_F2R; lia.
  - rewrite bpow_plus, t53_eq. unfold t44. change (2 ^ 53 - 1)%Z with 9007199254740991%Z. lra.
Qed.

Lemma tile_col_range lng z : (0 <= z <= 62)%Z -> is_finite lng = true ->
  -180 <= B2R lng <= 180 - t44 -> (0 <= tile_col lng z < 2 ^ z)%Z.
Proof.
  intros Hz Hf Hl. pose proof t44_pos as Ht. unfold tile_col, fmul, fdiv, fadd.
  (* sum *)
  pose proof (Bplus_correct 53 1024 _ _ mode_NE lng c180 Hf eq_refl) as H.
  rewrite fexp_eq, B2R_c180 in H. cbn [round_mode] in H.
  assert (Hs : 0 <= rnd (B2R lng + 180) <= 360 - t44) by (apply rnd_between; [apply fmt_0|apply fmt_360|lra]).
  assert (Hbig : forall x, 0 <= x <= 512 -> Rabs x <= bpow radix2 100).
  { intros x Hx. rewrite Rabs_right by lra. apply Rle_trans with (bpow radix2 9).
    - rewrite (bp 9 512) by (try lia; reflexivity). lra.
    - apply bpow_le. lia. }
  rewrite small_lt_emax in H by (apply Hbig; lra). destruct H as (E1 & F1 & _).
  set (s := Bplus mode_NE lng c180) in *. clearbody s. rewrite <- E1 in Hs. clear E1.
  (* quotient *)
  assert (H360 : B2R c360 <> 0) by (rewrite B2R_c360; lra).
  pose proof (Bdiv_correct 53 1024 _ _ mode_NE s c360 H360) as H.
  rewrite fexp_eq, B2R_c360 in H. cbn [round_mode] in H.
  assert (Hq : 0 <= rnd (B2R s / 360) <= 1 - t44 / 512) by (apply rnd_between; [apply fmt_0|apply fmt_1|lra]).
  rewrite small_lt_emax in H by (apply Hbig; lra). destruct H as (E2 & F2 & _).
  set (q := Bdiv mode_NE s c360) in *. clearbody q. rewrite <- E2 in Hq. clear E2. rewrite F1 in F2.
  (* product *)
  destruct (fpow2_ok z Hz) as [En Fn].
  pose proof (Bmult_correct 53 1024 _ _ mode_NE q (fpow2 z)) as H.
  rewrite fexp_eq, En in H. cbn [round_mode] in H.
  pose proof (bpow_gt_0 radix2 z) as Hp.
  assert (Hm : 0 <= rnd (B2R q * bpow radix2 z) <= (1 - t44 / 512) * bpow radix2 z).
  { apply rnd_between; [apply fmt_0|apply fmt_1z; auto|]. split; [apply Rmult_le_pos; lra|].
    apply Rmult_le_compat_r; lra. }
  rewrite small_lt_emax in H.
  2:{ rewrite Rabs_right by lra. apply Rle_trans with (bpow radix2 z); [nra|apply bpow_le; lia]. }
  destruct H as (E3 & _ & _). rewrite E3.
  set (m := rnd (B2R q * bpow radix2 z)) in *. clearbody m.
  assert (Hz2 : bpow radix2 z = IZR (2 ^ z)) by (rewrite <- IZR_Zpower by lia; reflexivity).
  split.
  - apply Zfloor_lub. simpl. lra.
  - apply lt_IZR. rewrite <- Hz2. apply Rle_lt_trans with m; [apply Zfloor_lb|]. nra.
Qed.

(** The double just below 180. *)
Definition below180 : f64 := @B754_finite 53 1024 false (180 * 2 ^ 45 - 1) (-45) eq_refl.

Lemma B2R_below180 : B2R below180 = 180 - t44 / 2.
Proof.
  unfold below180, B2R, F2R. cbn [Fnum Fexp cond_Zopp]. rewrite t45_eq. unfold t44.
  change (Z.pos (180 * 2 ^ 45 - 1)) with 6333186975989759%Z. lra.
Qed.

Lemma below180_ratio : B2R (fdiv (fadd below180 c180) c360) = 1 /\ is_finite (fdiv (fadd below180 c180) c360) = true.
Proof.
  assert (E : B2SF (fdiv (fadd below180 c180) c360) = SpecFloat.S754_finite false (2 ^ 52) (-52)) by (vm_compute; reflexivity).
  split.
  - rewrite <- (SF2R_B2SF 53 1024 (fdiv _ _)), E. unfold SF2R, F2R. cbn [cond_Zopp Fnum Fexp].
    replace (IZR (Z.pos (2 ^ 52))) with (bpow radix2 52) by (rewrite <- IZR_Zpower by lia; reflexivity).
    rewrite <- bpow_plus. reflexivity.
  - rewrite <- is_finite_SF_B2SF, E. reflexivity.
Qed.

Lemma tile_col_below180 z : (0 <= z <= 62)%Z -> tile_col below180 z = (2 ^ z)%Z.
Proof.
  intros Hz. unfold tile_col. destruct below180_ratio as [E F].
  set (q := fdiv (fadd below180 c180) c360) in *. clearbody q. unfold fmul.
  destruct (fpow2_ok z Hz) as [En Fn].
  pose proof (Bmult_correct 53 1024 _ _ mode_NE q (fpow2 z)) as H.
  rewrite fexp_eq, En, E, Rmult_1_l in H. cbn [round_mode] in H.
  rewrite rnd_id in H by (apply generic_format_bpow; unfold FLT_exp; lia).
  rewrite small_lt_emax in H.
  2:{ rewrite Rabs_right by (apply Rle_ge, bpow_ge_0). apply bpow_le; lia. }
  destruct H as (-> & _). rewrite <- IZR_Zpower by lia. apply Zfloor_IZR.
Qed.

(** No other double lies between 180 - 2^-44 and 180. *)
Lemma gap180 (x : f64) : 180 - t44 < B2R x < 180 -> B2R x = 180 - t44 / 2.
Proof.
  intros H. pose proof t44_pos as Ht.
  assert (Hg : fmt (B2R x)) by (rewrite <- fexp_eq; apply generic_format_B2R).
  set (r := B2R x) in *. clearbody r.
  assert (Hmag : mag radix2 r = 8%Z :> Z).
  { apply mag_unique. rewrite Rabs_right by lra. change (8 - 1)%Z with 7%Z.
    rewrite (bp 7 128), (bp 8 256) by (try lia; reflexivity). lra. }
  unfold generic_format, F2R, cexp in Hg. cbn [Fnum Fexp] in Hg. rewrite Hmag in Hg.
  change (FLT_exp (-1074) 53 8) with (-45)%Z in Hg. rewrite t45_eq in Hg.
  set (m := Ztrunc _) in Hg. clearbody m. 
  assert (H1 : 6333186975989758 < IZR m < 6333186975989760).
  { unfold t44 in *. lra. }
  assert (m = 6333186975989759)%Z.
  { assert (6333186975989758 < m)%Z by (apply lt_IZR; lra). assert (m < 6333186975989760)%Z by (apply lt_IZR; lra). lia. }
  subst m. rewrite Hg. unfold t44. lra.
Qed.

Lemma tile_col_iff lng z : (0 <= z <= 62)%Z -> is_finite lng = true -> -180 <= B2R lng < 180 ->
  ((0 <= tile_col lng z < 2 ^ z)%Z <-> B2R lng <> 180 - t44 / 2).
Proof.
  intros Hz Hf Hl. split.
  - intros H E. rewrite <- B2R_below180 in E.
    assert (lng = below180).
    { apply B2R_inj; auto.
      destruct lng; auto; try discriminate. exfalso. rewrite B2R_below180 in E. cbn in E. pose proof t44_pos. lra. }
    subst. rewrite tile_col_below180 in H by auto. lia.
  - intros H. apply tile_col_range; auto.
    destruct (Rle_dec (B2R lng) (180 - t44)); [lra|]. exfalso. apply H. apply gap180. lra.
Qed.
