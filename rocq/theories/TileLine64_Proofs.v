(** Lemmas for C146: positions near a tile on its grid, lines of grid points, the size of what is written. *)
From Coq Require Import ZArith List Lia Bool Reals Lra.
From Flocq Require Import Core BinarySingleNaN.
From Verif Require Import GoBase Num Tileid_Model TileR_Model TileR_Proofs TileF64_Model TileF64_Proofs F64 ColorF64_Model ColorF64_Proofs Tile64_Model Tile64_Proofs Tile64_Props
  MvtProj_Proofs MvtProj64_Model MvtProj64_Proofs MvtProj64_Props Pbf_Model MvtGeom_Model MvtLayer_Model Clip_Model Clip_Spec Clip_Proofs Clip64_Proofs Clip64_Props ClipTile64_Model ClipTile64_Proofs ClipTile64_Props ClipLine64_Proofs ClipLine64_Props
  Pbf_Proofs MvtGeo64_Model MvtGeo64_Proofs MvtGeo64_Props.
From Verif Require MvtGeo_Props Sphere64_Props.
Import ListNotations.
Open Scope R_scope.

(** ** The end of the map is beyond 85 degrees *)
Lemma exp_sq a x : 0 <= a -> a <= exp x -> a * a <= exp (2 * x).
Proof. intros A H. replace (2 * x) with (x + x) by ring. rewrite exp_plus. nra. Qed.
Lemma exp_step a b x : 0 <= a -> a <= exp x -> b <= a * a -> b <= exp (2 * x).
Proof. intros A H B. eapply Rle_trans; [exact B|]. apply exp_sq; auto. Qed.
Lemma exp_PI : 23 <= exp PI.
Proof.
  pose proof PI_range as P. assert (H : 100306796 / 100000000 <= exp (PI / 1024)) by (pose proof (exp_ineq1_le (PI / 1024)); lra).
  apply (exp_step _ (100614533 / 100000000)) in H; [|lra|lra]. apply (exp_step _ (101232842 / 100000000)) in H; [|lra|lra]. apply (exp_step _ (102480882 / 100000000)) in H; [|lra|lra].
  apply (exp_step _ (105023311 / 100000000)) in H; [|lra|lra]. apply (exp_step _ (110298958 / 100000000)) in H; [|lra|lra]. apply (exp_step _ (121658601 / 100000000)) in H; [|lra|lra].
  apply (exp_step _ (148008151 / 100000000)) in H; [|lra|lra]. apply (exp_step _ (219064127 / 100000000)) in H; [|lra|lra]. apply (exp_step _ (479890917 / 100000000)) in H; [|lra|lra].
  apply (exp_step _ 23) in H; [|lra|lra]. replace (2 * (2 * (2 * (2 * (2 * (2 * (2 * (2 * (2 * (2 * (PI / 1024))))))))))) with PI in H by field. exact H.
Qed.
Lemma gd_PI : 85 + / 100 <= 180 / PI * gd PI.
Proof.
  pose proof PI_range as P. pose proof exp_PI as E. assert (A : atan (/ exp PI) = PI / 2 - atan (exp PI)) by (apply atan_inv; apply exp_pos).
  assert (I : 0 < / exp PI <= / 23) by (split; [apply Rinv_0_lt_compat, exp_pos|apply Rinv_le_contravar; lra]).
  pose proof (Sphere64_Props.atan_abs (/ exp PI)) as B. rewrite (Rabs_pos_eq (/ exp PI)) in B by lra. apply ab in B.
  assert (G : PI / 2 - 2 / 23 <= gd PI) by (rewrite gd_atan_exp; lra).
  assert (D0 : 0 < 180 / PI) by (apply Rdiv_lt_0_compat; lra). apply Rle_trans with (180 / PI * (PI / 2 - 2 / 23)); [|apply Rmult_le_compat_l; lra].
  replace (180 / PI * (PI / 2 - 2 / 23)) with (90 - 360 / 23 * / PI) by (field; lra). assert (/ PI <= / (31415926 / 10000000)) by (apply Rinv_le_contravar; lra). lra.
Qed.

(** ** Grid units around a tile *)
Section Units.
Context (t : TileID) (e : Z) (F : fine t e).
Notation N := (IZR (e * 2 ^ tZ t)).
Definition place (g : Z * Z) : R * R := (360 * (IZR (e * tX t + fst g) / N) - 180, 180 / PI * gd (PI * (1 - 2 * (IZR (e * tY t + snd g) / N)))).
Lemma at_place g p : at_grid t e g p -> fin p /\ within (27 / 10 ^ 13) (val p) (place g).
Proof. intros (A & B & C). split; [exact A|]. unfold within, place, val. cbn [fst snd]. unfold gd. split; [eapply Rle_trans; [exact B|]; lra|eapply Rle_trans; [exact C|]; lra]. Qed.

(** What is in the tile up to [d] is there on the grid *)
Lemma in_units d p : 0 < d -> fin p -> Rabs (B2R (snd p)) <= 85 + / 1000 -> inside (- d) t (val p) ->
  - (N * (d / 360)) <= ecol t e p <= IZR e + N * (d / 360) /\ - (N * (121 / 10 * d / 360)) <= erow t e p <= IZR e + N * (121 / 10 * d / 360).
Proof.
  intros T0 FP HL (IX & IY). destruct F as (M & He & HN). destruct (Bounds_exact t M) as (BW & BE & BN & BS). destruct (u_range t M) as (U1 & U2 & U3 & _). pose proof PI_range as PR. pose proof gd_PI as GP.
  rewrite ecol_k, erow_k by exact M. unfold colk, rowk. unfold val in *. cbn [fst snd] in *. set (lo := B2R (fst p)) in *. set (la := B2R (snd p)) in *.
  assert (P0 : (1 <= 2 ^ tZ t)%Z) by (pose proof (pz _ (proj1 M)); lia). rewrite BW, BE in IX. rewrite BN, BS in IY. rewrite mult_IZR. rewrite plus_IZR in IX.
  assert (E1 : 1 <= IZR e) by (apply IZR_le; lia). assert (N1 : 1 <= IZR (2 ^ tZ t)) by (apply IZR_le; lia).
  assert (R0 : 0 < IZR e * IZR (2 ^ tZ t)) by nra.
  split.
  - set (n := IZR (2 ^ tZ t)) in *. set (k := IZR e) in *. clearbody n k lo. split.
    + apply Rmult_le_reg_r with (/ k); [apply Rinv_0_lt_compat; lra|]. rewrite (Rmult_assoc _ k), Rinv_r, Rmult_1_r by lra. replace (- (k * n * (d / 360)) * / k) with (- (n * (d / 360))) by (field; lra).
      assert (A : IZR (tX t) / n * 360 - d <= lo + 180) by lra. assert (B : (IZR (tX t) / n * 360 - d) * (n / 360) <= (lo + 180) * (n / 360)) by (apply Rmult_le_compat_r; lra). replace ((IZR (tX t) / n * 360 - d) * (n / 360)) with (IZR (tX t) - n * (d / 360)) in B by (field; lra). lra.
    + apply Rmult_le_reg_r with (/ k); [apply Rinv_0_lt_compat; lra|]. rewrite (Rmult_assoc _ k), Rinv_r, Rmult_1_r by lra. replace ((k + k * n * (d / 360)) * / k) with (1 + n * (d / 360)) by (field; lra).
      assert (A : lo + 180 <= (IZR (tX t) + 1) / n * 360 + d) by lra. assert (B : (lo + 180) * (n / 360) <= ((IZR (tX t) + 1) / n * 360 + d) * (n / 360)) by (apply Rmult_le_compat_r; lra). replace (((IZR (tX t) + 1) / n * 360 + d) * (n / 360)) with (IZR (tX t) + 1 + n * (d / 360)) in B by (field; lra). lra.
  - set (w := merc (la * (PI / 180))). apply ab in HL.
    assert (GW : gd w = la * (PI / 180)) by (apply gd_merc; nra). assert (GD : 180 / PI * gd w = la) by (rewrite GW; field; lra).
    assert (D0 : 0 < 180 / PI) by (apply Rdiv_lt_0_compat; lra).
    assert (W1 : w <= PI). { apply gd_le. apply Rmult_le_reg_l with (180 / PI); [lra|]. lra. }
    assert (W2 : - PI <= w). { apply gd_le. rewrite gd_odd. apply Rmult_le_reg_l with (180 / PI); [lra|]. lra. }
    destruct (row_coord t M w) as [RC1 RC2]. set (uN := PI * (1 - 2 * IZR (tY t) / IZR (2 ^ tZ t))) in *. set (uS := PI * (1 - 2 * (IZR (tY t) + 1) / IZR (2 ^ tZ t))) in *.
    set (n := IZR (2 ^ tZ t)) in *. set (k := IZR e) in *.
    assert (DT : PI / 180 * (180 / PI) = 1) by (field; lra). assert (X0 : 0 < n / (2 * PI)) by (apply Rdiv_lt_0_compat; lra).
    assert (Q1 : w - uN <= 121 / 10 * (d * (PI / 180))).
    { destruct (Rle_dec w uN) as [L|L]; [assert (0 <= d * (PI / 180)) by (apply Rmult_le_pos; lra); lra|]. apply Rnot_le_lt in L. pose proof (gd_low w uN ltac:(apply ab; lra) ltac:(apply ab; lra)) as H. assert (gd uN <= gd w) by (apply (proj1 (gd_le _ _)); lra). rewrite !Rabs_pos_eq in H by lra.
      assert (gd w - gd uN <= d * (PI / 180)). { apply Rmult_le_reg_l with (180 / PI); [lra|]. replace (180 / PI * (d * (PI / 180))) with d by (field; lra). lra. } lra. }
    assert (Q2 : uS - w <= 121 / 10 * (d * (PI / 180))).
    { destruct (Rle_dec uS w) as [L|L]; [assert (0 <= d * (PI / 180)) by (apply Rmult_le_pos; lra); lra|]. apply Rnot_le_lt in L. pose proof (gd_low uS w ltac:(apply ab; lra) ltac:(apply ab; lra)) as H. assert (gd w <= gd uS) by (apply (proj1 (gd_le _ _)); lra). rewrite !Rabs_pos_eq in H by lra.
      assert (gd uS - gd w <= d * (PI / 180)). { apply Rmult_le_reg_l with (180 / PI); [lra|]. replace (180 / PI * (d * (PI / 180))) with d by (field; lra). lra. } lra. }
    assert (K : 121 / 10 * (d * (PI / 180)) * (n / (2 * PI)) = n * (121 / 10 * d / 360)) by (field; lra). split.
    + rewrite RC1. assert (B : (w - uN) * (n / (2 * PI)) <= n * (121 / 10 * d / 360)) by (rewrite <- K; apply Rmult_le_compat_r; lra). set (z := (w - uN) * (n / (2 * PI))) in *.
      replace ((IZR (tY t) + (uN - w) * (n / (2 * PI)) - IZR (tY t)) * k) with (- (z * k)) by (unfold z; ring). apply Ropp_le_contravar. replace (k * n * (121 / 10 * d / 360)) with (n * (121 / 10 * d / 360) * k) by ring. apply Rmult_le_compat_r; lra.
    + rewrite RC2. assert (B : (uS - w) * (n / (2 * PI)) <= n * (121 / 10 * d / 360)) by (rewrite <- K; apply Rmult_le_compat_r; lra). set (z := (uS - w) * (n / (2 * PI))) in *.
      replace ((IZR (tY t) + 1 - (w - uS) * (n / (2 * PI)) - IZR (tY t)) * k) with (k + z * k) by (unfold z; ring). apply Rplus_le_compat_l. replace (k * n * (121 / 10 * d / 360)) with (n * (121 / 10 * d / 360) * k) by ring. apply Rmult_le_compat_r; lra.
Qed.
Lemma N_range : 1 <= N <= 68719476736.
Proof. destruct F as (M & He & HN). assert (P0 : (1 <= 2 ^ tZ t)%Z) by (pose proof (pz _ (proj1 M)); lia). split; apply IZR_le; nia. Qed.
Lemma in_placed p : (2 <= e)%Z -> fin p -> Rabs (B2R (snd p)) <= 85 + / 1000 -> inside (- tiny) t (val p) -> placed t e p.
Proof.
  intros H2 FP HL HI. destruct (in_units tiny p ltac:(unfold tiny; lra) FP HL HI) as [X Y]. pose proof N_range as NR. pose proof gd_PI as GP. assert (E2 : 2 <= IZR e) by (apply IZR_le; lia). apply ab in HL.
  assert (T : N * (tiny / 360) <= 1 / 4 /\ N * (121 / 10 * tiny / 360) <= 1 / 4) by (unfold tiny; lra).
  split; [exact FP|]. change (atan (sinh PI)) with (gd PI). lra.
Qed.
(** The same for positions up to 3.1e-9 degrees outside, as they are found by Tile *)
Lemma by_placed p : (2 <= e)%Z -> (tZ t <= 32)%Z -> fin p -> Rabs (B2R (snd p)) <= 85 + / 1000 -> inside (- (31 / 10 ^ 10)) t (val p) -> placed t e p.
Proof.
  intros H2 H32 FP HL HI. destruct (in_units (31 / 10 ^ 10) p ltac:(lra) FP HL HI) as [X Y]. pose proof gd_PI as GP. assert (E2 : 2 <= IZR e) by (apply IZR_le; lia). apply ab in HL.
  assert (P0 : (0 <= 2 ^ tZ t <= 2 ^ 32)%Z) by (destruct F as ((Z0 & _) & _); split; [apply Z.pow_nonneg; lia|apply Z.pow_le_mono_r; lia]).
  assert (T : N <= IZR e * 4294967296). { rewrite mult_IZR. apply Rmult_le_compat_l; [lra|]. apply IZR_le. lia. }
  split; [exact FP|]. change (atan (sinh PI)) with (gd PI). lra.
Qed.
Lemma within_clamp eb v d : - d <= v <= IZR e + d -> 0 <= d -> Rabs (target eb e v - v) <= d.
Proof.
  intros H D. assert (E0 : 0 <= IZR e) by (destruct F as (_ & (H1 & _) & _); apply IZR_le; lia). unfold target. destruct eb; [|rewrite Rminus_eq_0, Rabs_R0; exact D].
  unfold MvtGeo_Props.within. apply ab. unfold Rmax, Rmin. destruct (Rle_dec (IZR e) v); destruct (Rle_dec 0 _); lra.
Qed.
(** The grid point next to such a position *)
Lemma snap_by d eb p g : 0 < d -> fin p -> Rabs (B2R (snd p)) <= 85 + / 1000 -> inside (- d) t (val p) -> next_to eb t e p g -> within (180 / N + (2 / 10 ^ 9 + 121 / 10 * d)) (place g) (val p).
Proof.
  intros T0 FP HL HI (A & B). destruct (in_units d p T0 FP HL HI) as [X Y]. pose proof N_range as NR. pose proof PI_range as PR.
  pose proof (within_clamp eb _ _ X ltac:(nra)) as CX. pose proof (within_clamp eb _ _ Y ltac:(nra)) as CY. apply ab in A, B, CX, CY.
  assert (DX : Rabs (IZR (fst g) - ecol t e p) <= 1 / 2 + N * (4 / 1000000000000000) + N * (d / 360)) by (apply ab; lra).
  assert (DY : Rabs (IZR (snd g) - erow t e p) <= 1 / 2 + N * (5 / 1000000000000) + N * (121 / 10 * d / 360)) by (apply ab; lra). clear A B CX CY X Y.
  destruct F as (M & He & HN). rewrite ecol_k in DX by exact M. rewrite erow_k in DY by exact M. unfold colk in DX. unfold rowk in DY. unfold within, place, val. cbn [fst snd]. set (lo := B2R (fst p)) in *. set (la := B2R (snd p)) in *.
  assert (P0 : (1 <= 2 ^ tZ t)%Z) by (pose proof (pz _ (proj1 M)); lia). assert (E1 : 1 <= IZR e) by (apply IZR_le; lia). assert (N1 : 1 <= IZR (2 ^ tZ t)) by (apply IZR_le; lia).
  rewrite !plus_IZR, !mult_IZR in *. set (n := IZR (2 ^ tZ t)) in *. set (k := IZR e) in *. assert (KN : 0 < k * n) by lra. assert (I0 : 0 < / (k * n)) by (apply Rinv_0_lt_compat; lra). assert (II : k * n * / (k * n) = 1) by (apply Rinv_r; lra). split.
  - replace (360 * ((k * IZR (tX t) + IZR (fst g)) / (k * n)) - 180 - lo) with ((IZR (fst g) - ((lo + 180) / 360 * n - IZR (tX t)) * k) * (360 * / (k * n))) by (field; split; lra). rewrite Rabs_mult, (Rabs_pos_eq (360 * _)) by lra.
    eapply Rle_trans; [apply Rmult_le_compat_r; [lra|exact DX]|]. replace ((1 / 2 + k * n * (4 / 1000000000000000) + k * n * (d / 360)) * (360 * / (k * n))) with (180 / (k * n) + (k * n * / (k * n)) * (1440 / 1000000000000000 + d)) by (unfold Rdiv; field; split; lra). rewrite II. lra.
  - apply ab in HL. set (w := merc (la * (PI / 180))) in *. assert (GW : gd w = la * (PI / 180)) by (apply gd_merc; nra). assert (D0 : 0 < 180 / PI) by (apply Rdiv_lt_0_compat; lra).
    replace la with (180 / PI * gd w) at 1 by (rewrite GW; field; lra). set (w' := PI * (1 - 2 * ((k * IZR (tY t) + IZR (snd g)) / (k * n)))). rewrite <- Rmult_minus_distr_l, Rabs_mult, (Rabs_pos_eq (180 / PI)) by lra.
    pose proof (gd_up w' w) as GU. assert (EW : w' - w = - ((IZR (snd g) - ((1 - w / PI) / 2 * n - IZR (tY t)) * k) * (2 * PI * / (k * n)))) by (unfold w'; field; repeat split; lra). rewrite EW, Rabs_Ropp, Rabs_mult, (Rabs_pos_eq (2 * PI * _)) in GU by (apply Rmult_le_pos; lra).
    apply Rle_trans with (180 / PI * ((1 / 2 + k * n * (5 / 1000000000000) + k * n * (121 / 10 * d / 360)) * (2 * PI * / (k * n)))).
    { apply Rmult_le_compat_l; [lra|]. eapply Rle_trans; [exact GU|]. apply Rmult_le_compat_r; [apply Rmult_le_pos; lra|exact DY]. }
    replace (180 / PI * ((1 / 2 + k * n * (5 / 1000000000000) + k * n * (121 / 10 * d / 360)) * (2 * PI * / (k * n)))) with (180 / (k * n) + (k * n * / (k * n)) * (1800 / 1000000000000 + 121 / 10 * d)) by (unfold Rdiv; field; repeat split; lra). rewrite II. lra.
Qed.
Lemma snap eb p g : fin p -> Rabs (B2R (snd p)) <= 85 + / 1000 -> inside (- tiny) t (val p) -> next_to eb t e p g -> within (180 / N + 39 / 10 ^ 10) (place g) (val p).
Proof. intros FP HL HI H. eapply within_mono; [|apply (snap_by tiny eb p g); auto; unfold tiny; lra]. unfold tiny. lra. Qed.
End Units.

(** ** Lines through repeated points *)
Lemma squeezed_head {A} (l l' : list A) : MvtGeo_Props.squeezed l l' -> match l, l' with [], [] => True | p :: _, q :: _ => p = q | _, _ => False end.
Proof. induction 1; auto. Qed.
Lemma seg_same a p : seg a a p -> p = a.
Proof. intros (u & _ & A & B). destruct p as [x y], a as [x' y']. cbn [fst snd] in *. f_equal; lra. Qed.
Lemma line_squeezed {A} (f : A -> R * R) l l' : MvtGeo_Props.squeezed l l' -> forall p, on_line (map f l) p <-> on_line (map f l') p.
Proof.
  induction 1 as [|p|p l l' H IH|p q l l' Hn H IH]; intros x; try tauto.
  - rewrite <- IH. cbn [map]. split; [|intros K; right; exact K]. intros [K|K]; [|exact K]. apply seg_same in K. subst x. destruct l as [|b l]; [reflexivity|left; apply seg_l].
  - pose proof (squeezed_head _ _ H) as Hh. destruct l' as [|q' l']; [destruct Hh|]. subst q'. cbn [map] in *. cbn [on_line] in *. specialize (IH x). tauto.
Qed.

(** ** Sizes *)
Open Scope Z_scope.
Lemma leb_len f : forall v, zlen (leb f v) <= Z.of_nat f + 1.
Proof. induction f as [|f IH]; intros v; cbn [leb]; [unfold zlen; cbn [length]; lia|]. destruct (v <? 128); [unfold zlen; cbn [length]; lia|]. specialize (IH (v / 128)). unfold zlen in *. cbn [length]. lia. Qed.
Lemma EncodeVarint_len v : zlen (EncodeVarint v) <= 10.
Proof. apply (leb_len 9). Qed.
Lemma packed_len cs : zlen (packed cs) <= 10 * zlen cs.
Proof. unfold packed. induction cs as [|c cs IH]; cbn [flat_map]; [unfold zlen; cbn [length]; lia|]. rewrite zlen_app. pose proof (EncodeVarint_len c). unfold zlen in *. cbn [length]. lia. Qed.
