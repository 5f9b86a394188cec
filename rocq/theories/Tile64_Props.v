(** Tiles in binary64 (C118). *)
From Coq Require Import ZArith Reals Rtrigo1 Ratan List Lia Lra Bool.
From Flocq Require Import Core BinarySingleNaN.
From Verif Require Import GoBase Num Tileid_Model TileR_Model TileR_Proofs TileF64_Model TileF64_Proofs F64 ColorF64_Model ColorF64_Proofs ColorF64_Props Tile64_Model Tile64_Proofs.
Import ListNotations.
Open Scope R_scope.
#[local] Existing Instance vexp.

(** A tile of the map *)
Definition on_map (t : TileID) : Prop := (0 <= tZ t)%Z /\ (0 <= tX t < 2 ^ tZ t)%Z /\ (0 <= tY t < 2 ^ tZ t)%Z.

Section WithMap.
Variable t : TileID.
Hypothesis M : on_map t.
Let n := IZR (2 ^ tZ t).
Let y := IZR (tY t).
Let uN := PI * (1 - 2 * y / n).
Let uS := PI * (1 - 2 * (y + 1) / n).
Lemma n_pos : 1 <= n. Proof. unfold n. apply IZR_le. destruct M as (Hz & _). pose proof (pz _ Hz). lia. Qed.
Lemma y_range : 0 <= y <= n - 1.
Proof. destruct M as (_ & _ & H). unfold y, n. rewrite <- minus_IZR. split; apply IZR_le; lia. Qed.
Lemma Bounds_exact : eW (Bounds t) = IZR (tX t) / n * 360 - 180 /\ eE (Bounds t) = IZR (tX t + 1) / n * 360 - 180 /\ eN (Bounds t) = 180 / PI * gd uN /\ eS (Bounds t) = 180 / PI * gd uS.
Proof. destruct (Bounds_eq t) as (A & B & C & D). rewrite (pow2_IZR (tZ t)) in * by apply M. rewrite A, B, C, D, plus_IZR. repeat split; reflexivity. Qed.
Lemma u_range : - PI <= uS /\ uS <= uN /\ uN <= PI /\ uN - uS = 2 * PI / n.
Proof.
  pose proof n_pos as N. pose proof y_range as Y. pose proof PI_range as P. assert (A : 0 <= y / n) by (apply Rmult_le_pos; [lra|apply Rlt_le, Rinv_0_lt_compat; lra]). assert (B : (y + 1) / n <= 1) by (apply Rmult_le_reg_r with n; [lra|]; unfold Rdiv; rewrite Rmult_assoc, Rinv_l by lra; lra).
  assert (I : 0 < / n) by (apply Rinv_0_lt_compat; lra). unfold uN, uS. replace (2 * y / n) with (2 * (y / n)) by (unfold Rdiv; ring). replace (2 * (y + 1) / n) with (2 * ((y + 1) / n)) by (unfold Rdiv; ring). replace ((y + 1) / n) with (y / n + / n) in * by (field; lra). set (a := y / n) in *. set (i := / n) in *.
  repeat split; try nra. unfold Rdiv. fold i. ring.
Qed.
(** Rows in terms of the projected coordinate *)
Lemma row_coord u : (1 - u / PI) / 2 * n = y + (uN - u) * (n / (2 * PI)) /\ (1 - u / PI) / 2 * n = y + 1 - (u - uS) * (n / (2 * PI)).
Proof. pose proof n_pos. pose proof PI_range. unfold uN, uS. split; field; lra. Qed.
Lemma npi_pos : 0 < n / (2 * PI). Proof. pose proof n_pos. pose proof PI_range. apply Rdiv_lt_0_compat; lra. Qed.
(** A latitude as an image of the projection *)
Lemma lat_gd lat : -90 < lat < 90 -> exists u, lat = 180 / PI * gd u.
Proof. intros H. pose proof PI_range. exists (merc (lat * (PI / 180))). rewrite gd_merc by nra. field. lra. Qed.
Lemma gd_inner a b d : 180 / PI * gd a + d <= 180 / PI * gd b -> 0 <= d -> a + d * (PI / 180) <= b.
Proof.
  intros H D. pose proof PI_range as P. assert (G : gd a + d * (PI / 180) <= gd b). { apply Rmult_le_reg_l with (180 / PI); [apply Rdiv_lt_0_compat; lra|]. replace (180 / PI * (gd a + d * (PI / 180))) with (180 / PI * gd a + d) by (field; lra). exact H. }
  assert (L : a <= b) by (apply gd_le; nra). pose proof (gd_up b a) as U. rewrite !Rabs_pos_eq in U by (try lra; nra). lra.
Qed.
End WithMap.

Section Lib.
Variable m : libm.
Hypothesis G : good_libm m.

Lemma bounds_near t : on_map t -> (tZ t <= 44)%Z ->
  is_f (e6W (Bounds64 m t)) (eW (Bounds t)) /\ is_f (e6E (Bounds64 m t)) (eE (Bounds t)) /\
  (exists r, is_f (e6N (Bounds64 m t)) r /\ Rabs (r - eN (Bounds t)) <= e12 8) /\ (exists r, is_f (e6S (Bounds64 m t)) r /\ Rabs (r - eS (Bounds t)) <= e12 8).
Proof.
  intros M Hz. pose proof M as (Z0 & HX & HY). destruct (Bounds_exact t M) as (A & B & C & D). unfold Bounds64, Ul64. cbn [e6W e6E e6N e6S fst snd tX tY tZ].
  pose proof (ul_lon_f (tX t) (tZ t) ltac:(lia) ltac:(lia)) as W. pose proof (ul_lon_f (tX t + 1) (tZ t) ltac:(lia) ltac:(lia)) as E. rewrite ul_lon_eq in W, E by lia. rewrite A, B. split; [exact W|]. split; [exact E|].
  destruct (ul_lat_near m G (tY t) (tZ t) ltac:(lia) ltac:(lia)) as (r & R1 & R2). destruct (ul_lat_near m G (tY t + 1) (tZ t) ltac:(lia) ltac:(lia)) as (r' & R1' & R2'). rewrite plus_IZR in R2'.
  split; [exists r|exists r']; (split; [assumption|]); [rewrite C|rewrite D]; assumption.
Qed.

(** [u] is the projected middle latitude of the tile *)
Lemma center_near t z : on_map t -> (tZ t <= 43)%Z -> (0 <= z <= 44)%Z -> exists u v,
  tile_row m (snd (Center64 m t)) z = Zfloor v /\ Rabs (v - (1 - u / PI) / 2 * IZR (2 ^ z)) <= IZR (2 ^ z) * e12 (73 / 10) /\
  let n := IZR (2 ^ tZ t) in IZR (tY t) + exp (- (2 * PI / n)) / 2 <= (1 - u / PI) / 2 * n <= IZR (tY t) + 1 - exp (- (2 * PI / n)) / 2.
Proof.
  intros M Hz Hz'. destruct (bounds_near t M ltac:(lia)) as (_ & _ & (rn & Fn & En) & (rs & Fs & Es)). destruct (Bounds_exact t M) as (_ & _ & C & D). rewrite C in En. rewrite D in Es. pose proof (u_range t M) as (U1 & U2 & U3 & U4).
  set (n := IZR (2 ^ tZ t)) in *. set (uN := PI * (1 - 2 * IZR (tY t) / n)) in *. set (uS := PI * (1 - 2 * (IZR (tY t) + 1) / n)) in *. pose proof PI_range as PR. assert (P0 : 0 < 180 / PI) by (apply Rdiv_lt_0_compat; lra).
  pose proof (gd_bound uN) as BN. pose proof (gd_bound uS) as BS. assert (P90 : 180 / PI * (PI / 2) = 90) by (field; lra). set (d := 180 / PI) in *. assert (DP : d * (PI / 180) = 1) by (unfold d; field; lra). assert (LN : -90 <= d * gd uN <= 90) by nra. assert (LS : -90 <= d * gd uS <= 90) by nra.
  assert (U : 0 < uu <= / 9000000000000000) by (unfold uu; lra). unfold e12 in *. apply ab in En. apply ab in Es. unfold Center64. cbn [snd].
  pose proof (fadd_f _ _ _ _ Fn Fs ltac:(apply big, ab; lra)) as F1. pose proof (re256 (rn + rs) ltac:(apply ab; lra)) as E1. apply ab in E1. set (s := rnd (rn + rs)) in *.
  pose proof (fdiv_f _ _ _ _ F1 (f_int 2 ltac:(lia)) ltac:(lra) ltac:(apply big, ab; lra)) as F2. pose proof (re 7 128 ltac:(lia) ltac:(lia) eq_refl (s / 2) ltac:(apply ab; lra)) as E2. apply ab in E2. set (r := rnd (s / 2)) in *.
  assert (GM : gd uS <= (gd uN + gd uS) / 2 <= gd uN) by (assert (gd uS <= gd uN) by (apply (proj1 (gd_le _ _)); lra); lra). set (g := (gd uN + gd uS) / 2) in *. assert (UG : gd (merc g) = g) by (apply gd_merc; lra). set (u := merc g) in *.
  assert (US : uS <= u) by (apply gd_le; lra). assert (UN : u <= uN) by (apply gd_le; lra). assert (DR : Rabs (r - d * gd u) <= 81 / 10 / 1000000000000) by (rewrite UG; unfold g; apply ab; lra).
  assert (G1 : - gd PI <= gd u <= gd PI) by (rewrite <- gd_odd; split; apply (proj1 (gd_le _ _)); lra). pose proof (gd_low (31417 / 10000) PI ltac:(apply ab; lra) ltac:(apply ab; lra)) as GL.
  assert (GI : gd PI <= gd (31417 / 10000)) by (apply (proj1 (gd_le _ _)); lra). rewrite !Rabs_pos_eq in GL by lra. pose proof (gd_bound (31417 / 10000)) as GB.
  assert (EG : Rabs (r * (PI / 180) - gd u) <= 1415 / 10000000000000000). { replace (r * (PI / 180) - gd u) with ((r - d * gd u) * (PI / 180)) by (unfold d; field; lra). rewrite Rabs_mult, (Rabs_pos_eq (PI / 180)) by lra. pose proof (Rabs_pos (r - d * gd u)). nra. }
  apply ab in EG. assert (UR : gd (merc (r * (PI / 180))) = r * (PI / 180)) by (apply gd_merc; lra). set (v := merc (r * (PI / 180))) in *. assert (BV : Rabs v <= 31417 / 10000) by (apply ab; split; apply gd_le; rewrite ?gd_odd, UR; lra).
  pose proof (gd_low v u ltac:(lra) ltac:(apply ab; lra)) as DV. rewrite UR in DV. assert (EV : Rabs (v - u) <= 172 / 100 / 1000000000000). { eapply Rle_trans; [exact DV|]. assert (Rabs (r * (PI / 180) - gd u) <= 1415 / 10000000000000000) by (apply ab; lra). lra. }
  destruct (row_near m G (fdiv (fadd (e6N (Bounds64 m t)) (e6S (Bounds64 m t))) (fint 2)) v z (proj1 F2)) as (w & W1 & W2); [rewrite (proj2 F2), UR; unfold d; field; lra|exact BV|exact Hz'|].
  exists u, w. split; [exact W1|]. split.
  - set (k := IZR (2 ^ z)) in *. assert (K0 : 1 <= k) by (unfold k; apply IZR_le; pose proof (pz z); lia). unfold e12 in *. assert (Q : Rabs ((1 - v / PI) / 2 * k - (1 - u / PI) / 2 * k) <= k * (3 / 10 / 1000000000000)).
    { replace ((1 - v / PI) / 2 * k - (1 - u / PI) / 2 * k) with (k * ((u - v) * / (2 * PI))) by (field; lra). rewrite Rabs_mult, (Rabs_pos_eq k) by lra. apply Rmult_le_compat_l; [lra|]. rewrite Rabs_mult, Rabs_minus_sym. assert (0 <= / (2 * PI) <= / 6) by (split; [apply Rlt_le, Rinv_0_lt_compat; lra|apply Rinv_le_contravar; lra]). rewrite (Rabs_pos_eq (/ _)) by lra. pose proof (Rabs_pos (v - u)). nra. }
    apply ab in Q. apply ab in W2. apply ab. lra.
  - destruct (mid_margin uS uN u U2 UG) as [M1 M2]. rewrite U4 in M1, M2. destruct (row_coord t M u) as [R1 R2]. fold n uN uS in R1, R2. pose proof (n_pos t M) as N1. fold n in N1. set (e := exp (- (2 * PI / n))) in *.
    assert (H0 : n / (2 * PI) * (2 * PI / n) = 1) by (field; lra). pose proof (npi_pos t M) as NP. fold n in NP. set (a := n / (2 * PI)) in *. set (b := 2 * PI / n) in *.
    assert (X1 : b / 2 * e * a <= (uN - u) * a) by (apply Rmult_le_compat_r; lra). assert (X2 : b / 2 * e * a <= (u - uS) * a) by (apply Rmult_le_compat_r; lra). replace (b / 2 * e * a) with (a * b * (e / 2)) in X1, X2 by field. rewrite H0 in X1, X2. split; [rewrite R1|rewrite R2]; lra.
Qed.
Lemma center_col t z : on_map t -> (tZ t <= 43)%Z -> (0 <= z <= 62)%Z -> tile_col (fst (Center64 m t)) z = ((2 * tX t + 1) * 2 ^ z / 2 ^ (tZ t + 1))%Z.
Proof.
  intros M Hz Hz'. pose proof M as (Z0 & HX & HY). pose proof (p43 (tZ t) 43 ltac:(lia)) as P. assert (P2 : (2 ^ (tZ t + 1) = 2 * 2 ^ tZ t)%Z) by (rewrite Z.pow_add_r by lia; lia). apply col_dyadic; try lia. unfold Center64, Bounds64, Ul64. cbn [fst snd e6W e6E tX tY tZ].
  pose proof (f_dy_add _ _ _ _ _ (ul_lon_f (tX t) (tZ t) ltac:(lia) ltac:(lia)) (ul_lon_f (tX t + 1) (tZ t) ltac:(lia) ltac:(lia)) ltac:(lia) ltac:(lia)) as F. pose proof (f_dy_half _ _ _ F ltac:(lia) ltac:(lia)) as F2.
  replace (360 * (2 * tX t + 1) - 180 * 2 ^ (tZ t + 1))%Z with (360 * tX t - 180 * 2 ^ tZ t + (360 * (tX t + 1) - 180 * 2 ^ tZ t))%Z by lia. exact F2.
Qed.
End Lib.

(** ** C118 *)
(** Longitudes of Bounds are exact, latitudes are within a hundred-billionth of a degree. *)
Theorem C118_edges : forall m t, good_libm m -> on_map t -> (tZ t <= 44)%Z ->
  is_finite (e6W (Bounds64 m t)) = true /\ B2R (e6W (Bounds64 m t)) = eW (Bounds t) /\ is_finite (e6E (Bounds64 m t)) = true /\ B2R (e6E (Bounds64 m t)) = eE (Bounds t) /\
  is_finite (e6N (Bounds64 m t)) = true /\ Rabs (B2R (e6N (Bounds64 m t)) - eN (Bounds t)) <= / 10 ^ 11 /\ is_finite (e6S (Bounds64 m t)) = true /\ Rabs (B2R (e6S (Bounds64 m t)) - eS (Bounds t)) <= / 10 ^ 11.
Proof.
  intros m t G M Hz. destruct (bounds_near m G t M Hz) as ([W1 W2] & [E1 E2] & (rn & [N1 N2] & N3) & (rs & [S1 S2] & S3)). rewrite N2, S2. unfold e12 in *. repeat split; auto; eapply Rle_trans; try eassumption; lra.
Qed.
Print Assumptions C118_edges.
(** The column: exact on the western edge and up to 2^-42 degrees from the eastern one, never further than the next column. *)
Theorem C118_column : forall t lng, on_map t -> (tZ t <= 44)%Z -> is_finite lng = true -> eW (Bounds t) <= B2R lng < eE (Bounds t) ->
  (B2R lng <= eE (Bounds t) - / 2 ^ 42 -> tile_col lng (tZ t) = tX t) /\ (tile_col lng (tZ t) = tX t \/ tile_col lng (tZ t) = tX t + 1)%Z.
Proof.
  intros t lng M Hz F H. pose proof M as (Z0 & HX & HY). destruct (Bounds_exact t M) as (A & B & _). rewrite A, B in *. pose proof (ul_lon_range (tX t) (tZ t) Z0 ltac:(lia)). pose proof (ul_lon_range (tX t + 1) (tZ t) Z0 ltac:(lia)).
  pose proof (col_ge lng (tX t) (tZ t) ltac:(lia) ltac:(lia) F ltac:(lra)) as C1. split.
  - intros L. pose proof (col_lt lng (tX t + 1) (tZ t) ltac:(lia) ltac:(lia) F ltac:(lra)). lia.
  - pose proof (col_le lng (tX t + 1) (tZ t) ltac:(lia) ltac:(lia) F ltac:(lra)). lia.
Qed.
Print Assumptions C118_column.
(** Every point at least three billionths of a degree inside the bounds of a tile is located in it. *)
Theorem C118_locate : forall m t lng lat, good_libm m -> on_map t -> (tZ t <= 44)%Z -> is_finite lng = true -> is_finite lat = true ->
  eW (Bounds t) <= B2R lng <= eE (Bounds t) - 3 / 10 ^ 9 -> eS (Bounds t) + 3 / 10 ^ 9 <= B2R lat <= eN (Bounds t) - 3 / 10 ^ 9 -> Tile64 m lng lat (tZ t) = t.
Proof.
  intros m t lng lat G M Hz F1 F2 HL HB. pose proof M as (Z0 & HX & HY). destruct (C118_column t lng M Hz F1 ltac:(lra)) as [C _]. specialize (C ltac:(lra)). destruct (Bounds_exact t M) as (_ & _ & BN & BS). rewrite BN, BS in HB. pose proof (u_range t M) as (U1 & U2 & U3 & _). pose proof PI_range as PR.
  pose proof (edge_lat_range (IZR (tY t)) (IZR (2 ^ tZ t))) as R1. pose proof (edge_lat_range (IZR (tY t) + 1) (IZR (2 ^ tZ t))) as R2. unfold edge_lat in R1, R2. set (n := IZR (2 ^ tZ t)) in *. set (uN := PI * (1 - 2 * IZR (tY t) / n)) in *. set (uS := PI * (1 - 2 * (IZR (tY t) + 1) / n)) in *.
  destruct (lat_gd (B2R lat) ltac:(lra)) as (u & E). rewrite E in HB. pose proof (gd_inner uS u (3 / 10 ^ 9) ltac:(lra) ltac:(lra)) as I1. pose proof (gd_inner u uN (3 / 10 ^ 9) ltac:(lra) ltac:(lra)) as I2.
  destruct (row_near m G lat u (tZ t) F2 E ltac:(apply ab; lra) ltac:(lia)) as (v & V1 & V2). fold n in V2. destruct (row_coord t M u) as [K1 K2]. fold n uN uS in K1, K2. pose proof (npi_pos t M) as NP. fold n in NP. pose proof (n_pos t M) as N1. fold n in N1.
  assert (NK : n / (2 * PI) * (3 / 10 ^ 9 * (PI / 180)) = n * (8333 / 1000000000000000) + n / 3 / 1000000000000000) by (field; lra). set (a := n / (2 * PI)) in *. assert (J1 : a * (3 / 10 ^ 9 * (PI / 180)) <= a * (uN - u)) by (apply Rmult_le_compat_l; lra). assert (J2 : a * (3 / 10 ^ 9 * (PI / 180)) <= a * (u - uS)) by (apply Rmult_le_compat_l; lra).
  rewrite NK in J1, J2. unfold e12 in V2. apply ab in V2. unfold Tile64. rewrite C, V1. replace (Zfloor v) with (tY t). 2:{ symmetry. apply Zfloor_imp. rewrite plus_IZR. rewrite K1 in V2 at 1. rewrite K2 in V2. lra. }
  rewrite u64_id by (unfold in_u64; lia). destruct t; reflexivity.
Qed.
Print Assumptions C118_locate.
(** A point of a tile is located in it or in one touching it, to the east. *)
Theorem C118_neighbours : forall m t lng lat, good_libm m -> on_map t -> (tZ t <= 36)%Z -> is_finite lng = true -> is_finite lat = true ->
  eW (Bounds t) <= B2R lng < eE (Bounds t) -> eS (Bounds t) < B2R lat <= eN (Bounds t) ->
  let r := Tile64 m lng lat (tZ t) in (tX t <= tX r <= tX t + 1)%Z /\ (tY t - 1 <= tY r <= tY t + 1)%Z /\ tZ r = tZ t.
Proof.
  intros m t lng lat G M Hz F1 F2 HL HB. pose proof M as (Z0 & HX & HY). destruct (C118_column t lng M ltac:(lia) F1 ltac:(lra)) as [_ C]. destruct (Bounds_exact t M) as (_ & _ & BN & BS). rewrite BN, BS in HB. pose proof (u_range t M) as (U1 & U2 & U3 & _). pose proof PI_range as PR.
  pose proof (edge_lat_range (IZR (tY t)) (IZR (2 ^ tZ t))) as R1. pose proof (edge_lat_range (IZR (tY t) + 1) (IZR (2 ^ tZ t))) as R2. unfold edge_lat in R1, R2. assert (N2 : IZR (2 ^ tZ t) <= 68719476736) by (apply IZR_le, (p43 (tZ t) 36); lia). set (n := IZR (2 ^ tZ t)) in *. set (uN := PI * (1 - 2 * IZR (tY t) / n)) in *. set (uS := PI * (1 - 2 * (IZR (tY t) + 1) / n)) in *.
  destruct (lat_gd (B2R lat) ltac:(lra)) as (u & E). rewrite E in HB. pose proof (gd_inner uS u 0 ltac:(lra) ltac:(lra)) as I1. pose proof (gd_inner u uN 0 ltac:(lra) ltac:(lra)) as I2. rewrite Rmult_0_l, Rplus_0_r in I1, I2.
  destruct (row_near m G lat u (tZ t) F2 E ltac:(apply ab; lra) ltac:(lia)) as (v & V1 & V2). fold n in V2. destruct (row_coord t M u) as [K1 K2]. fold n uN uS in K1, K2. pose proof (npi_pos t M) as NP. fold n in NP. pose proof (n_pos t M) as N1. fold n in N1. set (a := n / (2 * PI)) in *.
  assert (J1 : 0 <= (uN - u) * a) by (apply Rmult_le_pos; lra). assert (J2 : 0 <= (u - uS) * a) by (apply Rmult_le_pos; lra). unfold e12 in V2. apply ab in V2. intros r. unfold r, Tile64. cbn [tX tY tZ]. rewrite V1, u64_id by (unfold in_u64; lia). split; [lia|]. split; [|reflexivity].
  split.
  - apply Zfloor_lub. rewrite minus_IZR. lra.
  - assert (Zfloor v < tY t + 2)%Z; [|lia]. apply lt_IZR. apply Rle_lt_trans with v; [apply Zfloor_lb|]. rewrite plus_IZR. lra.
Qed.
Print Assumptions C118_neighbours.
(** The centre of a tile is located in it. *)
Theorem C118_center : forall m t, good_libm m -> on_map t -> (tZ t <= 31)%Z -> Tile64 m (fst (Center64 m t)) (snd (Center64 m t)) (tZ t) = t.
Proof.
  intros m t G M Hz. pose proof M as (Z0 & HX & HY). unfold Tile64. rewrite center_col by (auto; lia). destruct (center_near m G t (tZ t) M ltac:(lia) ltac:(lia)) as (u & v & V1 & V2 & V3). rewrite V1. cbv zeta in V3.
  pose proof (exp_2pi (IZR (2 ^ tZ t))) as [X1 X2]. 1:{ apply IZR_le. pose proof (pz _ Z0). lia. }
  assert (EC : ((2 * tX t + 1) * 2 ^ tZ t / 2 ^ (tZ t + 1) = tX t)%Z). { pose proof (pz _ Z0) as P. rewrite Z.pow_add_r by lia. rewrite (Z.mul_comm (2 ^ tZ t)), Z.div_mul_cancel_r by lia. rewrite Z.pow_1_r. lia. }
  rewrite EC. replace (Zfloor v) with (tY t). 1:{ rewrite u64_id by (unfold in_u64; lia). destruct t; reflexivity. } symmetry. apply Zfloor_imp. rewrite plus_IZR. unfold e12 in V2. apply ab in V2.
  destruct (Z.eq_dec (tZ t) 0) as [E|E].
  - rewrite E in *. change (IZR (2 ^ 0)) with 1 in *. lra.
  - assert (N2 : 2 <= IZR (2 ^ tZ t) <= 2147483648). { split; apply IZR_le; [|apply (p43 (tZ t) 31); lia]. change 2%Z with (2 ^ 1)%Z at 1. apply Z.pow_le_mono_r; lia. } specialize (X2 (proj1 N2)). lra.
Qed.
Print Assumptions C118_center.
(** Parent halves the coordinates, so it undoes Children. *)
Theorem C118_parent : forall m t, good_libm m -> on_map t -> (1 <= tZ t <= 31)%Z -> Parent64 m t = mkTile (tX t / 2) (tY t / 2) (tZ t - 1).
Proof.
  intros m t G M Hz. pose proof M as (Z0 & HX & HY). unfold Parent64. cbv zeta. rewrite wrap64_id by (unfold in_i64; lia). unfold Tile64. rewrite center_col by (auto; lia). destruct (center_near m G t (tZ t - 1) M ltac:(lia) ltac:(lia)) as (u & v & V1 & V2 & V3). rewrite V1. cbv zeta in V3.
  pose proof (exp_2pi (IZR (2 ^ tZ t))) as [_ X2]. 1:{ apply IZR_le. pose proof (pz _ Z0). lia. }
  assert (EZ : (2 ^ tZ t = 2 * 2 ^ (tZ t - 1))%Z) by (replace (tZ t) with (1 + (tZ t - 1))%Z at 1 by lia; rewrite Z.pow_add_r by lia; reflexivity). pose proof (pz (tZ t - 1) ltac:(lia)) as P.
  assert (EC : ((2 * tX t + 1) * 2 ^ (tZ t - 1) / 2 ^ (tZ t + 1) = tX t / 2)%Z). { rewrite Z.pow_add_r, EZ by lia. replace (2 * 2 ^ (tZ t - 1) * 2 ^ 1)%Z with (4 * 2 ^ (tZ t - 1))%Z by lia. rewrite Z.div_mul_cancel_r by lia. lia. }
  rewrite EC. rewrite u64_id by (unfold in_u64; lia). f_equal. apply Zfloor_imp. rewrite plus_IZR. unfold e12 in V2. apply ab in V2.
  assert (N2 : 2 <= IZR (2 ^ tZ t) <= 2147483648). { split; apply IZR_le; [|apply (p43 (tZ t) 31); lia]. change 2%Z with (2 ^ 1)%Z at 1. apply Z.pow_le_mono_r; lia. } specialize (X2 (proj1 N2)).
  assert (NN : IZR (2 ^ tZ t) = 2 * IZR (2 ^ (tZ t - 1))) by (rewrite EZ, mult_IZR; reflexivity). rewrite NN in *. set (k := IZR (2 ^ (tZ t - 1))) in *. set (w := (1 - u / PI) / 2) in *.
  assert (Y : 2 * IZR (tY t / 2) <= IZR (tY t) <= 2 * IZR (tY t / 2) + 1) by (rewrite <- mult_IZR, <- plus_IZR; split; apply IZR_le; lia). replace (w * (2 * k)) with (2 * (w * k)) in V3 by ring. set (wk := w * k) in *. set (ee := exp (- (2 * PI / (2 * k)))) in *. lra.
Qed.
Print Assumptions C118_parent.
Theorem C118_parent_of_child : forall m t c, good_libm m -> on_map t -> (tZ t <= 30)%Z -> In c (Children t) -> Parent64 m c = t.
Proof.
  intros m [x y z] c G M Hz H. pose proof M as (Z0 & HX & HY). cbn [tX tY tZ] in *. pose proof (p43 z 30 ltac:(lia)) as P. rewrite Children_eq in H by lia. assert (EZ : (2 ^ (z + 1) = 2 * 2 ^ z)%Z) by (rewrite Z.pow_add_r by lia; lia).
  assert (K : on_map c /\ (tX c / 2 = x)%Z /\ (tY c / 2 = y)%Z /\ (tZ c - 1 = z)%Z). { unfold on_map. repeat (destruct H as [<-|H]; [cbn [tX tY tZ]; rewrite EZ; lia|]). destruct H. }
  destruct K as (K1 & K2 & K3 & K4). rewrite C118_parent by (auto; lia). rewrite K2, K3, K4. reflexivity.
Qed.
Print Assumptions C118_parent_of_child.
(** The correctly rounded functions are accurate enough. *)
Definition exact_libm : libm := mkLibm (fun x => of_R (rnd (atan (B2R x)))) (fun x => of_R (rnd (sinh (B2R x)))) (fun x => of_R (rnd (tan (B2R x)))) (fun x => of_R (rnd (cos (B2R x)))) (fun x => of_R (rnd (ln (B2R x)))).
Lemma ok1_rnd g (P : R -> Prop) tol : (forall x, P x -> Rabs (g x) <= 16) -> 16 * uu <= tol -> ok1 (fun x => of_R (rnd (g (B2R x)))) g P tol.
Proof.
  intros H T x F Px. specialize (H _ Px). pose proof (re 4 16 ltac:(lia) ltac:(lia) eq_refl (g (B2R x)) H) as E. assert (U : 0 < uu <= / 9000000000000000) by (unfold uu; lra). pose proof E as E'. apply ab in E'. pose proof H as H'. apply ab in H'.
  assert (K : is_f (of_R (rnd (g (B2R x)))) (rnd (g (B2R x)))) by (apply of_R_f; [apply generic_format_round; [apply vexp|apply valid_rnd_N]|apply ab; lra]). destruct K as [K1 K2]. split; [exact K1|]. rewrite K2. eapply Rle_trans; [exact E|lra].
Qed.
Lemma ln_le' x y : 0 < x -> x <= y -> ln x <= ln y.
Proof. intros H [K|K]; [left; apply ln_increasing; assumption|right; rewrite K; reflexivity]. Qed.
Example C118_nonvacuous : good_libm exact_libm /\ on_map (mkTile 3 5 3) /\ Tile64 exact_libm (fst (Center64 exact_libm (mkTile 3 5 3))) (snd (Center64 exact_libm (mkTile 3 5 3))) 3 = mkTile 3 5 3 /\ Parent64 exact_libm (mkTile 3 5 3) = mkTile 1 2 2.
Proof.
  assert (U : 0 < uu <= / 9000000000000000) by (unfold uu; lra). assert (G : good_libm exact_libm).
  { unfold good_libm, exact_libm, t13, t14. cbn [mSinh mAtan mTan mCos mLog]. repeat apply conj; apply ok1_rnd; try lra.
    - intros x Hx. pose proof (sinh_range x Hx). lra.
    - intros x _. pose proof (atan_bound x). pose proof PI_range. apply ab. lra.
    - intros x Hx. pose proof (gd_bound (3142 / 1000)). apply ab in Hx. rewrite <- (gd_merc x) by lra. unfold gd. rewrite tan_atan. assert (Rabs (merc x) <= 3142 / 1000) by (apply ab; split; apply gd_le; rewrite ?gd_odd, gd_merc; lra). pose proof (sinh_range (merc x) H0). lra.
    - intros x _. pose proof (COS_bound x). apply ab. lra.
    - intros x [H1 H2]. assert (L25 : ln 25 <= 16). { rewrite <- (ln_exp 16). apply ln_le'; [lra|]. pose proof (exp_ineq1_le 16) as I1. replace 16 with (8 + 8) by lra. rewrite exp_plus. pose proof (exp_ineq1_le 8). nra. }
      assert (B1 : ln x <= ln 25) by (apply ln_le'; lra). assert (B2 : ln (/ 25) <= ln x) by (apply ln_le'; lra). rewrite ln_Rinv in B2 by lra. apply ab. lra. }
  assert (M : on_map (mkTile 3 5 3)) by (unfold on_map; cbn; lia). split; [exact G|]. split; [exact M|]. split.
  - apply (C118_center _ _ G M). cbn. lia.
  - rewrite (C118_parent _ _ G M) by (cbn; lia). reflexivity.
Qed.
