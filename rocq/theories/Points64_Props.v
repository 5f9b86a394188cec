(** Splitting points by tile in binary64 (C140). *)
From Coq Require Import ZArith Reals Rtrigo1 Ratan List Lia Lra Bool Permutation.
From Flocq Require Import Core BinarySingleNaN Mult_error.
From Verif Require Import GoBase Num Tileid_Model TileR_Model TileR_Proofs TileF64_Model TileF64_Proofs F64 ColorF64_Model ColorF64_Proofs ColorF64_Props Tile64_Model Tile64_Proofs Tile64_Props Clip_Model Points64_Model.
From Verif Require Tileid_Props Clip_Props ClipPoints_Props Line64_Props.
Import ListNotations.
Open Scope R_scope.
#[local] Existing Instance vexp.

(** A point of the map, up to the parallels where it ends *)
Definition on_earth (p : f64 * f64) : Prop :=
  let w := Bounds (mkTile 0 0 0) in
  is_finite (fst p) = true /\ is_finite (snd p) = true /\ eW w <= B2R (fst p) <= eE w /\ eS w <= B2R (snd p) <= eN w.
(** Within 3e-9 degrees of the bounds of a tile, and not on its eastern edge or beyond *)
Definition near_tile (t : TileID) (p : f64 * f64) : Prop :=
  eW (Bounds t) - / 2 ^ 42 <= B2R (fst p) < eE (Bounds t) /\ eS (Bounds t) - 3 / 10 ^ 9 <= B2R (snd p) <= eN (Bounds t) + 3 / 10 ^ 9.
(** The tile above *)
Definition above (t : TileID) : TileID := mkTile (tX t / 2) (tY t / 2) (tZ t - 1).
(** All the points of a list of groups *)
Definition pts_of (g : pgeom) : list (f64 * f64) := match g with GPoint p => [p] | GMultiPoint ps => ps | GOther => [] end.

Lemma on_map0 : on_map (mkTile 0 0 0). Proof. unfold on_map; cbn [tX tY tZ]; lia. Qed.
Lemma world : eW (Bounds (mkTile 0 0 0)) = -180 /\ eE (Bounds (mkTile 0 0 0)) = 180 /\ eN (Bounds (mkTile 0 0 0)) = 180 / PI * gd PI /\ eS (Bounds (mkTile 0 0 0)) = 180 / PI * gd (- PI).
Proof.
  destruct (Bounds_exact _ on_map0) as (A & B & C & D). cbn [tX tY tZ] in *. change (IZR (2 ^ 0)) with 1 in *. rewrite A, B, C, D. split; [lra|]. split; [cbn; lra|]. split; do 2 f_equal; field.
Qed.
Lemma world_u (p : f64 * f64) : on_earth p -> exists u, B2R (snd p) = 180 / PI * gd u /\ - PI <= u <= PI.
Proof.
  intros (_ & _ & _ & HB). destruct world as (_ & _ & -> & ->) in HB. pose proof PI_range as P.
  assert (R : forall a, -90 < 180 / PI * gd a < 90).
  { intros a. unfold gd. pose proof (atan_bound (sinh a)) as K. assert (E : 180 / PI * (PI / 2) = 90) by (field; lra). assert (0 < 180 / PI) by (apply Rdiv_lt_0_compat; lra). split; nra. }
  pose proof (R PI). pose proof (R (- PI)). destruct (lat_gd (B2R (snd p)) ltac:(lra)) as (u & E). exists u. split; auto. rewrite E in HB. pose proof (gd_inner (- PI) u 0 ltac:(lra) ltac:(lra)). pose proof (gd_inner u PI 0 ltac:(lra) ltac:(lra)). lra.
Qed.

(** Where a point is found, it is near. *)
Lemma gd_near a b d : a <= b + d -> 0 <= d -> 180 / PI * gd a <= 180 / PI * gd b + 58 * d.
Proof.
  intros H D. pose proof PI_range as P. assert (K : 0 < 180 / PI <= 58). { split; [apply Rdiv_lt_0_compat; lra|]. apply Rmult_le_reg_r with PI; [lra|]. unfold Rdiv. rewrite Rmult_assoc, Rinv_l by lra. lra. }
  assert (G : gd a <= gd b + d). { destruct (Rle_lt_dec a b) as [L|L]; [pose proof (proj1 (gd_le a b) L); lra|]. pose proof (gd_up a b) as U. rewrite (Rabs_right (a - b)) in U by lra. apply ab in U. lra. }
  apply Rle_trans with (180 / PI * (gd b + d)); [apply Rmult_le_compat_l; lra|]. rewrite Rmult_plus_distr_l. assert (180 / PI * d <= 58 * d) by (apply Rmult_le_compat_r; lra). lra.
Qed.
Lemma found_near m (p : f64 * f64) t : good_libm m -> on_earth p -> on_map t -> (tZ t <= 44)%Z -> Tile64 m (fst p) (snd p) (tZ t) = t -> near_tile t p.
Proof.
  intros G W M Hz E. pose proof M as (Z0 & HX & HY). destruct (world_u p W) as (u & EU & HU). destruct W as (F1 & F2 & HL & _). destruct world as (W1 & W2 & _). rewrite W1, W2 in HL.
  destruct (Bounds_exact t M) as (BW & BE & BN & BS). unfold near_tile. pose proof (f_equal tX E) as EX. pose proof (f_equal tY E) as EY. unfold Tile64 in EX, EY. cbn [tX tY] in EX, EY. split.
  - rewrite BW, BE. split.
    + apply Rnot_lt_le. intros L. pose proof (col_lt (fst p) (tX t) (tZ t) ltac:(lia) ltac:(lia) F1) as K. change (2 ^ 42) with (pow 2 42) in L. assert (K2 : / 2 ^ 42 = / 4398046511104) by lra. rewrite K2 in L. specialize (K ltac:(lra)). lia.
    + apply Rnot_le_lt. intros L. pose proof (col_ge (fst p) (tX t + 1) (tZ t) ltac:(lia) ltac:(lia) F1 ltac:(lra)). lia.
  - rewrite BN, BS, EU. pose proof PI_range as PR. destruct (row_near m G (snd p) u (tZ t) F2 EU ltac:(apply ab; lra) ltac:(lia)) as (v & V1 & V2). destruct (row_coord t M u) as [K1 K2]. pose proof (n_pos t M) as N1.
    rewrite V1 in EY. pose proof (Zfloor_lb v) as L1. pose proof (Zfloor_ub v) as L2. rewrite EY in L1, L2. set (n := IZR (2 ^ tZ t)) in *. unfold e12 in V2. apply ab in V2. set (uN := PI * (1 - 2 * IZR (tY t) / n)) in *. set (uS := PI * (1 - 2 * (IZR (tY t) + 1) / n)) in *.
    assert (A1 : u <= uN + 45 / 10 ^ 12). { apply Rnot_lt_le. intros L. assert (Q : 45 / 10 ^ 12 * (n / (2 * PI)) <= (u - uN) * (n / (2 * PI))) by (apply Rmult_le_compat_r; [left; apply (npi_pos t M)|lra]). replace (45 / 10 ^ 12 * (n / (2 * PI))) with (n * (45 / 10 ^ 12 / (2 * PI))) in Q by (field; lra).
      assert (7 / 1000000000000 < 45 / 10 ^ 12 / (2 * PI)). { apply Rmult_lt_reg_r with (2 * PI); [lra|]. unfold Rdiv at 2. rewrite Rmult_assoc, Rinv_l by lra. lra. } assert (n * (7 / 1000000000000) < n * (45 / 10 ^ 12 / (2 * PI))) by (apply Rmult_lt_compat_l; lra). lra. }
    assert (A2 : uS <= u + 45 / 10 ^ 12). { apply Rnot_lt_le. intros L. assert (Q : 45 / 10 ^ 12 * (n / (2 * PI)) <= (uS - u) * (n / (2 * PI))) by (apply Rmult_le_compat_r; [left; apply (npi_pos t M)|lra]). replace (45 / 10 ^ 12 * (n / (2 * PI))) with (n * (45 / 10 ^ 12 / (2 * PI))) in Q by (field; lra).
      assert (7 / 1000000000000 < 45 / 10 ^ 12 / (2 * PI)). { apply Rmult_lt_reg_r with (2 * PI); [lra|]. unfold Rdiv at 2. rewrite Rmult_assoc, Rinv_l by lra. lra. } assert (n * (7 / 1000000000000) < n * (45 / 10 ^ 12 / (2 * PI))) by (apply Rmult_lt_compat_l; lra). lra. }
    pose proof (gd_near _ _ _ A1 ltac:(lra)). pose proof (gd_near _ _ _ A2 ltac:(lra)). lra.
Qed.

(** Scaling by a power of two is exact, so a deeper zoom only refines. *)
Lemma scale_exact x v z : is_f x v -> Rabs v <= 2 -> (0 <= z <= 62)%Z -> B2R (fmul x (fpow2 z)) = v * bpow radix2 z.
Proof.
  intros F B Hz. pose proof (bpow_gt_0 radix2 z) as P. destruct (fmul_f _ _ _ _ F (fpow2_f z ltac:(lia))) as [_ ->].
  { rewrite Rabs_mult, (Rabs_pos_eq (bpow radix2 z)) by lra. apply Rle_trans with (2 * bpow radix2 z); [apply Rmult_le_compat_r; lra|]. change 2 with (bpow radix2 1). rewrite <- bpow_plus. apply bpow_le. lia. }
  apply rnd_id. apply mult_bpow_pos_exact_FLT; [exact (is_f_fmt _ _ F)|lia].
Qed.
Lemma floor_half a : (Zfloor (2 * a) / 2 = Zfloor a)%Z.
Proof.
  pose proof (Zfloor_lb a) as L. pose proof (Zfloor_ub a) as U. assert (K : (Zfloor (2 * a) = 2 * Zfloor a)%Z \/ (Zfloor (2 * a) = 2 * Zfloor a + 1)%Z).
  { destruct (Rlt_le_dec (2 * a) (2 * IZR (Zfloor a) + 1)) as [H|H]; [left|right]; apply Zfloor_imp; rewrite !plus_IZR, ?plus_IZR, mult_IZR; lra. }
  destruct K as [-> | ->]; lia.
Qed.
Lemma tile_above m (p : f64 * f64) z : good_libm m -> on_earth p -> (0 <= z <= 43)%Z -> above (Tile64 m (fst p) (snd p) (z + 1)) = Tile64 m (fst p) (snd p) z.
Proof.
  intros G W Hz. destruct (world_u p W) as (u & EU & HU). destruct W as (F1 & F2 & HL & _). destruct world as (W1 & W2 & _). rewrite W1, W2 in HL. pose proof PI_range as PR.
  destruct (row_rel m G (snd p) u F2 EU ltac:(apply ab; lra)) as (h & FH & _ & BH). unfold above, Tile64. cbn [tX tY tZ].
  assert (N2 : bpow radix2 (z + 1) = 2 * bpow radix2 z) by (rewrite Z.add_comm, bpow_plus; reflexivity). f_equal.
  - pose proof (fadd_f _ _ _ _ (conj F1 eq_refl) c180_f ltac:(apply big, ab; lra)) as K1. assert (0 <= rnd (B2R (fst p) + 180) <= 360) by (split; [apply rnd_nonneg; lra|apply (rnd_le_int _ 360); [lia|lra]]).
    pose proof (fdiv_f _ _ _ _ K1 c360_f ltac:(lra) ltac:(apply big, ab; lra)) as K2. assert (0 <= rnd (rnd (B2R (fst p) + 180) / 360) <= 1) by (split; [apply rnd_nonneg; lra|apply (rnd_le_int _ 1); [lia|lra]]).
    unfold tile_col. rewrite !(scale_exact _ _ _ K2) by (try lia; apply ab; lra). set (q := rnd (rnd (B2R (fst p) + 180) / 360)). rewrite N2, <- (floor_half (q * bpow radix2 z)). do 2 f_equal. ring.
  - unfold tile_row. cbv zeta. unfold rel_row in FH. cbv zeta in FH. rewrite !(scale_exact _ _ _ FH) by (auto; lia). rewrite N2, <- (floor_half (h * bpow radix2 z)). do 2 f_equal. ring.
  - rewrite !u64_id by (unfold in_u64; lia). lia.
Qed.

Definition loc (m : libm) (z : Z) (p : f64 * f64) : TileID := Tile64 m (fst p) (snd p) z.
Lemma zoom_multi m ps z : let r := PointClipAboutZoom64 m (GMultiPoint ps) z in
  NoDup (map fst r) /\ (forall t h, In (t, h) r -> exists l, h = GMultiPoint l /\ l <> [] /\ l = filter (fun p => tile_eqb (loc m z p) t) ps) /\
  (forall p, In p ps -> exists h, In (loc m z p, h) r) /\ Permutation (concat (map (fun e => pts_of (snd e)) r)) ps.
Proof.
  cbv zeta. cbn [PointClipAboutZoom64]. destruct (ClipPoints_Props.C30_partition _ _ (loc m z) tile_eqb Clip_Props.tile_eqb_eq ps) as (H1 & H2 & H3 & H4). cbv zeta in *. unfold loc at 1 in H1. fold (loc m z). set (r := group_points (loc m z) tile_eqb ps) in *.
  rewrite !map_map. cbn [fst snd pts_of]. split; [exact H1|]. split; [|split].
  - intros t h HI. apply in_map_iff in HI. destruct HI as ([t' l] & E & HI). injection E as <- <-. exists l. destruct (H2 _ _ HI) as [A B]. auto.
  - intros p Hp. destruct (H3 p Hp) as (l & HI & _). exists (GMultiPoint l). apply in_map_iff. exists (loc m z p, l). auto.
  - exact H4.
Qed.

(** Splitting by zoom is a partition, in order within each group, and every group is near its tile. *)
Theorem C140_partition : forall m ps z, let r := PointClipAboutZoom64 m (GMultiPoint ps) z in
  NoDup (map fst r) /\ Permutation (concat (map (fun e => pts_of (snd e)) r)) ps /\
  (forall t h, In (t, h) r -> exists l, h = GMultiPoint l /\ l <> [] /\ l = filter (fun p => tile_eqb (Tile64 m (fst p) (snd p) z) t) ps) /\
  (good_libm m -> (0 <= z <= 44)%Z -> forall t h p, In (t, h) r -> In p (pts_of h) -> on_earth p -> on_map t -> near_tile t p).
Proof.
  intros m ps z r. destruct (zoom_multi m ps z) as (H1 & H2 & H3 & H4). fold r in H1, H2, H3, H4. split; [exact H1|]. split; [exact H4|]. split; [exact H2|].
  intros G Hz t h p HI Hp W M. destruct (H2 _ _ HI) as (l & -> & _ & E). cbn [pts_of] in Hp. rewrite E in Hp. apply filter_In in Hp. destruct Hp as [_ Hp]. apply Clip_Props.tile_eqb_eq in Hp.
  assert (EZ : tZ t = z) by (rewrite <- Hp; unfold loc, Tile64; cbn [tZ]; apply u64_id; unfold in_u64; lia). apply (found_near m); auto; [lia|]. rewrite EZ. exact Hp.
Qed.
Print Assumptions C140_partition.

(** Clipping to one tile gives the entry of that tile in the split by its zoom, for points too. *)
Theorem C140_agree : forall m g t h, (0 <= tZ t < 2 ^ 63)%Z -> (PointClipAboutTile64 m g t = Some h <-> In (t, h) (PointClipAboutZoom64 m g (tZ t))).
Proof.
  intros m g t h Hz. assert (WZ : wrap64 (tZ t) = tZ t) by (apply wrap64_id; unfold in_i64; lia).
  assert (Q : forall p, IsEqual (loc m (tZ t) p) t = tile_eqb (loc m (tZ t) p) t).
  { intros p. apply eq_true_iff_eq. rewrite Clip_Props.tile_eqb_eq. apply Tileid_Props.C73_IsEqual_iff; [|lia]. unfold loc, Tile64. cbn [tZ]. rewrite u64_id by (unfold in_u64; lia). lia. }
  destruct g as [p|ps|].
  - cbn [PointClipAboutTile64 PointClipAboutZoom64]. rewrite WZ. fold (loc m (tZ t) p). rewrite Q. destruct (tile_eqb (loc m (tZ t) p) t) eqn:E.
    + apply Clip_Props.tile_eqb_eq in E. rewrite E. split; [intros H; injection H as <-; left; reflexivity|]. intros [H|[]]. injection H as <-. reflexivity.
    + split; [discriminate|]. intros [H|[]]. injection H as H _. rewrite (proj2 (Clip_Props.tile_eqb_eq _ _) H) in E. discriminate.
  - destruct (zoom_multi m ps (tZ t)) as (H1 & H2 & H3 & H4). cbv zeta in *. cbn [PointClipAboutTile64]. rewrite WZ. unfold keep_points. fold (loc m (tZ t)).
    assert (EF : filter (fun p : f64 * f64 => IsEqual (Tile64 m (fst p) (snd p) (tZ t)) t) ps = filter (fun p => tile_eqb (loc m (tZ t) p) t) ps) by (apply filter_ext; intros; apply Q). rewrite EF.
    assert (EM : forall l, match l with [] => None | a :: b => Some (GMultiPoint (a :: b)) end = Some h <-> l <> [] /\ h = GMultiPoint l) by (intros [|a b]; split; [discriminate|intros [K _]; congruence|intros K; injection K as <-; split; [discriminate|reflexivity]|intros [_ ->]; reflexivity]).
    set (l := filter (fun p => tile_eqb (loc m (tZ t) p) t) ps) in *. rewrite EM. split.
    + intros [N ->]. assert (EX : exists q, In q l) by (clearbody l; destruct l as [|q ?]; [congruence|exists q; left; reflexivity]). destruct EX as (q & HI). unfold l in HI. apply filter_In in HI. destruct HI as [Hq Eq]. apply Clip_Props.tile_eqb_eq in Eq.
      destruct (H3 q Hq) as (h' & HH). destruct (H2 _ _ HH) as (l2 & -> & _ & E2). rewrite Eq in HH, E2. fold l in E2. rewrite <- E2. exact HH.
    + intros HH. destruct (H2 _ _ HH) as (l2 & -> & N & E2). fold l in E2. rewrite <- E2. auto.
  - cbn [PointClipAboutTile64 PointClipAboutZoom64]. split; [discriminate|intros []].
Qed.
Print Assumptions C140_agree.

(** Splitting by the next zoom divides every group among the tiles below. *)
Lemma perm_filter {A} (f : A -> bool) l l' : Permutation l l' -> Permutation (filter f l) (filter f l').
Proof. induction 1; cbn [filter]; repeat match goal with |- context [if ?b then _ else _] => destruct b end; eauto using Permutation. Qed.
Lemma filter_groups {A B} (f : B -> bool) (k : A -> bool) (pts : A -> list B) (r : list A) : (forall e, In e r -> forall p, In p (pts e) -> f p = k e) ->
  filter f (concat (map pts r)) = concat (map pts (filter k r)).
Proof.
  induction r as [|e r IH]; intros H; [reflexivity|]. cbn [map concat filter]. rewrite filter_app, IH by (intros; apply H; auto; right; auto).
  assert (E : forall p, In p (pts e) -> f p = k e) by (intros; apply H; auto; left; auto). destruct (k e); cbn [map concat].
  - f_equal. induction (pts e) as [|p l IL]; [reflexivity|]. cbn [filter]. rewrite E by (left; auto). f_equal. apply IL. intros; apply E; right; auto.
  - replace (filter f (pts e)) with (@nil B); [reflexivity|]. induction (pts e) as [|p l IL]; [reflexivity|]. cbn [filter]. rewrite E by (left; auto). apply IL. intros; apply E; right; auto.
Qed.
Theorem C140_refines : forall m ps z t, good_libm m -> (0 <= z <= 43)%Z -> Forall on_earth ps -> tZ t = z ->
  Permutation (match PointClipAboutTile64 m (GMultiPoint ps) t with Some h => pts_of h | None => [] end)
    (concat (map (fun e => pts_of (snd e)) (filter (fun e => tile_eqb (above (fst e)) t) (PointClipAboutZoom64 m (GMultiPoint ps) (z + 1))))).
Proof.
  intros m ps z t G Hz W EZ. destruct (zoom_multi m ps (z + 1)) as (_ & H2 & _ & H4). cbv zeta in *. rewrite Forall_forall in W.
  assert (E : match PointClipAboutTile64 m (GMultiPoint ps) t with Some h => pts_of h | None => [] end = filter (fun p => tile_eqb (loc m z p) t) ps).
  { cbn [PointClipAboutTile64]. rewrite wrap64_id by (unfold in_i64; lia). rewrite EZ. unfold keep_points. fold (loc m z). 
    assert (EF : filter (fun p : f64 * f64 => IsEqual (Tile64 m (fst p) (snd p) z) t) ps = filter (fun p => tile_eqb (loc m z p) t) ps); [|rewrite EF; clear EF; destruct (filter (fun p => tile_eqb (loc m z p) t) ps); reflexivity].
    apply filter_ext. intros p. apply eq_true_iff_eq. rewrite Clip_Props.tile_eqb_eq. apply Tileid_Props.C73_IsEqual_iff; [|lia]. unfold loc, Tile64. cbn [tZ]. rewrite u64_id by (unfold in_u64; lia). lia. }
  rewrite E. etransitivity; [apply perm_filter; symmetry; exact H4|]. rewrite (filter_groups _ (fun e => tile_eqb (above (fst e)) t)); [reflexivity|].
  intros [t' h] HI p Hp. destruct (H2 _ _ HI) as (l & -> & _ & EL). cbn [pts_of fst snd] in *. rewrite EL in Hp. apply filter_In in Hp. destruct Hp as [Hp Et]. apply Clip_Props.tile_eqb_eq in Et. rewrite <- Et. unfold loc. rewrite tile_above; auto.
Qed.
Print Assumptions C140_refines.

(** The margins are needed: a point just west of a tile can be found in it. *)
Theorem C140_margin_refuted : forall m, good_libm m -> exists p t, on_earth p /\ on_map t /\ In (t, GPoint p) (PointClipAboutZoom64 m (GPoint p) 1) /\ B2R (fst p) < eW (Bounds t).
Proof.
  intros m G. set (w := @B754_finite 53 1024 true 4503599627370496 (-112) eq_refl). exists (w, fint 10), (mkTile 1 0 1).
  assert (M : on_map (mkTile 1 0 1)) by (unfold on_map; cbn [tX tY tZ]; lia). destruct (fint_f 10 ltac:(lia)) as [F10 V10]. destruct (fint_f 1 ltac:(lia)) as [F1 V1].
  assert (VW : - / 1000000 <= B2R w < 0). { unfold B2R, w, F2R. cbn [Fnum Fexp cond_Zopp Z.opp]. change (bpow radix2 (-112)) with (bpow radix2 (- (112))). rewrite (bpm 112 5192296858534827628530496329220096 ltac:(lia) eq_refl). lra. }
  destruct (Bounds_exact _ M) as (BW & BE & BN & BS). cbn [tX tY tZ] in BW, BE, BN, BS. change (IZR (2 ^ 1)) with 2 in *. pose proof PI_range as PR.
  assert (S0 : eS (Bounds (mkTile 1 0 1)) = 0). { rewrite BS. replace (PI * (1 - 2 * (0 + 1) / 2)) with 0 by field. unfold gd. rewrite sinh_0, atan_0. ring. }
  assert (N0 : 50 <= eN (Bounds (mkTile 1 0 1))). { rewrite BN. replace (PI * (1 - 2 * 0 / 2)) with PI by field. pose proof Line64_Props.gd1. lra. }
  change (1 + 1)%Z with 2%Z in BE. assert (L : Tile64 m (fint 1) (fint 10) 1 = mkTile 1 0 1). { apply (C118_locate m (mkTile 1 0 1)); auto; cbn [tZ]; try lia; rewrite ?V1, ?V10, ?S0, ?BW, ?BE; lra. }
  assert (C : tile_col w 1 = 1%Z). { unfold tile_col. replace (fmul (fdiv (fadd w c180) c360) (fpow2 1)) with (fint 1) by (apply B2SF_inj; vm_compute; reflexivity). rewrite V1. apply Zfloor_IZR. }
  pose proof (f_equal tY L) as LY. unfold Tile64 in LY. cbn [tY] in LY. split; [|split; [exact M|split]].
  - unfold on_earth. cbn [fst snd]. destruct world as (-> & -> & -> & ->). rewrite V10. pose proof Line64_Props.gd1 as K. rewrite gd_odd. repeat split; auto; lra.
  - left. cbn [fst snd]. f_equal. unfold Tile64. rewrite C, LY. reflexivity.
  - cbn [fst]. rewrite BW. lra.
Qed.
Print Assumptions C140_margin_refuted.

Example C140_nonvacuous : good_libm exact_libm /\ on_earth (fint 1, fint 10) /\ on_earth (fint (-1), fint 10) /\
  PointClipAboutZoom64 exact_libm (GMultiPoint [(fint 1, fint 10); (fint (-1), fint 10); (fint 1, fint 10)]) 1 =
    [(mkTile 1 0 1, GMultiPoint [(fint 1, fint 10); (fint 1, fint 10)]); (mkTile 0 0 1, GMultiPoint [(fint (-1), fint 10)])].
Proof.
  destruct C118_nonvacuous as [G _]. split; [exact G|]. destruct (fint_f 10 ltac:(lia)) as [F10 V10]. destruct (fint_f 1 ltac:(lia)) as [F1 V1]. destruct (fint_f (-1) ltac:(lia)) as [F2 V2]. pose proof Line64_Props.gd1 as K. pose proof PI_range as PR.
  split; [unfold on_earth; cbn [fst snd]; destruct world as (-> & -> & -> & ->); rewrite V1, V10, gd_odd; repeat split; auto; lra|].
  split; [unfold on_earth; cbn [fst snd]; destruct world as (-> & -> & -> & ->); rewrite V2, V10, gd_odd; repeat split; auto; lra|].
  assert (L : forall x t, is_finite x = true -> on_map t -> t = mkTile (tX t) 0 1 -> IZR (tX t) / 2 * 360 - 180 <= B2R x <= IZR (tX t + 1) / 2 * 360 - 180 - 3 / 10 ^ 9 -> Tile64 exact_libm x (fint 10) 1 = t).
  { intros x t Fx M Et Hx. destruct (Bounds_exact _ M) as (BW & BE & BN & BS). assert (TZ : tZ t = 1%Z) by (rewrite Et; reflexivity). assert (TY : tY t = 0%Z) by (rewrite Et; reflexivity). rewrite TZ in BW, BE, BN, BS. rewrite TY in BN, BS. change (IZR (2 ^ 1)) with 2 in *.
    assert (S0 : eS (Bounds t) = 0). { rewrite BS. replace (PI * (1 - 2 * (0 + 1) / 2)) with 0 by field. unfold gd. rewrite sinh_0, atan_0. ring. }
    assert (N0 : 50 <= eN (Bounds t)). { rewrite BN. replace (PI * (1 - 2 * 0 / 2)) with PI by field. lra. }
    rewrite <- TZ at 1. apply C118_locate; auto; [lia|rewrite BW, BE; lra|rewrite S0, V10; lra]. }
  cbn [PointClipAboutZoom64]. unfold group_points. cbn [fold_left fst snd].
  rewrite (L (fint 1) (mkTile 1 0 1)), (L (fint (-1)) (mkTile 0 0 1)); try reflexivity; auto; try (unfold on_map; cbn [tX tY tZ]; lia); cbn [tX]; rewrite ?V1, ?V2; change (1 + 1)%Z with 2%Z; change (0 + 1)%Z with 1%Z; lra.
Qed.
