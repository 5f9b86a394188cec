(** Lemmas about TileR_Model: the Gudermannian and its inverse, floors, tile bounds. *)
From Coq Require Import ZArith Reals Lia Lra List Bool.
From Verif Require Import GoBase Tileid_Model TileR_Model.
Import ListNotations.
Open Scope R_scope.

Lemma Rfloor_spec r k : Rfloor r = k <-> IZR k <= r < IZR k + 1.
Proof.
  unfold Rfloor. pose proof (archimed r) as [H1 H2]. split.
  - intros <-. rewrite minus_IZR. lra.
  - intros [H3 H4].
    assert (IZR (up r) > IZR k) by lra. assert (IZR (up r) <= r + 1) by lra.
    assert (Ha : (up r > k)%Z) by (apply lt_IZR in H; lia).
    assert (Hb : (up r < k + 2)%Z).
    { apply lt_IZR. rewrite plus_IZR. lra. }
    lia.
Qed.

Lemma pow2_pos z : 0 < pow2 z.
Proof. unfold pow2. apply powerRZ_lt. lra. Qed.
Lemma pow2_succ z : pow2 (z + 1) = 2 * pow2 z.
Proof. unfold pow2. rewrite powerRZ_add by lra. simpl. lra. Qed.
Lemma pow2_pred z : pow2 (z - 1) = pow2 z / 2.
Proof. replace (pow2 z) with (pow2 (z - 1 + 1)) by (f_equal; lia). rewrite pow2_succ. lra. Qed.
Lemma pow2_IZR z : (0 <= z)%Z -> pow2 z = IZR (2 ^ z).
Proof.
  intros H. unfold pow2. destruct z as [|p|p]; try lia.
  - reflexivity.
  - simpl powerRZ. rewrite pow_IZR, positive_nat_Z. reflexivity.
Qed.

(** ** sinh and the inverse Gudermannian *)

Lemma sinh_increasing a b : a < b -> sinh a < sinh b.
Proof.
  intros H. unfold sinh. pose proof (exp_increasing a b H).
  pose proof (exp_increasing (- b) (- a) ltac:(lra)). lra.
Qed.

Definition gd (t : R) : R := atan (sinh t).
Definition merc (phi : R) : R := ln (tan phi + 1 / cos phi).

Lemma gd_increasing a b : a < b -> gd a < gd b.
Proof. intros H. unfold gd. apply atan_increasing. apply sinh_increasing; auto. Qed.
Lemma gd_le a b : a <= b <-> gd a <= gd b.
Proof.
  split; intros H.
  - destruct H as [H| ->]; [left; apply gd_increasing; auto|lra].
  - destruct (Rle_dec a b); auto. exfalso. pose proof (gd_increasing b a ltac:(lra)). lra.
Qed.
Lemma gd_lt a b : a < b <-> gd a < gd b.
Proof.
  split; [apply gd_increasing|]. intros H. destruct (Rlt_dec a b); auto. exfalso.
  assert (b <= a) by lra. apply gd_le in H0. lra.
Qed.
Lemma gd_bound t : - PI / 2 < gd t < PI / 2.
Proof. unfold gd. pose proof (atan_bound (sinh t)). lra. Qed.

Lemma cosh_sinh t : cosh t * cosh t = 1 + sinh t * sinh t.
Proof.
  unfold cosh, sinh. pose proof (exp_plus t (- t)) as H.
  replace (t + - t) with 0 in H by lra. rewrite exp_0 in H. nra.
Qed.
Lemma cosh_pos t : 0 < cosh t.
Proof. unfold cosh. pose proof (exp_pos t). pose proof (exp_pos (- t)). lra. Qed.
Lemma sqrt_cosh t : sqrt (1 + (sinh t)²) = cosh t.
Proof. unfold Rsqr. rewrite <- cosh_sinh. apply sqrt_square. left; apply cosh_pos. Qed.

Lemma merc_gd t : merc (gd t) = t.
Proof.
  unfold merc, gd. rewrite tan_atan, cos_atan, sqrt_cosh.
  pose proof (cosh_pos t).
  replace (1 / (1 / cosh t)) with (cosh t) by (field; lra).
  replace (sinh t + cosh t) with (exp t) by (unfold sinh, cosh; lra). apply ln_exp.
Qed.

Lemma cos_pos_phi phi : - PI / 2 < phi < PI / 2 -> 0 < cos phi.
Proof. intros. apply cos_gt_0; lra. Qed.
Lemma sin_lt1 phi : - PI / 2 < phi < PI / 2 -> -1 < sin phi < 1.
Proof.
  intros H. pose proof (cos_pos_phi phi H). pose proof (sin2_cos2 phi) as E. unfold Rsqr in E. nra.
Qed.

Lemma gd_merc phi : - PI / 2 < phi < PI / 2 -> gd (merc phi) = phi.
Proof.
  intros H. unfold gd. pose proof (cos_pos_phi phi H) as Hc. pose proof (sin_lt1 phi H) as Hs.
  pose proof (sin2_cos2 phi) as E. unfold Rsqr in E.
  assert (Hp : 0 < tan phi + 1 / cos phi).
  { unfold tan. replace (sin phi / cos phi + 1 / cos phi) with ((1 + sin phi) / cos phi) by (field; lra).
    apply Rdiv_lt_0_compat; lra. }
  assert (Hexp : exp (merc phi) = tan phi + 1 / cos phi) by (unfold merc; apply exp_ln; auto).
  assert (Hexp' : exp (- merc phi) = 1 / cos phi - tan phi).
  { rewrite exp_Ropp, Hexp. unfold tan. apply Rmult_eq_reg_l with (tan phi + 1 / cos phi); [|lra].
    unfold tan. field_simplify; [| lra | split; [lra|]].
    - replace (sin phi ^ 2) with (1 - cos phi ^ 2) by (simpl; lra). field; lra.
    - lra. }
  replace (sinh (merc phi)) with (tan phi).
  - apply atan_tan. lra.
  - unfold sinh. rewrite Hexp, Hexp'. lra.
Qed.

Lemma PI_pos : 0 < PI. Proof. exact PI_RGT_0. Qed.

(** Latitude (degrees) of the upper edge of row [y]. *)
Definition edge_lat (y n : R) : R := 180 / PI * gd (PI * (1 - 2 * y / n)).

Lemma rad_deg a : a * (PI / 180) = a / (180 / PI).
Proof. pose proof PI_pos. field. lra. Qed.

(** Real row coordinate of a latitude. *)
Definition rowR (lat n : R) : R := (1 - merc (lat * (PI / 180)) / PI) / 2 * n.
Definition colR (lng n : R) : R := (lng + 180) / 360 * n.

Lemma rowR_le lat y n : 0 < n -> -90 < lat < 90 -> (y <= rowR lat n <-> lat <= edge_lat y n).
Proof.
  intros Hn Hl. pose proof PI_pos as HP.
  set (phi := lat * (PI / 180)).
  assert (Hphi : - PI / 2 < phi < PI / 2) by (subst phi; split; nra).
  assert (Hlat : lat = 180 / PI * phi) by (subst phi; field; lra).
  unfold rowR, edge_lat. fold phi.
  assert (E1 : y <= (1 - merc phi / PI) / 2 * n <-> merc phi <= PI * (1 - 2 * y / n)).
  { assert (Hd : 2 * y / n = 2 * (y / n)) by (field; lra). rewrite Hd.
    assert (Hm : merc phi / PI * PI = merc phi) by (field; lra).
    set (m := merc phi) in *. set (mp := m / PI) in *.
    assert (Hyn : y = y / n * n) by (field; lra). set (yn := y / n) in *.
    rewrite <- Hm. rewrite Hyn. split; intros.
    - assert (yn <= (1 - mp) / 2) by (apply Rmult_le_reg_r with n; auto). nra.
    - assert (mp <= 1 - 2 * yn) by (apply Rmult_le_reg_r with PI; auto; lra).
      apply Rmult_le_compat_r; lra. }
  rewrite E1, gd_le, gd_merc by auto. rewrite Hlat.
  assert (0 < 180 / PI) by (apply Rdiv_lt_0_compat; lra).
  split; intros.
  - apply Rmult_le_compat_l; lra.
  - apply Rmult_le_reg_l with (180 / PI); auto.
Qed.

Lemma rowR_lt lat y n : 0 < n -> -90 < lat < 90 -> (rowR lat n < y <-> edge_lat y n < lat).
Proof.
  intros Hn Hl. pose proof (rowR_le lat y n Hn Hl) as [H1 H2]. split; intros.
  - destruct (Rlt_dec (edge_lat y n) lat); auto. assert (lat <= edge_lat y n) by lra. apply H2 in H0. lra.
  - destruct (Rlt_dec (rowR lat n) y); auto. assert (y <= rowR lat n) by lra. apply H1 in H0. lra.
Qed.

Lemma Bounds_eq t : let n := pow2 (tZ t) in
  eW (Bounds t) = IZR (tX t) / n * 360 - 180 /\
  eE (Bounds t) = (IZR (tX t) + 1) / n * 360 - 180 /\
  eN (Bounds t) = edge_lat (IZR (tY t)) n /\
  eS (Bounds t) = edge_lat (IZR (tY t) + 1) n.
Proof. unfold Bounds, Ul, edge_lat, gd. cbn [eW eE eN eS pX pY tX tY tZ]. rewrite !plus_IZR. auto. Qed.

Lemma colR_iff lng x n : 0 < n -> (x <= colR lng n <-> x / n * 360 - 180 <= lng) /\ (colR lng n < x <-> lng < x / n * 360 - 180).
Proof.
  intros Hn. unfold colR. assert (Hx : x = x / n * n) by (field; lra). set (xn := x / n) in *.
  rewrite Hx. split; split; intros.
  - assert (xn <= (lng + 180) / 360) by (apply Rmult_le_reg_r with n; auto). lra.
  - apply Rmult_le_compat_r; lra.
  - assert ((lng + 180) / 360 < xn) by (apply Rmult_lt_reg_r with n; auto). lra.
  - apply Rmult_lt_compat_r; lra.
Qed.

Lemma Tile_eq lng lat z : Tile lng lat z = mkTile (Rfloor (colR lng (pow2 z))) (Rfloor (rowR lat (pow2 z))) (u64 z).
Proof. reflexivity. Qed.

Lemma Tile_iff lng lat t : -90 < lat < 90 -> (0 <= tZ t < 2 ^ 64)%Z ->
  (Tile lng lat (tZ t) = t <->
   eW (Bounds t) <= lng < eE (Bounds t) /\ eS (Bounds t) < lat <= eN (Bounds t)).
Proof.
  intros Hl Hz. destruct (Bounds_eq t) as (EW & EE & EN & ES). rewrite EW, EE, EN, ES. clear EW EE EN ES.
  rewrite Tile_eq. rewrite u64_id by (unfold in_u64; lia).
  set (n := pow2 (tZ t)). assert (Hn : 0 < n) by apply pow2_pos.
  destruct t as [x y z]. cbn [tX tY tZ] in *.
  assert (Hf : mkTile (Rfloor (colR lng n)) (Rfloor (rowR lat n)) z = mkTile x y z <->
    Rfloor (colR lng n) = x /\ Rfloor (rowR lat n) = y).
  { split; [intros E; injection E; auto|intros [-> ->]; auto]. }
  rewrite Hf, !Rfloor_spec.
  destruct (colR_iff lng (IZR x) n Hn) as [A1 _]. destruct (colR_iff lng (IZR x + 1) n Hn) as [_ A2].
  pose proof (rowR_le lat (IZR y) n Hn Hl) as A3. pose proof (rowR_lt lat (IZR y + 1) n Hn Hl) as A4.
  tauto.
Qed.

(** ** Halving *)

Lemma Rfloor_IZR_ge r k : (k <= Rfloor r)%Z <-> IZR k <= r.
Proof.
  pose proof (proj1 (Rfloor_spec r (Rfloor r)) eq_refl) as [H1 H2]. split; intros H.
  - apply IZR_le in H. lra.
  - assert (IZR k < IZR (Rfloor r) + 1) by lra. rewrite <- plus_IZR in H0. apply lt_IZR in H0. lia.
Qed.

Lemma Rfloor_half r : Rfloor (r / 2) = (Rfloor r / 2)%Z.
Proof.
  apply Rfloor_spec. pose proof (proj1 (Rfloor_spec r (Rfloor r)) eq_refl) as [H1 H2].
  set (k := Rfloor r) in *. pose proof (Z.div_mod k 2 ltac:(lia)) as E.
  pose proof (Z.mod_pos_bound k 2 ltac:(lia)) as B.
  assert (E1 : IZR k = 2 * IZR (k / 2) + IZR (k mod 2)) by (rewrite <- mult_IZR, <- plus_IZR; f_equal; lia).
  assert (0 <= IZR (k mod 2) <= 1).
  { split; [apply (IZR_le 0)|apply (IZR_le _ 1)]; lia. }
  lra.
Qed.

Lemma colR_half lng z : colR lng (pow2 z) = colR lng (pow2 (z + 1)) / 2.
Proof. unfold colR. rewrite pow2_succ. lra. Qed.
Lemma rowR_half lat z : rowR lat (pow2 z) = rowR lat (pow2 (z + 1)) / 2.
Proof. unfold rowR. rewrite pow2_succ. lra. Qed.

Lemma Tile_zoom_out lng lat z : (0 <= z < 2 ^ 64 - 1)%Z ->
  Tile lng lat z = mkTile (tX (Tile lng lat (z + 1)) / 2) (tY (Tile lng lat (z + 1)) / 2) z.
Proof.
  intros Hz. rewrite !Tile_eq. cbn [tX tY]. rewrite colR_half, rowR_half, !Rfloor_half.
  rewrite u64_id by (unfold in_u64; lia). reflexivity.
Qed.

Lemma Center_inside t :
  eW (Bounds t) < fst (Center t) < eE (Bounds t) /\ eS (Bounds t) < snd (Center t) < eN (Bounds t).
Proof.
  unfold Center. cbn [fst snd]. destruct (Bounds_eq t) as (EW & EE & EN & ES).
  assert (Hn : 0 < pow2 (tZ t)) by apply pow2_pos. set (n := pow2 (tZ t)) in *.
  assert (eW (Bounds t) < eE (Bounds t)).
  { rewrite EW, EE. assert (IZR (tX t) / n < (IZR (tX t) + 1) / n).
    { unfold Rdiv. apply Rmult_lt_compat_r; [apply Rinv_0_lt_compat; auto|lra]. } lra. }
  assert (eS (Bounds t) < eN (Bounds t)).
  { rewrite EN, ES. unfold edge_lat. apply Rmult_lt_compat_l.
    - apply Rdiv_lt_0_compat; [lra|apply PI_pos].
    - apply gd_increasing. apply Rmult_lt_compat_l; [apply PI_pos|].
      assert (2 * IZR (tY t) / n < 2 * (IZR (tY t) + 1) / n).
      { unfold Rdiv. apply Rmult_lt_compat_r; [apply Rinv_0_lt_compat; auto|lra]. } lra. }
  lra.
Qed.

Lemma edge_lat_range y n : -90 < edge_lat y n < 90.
Proof.
  unfold edge_lat. pose proof (gd_bound (PI * (1 - 2 * y / n))). pose proof PI_pos.
  assert (0 < 180 / PI) by (apply Rdiv_lt_0_compat; lra).
  assert (180 / PI * (PI / 2) = 90) by (field; lra).
  assert (180 / PI * (- PI / 2) = -90) by (field; lra). 
  split.
  - rewrite <- H3. apply Rmult_lt_compat_l; lra.
  - rewrite <- H2. apply Rmult_lt_compat_l; lra.
Qed.

Lemma Center_lat_range t : -90 < snd (Center t) < 90.
Proof.
  pose proof (Center_inside t) as [_ H]. destruct (Bounds_eq t) as (_ & _ & EN & ES). rewrite EN, ES in H.
  pose proof (edge_lat_range (IZR (tY t)) (pow2 (tZ t))). pose proof (edge_lat_range (IZR (tY t) + 1) (pow2 (tZ t))). lra.
Qed.

Lemma Tile_Center t : (0 <= tZ t < 2 ^ 64)%Z -> Tile (fst (Center t)) (snd (Center t)) (tZ t) = t.
Proof.
  intros Hz. apply Tile_iff; auto using Center_lat_range. pose proof (Center_inside t). lra.
Qed.

Lemma Parent_eq t : (1 <= tZ t < 2 ^ 63)%Z ->
  Parent t = mkTile (tX t / 2) (tY t / 2) (tZ t - 1).
Proof.
  intros Hz. unfold Parent. rewrite wrap64_id by (unfold in_i64; lia).
  rewrite Tile_zoom_out by lia.
  replace (tZ t - 1 + 1)%Z with (tZ t) by lia. rewrite Tile_Center by lia. reflexivity.
Qed.

Lemma Parent_root x y : tZ (Parent (mkTile x y 0)) = (2 ^ 64 - 1)%Z.
Proof. reflexivity. Qed.

Lemma Children_eq x y z :
  (- 2 ^ 62 <= x < 2 ^ 62)%Z -> (- 2 ^ 62 <= y < 2 ^ 62)%Z -> (0 <= z < 2 ^ 64 - 1)%Z ->
  Children (mkTile x y z) =
   [mkTile (2 * x) (2 * y) (z + 1); mkTile (2 * x + 1) (2 * y) (z + 1);
    mkTile (2 * x + 1) (2 * y + 1) (z + 1); mkTile (2 * x) (2 * y + 1) (z + 1)].
Proof.
  intros Hx Hy Hz. unfold Children. cbn [tX tY tZ].
  rewrite (u64_id (z + 1)) by (unfold in_u64; lia).
  rewrite !(wrap64_id (x * 2)), !(wrap64_id (y * 2)) by (unfold in_i64; lia).
  rewrite !(wrap64_id (x * 2 + 1)), !(wrap64_id (y * 2 + 1)) by (unfold in_i64; lia).
  rewrite (Z.mul_comm x), (Z.mul_comm y). reflexivity.
Qed.

(** ** On-map tiles *)

Lemma Tile_in_range lng lat z : (0 <= z < 2 ^ 64)%Z ->
  -180 <= lng < 180 -> - (180 / PI * atan (sinh PI)) < lat <= 180 / PI * atan (sinh PI) ->
  (0 <= tX (Tile lng lat z) < 2 ^ z)%Z /\ (0 <= tY (Tile lng lat z) < 2 ^ z)%Z.
Proof.
  intros Hz Hlng Hlat. rewrite Tile_eq. cbn [tX tY].
  assert (Hn : 0 < pow2 z) by apply pow2_pos. pose proof (pow2_IZR z ltac:(lia)) as En.
  set (n := pow2 z) in *.
  assert (E0 : edge_lat 0 n = 180 / PI * atan (sinh PI)).
  { unfold edge_lat, gd. do 3 f_equal. field. lra. }
  assert (En1 : edge_lat n n = - (180 / PI * atan (sinh PI))).
  { unfold edge_lat, gd. replace (PI * (1 - 2 * n / n)) with (- PI) by (field; lra).
    replace (sinh (- PI)) with (- sinh PI) by (unfold sinh; rewrite Ropp_involutive; lra).
    rewrite atan_opp. lra. }
  assert (Hl : -90 < lat < 90).
  { pose proof (edge_lat_range 0 n). pose proof (edge_lat_range n n). lra. }
  assert (Hr0 : 0 <= rowR lat n) by (apply rowR_le; auto; lra).
  assert (Hr1 : rowR lat n < n) by (apply rowR_lt; auto; lra).
  assert (Hc : 0 <= colR lng n < n).
  { unfold colR. split.
    - apply Rmult_le_pos; lra.
    - rewrite <- (Rmult_1_l n) at 2. apply Rmult_lt_compat_r; lra. }
  assert (Hgen : forall r, 0 <= r < n -> (0 <= Rfloor r < 2 ^ z)%Z).
  { intros r Hr. split; [apply Rfloor_IZR_ge; simpl; lra|].
    destruct (Z_lt_dec (Rfloor r) (2 ^ z)); auto. exfalso.
    assert (IZR (2 ^ z) <= r) by (apply Rfloor_IZR_ge; lia). lra. }
  split; apply Hgen; lra.
Qed.

Lemma Tile_antimeridian lat z : (0 <= z)%Z -> tX (Tile 180 lat z) = (2 ^ z)%Z.
Proof.
  intros Hz. rewrite Tile_eq. cbn [tX]. apply Rfloor_spec. rewrite <- pow2_IZR by auto.
  unfold colR. replace ((180 + 180) / 360) with 1 by field. pose proof (pow2_pos z). lra.
Qed.
