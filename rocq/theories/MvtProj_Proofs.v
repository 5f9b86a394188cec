(** Lemmas about the tile projection. *)
From Coq Require Import ZArith Reals Lia Lra List Bool.
From Verif Require Import GoBase Tileid_Model TileR_Model TileR_Proofs MvtProj_Model.
Import ListNotations.
Open Scope R_scope.

Lemma clampExtent_range ext v : (0 <= ext)%Z -> (0 <= clampExtent ext v <= ext)%Z.
Proof. intros H. unfold clampExtent. destruct (Z.geb_spec v ext); destruct (Z.ltb_spec ext 0); destruct (Z.ltb_spec v 0); lia. Qed.
Lemma clampExtent_id ext v : (0 <= v <= ext)%Z -> clampExtent ext v = v.
Proof. intros H. unfold clampExtent. destruct (Z.geb_spec v ext). - destruct (Z.ltb_spec ext 0); lia. - destruct (Z.ltb_spec v 0); lia. Qed.

Lemma RoundHA_err r : Rabs (IZR (RoundHA r) - r) <= 1 / 2.
Proof.
  unfold RoundHA. destruct (Rle_dec 0 r).
  - pose proof (proj1 (Rfloor_spec (r + 1 / 2) _) eq_refl). apply Rabs_le. lra.
  - pose proof (proj1 (Rfloor_spec (- r + 1 / 2) _) eq_refl). rewrite opp_IZR. apply Rabs_le. lra.
Qed.
Lemma Rfloor_unique r k : IZR k <= r < IZR k + 1 -> Rfloor r = k.
Proof. apply Rfloor_spec. Qed.
Lemma RoundHA_IZR k : RoundHA (IZR k) = k.
Proof.
  unfold RoundHA. destruct (Rle_dec 0 (IZR k)).
  - apply Rfloor_unique; lra.
  - rewrite <- opp_IZR. rewrite (Rfloor_unique _ (- k)); [lia|lra].
Qed.

(** tan(pi/4 + phi/2) = tan phi + sec phi *)
Lemma tan_quarter phi : - PI / 2 < phi < PI / 2 ->
  tan (PI / 4 + phi / 2) = tan phi + 1 / cos phi.
Proof.
  intros H. set (th := PI / 4 + phi / 2).
  assert (Hth : 0 < th < PI / 2) by (subst th; lra).
  assert (Hs : 0 < sin th) by (apply sin_gt_0; pose proof PI_pos; lra).
  assert (Hc : 0 < cos th) by (apply cos_gt_0; lra).
  assert (E1 : sin phi = - cos (2 * th)).
  { replace phi with (2 * th - PI / 2) by (subst th; lra).
    rewrite sin_minus, sin_PI2, cos_PI2. lra. }
  assert (E2 : cos phi = sin (2 * th)).
  { replace phi with (2 * th - PI / 2) by (subst th; lra).
    rewrite cos_minus, sin_PI2, cos_PI2. lra. }
  unfold tan. rewrite E1, E2, cos_2a_sin, sin_2a. field. lra.
Qed.

Lemma ln_tan_merc lat : -90 < lat < 90 ->
  ln (tan ((90 + lat) * PI / 360)) = merc (lat * (PI / 180)).
Proof.
  intros H. unfold merc. rewrite <- tan_quarter.
  - do 2 f_equal. field.
  - pose proof PI_pos. split; nra.
Qed.

Lemma gd_atan_exp m : gd m = 2 * atan (exp m) - PI / 2.
Proof.
  pose proof (gd_bound m) as Hb. pose proof PI_pos.
  assert (Hp : 0 < tan (PI / 4 + gd m / 2)) by (apply tan_gt_0; lra).
  assert (E : exp m = tan (PI / 4 + gd m / 2)).
  { rewrite <- (merc_gd m) at 1. unfold merc. rewrite <- tan_quarter by auto. apply exp_ln; auto. }
  rewrite E, atan_tan by lra. lra.
Qed.

(** ** The cursor of a tile *)

Definition onrows (t : TileID) := (0 <= tY t < 2 ^ tZ t)%Z /\ (0 <= tZ t)%Z.

Lemma mp_pos : 0 < mercatorPole. Proof. unfold mercatorPole. lra. Qed.

Lemma snd_ConvertPoint lng lat : -90 < lat < 90 -> - PI <= merc (lat * (PI / 180)) <= PI ->
  snd (ConvertPoint (lng, lat)) = merc (lat * (PI / 180)) / PI * mercatorPole.
Proof.
  intros Hl Hm. unfold ConvertPoint. cbn [fst snd]. rewrite ln_tan_merc by auto.
  set (m := merc (lat * (PI / 180))) in *. pose proof PI_pos. pose proof mp_pos.
  assert (-1 <= m / PI <= 1).
  { split; apply Rmult_le_reg_r with PI; auto; replace (m / PI * PI) with m by (field; lra); lra. }
  rewrite Rmin_left by nra. rewrite Rmax_right by nra. reflexivity.
Qed.

Lemma merc_edge y n : merc (edge_lat y n * (PI / 180)) = PI * (1 - 2 * y / n).
Proof.
  unfold edge_lat. replace (180 / PI * gd (PI * (1 - 2 * y / n)) * (PI / 180)) with (gd (PI * (1 - 2 * y / n))).
  - apply merc_gd.
  - field. pose proof PI_pos. lra.
Qed.

Lemma unit_scale y n : 0 < n -> 0 <= y <= n -> -1 <= 1 - 2 * y / n <= 1.
Proof.
  intros Hn Hy. assert (0 <= y / n <= 1).
  { split; [apply Rmult_le_pos; [lra|left; apply Rinv_0_lt_compat; auto]|].
    apply Rmult_le_reg_r with n; auto. replace (y / n * n) with y by (field; lra). lra. }
  replace (2 * y / n) with (2 * (y / n)) by (field; lra). lra.
Qed.

Lemma snd_Convert_edge lng y n : 0 < n -> 0 <= y <= n ->
  snd (ConvertPoint (lng, edge_lat y n)) = (1 - 2 * y / n) * mercatorPole.
Proof.
  intros Hn Hy. pose proof PI_pos. pose proof (unit_scale y n Hn Hy).
  rewrite snd_ConvertPoint; rewrite ?merc_edge; try apply edge_lat_range.
  - field. lra.
  - split; nra.
Qed.

(** Latitudes inside the web-mercator limit have |merc| <= pi. *)
Definition lat_limit : R := 180 / PI * atan (sinh PI).

Lemma lat_limit_merc lat : - lat_limit <= lat <= lat_limit ->
  -90 < lat < 90 /\ - PI <= merc (lat * (PI / 180)) <= PI.
Proof.
  intros H. pose proof PI_pos as HP.
  assert (E0 : edge_lat 0 1 = lat_limit).
  { unfold edge_lat, gd, lat_limit. do 3 f_equal. field. }
  assert (E1 : edge_lat 1 1 = - lat_limit).
  { unfold edge_lat, gd, lat_limit. replace (PI * (1 - 2 * 1 / 1)) with (- PI) by field.
    replace (sinh (- PI)) with (- sinh PI) by (unfold sinh; rewrite Ropp_involutive; lra).
    rewrite atan_opp. lra. }
  assert (Hl : -90 < lat < 90).
  { pose proof (edge_lat_range 0 1). pose proof (edge_lat_range 1 1). lra. }
  split; auto.
  assert (0 <= rowR lat 1) by (apply rowR_le; auto; lra).
  assert (rowR lat 1 <= 1).
  { destruct (Rle_dec (rowR lat 1) 1); auto. exfalso.
    assert (Hx : ~ rowR lat 1 < rowR lat 1) by lra. apply Hx.
    apply rowR_lt; [lra|auto|].
    assert (edge_lat (rowR lat 1) 1 < edge_lat 1 1); [|lra].
    unfold edge_lat. apply Rmult_lt_compat_l; [apply Rdiv_lt_0_compat; lra|].
    apply gd_increasing. apply Rmult_lt_compat_l; lra. }
  unfold rowR in *. set (m := merc (lat * (PI / 180))) in *.
  assert (m = m / PI * PI) by (field; lra). set (k := m / PI) in *. rewrite H2. split; nra.
Qed.

(** The real-valued tile coordinates that SinglePoint rounds. *)
Definition factors (cur : PCursor) (p : R * R) : R * R :=
  let q := ConvertPoint p in
  ((fst q - eW (cB cur)) / cDX cur * IZR (cExtent cur), (eN (cB cur) - snd q) / cDY cur * IZR (cExtent cur)).

Lemma SinglePoint_factors cur p : SinglePoint cur p =
  let f := factors cur p in
  let xv := wrap32 (RoundHA (fst f)) in let yv := wrap32 (RoundHA (snd f)) in
  if cExtentBool cur then (clampExtent (cExtent cur) xv, clampExtent (cExtent cur) yv) else (xv, yv).
Proof. reflexivity. Qed.

Lemma factors_eq t ext eb lng lat : onrows t -> - lat_limit <= lat <= lat_limit ->
  factors (NewCursorExtent t ext eb) (lng, lat) =
   ((colR lng (pow2 (tZ t)) - IZR (tX t)) * IZR ext, (rowR lat (pow2 (tZ t)) - IZR (tY t)) * IZR ext).
Proof.
  intros [Hy Hz] Hlat. destruct (lat_limit_merc lat Hlat) as [Hl Hm].
  unfold factors, NewCursorExtent, ConvertCursor. cbn [cB cDX cDY cExtent cExtentBool eW eN eE eS].
  destruct (Bounds_eq t) as (EW & EE & EN & ES). rewrite EW, EE, EN, ES.
  pose proof (pow2_pos (tZ t)) as Hn. pose proof (pow2_IZR (tZ t) Hz) as En. set (n := pow2 (tZ t)) in *.
  assert (Hy1 : 0 <= IZR (tY t) <= n - 1).
  { rewrite En. rewrite <- minus_IZR. split; [apply (IZR_le 0)|apply IZR_le]; lia. }
  rewrite !snd_Convert_edge by lra. rewrite snd_ConvertPoint by auto.
  unfold ConvertPoint. cbn [fst snd]. pose proof mp_pos. pose proof PI_pos.
  f_equal.
  - unfold colR. field. repeat split; lra.
  - unfold rowR. field. repeat split; try lra.
Qed.

(** ToLngLat in terms of real column and row coordinates *)
Lemma ToLngLat_eq t ext x y : (0 < ext)%Z ->
  ToLngLat t ext (x, y) =
   ((x / IZR ext + IZR (tX t)) / pow2 (tZ t) * 360 - 180, edge_lat (y / IZR ext + IZR (tY t)) (pow2 (tZ t))).
Proof.
  intros He. apply IZR_lt in He. pose proof (pow2_pos (tZ t)) as Hn. pose proof PI_pos.
  unfold ToLngLat, Project1. cbn [fst snd]. f_equal.
  - field. split; lra.
  - unfold edge_lat. rewrite gd_atan_exp.
    replace ((180 - (y + IZR ext * IZR (tY t)) * 360 / (IZR ext * pow2 (tZ t))) * PI / 180)
      with (PI * (1 - 2 * (y / IZR ext + IZR (tY t)) / pow2 (tZ t))) by (field; repeat split; lra).
    field. lra.
Qed.

Lemma edge_lat_row lat n : 0 < n -> -90 < lat < 90 -> edge_lat (rowR lat n) n = lat.
Proof.
  intros Hn Hl. pose proof PI_pos. unfold edge_lat, rowR.
  replace (PI * (1 - 2 * ((1 - merc (lat * (PI / 180)) / PI) / 2 * n) / n)) with (merc (lat * (PI / 180))) by (field; lra).
  rewrite gd_merc by (split; nra). field. lra.
Qed.

Lemma rowR_edge y n : 0 < n -> rowR (edge_lat y n) n = y.
Proof. intros Hn. unfold rowR. rewrite merc_edge. field. pose proof PI_pos. lra. Qed.

Lemma edge_lat_lt n y1 y2 : 0 < n -> y1 < y2 -> edge_lat y2 n < edge_lat y1 n.
Proof.
  intros Hn Hy. pose proof PI_pos. unfold edge_lat. apply Rmult_lt_compat_l; [apply Rdiv_lt_0_compat; lra|].
  apply gd_increasing. apply Rmult_lt_compat_l; [lra|].
  assert (2 * y1 / n < 2 * y2 / n); [|lra]. unfold Rdiv. apply Rmult_lt_compat_r; [apply Rinv_0_lt_compat; auto|lra].
Qed.
Lemma edge_lat_le n y1 y2 : 0 < n -> y1 <= y2 -> edge_lat y2 n <= edge_lat y1 n.
Proof. intros Hn [H| ->]; [left; apply edge_lat_lt; auto|lra]. Qed.

Lemma unproject_project t ext eb lng lat : onrows t -> (0 < ext)%Z -> - lat_limit <= lat <= lat_limit ->
  ToLngLat t ext (factors (NewCursorExtent t ext eb) (lng, lat)) = (lng, lat).
Proof.
  intros Ht He Hlat. rewrite factors_eq by auto. rewrite ToLngLat_eq by auto.
  destruct (lat_limit_merc lat Hlat) as [Hl _]. pose proof (pow2_pos (tZ t)) as Hn. apply IZR_lt in He.
  set (n := pow2 (tZ t)) in *. f_equal.
  - unfold colR. field. split; lra.
  - replace ((rowR lat n - IZR (tY t)) * IZR ext / IZR ext + IZR (tY t)) with (rowR lat n) by (field; lra).
    apply edge_lat_row; auto.
Qed.

Lemma round_trip_lng t ext lng (r : R) x y : (0 < ext)%Z -> Rabs (x - (colR lng (pow2 (tZ t)) - IZR (tX t)) * IZR ext) <= r ->
  Rabs (fst (ToLngLat t ext (x, y)) - lng) <= r * 360 / (IZR ext * pow2 (tZ t)).
Proof.
  intros He H. rewrite ToLngLat_eq by auto. cbn [fst]. apply IZR_lt in He.
  pose proof (pow2_pos (tZ t)) as Hn. set (n := pow2 (tZ t)) in *.
  replace ((x / IZR ext + IZR (tX t)) / n * 360 - 180 - lng)
    with ((x - (colR lng n - IZR (tX t)) * IZR ext) * (360 / (IZR ext * n))) by (unfold colR; field; split; lra).
  assert (0 < 360 / (IZR ext * n)) by (apply Rdiv_lt_0_compat; nra).
  rewrite Rabs_mult. rewrite (Rabs_right (360 / _)) by lra.
  replace (r * 360 / (IZR ext * n)) with (r * (360 / (IZR ext * n))) by (field; split; lra).
  apply Rmult_le_compat_r; lra.
Qed.

Lemma project_unproject t ext eb x y : onrows t -> (0 < ext)%Z ->
  0 <= IZR ext * IZR (tY t) + y <= IZR ext * pow2 (tZ t) ->
  factors (NewCursorExtent t ext eb) (ToLngLat t ext (x, y)) = (x, y).
Proof.
  intros Ht He Hy. pose proof (pow2_pos (tZ t)) as Hn. rewrite ToLngLat_eq by auto. apply IZR_lt in He.
  rewrite factors_eq; auto.
  - set (n := pow2 (tZ t)) in *. rewrite rowR_edge by auto. f_equal.
    + unfold colR. field. split; lra.
    + field. lra.
  - set (n := pow2 (tZ t)) in *.
    assert (E0 : edge_lat 0 n = lat_limit).
    { unfold edge_lat, gd, lat_limit. do 3 f_equal. field. lra. }
    assert (En1 : edge_lat n n = - lat_limit).
    { unfold edge_lat, gd, lat_limit. replace (PI * (1 - 2 * n / n)) with (- PI) by (field; lra).
      replace (sinh (- PI)) with (- sinh PI) by (unfold sinh; rewrite Ropp_involutive; lra).
      rewrite atan_opp. lra. }
    rewrite <- En1, <- E0.
    assert (Ey : y = y / IZR ext * IZR ext) by (field; lra). set (q := y / IZR ext) in *.
    rewrite Ey in Hy. split; apply edge_lat_le; auto.
    + apply Rmult_le_reg_l with (IZR ext); lra.
    + apply Rmult_le_reg_l with (IZR ext); lra.
Qed.

(** Any integer tile coordinate that was read back is written again unchanged. *)
Lemma SinglePoint_regrid t ext eb x y : onrows t -> (0 < ext < 2 ^ 31)%Z ->
  in_i32 x -> in_i32 y -> (eb = true -> 0 <= x <= ext /\ 0 <= y <= ext)%Z ->
  (0 <= ext * tY t + y <= ext * 2 ^ tZ t)%Z ->
  SinglePoint (NewCursorExtent t ext eb) (ToLngLat t ext (IZR x, IZR y)) = (x, y).
Proof.
  intros Ht He Hx Hy Hb Hrow. rewrite SinglePoint_factors.
  rewrite project_unproject; auto; [|lia|].
  - cbn [fst snd]. rewrite !RoundHA_IZR, !wrap32_id by auto.
    cbn [NewCursorExtent ConvertCursor cExtentBool cExtent].
    destruct eb; auto. specialize (Hb eq_refl). rewrite !clampExtent_id by lia. auto.
  - destruct Ht as [_ Hz]. rewrite pow2_IZR by auto. rewrite <- !mult_IZR, <- plus_IZR.
    split; [apply (IZR_le 0)|apply IZR_le]; lia.
Qed.
