(** Properties C05-C08, C16, C17: point location, children, parents and the tile projection. *)
From Coq Require Import ZArith Reals Lia Lra List Bool.
From Flocq Require Import Core BinarySingleNaN.
From Verif Require Import GoBase Tileid_Model TileR_Model TileR_Proofs TileF64_Model TileF64_Proofs
  MvtProj_Model MvtProj_Proofs.
Import ListNotations.
Open Scope R_scope.
Ltac Zify.zify_post_hook ::= Z.to_euclidean_division_equations.

(** Spec: the half-open box of a tile. *)
Definition inside (t : TileID) (lng lat : R) : Prop :=
  eW (Bounds t) <= lng < eE (Bounds t) /\ eS (Bounds t) < lat <= eN (Bounds t).

(** C05 *)
Theorem C05_tile_iff_inside : forall lng lat t,
  -90 < lat < 90 -> (0 <= tZ t < 2 ^ 64)%Z ->
  (Tile lng lat (tZ t) = t <-> inside t lng lat).
Proof. exact Tile_iff. Qed.
Print Assumptions C05_tile_iff_inside.

(** A point is inside exactly one tile of each zoom: the one Tile returns. *)
Theorem C05_unique_tile : forall lng lat z,
  -90 < lat < 90 -> (0 <= z < 2 ^ 64)%Z ->
  forall t, tZ t = z -> (inside t lng lat <-> t = Tile lng lat z).
Proof.
  intros lng lat z Hl Hz t Et. subst z. pose proof (Tile_iff lng lat t Hl Hz) as HT.
  split; intros E.
  - symmetry. apply HT. exact E.
  - apply HT. symmetry. exact E.
Qed.
Print Assumptions C05_unique_tile.

(** The bounds cover what the upper-left corners say: neighbouring tiles share an edge, the
    world tile spans [-180,180] and the two mercator limits. *)
Theorem C05_bounds_adjacent : forall x y z,
  eE (Bounds (mkTile x y z)) = eW (Bounds (mkTile (x + 1) y z)) /\
  eS (Bounds (mkTile x y z)) = eN (Bounds (mkTile x (y + 1) z)) /\
  eW (Bounds (mkTile x y z)) < eE (Bounds (mkTile x y z)) /\
  eS (Bounds (mkTile x y z)) < eN (Bounds (mkTile x y z)).
Proof.
  intros. split; [reflexivity|split; [reflexivity|]].
  pose proof (Center_inside (mkTile x y z)). lra.
Qed.
Print Assumptions C05_bounds_adjacent.

Theorem C05_world_bounds :
  Bounds (mkTile 0 0 0) = mkExt (-180) 180 (180 / PI * atan (sinh PI)) (- (180 / PI * atan (sinh PI))).
Proof.
  unfold Bounds, Ul, pow2. cbn [tX tY tZ pX pY Z.add]. simpl powerRZ.
  replace (PI * (1 - 2 * 1 / 1)) with (- PI) by field. replace (PI * (1 - 2 * 0 / 1)) with PI by field.
  replace (sinh (- PI)) with (- sinh PI) by (unfold sinh; rewrite Ropp_involutive; lra).
  rewrite atan_opp. f_equal; lra.
Qed.
Print Assumptions C05_world_bounds.

Example C05_nonvacuous : Tile 0 0 1 = mkTile 1 1 1.
Proof.
  apply (Tile_iff 0 0 (mkTile 1 1 1)); [lra|cbn; lia|]. unfold Bounds, Ul, pow2. cbn [tX tY tZ pX pY eW eE eN eS Z.add Pos.add Pos.succ]. simpl powerRZ.
  replace (PI * (1 - 2 * 1 / (2 * 1))) with 0 by field.
  replace (PI * (1 - 2 * 2 / (2 * 1))) with (- PI) by field.
  pose proof PI_RGT_0. assert (H0 : atan (sinh 0) = 0).
  { replace (sinh 0) with 0 by (unfold sinh; rewrite Ropp_0; lra). apply atan_0. }
  rewrite H0. assert (Hneg : atan (sinh (- PI)) < 0).
  { rewrite <- H0. apply gd_increasing. lra. }
  assert (0 < 180 / PI) by (apply Rdiv_lt_0_compat; lra).
  split; [lra|split; nra].
Qed.

(** C06 *)
Theorem C06_children_partition : forall x y z lng lat,
  (- 2 ^ 62 <= x < 2 ^ 62)%Z -> (- 2 ^ 62 <= y < 2 ^ 62)%Z -> (0 <= z < 2 ^ 64 - 1)%Z ->
  (inside (mkTile x y z) lng lat <->
   exists! c, In c (Children (mkTile x y z)) /\ inside c lng lat).
Proof.
  intros x y z lng lat Hx Hy Hz. rewrite Children_eq by auto.
  assert (Hr : forall t, inside t lng lat -> -90 < lat < 90).
  { intros t [_ H]. destruct (Bounds_eq t) as (_ & _ & EN & ES). rewrite EN, ES in H.
    pose proof (edge_lat_range (IZR (tY t)) (pow2 (tZ t))). pose proof (edge_lat_range (IZR (tY t) + 1) (pow2 (tZ t))). lra. }
  assert (Hzc : forall c, In c [mkTile (2 * x) (2 * y) (z + 1); mkTile (2 * x + 1) (2 * y) (z + 1);
      mkTile (2 * x + 1) (2 * y + 1) (z + 1); mkTile (2 * x) (2 * y + 1) (z + 1)] <->
      tZ c = (z + 1)%Z /\ (tX c / 2 = x)%Z /\ (tY c / 2 = y)%Z).
  { intros c. split.
    - cbn [In]. intros [<-|[<-|[<-|[<-|[]]]]]; cbn [tX tY tZ]; repeat split; Lia.lia.
    - destruct c as [cx cy cz]. cbn [In tX tY tZ]. intros (-> & E1 & E2). 
      assert (cx = 2 * x \/ cx = 2 * x + 1)%Z as [->| ->] by Lia.lia;
      assert (cy = 2 * y \/ cy = 2 * y + 1)%Z as [->| ->] by Lia.lia; auto. }
  split.
  - intros H. pose proof (Hr _ H) as Hl. exists (Tile lng lat (z + 1)). split.
    + split.
      * apply Hzc. unfold inside in H. rewrite <- Tile_iff in H by (auto; cbn; lia). cbn [tZ] in H.
        rewrite Tile_zoom_out in H by lia. injection H; intros. repeat split; auto.
        rewrite Tile_eq. cbn [tZ]. apply u64_id. unfold in_u64. lia.
      * assert (Et : tZ (Tile lng lat (z + 1)) = (z + 1)%Z) by (rewrite Tile_eq; cbn [tZ]; apply u64_id; unfold in_u64; lia).
        apply (C05_unique_tile lng lat (z + 1)); auto. lia.
    + intros c [Hc Hi]. apply Hzc in Hc. symmetry. apply (C05_unique_tile lng lat (z + 1)); auto; [lia|apply Hc].
  - intros (c & [Hc Hi] & _). pose proof (Hr _ Hi) as Hl. apply Hzc in Hc. destruct Hc as (Ez & E1 & E2).
    apply (C05_unique_tile lng lat (z + 1)) in Hi; auto; [|lia].
    apply (C05_unique_tile lng lat z); auto; [lia|]. rewrite Tile_zoom_out by lia. rewrite <- Hi, E1, E2. reflexivity.
Qed.
Print Assumptions C06_children_partition.

Theorem C06_children_distinct : forall x y z,
  (- 2 ^ 62 <= x < 2 ^ 62)%Z -> (- 2 ^ 62 <= y < 2 ^ 62)%Z -> (0 <= z < 2 ^ 64 - 1)%Z ->
  NoDup (Children (mkTile x y z)) /\ length (Children (mkTile x y z)) = 4%nat /\
  (forall c, In c (Children (mkTile x y z)) -> tZ c = z + 1)%Z.
Proof.
  intros x y z Hx Hy Hz. rewrite Children_eq by auto. split; [|split; auto].
  - repeat constructor; cbn [In]; intros H; repeat destruct H as [H|H]; auto;
      try (apply (f_equal tX) in H; cbn [tX] in H; lia); try (apply (f_equal tY) in H; cbn [tY] in H; lia).
  - cbn [In]. intros c [<-|[<-|[<-|[<-|[]]]]]; reflexivity.
Qed.
Print Assumptions C06_children_distinct.

Example C06_nonvacuous : inside (mkTile 1 1 1) 0 0.
Proof. apply C05_tile_iff_inside; [lra|cbn; lia|]. exact C05_nonvacuous. Qed.

(** C07 *)
Theorem C07_parent_halves : forall x y z, (1 <= z < 2 ^ 63)%Z ->
  Parent (mkTile x y z) = mkTile (x / 2) (y / 2) (z - 1).
Proof. exact (fun x y z => Parent_eq (mkTile x y z)). Qed.
Print Assumptions C07_parent_halves.

Theorem C07_parent_of_child : forall x y z c,
  (- 2 ^ 62 <= x < 2 ^ 62)%Z -> (- 2 ^ 62 <= y < 2 ^ 62)%Z -> (0 <= z < 2 ^ 63 - 1)%Z ->
  In c (Children (mkTile x y z)) -> Parent c = mkTile x y z.
Proof.
  intros x y z c Hx Hy Hz. rewrite Children_eq by lia. cbn [In].
  intros [<-|[<-|[<-|[<-|[]]]]]; rewrite Parent_eq by (cbn [tZ]; lia); cbn [tX tY tZ]; f_equal; Lia.lia.
Qed.
Print Assumptions C07_parent_of_child.

Theorem C07_center_strictly_inside : forall t,
  eW (Bounds t) < fst (Center t) < eE (Bounds t) /\ eS (Bounds t) < snd (Center t) < eN (Bounds t).
Proof. exact Center_inside. Qed.
Print Assumptions C07_center_strictly_inside.

Theorem C07_parent_of_world_refuted : tZ (Parent (mkTile 0 0 0)) = (2 ^ 64 - 1)%Z.
Proof. exact (Parent_root 0 0). Qed.
Print Assumptions C07_parent_of_world_refuted.

Example C07_nonvacuous : Parent (mkTile 5 3 3) = mkTile 2 1 2 /\ Parent (mkTile (-1) 0 3) = mkTile (-1) 0 2.
Proof. split; apply C07_parent_halves; lia. Qed.

(** C08: exact arithmetic *)
Theorem C08_tile_on_map : forall lng lat z, (0 <= z < 2 ^ 64)%Z ->
  -180 <= lng < 180 -> - (180 / PI * atan (sinh PI)) < lat <= 180 / PI * atan (sinh PI) ->
  (0 <= tX (Tile lng lat z) < 2 ^ z)%Z /\ (0 <= tY (Tile lng lat z) < 2 ^ z)%Z.
Proof. exact Tile_in_range. Qed.
Print Assumptions C08_tile_on_map.

Theorem C08_antimeridian_refuted : forall lat z, (0 <= z)%Z -> tX (Tile 180 lat z) = (2 ^ z)%Z.
Proof. exact Tile_antimeridian. Qed.
Print Assumptions C08_antimeridian_refuted.

(** C08: binary64. Exactly one double of [-180,180) is sent off the map, 180 - 2^-45. *)
Theorem C08_binary64_column : forall (lng : f64) z, (0 <= z <= 62)%Z ->
  is_finite lng = true -> -180 <= B2R lng < 180 ->
  ((0 <= tile_col lng z < 2 ^ z)%Z <-> B2R lng <> 180 - / IZR (2 ^ 45)).
Proof.
  intros lng z Hz Hf Hl. rewrite tile_col_iff by auto.
  replace (/ IZR (2 ^ 45)) with (t44 / 2); [tauto|].
  unfold t44. change (2 ^ 45)%Z with 35184372088832%Z. lra.
Qed.
Print Assumptions C08_binary64_column.

Theorem C08_binary64_off_map_refuted : forall z, (0 <= z <= 62)%Z ->
  exists lng : f64, B2R lng = 180 - / IZR (2 ^ 45) /\ is_finite lng = true /\ tile_col lng z = (2 ^ z)%Z.
Proof.
  intros z Hz. exists below180. split; [|split; [reflexivity|apply tile_col_below180; auto]].
  rewrite B2R_below180. unfold t44. change (2 ^ 45)%Z with 35184372088832%Z. lra.
Qed.
Print Assumptions C08_binary64_off_map_refuted.

Example C08_nonvacuous : (0 <= tile_col c180 0 < 2 ^ 0)%Z <-> False.
Proof.
  split; [|tauto]. intros H. assert (E : tile_col c180 0 = 1%Z); [|rewrite E in H; cbn in H; lia].
  unfold tile_col.
  assert (E : B2SF (fmul (fdiv (fadd c180 c180) c360) (fpow2 0)) = SpecFloat.S754_finite false (2 ^ 52) (-52)) by (vm_compute; reflexivity).
  rewrite <- (SF2R_B2SF 53 1024 (fmul _ _)), E. unfold SF2R, F2R. cbn [cond_Zopp Fnum Fexp].
  replace (IZR (Z.pos (2 ^ 52))) with (bpow radix2 52) by (rewrite <- IZR_Zpower by lia; reflexivity).
  rewrite <- bpow_plus. cbn. apply Zfloor_IZR.
Qed.

(** C16 *)
Theorem C16_clamped_to_extent : forall t ext p, (0 <= ext)%Z ->
  let q := SinglePoint (NewCursorExtent t ext true) p in
  (0 <= fst q <= ext)%Z /\ (0 <= snd q <= ext)%Z.
Proof. intros t ext p He. split; apply clampExtent_range; exact He. Qed.
Print Assumptions C16_clamped_to_extent.

Theorem C16_inside_unchanged : forall t ext p,
  let raw := SinglePoint (NewCursorExtent t ext false) p in
  let q := SinglePoint (NewCursorExtent t ext true) p in
  ((0 <= fst raw <= ext)%Z -> fst q = fst raw) /\ ((0 <= snd raw <= ext)%Z -> snd q = snd raw).
Proof. intros t ext p. split; intros H; apply clampExtent_id; exact H. Qed.
Print Assumptions C16_inside_unchanged.

(** Coordinates outside go to the nearest end of [0,ext]. *)
Theorem C16_outside_goes_to_edge : forall t ext p, (0 <= ext)%Z ->
  let raw := SinglePoint (NewCursorExtent t ext false) p in
  let q := SinglePoint (NewCursorExtent t ext true) p in
  (fst raw < 0 -> fst q = 0)%Z /\ (ext < fst raw -> fst q = ext)%Z /\
  (snd raw < 0 -> snd q = 0)%Z /\ (ext < snd raw -> snd q = ext)%Z.
Proof.
  intros t ext p He raw q.
  assert (H : forall v, (v < 0 -> clampExtent ext v = 0)%Z /\ (ext < v -> clampExtent ext v = ext)%Z).
  { intros v. unfold clampExtent. destruct (Z.geb_spec v ext); destruct (Z.ltb_spec ext 0); destruct (Z.ltb_spec v 0); lia. }
  repeat split; apply H.
Qed.
Print Assumptions C16_outside_goes_to_edge.

Example C16_nonvacuous : clampExtent 4096 5000 = 4096%Z /\ clampExtent 4096 (-3) = 0%Z /\ clampExtent 4096 17 = 17%Z.
Proof. vm_compute. auto. Qed.

(** C17: unprojecting the unrounded tile coordinates gives back the point. *)
Theorem C17_unproject_project : forall x y z ext eb lng lat,
  (0 <= z)%Z -> (0 <= y < 2 ^ z)%Z -> (0 < ext)%Z ->
  - (180 / PI * atan (sinh PI)) <= lat <= 180 / PI * atan (sinh PI) ->
  let t := mkTile x y z in
  let cur := NewCursorExtent t ext eb in
  let q := ConvertPoint (lng, lat) in
  ToLngLat t ext ((fst q - eW (cB cur)) / cDX cur * IZR ext, (eN (cB cur) - snd q) / cDY cur * IZR ext)
  = (lng, lat).
Proof.
  intros x y z ext eb lng lat Hz Hy He Hl.
  exact (unproject_project (mkTile x y z) ext eb lng lat (conj Hy Hz) He Hl).
Qed.
Print Assumptions C17_unproject_project.

(** Writing a point and reading it back moves the longitude by at most 180/(ext*2^z) degrees and
    keeps the latitude between those of half a tile unit above and below the true row. The
    int32 range is needed: farther points wrap. *)
Theorem C17_round_trip_error : forall x y z ext lng lat,
  (0 <= z)%Z -> (0 <= y < 2 ^ z)%Z -> (0 < ext)%Z ->
  - (180 / PI * atan (sinh PI)) <= lat <= 180 / PI * atan (sinh PI) ->
  let t := mkTile x y z in
  let xr := ((lng + 180) / 360 * 2 ^ Z.to_nat z - IZR x) * IZR ext in
  let yr := ((1 - ln (tan (lat * (PI / 180)) + 1 / cos (lat * (PI / 180))) / PI) / 2 * 2 ^ Z.to_nat z - IZR y) * IZR ext in
  - IZR (2 ^ 31) < xr < IZR (2 ^ 31) - 1 -> - IZR (2 ^ 31) < yr < IZR (2 ^ 31) - 1 ->
  let p := SinglePoint (NewCursorExtent t ext false) (lng, lat) in
  let r := ToLngLat t ext (IZR (fst p), IZR (snd p)) in
  Rabs (fst r - lng) <= 180 / (IZR ext * 2 ^ Z.to_nat z) /\
  snd (ToLngLat t ext (0, yr)) = lat /\
  snd (ToLngLat t ext (0, yr + 1 / 2)) <= snd r <= snd (ToLngLat t ext (0, yr - 1 / 2)).
Proof.
  intros x y z ext lng lat Hz Hy He Hl t xr yr Hxr Hyr p r.
  assert (En : 2 ^ Z.to_nat z = pow2 z).
  { rewrite pow_IZR, Z2Nat.id by auto. symmetry. apply pow2_IZR; auto. }
  assert (Ex : xr = (colR lng (pow2 z) - IZR x) * IZR ext) by (subst xr; rewrite En; reflexivity).
  assert (Ey : yr = (rowR lat (pow2 z) - IZR y) * IZR ext) by (subst yr; rewrite En; reflexivity).
  rewrite En. clearbody xr yr. 
  assert (Ht : onrows t) by (split; auto).
  assert (Hp : p = (RoundHA xr, RoundHA yr)).
  { subst p. rewrite SinglePoint_factors, factors_eq by auto. cbn [NewCursorExtent ConvertCursor cExtentBool cExtent fst snd].
    change (tZ t) with z. change (tX t) with x. change (tY t) with y. rewrite <- Ex, <- Ey.
    assert (Hw : forall v, - IZR (2 ^ 31) < v < IZR (2 ^ 31) - 1 -> wrap32 (RoundHA v) = RoundHA v).
    { intros v Hv. apply wrap32_id. pose proof (RoundHA_err v) as H. apply Rabs_le_inv in H.
      unfold in_i32. change (- 2147483648 <= RoundHA v < 2147483648)%Z.
      change (2 ^ 31)%Z with 2147483648%Z in Hv.
      assert (-2147483649 < RoundHA v)%Z by (apply lt_IZR; lra).
      assert (RoundHA v < 2147483648)%Z by (apply lt_IZR; lra). lia. }
    rewrite !Hw by auto. reflexivity. }
  subst r. rewrite Hp. cbn [fst snd]. pose proof (RoundHA_err xr) as Hx1. pose proof (RoundHA_err yr) as Hy1.
  split; [|split].
  - replace (180 / (IZR ext * pow2 z)) with (1 / 2 * 360 / (IZR ext * pow2 z)).
    + apply (round_trip_lng t); auto. change (tZ t) with z. change (tX t) with x. rewrite <- Ex. exact Hx1.
    + apply IZR_lt in He. pose proof (pow2_pos z). field. split; lra.
  - rewrite ToLngLat_eq by auto. cbn [snd]. change (tZ t) with z. change (tY t) with y. rewrite Ey.
    destruct (lat_limit_merc lat Hl) as [Hl' _]. apply IZR_lt in He. pose proof (pow2_pos z).
    replace ((rowR lat (pow2 z) - IZR y) * IZR ext / IZR ext + IZR y) with (rowR lat (pow2 z)) by (field; lra).
    apply edge_lat_row; auto.
  - rewrite !ToLngLat_eq by auto. cbn [snd]. apply IZR_lt in He. pose proof (pow2_pos (tZ t)).
    apply Rabs_le_inv in Hy1.
    assert (Hd : forall a b, a <= b -> a / IZR ext + IZR (tY t) <= b / IZR ext + IZR (tY t)).
    { intros a b Hab. apply Rplus_le_compat_r. unfold Rdiv. apply Rmult_le_compat_r; auto. left. apply Rinv_0_lt_compat; auto. }
    split; apply edge_lat_le; auto; apply Hd; lra.
Qed.
Print Assumptions C17_round_trip_error.

(** Reading an integer tile coordinate and writing it again is the identity. *)
Theorem C17_regrid_identity : forall x y z ext eb px py,
  (0 <= z)%Z -> (0 <= y < 2 ^ z)%Z -> (0 < ext < 2 ^ 31)%Z ->
  (0 <= px <= ext)%Z -> (0 <= py <= ext)%Z ->
  SinglePoint (NewCursorExtent (mkTile x y z) ext eb) (ToLngLat (mkTile x y z) ext (IZR px, IZR py)) = (px, py).
Proof.
  intros x y z ext eb px py Hz Hy He Hx Hpy. apply SinglePoint_regrid; auto.
  - split; auto.
  - unfold in_i32. lia.
  - unfold in_i32. lia.
  - cbn [tY tZ]. nia.
Qed.
Print Assumptions C17_regrid_identity.

Example C17_nonvacuous :
  SinglePoint (NewCursorExtent (mkTile 1 1 1) 4096 true) (0, 0) = (0%Z, 0%Z).
Proof.
  assert (E : ToLngLat (mkTile 1 1 1) 4096 (IZR 0, IZR 0) = (0, 0)).
  { rewrite ToLngLat_eq by lia. cbn [tX tY tZ]. unfold edge_lat, pow2. simpl powerRZ.
    replace (PI * (1 - 2 * (0 / 4096 + 1) / (2 * 1))) with 0 by field.
    unfold gd. replace (sinh 0) with 0 by (unfold sinh; rewrite Ropp_0; lra). rewrite atan_0.
    f_equal; [field|]. pose proof PI_RGT_0. lra. }
  rewrite <- E. apply C17_regrid_identity; lia.
Qed.
