(** Property C147: points sorted into tiles, written to them and read from them, in binary64. *)
From Coq Require Import ZArith List Lia Bool Reals Lra Permutation.
From Flocq Require Import Core BinarySingleNaN.
From Verif Require Import GoBase Num Tileid_Model TileR_Model TileR_Proofs TileF64_Model TileF64_Proofs F64 ColorF64_Model ColorF64_Proofs Tile64_Model Tile64_Proofs Tile64_Props
  MvtProj_Proofs MvtProj64_Model MvtProj64_Proofs MvtProj64_Props Pbf_Model MvtGeom_Model MvtLayer_Model MvtLayer_Spec Clip_Model Clip_Spec Clip_Proofs Clip64_Proofs Clip64_Props ClipTile64_Model ClipTile64_Proofs ClipTile64_Props
  ClipFeature64_Model ClipFeature64_Proofs ClipFeature64_Props ClipLine64_Proofs ClipLine64_Props
  Pbf_Proofs MvtGeo_Model Decode64_Model MvtAgain64_Model MvtTile_Props MvtLayer_Props MvtGeo64_Model MvtGeo64_Proofs MvtGeo64_Props MvtRead64_Model MvtRead64_Props TileLine64_Proofs TileLine64_Props Points64_Model.
From Verif Require MvtGeo_Props Points64_Props Clip_Props.
Import ListNotations.
Open Scope R_scope.

(** ** Specification *)
(** A position between 85 degrees south and north, and not at the eastern end of the map *)
Definition mid_earth (p : lnglat64) : Prop := fin p /\ Rabs (B2R (snd p)) <= 85 /\ -180 <= B2R (fst p) <= 180 - 3 / 10 ^ 9.
(** One unit of the grid east or south of the north western corner of the tile *)
Definition off_corner (t : TileID) (e : Z) (p : lnglat64) : Prop := 1 <= MvtGeo_Props.column t e (B2R (fst p)) \/ 1 <= MvtGeo_Props.row t e (B2R (snd p)).
(** The geometry of a feature with points, as the writer takes it *)
Definition points_geo (g : pgeom) : geometry lnglat64 := match g with GPoint p => XPoint p | GMultiPoint ps => XMultiPoint ps | GOther => XOther end.
Definition points_in (g : pgeom) : list lnglat64 := match g with GPoint p => [p] | GMultiPoint ps => ps | GOther => [] end.
(** Half a unit of the grid, in degrees at the equator, and 4e-8 degrees *)
Definition point_off (t : TileID) (e : Z) : R := 180 / IZR (e * 2 ^ tZ t) + 4 / 10 ^ 8.

(** ** Lemmas *)
Lemma point_tile m p z : good_libm m -> (0 <= z <= 44)%Z -> mid_earth p -> let t := Tile64 m (fst p) (snd p) z in on_map t /\ tZ t = z /\ inside (- (31 / 10 ^ 10)) t (val p).
Proof.
  intros G Hz ((F1 & F2) & HL & HX) t. pose proof gd_PI as GP. apply ab in HL. assert (ML : 85 + / 100 <= ClipFeature_Props.max_lat) by exact GP.
  destruct (locate64 m (fst p) (snd p) z G F1 F2 Hz HX ltac:(lra)) as (A & B & C & D). fold t in A, B, C, D. split; [exact A|]. split; [exact B|]. unfold inside, val. cbn [fst snd]. lra.
Qed.
Lemma not_corner eb t e p : fine t e -> off_corner t e p -> ~ next_to eb t e p (0, 0)%Z.
Proof.
  intros F HO (A & B). pose proof (N_range t e F) as NR. destruct F as (_ & He & _). assert (E1 : 1 <= IZR e) by (apply IZR_le; lia). cbn [fst snd] in A, B. apply ab in A, B.
  assert (T : forall v, 1 <= v -> 1 <= target eb e v). { intros v Hv. unfold target, MvtGeo_Props.within. destruct eb; [|exact Hv]. unfold Rmax, Rmin. destruct (Rle_dec (IZR e) v); destruct (Rle_dec 0 _); lra. }
  destruct HO as [H|H]; apply T in H; unfold ecol, erow in *; lra.
Qed.
Lemma point_read m mExp t e eb name ver pt id h p : good_proj m mExp -> fine t e -> (2 <= e)%Z -> (tZ t <= 32)%Z -> (zlen name <= 2 ^ 32)%Z -> (- 2 ^ 63 <= ver < 2 ^ 63)%Z -> (- 2 ^ 63 <= id < 2 ^ 63)%Z ->
  points_in h = [p] -> fin p -> Rabs (B2R (snd p)) <= 85 -> inside (- (31 / 10 ^ 10)) t (val p) -> off_corner t e p ->
  exists bs, WriteLayer64 m [mkFeat (IDInt id) [] (Some (points_geo h))] (mkCfg t name e ver eb pt) = Ok bs /\ forall fuel, (length bs + 4 < fuel)%nat ->
  exists gf p', ReadTile64 m mExp fuel pt bs t = OValue [gf] /\ g6ID gf = id /\ g6Geom gf = XPoint p' /\ within (point_off t e) (val p') (val p).
Proof.
  intros G F H2 H32 HN HV HI HP FP HL HT HO. assert (HL' : Rabs (B2R (snd p)) <= 85 + / 1000) by lra. pose proof (by_placed t e F p H2 H32 FP HL' HT) as PL. pose proof (not_corner eb t e p F HO) as NC.
  assert (HG : points_geo h = XPoint p \/ points_geo h = XMultiPoint [p]) by (destruct h; cbn [points_in points_geo] in *; [left|right|]; congruence).
  assert (D : drawable64 eb t e (points_geo h)). { destruct HG as [-> | ->]; (split; [cbn [words length]; lia|split; assumption]). }
  destruct (one_read m mExp t e eb name ver pt id _ G F HN HV HI D) as (bs & E & R). exists bs. split; [exact E|]. intros fuel Hf. destruct (R fuel Hf) as (gf & R1 & R2 & gr & (_ & R3) & R4).
  assert (K : exists p', g6Geom gf = XPoint p' /\ at_grid t e (gr p) p') by (destruct HG as [HG|HG]; rewrite HG in R4; cbn [faithful64] in R4; destruct (g6Geom gf); try contradiction; eauto).
  destruct K as (p' & K1 & K2). exists gf, p'. split; [exact R1|]. split; [exact R2|]. split; [exact K1|].
  destruct (at_place t e _ _ K2) as (_ & W). pose proof (snap_by t e F (31 / 10 ^ 10) eb p (gr p) ltac:(lra) FP HL' HT (R3 p PL)) as W'.
  eapply within_mono; [|eapply within_trans; [exact W|exact W']]. unfold point_off. lra.
Qed.

(** ** Theorems *)
(** A point sorted into the tile of a zoom, written to it and read from it *)
Theorem C147_point : forall m mExp p z e eb name ver pt id, good_proj m mExp -> (0 <= z <= 32)%Z -> mid_earth p -> (2 <= e < 2 ^ 29)%Z -> (e * 2 ^ z <= 2 ^ 36)%Z -> (zlen name <= 2 ^ 32)%Z -> (- 2 ^ 63 <= ver < 2 ^ 63)%Z -> (- 2 ^ 63 <= id < 2 ^ 63)%Z ->
  exists t, PointClipAboutZoom64 m (GPoint p) z = [(t, GPoint p)] /\ on_map t /\ tZ t = z /\ (off_corner t e p ->
    exists bs, WriteLayer64 m [mkFeat (IDInt id) [] (Some (XPoint p))] (mkCfg t name e ver eb pt) = Ok bs /\ forall fuel, (length bs + 4 < fuel)%nat ->
    exists gf p', ReadTile64 m mExp fuel pt bs t = OValue [gf] /\ g6ID gf = id /\ g6Geom gf = XPoint p' /\ within (point_off t e) (val p') (val p)).
Proof.
  intros m mExp p z e eb name ver pt id G Hz ME H2 HX HN HV HI. destruct (point_tile m p z (proj1 G) ltac:(lia) ME) as (M & Z & T). exists (Tile64 m (fst p) (snd p) z). split; [reflexivity|]. split; [exact M|]. split; [exact Z|]. intros HO.
  destruct ME as (FP & HL & _). apply (point_read m mExp _ e eb name ver pt id (GPoint p) p); auto; try lia. split; [exact M|]. rewrite Z. lia.
Qed.
Print Assumptions C147_point.

(** Many points: every one is in the group of one tile, and a tile with one point gives it back *)
Theorem C147_points : forall m mExp ps z e eb name ver pt id, good_proj m mExp -> (0 <= z <= 32)%Z -> Forall mid_earth ps -> (2 <= e < 2 ^ 29)%Z -> (e * 2 ^ z <= 2 ^ 36)%Z -> (zlen name <= 2 ^ 32)%Z -> (- 2 ^ 63 <= ver < 2 ^ 63)%Z -> (- 2 ^ 63 <= id < 2 ^ 63)%Z ->
  let r := PointClipAboutZoom64 m (GMultiPoint ps) z in
  NoDup (map fst r) /\ Permutation (concat (map (fun x => points_in (snd x)) r)) ps /\
  forall t h, In (t, h) r -> on_map t /\ tZ t = z /\ (forall p, In p (points_in h) -> inside (- (31 / 10 ^ 10)) t (val p)) /\
    forall p, points_in h = [p] -> off_corner t e p ->
      exists bs, WriteLayer64 m [mkFeat (IDInt id) [] (Some (points_geo h))] (mkCfg t name e ver eb pt) = Ok bs /\ forall fuel, (length bs + 4 < fuel)%nat ->
      exists gf p', ReadTile64 m mExp fuel pt bs t = OValue [gf] /\ g6ID gf = id /\ g6Geom gf = XPoint p' /\ within (point_off t e) (val p') (val p).
Proof.
  intros m mExp ps z e eb name ver pt id G Hz HE H2 HX HN HV HI r. destruct (Points64_Props.C140_partition m ps z) as (ND & PM & HH & _). fold r in ND, PM, HH. split; [exact ND|]. split; [exact PM|]. intros t h Hin. rewrite Forall_forall in HE.
  destruct (HH t h Hin) as (l & -> & NE & EL). cbn [points_in].
  assert (IN : forall p, In p l -> In p ps /\ Tile64 m (fst p) (snd p) z = t) by (intros p Hp; rewrite EL in Hp; apply filter_In in Hp; destruct Hp as [A B]; apply Clip_Props.tile_eqb_eq in B; auto).
  assert (TT : forall p, In p l -> on_map t /\ tZ t = z /\ inside (- (31 / 10 ^ 10)) t (val p)) by (intros p Hp; destruct (IN p Hp) as [A B]; rewrite <- B; apply (point_tile m p z (proj1 G)); auto; lia).
  assert (L0 : exists p0, In p0 l) by (destruct l as [|p0 l]; [congruence|exists p0; left; reflexivity]). destruct L0 as (p0 & Hp0). destruct (TT p0 Hp0) as (M & Z & _).
  split; [exact M|]. split; [exact Z|]. split; [intros p Hp; apply TT, Hp|]. intros p HP HO. assert (Hp : In p l) by (rewrite HP; left; reflexivity). destruct (HE p (proj1 (IN p Hp))) as (FP & HL & _).
  apply (point_read m mExp t e eb name ver pt id (GMultiPoint l) p); auto; try lia; [split; [exact M|rewrite Z; lia]|apply TT, Hp].
Qed.
Print Assumptions C147_points.

(** ** An example: of three points two go to one tile and one to another, which gives it back *)
Example C147_nonvacuous : let p := (fint (-1), fint 10) in let q := (fint 1, fint 10) in let t := mkTile 0 0 1 in
  good_proj exact_libm exact_exp /\ Forall mid_earth [q; p; q] /\ off_corner t 4096 p /\ In (t, GMultiPoint [p]) (PointClipAboutZoom64 exact_libm (GMultiPoint [q; p; q]) 1) /\
  exists bs gf p', WriteLayer64 exact_libm [mkFeat (IDInt 7) [] (Some (XMultiPoint [p]))] (mkCfg t [97%Z] 4096 2 true 0) = Ok bs /\
    ReadTile64 exact_libm exact_exp (length bs + 5) 0 bs t = OValue [gf] /\ g6ID gf = 7%Z /\ g6Geom gf = XPoint p' /\ -1 - / 20 <= B2R (fst p') <= -1 + / 20 /\ 10 - / 20 <= B2R (snd p') <= 10 + / 20.
Proof.
  intros p q t. pose proof (proj1 C120_nonvacuous) as G. destruct (fint_f 10 ltac:(lia)) as [F10 V10]. destruct (fint_f 1 ltac:(lia)) as [F1 V1]. destruct (fint_f (-1) ltac:(lia)) as [F2 V2].
  assert (MP : mid_earth p) by (unfold mid_earth, p; cbn [fst snd]; rewrite V10, V2; split; [split; assumption|split; [apply ab; lra|lra]]).
  assert (MQ : mid_earth q) by (unfold mid_earth, q; cbn [fst snd]; rewrite V10, V1; split; [split; assumption|split; [apply ab; lra|lra]]).
  assert (M : on_map t) by (unfold on_map, t; cbn [tX tY tZ]; lia).
  assert (OC : off_corner t 4096 p). { left. change (1 <= ecol t 4096 p). rewrite ecol_k by exact M. unfold colk, t, p. cbn [fst tX tZ]. rewrite V2. change (IZR (2 ^ 1)) with 2. lra. }
  assert (ME : Forall mid_earth [q; p; q]) by (apply Forall_cons; [exact MQ|apply Forall_cons; [exact MP|apply Forall_cons; [exact MQ|apply Forall_nil]]]).
  assert (IN : In (t, GMultiPoint [p]) (PointClipAboutZoom64 exact_libm (GMultiPoint [q; p; q]) 1)) by (destruct Points64_Props.C140_nonvacuous as (_ & _ & _ & K); unfold p, q, t; rewrite K; right; left; reflexivity).
  assert (NL : (zlen [97%Z] <= 2 ^ 32)%Z) by (unfold zlen; cbn [length]; lia).
  split; [exact G|]. split; [exact ME|]. split; [exact OC|]. split; [exact IN|].
  destruct (C147_points exact_libm exact_exp [q; p; q] 1 4096 true [97%Z] 2 0 7 G ltac:(lia) ME ltac:(lia) ltac:(lia) NL ltac:(lia) ltac:(lia)) as (_ & _ & R). destruct (R t _ IN) as (_ & _ & _ & R'). destruct (R' p eq_refl OC) as (bs & E & S). destruct (S (length bs + 5)%nat ltac:(lia)) as (gf & p' & A & B & C & D).
  exists bs, gf, p'. split; [exact E|]. split; [exact A|]. split; [exact B|]. split; [exact C|]. unfold within, val, point_off, p, t in D. cbn [fst snd tZ] in D. rewrite V10, V2 in D. change (4096 * 2 ^ 1)%Z with 8192%Z in D. destruct D as [D1 D2]. apply ab in D1, D2. lra.
Qed.
