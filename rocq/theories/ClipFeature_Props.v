(** Clipping a feature down to a zoom: which tiles are filled, with what. *)
From Coq Require Import ZArith Reals List Bool Lia Lra Permutation.
From Verif Require Import GoBase Num Tileid_Model TileR_Model TileR_Proofs MvtGeom_Model
  Clip_Model Clip_Spec Clip_Proofs ClipRing_Proofs TileR_Props Clip_Props ClipFeature_Model ClipFeature_Proofs.
Import ListNotations.
Open Scope R_scope.

(** ** C94 *)
Definition max_lat : R := 180 / PI * atan (sinh PI).
(** A box inside the map, east edge excluded *)
Definition in_world (b : Extrema) : Prop :=
  -180 <= eW b /\ eW b <= eE b /\ eE b < 180 /\ - max_lat < eS b /\ eS b <= eN b /\ eN b <= max_lat.
(** c is n zooms below t *)
Definition below (t : TileID) (n : nat) (c : TileID) : Prop :=
  (tZ c = tZ t + Z.of_nat n /\ tX c / 2 ^ Z.of_nat n = tX t /\ tY c / 2 ^ Z.of_nat n = tY t)%Z.

Lemma max_lat_90 : max_lat < 90.
Proof.
  pose proof (edge_lat_range 0 1). unfold edge_lat, gd in H. unfold max_lat. replace (PI * (1 - 2 * 0 / 1)) with PI in H by field. lra.
Qed.
Lemma tZ_Tile lng lat z : (0 <= z < 2 ^ 64)%Z -> tZ (Tile lng lat z) = z.
Proof. intros H. rewrite Tile_eq. cbn [tZ]. rewrite u64_id; auto. Qed.
Lemma world_share b : in_world b -> share b 0 (mkTile 0 0 0).
Proof.
  intros (H1 & H2 & H3 & H4 & H5 & H6).
  assert (K : forall lng lat, -180 <= lng < 180 -> - max_lat < lat <= max_lat -> Tile lng lat 0 = mkTile 0 0 0).
  { intros lng lat Hx Hy. destruct (Tile_in_range lng lat 0 ltac:(lia) Hx Hy) as [A B]. pose proof (tZ_Tile lng lat 0 ltac:(lia)) as C.
    destruct (Tile lng lat 0) as [x y z]. cbn [tX tY tZ] in *. change (2 ^ 0)%Z with 1%Z in *. f_equal; lia. }
  unfold share. repeat split; apply K; lra.
Qed.
Lemma share_fits b z t g : in_world b -> (0 <= z < 2 ^ 64)%Z -> share b z t -> good g -> Forall (in_box b) (verts g) -> fits t g /\ tZ t = z.
Proof.
  intros (H1 & H2 & H3 & H4 & H5 & H6) Hz (S1 & S2 & S3 & S4) Hg Hv. pose proof max_lat_90 as M.
  assert (Et : tZ t = z) by (rewrite <- S1; apply tZ_Tile; auto).
  destruct (Tile_in_range (eE b) (eN b) z Hz ltac:(lra) ltac:(unfold max_lat in *; lra)) as [A B]. rewrite S1 in A, B.
  split; auto. split; [unfold on_map; rewrite Et; lia|]. split; auto.
  assert (N1 : inside t (eE b) (eN b)) by (apply Tile_iff; [lra|lia|rewrite Et; auto]).
  assert (N2 : inside t (eW b) (eS b)) by (apply Tile_iff; [lra|lia|rewrite Et; auto]).
  destruct N1 as [N1 N1'], N2 as [N2 N2']. eapply Forall_impl; [|exact Hv]. intros p [P1 P2]. split; lra.
Qed.

(** If the feature's box first fits in the tile t of zoom z and z < endzoom, the call ends after endzoom - z rounds, whatever
    order Go visits its map in, and the map holds exactly the entries reached by cutting into quarters endzoom - z times (with
    keep_parents: at most endzoom - z times), each tile once. *)
Theorem C94_covers : forall order fuel bb g endzoom keep z t,
  (forall m, Permutation (order m) m) ->
  in_world bb -> good g -> Forall (in_box bb) (verts g) ->
  GetFirstZoom bb = (z, t) -> (z < endzoom <= 30)%Z -> (endzoom - z <= Z.of_nat fuel)%Z ->
  exists m, ClipFeature order fuel bb g endzoom keep = Ok m /\ NoDup (map fst m) /\
    forall c gc, In (c, gc) m <->
      if keep then exists n, (z + Z.of_nat n <= endzoom)%Z /\ reach t g n c gc
      else reach t g (Z.to_nat (endzoom - z)) c gc.
Proof.
  intros order fuel bb g endzoom keep z t Hord Hw Hg Hv Ez He Hfu.
  pose proof (C32_first_zoom bb (ex_intro _ _ (world_share bb Hw))) as HZ. rewrite Ez in HZ. destruct HZ as [(-> & _)|(Hz & Hs & _)]; [lia|].
  destruct (share_fits bb z t g Hw ltac:(lia) Hs Hg Hv) as [Hf Et].
  unfold ClipFeature. rewrite Ez. destruct (Z.leb_spec endzoom z); [lia|].
  destruct (levels_spec order Hord t g Hf keep (Z.to_nat (endzoom - z)) fuel 0 [(t, g)] ltac:(lia) ltac:(lia) (holds_start t g keep)) as (m & E & HN & HI).
  cbn [Nat.add] in *. rewrite Et in E. replace (z + Z.of_nat 0)%Z with z in E by lia. replace (z + Z.of_nat (Z.to_nat (endzoom - z)))%Z with endzoom in E by lia.
  exists m. split; auto. split; auto. intros c gc. rewrite HI. destruct keep; [|tauto].
  split; intros (j & Hj & R); exists j; (split; [lia|auto]).
Qed.
Print Assumptions C94_covers.

Lemma reach_below t g n : fits t g -> forall c gc, (tZ t + Z.of_nat n <= 62)%Z -> reach t g n c gc -> below t n c.
Proof.
  intros Hf. induction n as [|n IH]; intros c gc Hz H.
  - inversion H; subst. unfold below. change (2 ^ Z.of_nat 0)%Z with 1%Z. rewrite !Z.div_1_r. lia.
  - inversion H as [|n1 k gk ch c1 gc1 R1 E1 I1]; subst. destruct (IH k gk ltac:(lia) R1) as (B1 & B2 & B3). destruct (reach_fits t g Hf n k gk R1 ltac:(lia)) as [Fk _].
    destruct (ClipDown_ok k gk Fk ltac:(lia)) as (ch' & E' & _ & _ & HF). rewrite E1 in E'. injection E' as <-. destruct (HF c gc I1) as [Hc _].
    destruct (Children_on_map k c (proj1 Fk) ltac:(lia) Hc) as (_ & Z1 & P1). assert (K : (62 < 2 ^ 63)%Z) by reflexivity.
    assert (0 <= tZ t)%Z by apply Hf. rewrite Parent_eq in P1 by lia. unfold below. rewrite Nat2Z.inj_succ, Z.pow_succ_r by lia.
    rewrite <- !Z.div_div by (try apply Z.pow_pos_nonneg; lia). rewrite <- P1 in B2, B3. cbn [tX tY] in B2, B3. lia.
Qed.
(** Without keep_parents every entry is for a tile of the zoom asked for, under the first tile and on the map; its geometry is
    not empty and stays within the tile; and there is at least one. *)
Theorem C94_entries : forall order fuel bb g endzoom z t m,
  (forall m, Permutation (order m) m) ->
  in_world bb -> good g -> Forall (in_box bb) (verts g) ->
  GetFirstZoom bb = (z, t) -> (z < endzoom <= 30)%Z -> (endzoom - z <= Z.of_nat fuel)%Z ->
  ClipFeature order fuel bb g endzoom false = Ok m ->
  m <> [] /\
  forall c gc, In (c, gc) m ->
    tZ c = endzoom /\ (0 <= tX c < 2 ^ endzoom)%Z /\ (0 <= tY c < 2 ^ endzoom)%Z /\
    (tX c / 2 ^ (endzoom - z) = tX t)%Z /\ (tY c / 2 ^ (endzoom - z) = tY t)%Z /\
    IsEmpty gc = false /\ forall p, In p (verts gc) -> in_box (Bounds c) p.
Proof.
  intros order fuel bb g endzoom z t m Hord Hw Hg Hv Ez He Hfu E.
  destruct (C94_covers order fuel bb g endzoom false z t Hord Hw Hg Hv Ez He Hfu) as (m' & E' & _ & HI). rewrite E in E'. injection E' as <-.
  pose proof (C32_first_zoom bb (ex_intro _ _ (world_share bb Hw))) as HZ. rewrite Ez in HZ. destruct HZ as [(-> & _)|(Hz & Hs & _)]; [lia|].
  destruct (share_fits bb z t g Hw ltac:(lia) Hs Hg Hv) as [Hf Et]. set (n := Z.to_nat (endzoom - z)) in *.
  assert (En : Z.of_nat n = (endzoom - z)%Z) by (unfold n; lia). split.
  - destruct (reach_ex t g Hf n ltac:(lia)) as (c & gc & R). apply HI in R. intros ->. destruct R.
  - intros c gc H. apply HI in H. destruct (reach_below t g n Hf c gc ltac:(lia) H) as (B1 & B2 & B3). rewrite En in *.
    destruct (reach_fits t g Hf n c gc H ltac:(lia)) as [((O1 & O2 & O3) & [W N] & V) Z1]. assert (Ec : tZ c = endzoom) by lia. rewrite Ec in *.
    split; [exact eq_refl|]. split; [exact O1|]. split; [exact O2|]. split; [exact B2|]. split; [exact B3|]. split; [exact N|]. rewrite Forall_forall in V. exact V.
Qed.
Print Assumptions C94_entries.

(** If the feature already fits in one tile of the zoom asked for, the map holds the feature under its first tile and, unclipped,
    under the ancestor of that tile at the zoom. *)
Theorem C94_small : forall order fuel bb g endzoom keep z t,
  in_world bb -> good g -> GetFirstZoom bb = (z, t) -> (0 <= endzoom <= z)%Z -> (z - endzoom <= Z.of_nat fuel)%Z ->
  exists m, ClipFeature order fuel bb g endzoom keep = Ok m /\ NoDup (map fst m) /\
    forall e, In e m <-> e = (t, g) \/ e = (mkTile (tX t / 2 ^ (z - endzoom)) (tY t / 2 ^ (z - endzoom)) endzoom, g).
Proof.
  intros order fuel bb g endzoom keep z t Hw Hg Ez He Hfu.
  assert (HT : tZ t = z /\ (z <= 30)%Z).
  { pose proof (C32_first_zoom bb (ex_intro _ _ (world_share bb Hw))) as HZ. rewrite Ez in HZ. destruct HZ as [(-> & -> & _)|(Hz & (Hs & _) & _)]; [split; [reflexivity|lia]|].
    split; [|lia]. rewrite <- Hs. apply tZ_Tile. lia. }
  destruct HT as [HT Hz]. unfold ClipFeature. rewrite Ez. destruct (Z.leb_spec endzoom z); [|lia].
  destruct t as [x y tz]. cbn [tX tY tZ] in *. subst tz.
  pose proof (up_spec (Z.to_nat (z - endzoom)) fuel x y endzoom ltac:(lia) ltac:(lia) ltac:(lia)) as U. rewrite Z2Nat.id in U by lia. replace (endzoom + (z - endzoom))%Z with z in U by lia. rewrite U. cbn [bind].
  rewrite (makefeature_good g Hg). cbn [bind put]. set (a := mkTile (x / 2 ^ (z - endzoom)) (y / 2 ^ (z - endzoom)) endzoom).
  eexists. split; [reflexivity|]. destruct (tile_eqb a (mkTile x y z)) eqn:E.
  - apply tile_eqb_eq in E. rewrite E. split; [repeat constructor; intros []|]. intros e. cbn [In]. intuition.
  - split; [repeat constructor; cbn [map fst In]; [|auto]|].
    + intros [K|[]]. assert (tile_eqb a (mkTile x y z) = true) by (apply tile_eqb_eq; auto). congruence.
    + intros e. cbn [In]. intuition.
Qed.
Print Assumptions C94_small.
(** So a feature smaller than a tile of the zoom asked for always leaves an entry at a deeper zoom in the map. *)
Theorem C94_deeper_refuted : forall order fuel bb g endzoom keep z t,
  in_world bb -> good g -> GetFirstZoom bb = (z, t) -> (0 <= endzoom < z)%Z -> (z - endzoom <= Z.of_nat fuel)%Z ->
  exists m, ClipFeature order fuel bb g endzoom keep = Ok m /\ In (t, g) m /\ (tZ t > endzoom)%Z.
Proof.
  intros order fuel bb g endzoom keep z t Hw Hg Ez He Hfu. destruct (C94_small order fuel bb g endzoom keep z t Hw Hg Ez ltac:(lia) Hfu) as (m & E & _ & HI).
  exists m. split; auto. split; [apply HI; auto|].
  pose proof (C32_first_zoom bb (ex_intro _ _ (world_share bb Hw))) as HZ. rewrite Ez in HZ. destruct HZ as [(-> & -> & _)|(Hz & (Hs & _) & _)]; [cbn [tZ]; lia|].
  rewrite <- Hs, tZ_Tile by lia. lia.
Qed.
Print Assumptions C94_deeper_refuted.
(** A feature whose points all coincide goes to the tile 0/0 of the zoom, wherever it is: from the eastern hemisphere, to a tile
    that does not hold it. *)
Theorem C94_point_refuted : forall order fuel lng lat endzoom keep,
  0 <= lng < 180 -> - max_lat < lat <= max_lat -> (1 <= endzoom <= 30)%Z -> (30 <= Z.of_nat fuel)%Z ->
  exists m, ClipFeature order fuel (mkExt lng lng lat lat) (CLine [(lng, lat); (lng, lat)]) endzoom keep = Ok m /\
    In (mkTile 0 0 endzoom, CLine [(lng, lat); (lng, lat)]) m /\
    (forall e, In e m -> tX (fst e) = 0%Z) /\
    (0 < lng -> ~ in_box (Bounds (mkTile 0 0 endzoom)) (lng, lat)).
Proof.
  intros order fuel lng lat endzoom keep Hx Hy He Hfu.
  assert (A1 : in_world (mkExt lng lng lat lat)) by (unfold in_world; cbn [eW eE eN eS]; lra).
  assert (A2 : good (CLine [(lng, lat); (lng, lat)])) by (split; [discriminate|reflexivity]).
  destruct (C94_small order fuel (mkExt lng lng lat lat) _ endzoom keep 30 (mkTile 0 0 30) A1 A2 (C32_nonvacuous lng lat) ltac:(lia) ltac:(lia)) as (m & E & _ & HI).
    exists m. split; auto. cbn [tX tY] in HI. rewrite !Z.div_0_l in HI by (apply Z.pow_nonzero; lia). split; [apply HI; auto|]. split.
    + intros e H. apply HI in H. destruct H as [->| ->]; reflexivity.
    + intros Hp [K _]. cbn [fst] in K. destruct (Bounds_eq (mkTile 0 0 endzoom)) as (_ & EE & _). cbn [tX tZ] in EE. rewrite EE in K.
      assert (2 <= pow2 endzoom). { rewrite pow2_IZR by lia. apply IZR_le. change 2%Z with (2 ^ 1)%Z. apply Z.pow_le_mono_r; lia. }
      assert ((0 + 1) / pow2 endzoom <= / 2). { unfold Rdiv. rewrite Rplus_0_l, Rmult_1_l. apply Rinv_le_contravar; lra. } lra.
Qed.
Print Assumptions C94_point_refuted.
(** A multi-line is not cut: every tile under the first one, to the zoom asked for, gets an entry with no geometry. *)
Lemma reach_blank t g n : fits t g -> match g with CMultiLine _ | CNone => True | _ => False end -> (1 <= n)%nat -> (tZ t + Z.of_nat n <= 62)%Z ->
  forall c, below t n c -> reach t g n c CNone.
Proof.
  intros Hf Hg. assert (H0 : (0 <= tZ t)%Z) by apply Hf.
  assert (ST : forall k gk c, fits k gk -> match gk with CMultiLine _ | CNone => True | _ => False end -> (tZ k <= 61)%Z -> In c (Children k) -> exists ch, ClipDown k gk = Ok ch /\ In (c, CNone) ch).
  { intros k gk c (Hm & Hgd & _) Hk Hz Hc. destruct (ClipDownTile_total k gk Hm Hz Hgd) as (ch & E). exists ch. rewrite ClipDown_good by auto.
    assert (near_square k gk = false) as -> by (destruct gk; try contradiction; reflexivity). split; auto.
    destruct (on_map_range k Hm Hz) as (R1 & R2 & R3). destruct k as [x y z]. cbn [tX tY tZ] in *. apply (C76_children_entries x y z gk ch R1 R2 R3 E).
    split; auto. split; auto. exists CNone. destruct gk; try contradiction; auto. }
  assert (CH : forall c, on_map (Parent c) -> (1 <= tZ c <= 62)%Z -> In c (Children (Parent c))).
  { intros c Hm Hz. assert (K : (62 < 2 ^ 63)%Z) by reflexivity. rewrite Parent_eq in * by lia. destruct (on_map_range _ Hm) as (R1 & R2 & R3); [cbn [tZ]; lia|]. destruct c as [x y z]. cbn [tX tY tZ] in *.
    rewrite Children_eq by auto. replace (z - 1 + 1)%Z with z by lia. cbn [In].
    assert (Ex : (x = 2 * (x / 2) \/ x = 2 * (x / 2) + 1)%Z) by (pose proof (Z.div_mod x 2); pose proof (Z.mod_pos_bound x 2); lia).
    assert (Ey : (y = 2 * (y / 2) \/ y = 2 * (y / 2) + 1)%Z) by (pose proof (Z.div_mod y 2); pose proof (Z.mod_pos_bound y 2); lia).
    destruct Ex as [Ex|Ex], Ey as [Ey|Ey]; rewrite <- Ex, <- Ey; auto. }
  induction n as [|n IH]; [lia|]. intros _ Hz c (B1 & B2 & B3). assert (K : (62 < 2 ^ 63)%Z) by reflexivity.
  assert (BP : below t n (Parent c)).
  { rewrite Parent_eq by lia. unfold below. cbn [tX tY tZ]. rewrite Nat2Z.inj_succ, Z.pow_succ_r in B2, B3 by lia. rewrite !Z.div_div by (try apply Z.pow_pos_nonneg; lia). repeat split; auto. lia. }
  destruct n as [|n].
  - assert (Parent c = t) as EP.
    { destruct BP as (P1 & P2 & P3). change (2 ^ Z.of_nat 0)%Z with 1%Z in *. rewrite Z.div_1_r in P2, P3. destruct (Parent c) as [px py pz], t as [x0 y0 z0]. cbn [tX tY tZ] in *. f_equal; lia. }
    assert (Hc : In c (Children t)) by (rewrite <- EP; apply CH; [rewrite EP; apply Hf|lia]).
    destruct (ST t g c Hf Hg ltac:(lia) Hc) as (ch & E & Hi). econstructor; [constructor| |]; eauto.
  - pose proof (IH ltac:(lia) ltac:(lia) _ BP) as R. destruct (reach_fits t g Hf (S n) _ _ R ltac:(lia)) as [Fk Zk].
    destruct (ST (Parent c) CNone c Fk I ltac:(lia)) as (ch & E & Hi); [apply CH; [apply Fk|lia]|]. econstructor; eauto.
Qed.
Theorem C94_multiline_refuted : forall order fuel bb ls endzoom z t,
  (forall m, Permutation (order m) m) ->
  in_world bb -> ls <> [] -> Forall (in_box bb) (concat ls) ->
  GetFirstZoom bb = (z, t) -> (z < endzoom <= 30)%Z -> (endzoom - z <= Z.of_nat fuel)%Z ->
  exists m, ClipFeature order fuel bb (CMultiLine ls) endzoom false = Ok m /\
    forall c, tZ c = endzoom -> (tX c / 2 ^ (endzoom - z) = tX t)%Z -> (tY c / 2 ^ (endzoom - z) = tY t)%Z -> In (c, CNone) m.
Proof.
  intros order fuel bb ls endzoom z t Hord Hw Hls Hv Ez He Hfu.
  assert (Hg : good (CMultiLine ls)) by (split; [exact I|destruct ls; [congruence|reflexivity]]).
  destruct (C94_covers order fuel bb _ endzoom false z t Hord Hw Hg Hv Ez He Hfu) as (m & E & _ & HI). exists m. split; auto. intros c H1 H2 H3. apply HI.
  pose proof (C32_first_zoom bb (ex_intro _ _ (world_share bb Hw))) as HZ. rewrite Ez in HZ. destruct HZ as [(-> & _)|(Hz & Hs & _)]; [lia|].
  destruct (share_fits bb z t _ Hw ltac:(lia) Hs Hg Hv) as [Hf Et].
  apply reach_blank; auto; try lia. unfold below. rewrite Z2Nat.id by lia. repeat split; auto. lia.
Qed.
Print Assumptions C94_multiline_refuted.

Lemma max_lat_45 : 45 < max_lat.
Proof.
  unfold max_lat. pose proof PI_RGT_0 as HP. pose proof PI2_1 as H1.
  assert (1 < sinh PI).
  { unfold sinh. pose proof (exp_ineq1 PI ltac:(lra)). assert (exp (- PI) < 1) by (rewrite <- exp_0; apply exp_increasing; lra). lra. }
  assert (PI / 4 < atan (sinh PI)) by (rewrite <- atan_1; apply atan_increasing; auto).
  assert (E : 180 / PI * (PI / 4) = 45) by (field; lra). rewrite <- E. apply Rmult_lt_compat_l; [apply Rdiv_lt_0_compat; lra|auto].
Qed.
(** A box across the meridian 0 first fits in the whole world *)
Lemma first_zoom_world b : in_world b -> eW b < 0 <= eE b -> GetFirstZoom b = (0%Z, mkTile 0 0 0).
Proof.
  intros Hw Hm. pose proof (C32_first_zoom b (ex_intro _ _ (world_share b Hw))) as HZ. destruct (GetFirstZoom b) as [z t] eqn:E.
  assert (N1 : ~ exists t', share b 1 t').
  { intros (t' & S1 & _ & S3 & _). destruct Hw as (H1 & H2 & H3 & H4 & H5 & H6). pose proof max_lat_90.
    assert (Et : tZ t' = 1%Z) by (rewrite <- S1; apply tZ_Tile; lia).
    assert (I1 : inside t' (eE b) (eN b)) by (apply Tile_iff; [lra|lia|rewrite Et; auto]).
    assert (I2 : inside t' (eW b) (eN b)) by (apply Tile_iff; [lra|lia|rewrite Et; auto]).
    destruct I1 as [I1 _], I2 as [I2 _]. destruct (Bounds_eq t') as (EW & EE & _). rewrite EW, EE in *. rewrite Et in *. replace (pow2 1) with 2 in * by (rewrite pow2_IZR by lia; reflexivity).
    assert (A : IZR (tX t') < 1) by lra. assert (B : 0 < IZR (tX t')) by lra. apply (lt_IZR (tX t') 1) in A. apply (lt_IZR 0) in B. lia. }
  destruct HZ as [(-> & -> & Hj)|(Hz & Hs & Hj)].
  - destruct N1. apply Hj. lia.
  - assert (z = 0%Z) as ->. { destruct (Z.eq_dec z 0); auto. exfalso. apply N1. apply (share_le b (Z.to_nat (z - 1)) 1); try lia. rewrite Z2Nat.id by lia. replace (1 + (z - 1))%Z with z by lia. eauto. }
    destruct (world_share b Hw) as (W1 & _). destruct Hs as (Hs & _). congruence.
Qed.
(** A line across the meridian, cut down to zoom 1 *)
Example C94_nonvacuous :
  let bb := mkExt (-10) 10 10 (-10) in let g := CLine [(-10, -10); (10, 10)] in
  in_world bb /\ good g /\ Forall (in_box bb) (verts g) /\ GetFirstZoom bb = (0%Z, mkTile 0 0 0) /\
  exists m, ClipFeature (fun m => m) 1 bb g 1 false = Ok m /\ m <> [].
Proof.
  cbv zeta. pose proof max_lat_45. set (bb := mkExt (-10) 10 10 (-10)). set (g := CLine [(-10, -10); (10, 10)]).
  assert (A1 : in_world bb) by (unfold in_world, bb; cbn [eW eE eN eS]; lra). assert (A2 : good g) by (split; [discriminate|reflexivity]).
  assert (A3 : Forall (in_box bb) (verts g)). { apply Forall_forall. unfold g, in_box, bb. cbn [verts eW eE eN eS]. intros p [<-|[<-|[]]]; cbn [fst snd]; lra. }
  assert (A4 : GetFirstZoom bb = (0%Z, mkTile 0 0 0)) by (apply first_zoom_world; auto; unfold bb; cbn [eW eE]; lra).
  repeat (split; [assumption|]). destruct (C94_covers (fun m => m) 1 bb g 1 false 0 (mkTile 0 0 0)) as (m & E & _); auto; try lia.
  exists m. split; auto. apply (C94_entries (fun m => m) 1 bb g 1 0 (mkTile 0 0 0) m); auto; lia.
Qed.

(** ** C95 *)
Definition strictly_in (t : TileID) (p : rpt) : Prop := eW (Bounds t) < fst p < eE (Bounds t) /\ eS (Bounds t) < snd p < eN (Bounds t).
(** One cut of a polygon goes well: if it is taken for the whole tile it is the whole tile, otherwise its rings have equal or
    clearly different ends, before the cut and between the two halves of it. *)
Definition clean (k : TileID) (rings : list (list rpt)) : Prop :=
  if near_square k (CPolygon rings) then forall p, strictly_in k p -> even_odd rings p = true
  else (forall r, In r rings -> ends_ok r) /\
       forall c mid r, In c (Children k) -> clip RNum Power7 (CPolygon rings) (eW (Bounds c)) (eE (Bounds c)) false = Ok (CPolygon mid) -> In r mid -> ends_ok r.

Lemma square_inside c p : strictly_in c p -> even_odd [tile_square c] p = true.
Proof.
  intros [[H1 H2] [H3 H4]]. unfold even_odd, tile_square. cbv zeta. cbn [fold_right ring_edges app edges]. unfold parity. cbn [fold_right fst snd]. unfold crosses. cbn [fst snd].
  set (b := Bounds c) in *. destruct p as [x y]. cbn [fst snd] in *.
  destruct (Rleb_spec (eE b) x) as [K|K]; [lra|]. destruct (Rleb_spec (eW b) x) as [L|L]; [|lra]. cbn [xorb andb].
  replace (eN b - eN b) with 0 by lra. replace (eS b - eS b) with 0 by lra. rewrite !Rmult_0_r, !Rplus_0_r.
  destruct (Rltb_spec y (eN b)); [|lra]. destruct (Rltb_spec y (eS b)); [lra|]. reflexivity.
Qed.
Lemma parent_child c : on_map (Parent c) -> (1 <= tZ c <= 62)%Z -> In c (Children (Parent c)).
Proof.
  intros Hm Hz. assert (K : (62 < 2 ^ 63)%Z) by reflexivity. rewrite Parent_eq in * by lia. destruct (on_map_range _ Hm) as (R1 & R2 & R3); [cbn [tZ]; lia|]. destruct c as [x y z]. cbn [tX tY tZ] in *.
  rewrite Children_eq by auto. replace (z - 1 + 1)%Z with z by lia. cbn [In].
  assert (Ex : (x = 2 * (x / 2) \/ x = 2 * (x / 2) + 1)%Z) by (pose proof (Z.div_mod x 2); pose proof (Z.mod_pos_bound x 2); lia).
  assert (Ey : (y = 2 * (y / 2) \/ y = 2 * (y / 2) + 1)%Z) by (pose proof (Z.div_mod y 2); pose proof (Z.mod_pos_bound y 2); lia).
  destruct Ex as [Ex|Ex], Ey as [Ey|Ey]; rewrite <- Ex, <- Ey; auto.
Qed.
Lemma reach_membership t rings n : fits t (CPolygon rings) ->
  (forall j k rs, (j < n)%nat -> reach t (CPolygon rings) j k (CPolygon rs) -> clean k rs) ->
  (tZ t + Z.of_nat n <= 62)%Z -> forall c p, below t n c -> strictly_in c p ->
  (exists rs, reach t (CPolygon rings) n c (CPolygon rs) /\ even_odd rs p = even_odd rings p) \/
  ((forall gc, ~ reach t (CPolygon rings) n c gc) /\ even_odd rings p = false).
Proof.
  intros Hf. assert (H0 : (0 <= tZ t)%Z) by apply Hf. assert (K63 : (62 < 2 ^ 63)%Z) by reflexivity.
  induction n as [|n IH]; intros HC Hz c p (B1 & B2 & B3) Hp.
  - left. exists rings. split; auto. change (2 ^ Z.of_nat 0)%Z with 1%Z in *. rewrite Z.div_1_r in B2, B3. assert (c = t) as ->; [|constructor].
    destruct c as [x y z], t as [x0 y0 z0]. cbn [tX tY tZ] in *. f_equal; lia.
  - assert (BP : below t n (Parent c)).
    { rewrite Parent_eq by lia. unfold below. cbn [tX tY tZ]. rewrite Nat2Z.inj_succ, Z.pow_succ_r in B2, B3 by lia. rewrite !Z.div_div by (try apply Z.pow_pos_nonneg; lia). repeat split; auto. lia. }
    assert (OP : on_map (Parent c)).
    { destruct BP as (P1 & P2 & P3). destruct Hf as [(O1 & O2 & O3) _]. unfold on_map. rewrite P1. rewrite Z.pow_add_r by lia. assert (P : (0 < 2 ^ Z.of_nat n)%Z) by (apply Z.pow_pos_nonneg; lia).
      rewrite <- P2 in O1. rewrite <- P3 in O2. split; [|split; [|lia]].
      - pose proof (Z.div_mod (tX (Parent c)) (2 ^ Z.of_nat n) ltac:(lia)). pose proof (Z.mod_pos_bound (tX (Parent c)) (2 ^ Z.of_nat n) P). nia.
      - pose proof (Z.div_mod (tY (Parent c)) (2 ^ Z.of_nat n) ltac:(lia)). pose proof (Z.mod_pos_bound (tY (Parent c)) (2 ^ Z.of_nat n) P). nia. }
    assert (ZP : tZ (Parent c) = (tZ t + Z.of_nat n)%Z) by apply BP.
    assert (Hc : In c (Children (Parent c))) by (apply parent_child; auto; lia).
    assert (HpP : strictly_in (Parent c) p).
    { destruct (child_inside (Parent c) c OP ltac:(lia) Hc) as (C1 & C2 & C3 & C4). destruct Hp as [Q1 Q2]. split; lra. }
    assert (UP : forall gc, reach t (CPolygon rings) (S n) c gc -> exists gk ch, reach t (CPolygon rings) n (Parent c) gk /\ ClipDown (Parent c) gk = Ok ch /\ In (c, gc) ch).
    { intros gc H. inversion H as [|n1 k gk ch c1 gc1 R1 E1 I1]; subst. destruct (reach_fits t _ Hf n k gk R1 ltac:(lia)) as [Fk Zk].
      destruct (ClipDown_ok k gk Fk ltac:(lia)) as (ch' & E' & _ & _ & HF). rewrite E1 in E'. injection E' as <-. destruct (Children_on_map k c (proj1 Fk) ltac:(lia) (proj1 (HF c gc I1))) as (_ & _ & PP). rewrite PP. eauto. }
    destruct (IH (fun j k rs Hj R => HC j k rs (Nat.lt_lt_succ_r _ _ Hj) R) ltac:(lia) (Parent c) p BP HpP) as [(rs & R & Ev)|(HN & Ev)].
    + destruct (reach_fits t _ Hf n _ _ R ltac:(lia)) as [Fk Zk]. assert (HCk := HC n _ _ (Nat.lt_succ_diag_r n) R). unfold clean in HCk.
      assert (Fg := proj1 (proj2 Fk)). pose proof (ClipDown_good (Parent c) (CPolygon rs) Fg) as ED.
      destruct (near_square (Parent c) (CPolygon rs)) eqn:ES.
      * left. exists [tile_square c]. split; [|rewrite square_inside by auto; rewrite <- Ev; symmetry; apply HCk; auto].
        econstructor; [exact R|exact ED|]. apply in_map_iff. exists c. auto.
      * destruct HCk as [HE HM]. destruct (on_map_range (Parent c) OP ltac:(lia)) as (R1 & R2 & R3).
        assert (QM := C76_polygon_membership (tX (Parent c)) (tY (Parent c)) (tZ (Parent c)) rs R1 R2 R3).
        replace (mkTile (tX (Parent c)) (tY (Parent c)) (tZ (Parent c))) with (Parent c) in QM by (destruct (Parent c); reflexivity).
        destruct QM as (m & Em & HQ); auto. { destruct Fg as [_ Ne]. destruct rs; [discriminate|discriminate]. }
        rewrite Em in ED. destruct Hp as [Q1 Q2]. destruct (HQ c p Hc Q1 Q2) as [(rs' & Hi & Ee)|(Hn & Ee)].
        -- intros mid r E Hr. eapply HM; eauto.
        -- left. exists rs'. split; [econstructor; eauto|congruence].
        -- right. split; [|congruence]. intros gc H. destruct (UP gc H) as (gk & ch & R' & E' & I'). assert (gk = CPolygon rs) by (eapply (reach_fun t _ Hf n (Parent c)); eauto; lia). subst gk.
           rewrite ED in E'. injection E' as <-. eapply Hn; eauto.
    + right. split; auto. intros gc H. destruct (UP gc H) as (gk & ch & R' & _). eapply HN; eauto.
Qed.
(** Inside every tile of the zoom under the first one, the entry has the same even-odd membership as the polygon; a tile without
    an entry has no point inside. *)
Theorem C95_membership : forall order fuel bb rings endzoom z t,
  (forall m, Permutation (order m) m) ->
  in_world bb -> rings <> [] -> (forall r, In r rings -> r <> []) -> Forall (in_box bb) (concat rings) ->
  GetFirstZoom bb = (z, t) -> (z < endzoom <= 30)%Z -> (endzoom - z <= Z.of_nat fuel)%Z ->
  (forall j k rs, (z + Z.of_nat j < endzoom)%Z -> reach t (CPolygon rings) j k (CPolygon rs) -> clean k rs) ->
  exists m, ClipFeature order fuel bb (CPolygon rings) endzoom false = Ok m /\
    forall c p, tZ c = endzoom -> (tX c / 2 ^ (endzoom - z) = tX t)%Z -> (tY c / 2 ^ (endzoom - z) = tY t)%Z -> strictly_in c p ->
      (exists rs, In (c, CPolygon rs) m /\ even_odd rs p = even_odd rings p) \/
      ((forall gc, ~ In (c, gc) m) /\ even_odd rings p = false).
Proof.
  intros order fuel bb rings endzoom z t Hord Hw Hne Hr Hv Ez He Hfu HC.
  assert (Hg : good (CPolygon rings)) by (split; [exact Hr|destruct rings; [congruence|reflexivity]]).
  destruct (C94_covers order fuel bb _ endzoom false z t Hord Hw Hg Hv Ez He Hfu) as (m & E & _ & HI). exists m. split; auto. intros c p H1 H2 H3 Hp.
  pose proof (C32_first_zoom bb (ex_intro _ _ (world_share bb Hw))) as HZ. rewrite Ez in HZ. destruct HZ as [(-> & _)|(Hz & Hs & _)]; [lia|].
  destruct (share_fits bb z t _ Hw ltac:(lia) Hs Hg Hv) as [Hf Et].
  destruct (reach_membership t rings (Z.to_nat (endzoom - z)) Hf) with (c := c) (p := p) as [(rs & R & Ev)|(HN & Ev)]; auto; try lia.
  - intros j k rs Hj R. apply (HC j k rs); auto. lia.
  - unfold below. rewrite Z2Nat.id by lia. repeat split; auto. lia.
  - left. exists rs. split; auto. apply HI. auto.
  - right. split; auto. intros gc K. apply (HN gc). apply HI. auto.
Qed.
Print Assumptions C95_membership.

(** A ring of four points whose box is the
    tile's is taken for it, so half of the world as a triangle fills all four tiles of zoom 1. *)
Definition half_world : list rpt :=
  [(-180, - max_lat + / 100000000); (180 - / 100000000, - max_lat + / 100000000); (-180, max_lat); (-180, - max_lat + / 100000000)].
Definition half_box : Extrema := mkExt (-180) (180 - / 100000000) max_lat (- max_lat + / 100000000).
Theorem C95_triangle_refuted : forall order, (forall m, Permutation (order m) m) ->
  Forall (in_box half_box) half_world /\
  exists m p rs, ClipFeature order 1 half_box (CPolygon [half_world]) 1 false = Ok m /\
    strictly_in (mkTile 1 0 1) p /\ even_odd [half_world] p = false /\
    In (mkTile 1 0 1, CPolygon rs) m /\ even_odd rs p = true.
Proof.
  intros order Hord. pose proof max_lat_45 as ML.
  assert (A0 : Forall (in_box half_box) half_world).
  { apply Forall_forall. unfold half_world, half_box, in_box. cbn [eW eE eN eS]. intros p [<-|[<-|[<-|[<-|[]]]]]; cbn [fst snd]; lra. }
  split; auto.
  assert (A1 : in_world half_box) by (unfold in_world, half_box; cbn [eW eE eN eS]; lra).
  assert (A2 : good (CPolygon [half_world])) by (split; [intros r [<-|[]]; discriminate|reflexivity]).
  assert (A3 : GetFirstZoom half_box = (0%Z, mkTile 0 0 0)) by (apply first_zoom_world; auto; unfold half_box; cbn [eW eE]; lra).
  destruct (C94_covers order 1 half_box (CPolygon [half_world]) 1 false 0 (mkTile 0 0 0) Hord A1 A2) as (m & E & _ & HI); auto; try lia.
  assert (NS : near_square (mkTile 0 0 0) (CPolygon [half_world]) = true).
  { unfold near_square, half_world. cbn [length Nat.eqb orb andb]. unfold DeltaBounds, ring_box. cbn [map fold_left fst snd eW eE eN eS].
    rewrite C05_world_bounds. cbn [eW eE eN eS]. fold max_lat.
    assert (M1 : forall a b, b <= a -> Rmin a b = b) by (intros; apply Rmin_right; auto). assert (M2 : forall a b, a <= b -> Rmin a b = a) by (intros; apply Rmin_left; auto).
    assert (M3 : forall a b, b <= a -> Rmax a b = a) by (intros; apply Rmax_left; auto). assert (M4 : forall a b, a <= b -> Rmax a b = b) by (intros; apply Rmax_right; auto).
    rewrite (M2 (-180) (180 - / 100000000)), (M2 (-180) (-180)) by lra. rewrite (M2 (-180) (-180)) by lra.
    rewrite (M4 (-180) (180 - / 100000000)), (M3 (180 - / 100000000) (-180)) by lra. rewrite (M3 (180 - / 100000000) (-180)) by lra.
    set (s := - max_lat + / 100000000). assert (s <= max_lat) by (unfold s; lra).
    rewrite (M3 s s), (M4 s max_lat), (M3 max_lat s) by lra. rewrite (M2 s s), (M2 s max_lat), (M2 s s) by lra.
    unfold Power7. rewrite !andb_true_iff, !Rltb_true. repeat split; apply Rabs_def1; unfold s; lra. }
  assert (R : reach (mkTile 0 0 0) (CPolygon [half_world]) 1 (mkTile 1 0 1) (CPolygon [tile_square (mkTile 1 0 1)])).
  { econstructor; [constructor|rewrite (ClipDown_good _ _ A2), NS; reflexivity|]. apply in_map_iff. exists (mkTile 1 0 1). split; auto. rewrite Children_eq by lia. cbn. auto. }
  change (Z.to_nat (1 - 0)) with 1%nat in HI. cbv iota in HI.
  destruct (Bounds_eq (mkTile 1 0 1)) as (EW & EE & EN & ES). cbn [tX tY tZ] in *. replace (pow2 1) with 2 in * by (rewrite pow2_IZR by lia; reflexivity).
  assert (EN' : eN (Bounds (mkTile 1 0 1)) = max_lat) by (rewrite EN; unfold edge_lat, gd, max_lat; do 3 f_equal; field).
  assert (ES' : eS (Bounds (mkTile 1 0 1)) = 0).
  { rewrite ES. unfold edge_lat, gd. replace (PI * (1 - 2 * (0 + 1) / 2)) with 0 by field. rewrite sinh_0, atan_0. ring. }
  assert (SI : strictly_in (mkTile 1 0 1) (90, max_lat / 2)).
  { unfold strictly_in. rewrite EW, EE, EN', ES'. cbn [fst snd]. lra. }
  exists m, (90, max_lat / 2), [tile_square (mkTile 1 0 1)]. split; auto. split; auto. split; [|split; [apply HI; auto|apply square_inside; auto]].
  unfold even_odd, half_world. cbn [fold_right ring_edges app edges]. unfold parity. cbn [fold_right fst snd]. unfold crosses. cbn [fst snd].
  destruct (Rleb_spec (-180) 90) as [L|L]; [|lra]. destruct (Rleb_spec (180 - / 100000000) 90) as [K|K]; [lra|]. cbn [xorb andb].
  set (s := - max_lat + / 100000000). replace (s - s) with 0 by lra. rewrite Rmult_0_r, Rplus_0_r.
  destruct (Rltb_spec (max_lat / 2) s) as [Q|Q]; [unfold s in Q; lra|].
  destruct (Rltb_spec (max_lat / 2) (s + (90 - (180 - / 100000000)) / (-180 - (180 - / 100000000)) * (max_lat - s))) as [Q2|Q2]; [|reflexivity].
  exfalso. assert (F : (90 - (180 - / 100000000)) / (-180 - (180 - / 100000000)) <= 26 / 100).
  { apply Rmult_le_reg_r with (180 + (180 - / 100000000)); [lra|]. replace ((90 - (180 - / 100000000)) / (-180 - (180 - / 100000000)) * (180 + (180 - / 100000000))) with (- (90 - (180 - / 100000000))) by (field; lra). lra. }
  assert (0 <= max_lat - s) by (unfold s; lra). unfold s in *. nra.
Qed.
Print Assumptions C95_triangle_refuted.
(** The square of a tile is clean: taken for the tile, it is the tile. *)
Example C95_nonvacuous : forall c, clean c [tile_square c].
Proof.
  intros c. unfold clean. assert (near_square c (CPolygon [tile_square c]) = true) as ->; [|apply square_inside].
  pose proof (bounds_order c) as [B1 B2]. unfold near_square, tile_square. cbv zeta. cbn [length Nat.eqb orb andb]. unfold DeltaBounds, ring_box. cbn [map fold_left fst snd eW eE eN eS].
  set (b := Bounds c) in *.
  assert (M1 : forall a b, b <= a -> Rmin a b = b) by (intros; apply Rmin_right; auto). assert (M2 : forall a b, a <= b -> Rmin a b = a) by (intros; apply Rmin_left; auto).
  assert (M3 : forall a b, b <= a -> Rmax a b = a) by (intros; apply Rmax_left; auto). assert (M4 : forall a b, a <= b -> Rmax a b = b) by (intros; apply Rmax_right; auto).
  rewrite (M1 (eE b) (eW b)), (M2 (eW b) (eW b)), (M2 (eW b) (eE b)), (M2 (eW b) (eE b)) by lra.
  rewrite (M3 (eE b) (eW b)), (M3 (eE b) (eW b)), (M3 (eE b) (eE b)), (M3 (eE b) (eE b)) by lra.
  rewrite (M3 (eN b) (eN b)), (M3 (eN b) (eS b)), (M3 (eN b) (eS b)), (M3 (eN b) (eN b)) by lra.
  rewrite (M1 (eN b) (eN b)), (M1 (eN b) (eS b)), (M2 (eS b) (eS b)), (M2 (eS b) (eN b)) by lra.
  rewrite !Rminus_diag_eq, !Rabs_R0 by auto. unfold Power7. rewrite !andb_true_iff, !Rltb_true. lra.
Qed.
