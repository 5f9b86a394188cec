(** Property C145: whole tiles written from and read to longitude/latitude by ReadTile, in binary64. *)
From Coq Require Import ZArith List Lia Bool Reals Lra.
From Flocq Require Import Core BinarySingleNaN.
From Verif Require Import GoBase Num Tileid_Model TileR_Model TileR_Proofs TileF64_Model TileF64_Proofs F64 ColorF64_Model ColorF64_Proofs Tile64_Model Tile64_Proofs Tile64_Props
  MvtProj_Model MvtProj_Proofs MvtProj64_Model MvtProj64_Proofs MvtProj64_Props Pbf_Model MvtGeom_Model MvtGeom_Spec MvtGeom_Proofs MvtLayer_Model MvtLayer_Spec Pbf_Proofs MvtLayer_Proofs MvtLayerRead_Proofs MvtLayer_Props MvtTile_Proofs MvtTile_Props
  MvtGeo_Model Decode64_Model Decode64_Props MvtAgain_Proofs MvtAgain64_Model MvtAgain64_Props MvtGeo64_Model MvtGeo64_Proofs MvtGeo64_Props MvtRead64_Model.
From Verif Require MvtGeo_Props.
Import ListNotations.
Open Scope Z_scope.

(** ** Specification *)
(** Every feature has a geometry that can be written and read (C136) *)
Definition all_drawable64 (S : geosource64) : Prop :=
  Forall (fun f => exists g, fGeom f = Some g /\ drawable64 (gExtentBool (g6Cfg S)) (gTile (g6Cfg S)) (g6_extent S) g) (g6Feats S).
(** The features of a layer as ReadTile returns them: the id is the latest one written in the layer, the properties have the
    name of the layer besides, the positions are faithful as in C136 *)
Definition geo_out64 (S : geosource64) (gs : list gfeat64) : Prop :=
  length gs = length (g6Feats S) /\
  exists gr, gridding (gExtentBool (g6Cfg S)) (gTile (g6Cfg S)) (g6_extent S) gr /\
  forall i f g gf, nth_error (g6Feats S) i = Some f -> fGeom f = Some g -> nth_error gs i = Some gf ->
    g6ID gf = latest 0 (ids_until (g6Feats S) i) /\
    (exists mp, wire_props (fProps f) mp /\ g6Props gf = mput str_layer (WString (gName (g6Cfg S))) mp) /\
    faithful64 (gTile (g6Cfg S)) (g6_extent S) gr g (g6Geom gf).

(** A geometry with every position changed *)
Definition map_geo {A B} (u : A -> B) (g : geometry A) : geometry B :=
  match g with
  | XPoint p => XPoint (u p)
  | XMultiPoint ps => XMultiPoint (map u ps)
  | XLineString l => XLineString (map u l)
  | XMultiLineString ls => XMultiLineString (map (map u) ls)
  | XPolygon rs => XPolygon (map (map u) rs)
  | XMultiPolygon ps => XMultiPolygon (map (map (map u)) ps)
  | XOther => XOther
  end.
(** The north-west and south-east corners of a tile, to 2.3e-13 degrees of longitude and 2.7e-12 degrees of latitude *)
Definition corners_of (t : TileID) (nw se : lnglat64) : Prop :=
  finite2 nw /\ finite2 se /\
  (Rabs (B2R (fst nw) - eW (Bounds t)) <= 23 / 100000000000000 /\ Rabs (B2R (snd nw) - eN (Bounds t)) <= 27 / 10000000000000 /\
   Rabs (B2R (fst se) - eE (Bounds t)) <= 23 / 100000000000000 /\ Rabs (B2R (snd se) - eS (Bounds t)) <= 27 / 10000000000000)%R.

(** ** Proofs *)
Lemma some_inj {A} (a b : A) : Some a = Some b -> a = b.
Proof. intros H. injection H. auto. Qed.
Lemma read_feats64_at extra proj P buf name r vt : dialect P -> zlen buf < 2 ^ 62 -> 0 <= extra <= 1 -> lrVals r = map norm vt ->
  forall ws bodies poss, bodies_ok P (lrKeys r) vt ws bodies -> Forall feat_ok ws -> (forall w z, In w ws -> wID w = Some z -> in_i64 z) ->
  Forall2 (fun p b => exists s', at_ buf p (EncodeVarint (zlen b) ++ b ++ s')) poss bodies ->
  forall id gt gp prev, geom_prev buf gp prev ->
  (forall i w, nth_error ws i = Some w -> exists c gd, latest prev (cmds_upto ws i) = Some c /\ LoadGeometry64 (latest gt (types_upto ws i)) c = Ok gd) ->
  exists os, (forall fuel, (4 <= fuel)%nat -> read_feats64 fuel extra proj P buf (lrKeys r) (lrVals r) name poss id gt gp = Ok os) /\ length os = length ws /\
    forall i w o, nth_error ws i = Some w -> nth_error os i = Some o ->
      g6ID o = latest id (ids_upto ws i) /\
      (exists m, wire_props (wProps w) m /\ g6Props o = mput str_layer (WString name) m) /\
      (exists c gd, latest prev (cmds_upto ws i) = Some c /\ LoadGeometry64 (latest gt (types_upto ws i)) c = Ok gd /\ g6Geom o = proj gd).
Proof.
  intros HP Hb He EV. induction ws as [|w ws IH]; intros bodies poss HB HK HI HF id gt gp prev HG HD.
  - inversion HB; subst. inversion HF; subst. exists []. split; [reflexivity|]. split; auto. intros [|i] w o H; discriminate.
  - inversion HB as [|? b ? bs (tags & -> & R) HB']; subst. inversion HF as [|p ? ps ? (s' & Hp) HF']; subst. inversion HK as [|? ? (K1 & K2 & K3) HK']; subst.
    assert (Hb' : zlen buf < 2 ^ 63) by lia. pose proof (at_app _ _ _ _ Hp) as Hp1.
    destruct (feature_read extra P buf (lrKeys r) vt _ HP Hb He w tags _ s' (mkRF id gt [] gp) Hp1 eq_refl R K1 eq_refl K2) as (m & gp' & W & G & Rn).
    cbn [rfID rfType rfGeomPos] in *.
    set (id' := match wID w with Some z => z | None => id end).
    assert (Ei : match wID w with Some z => wrap64 z | None => id end = id').
    { unfold id'. destruct (wID w) as [z|] eqn:E; auto. apply wrap64_id. apply (HI w z); [left|]; auto. }
    rewrite Ei in Rn. set (gt' := match wType w with Some t => t | None => gt end) in *.
    set (prev' := match wCmds w with Some c => Some c | None => prev end).
    assert (HG' : geom_prev buf gp' prev').
    { unfold prev'. destruct (wCmds w) as [cs|] eqn:E; [split; auto; apply K3; auto|]. subst gp'. exact HG. }
    assert (L1 : forall i, latest prev (cmds_upto (w :: ws) (S i)) = latest prev' (cmds_upto ws i)) by (intros; unfold prev', cmds_upto, latest; cbn [map firstn fold_left]; destruct (wCmds w); reflexivity).
    assert (L2 : forall i, latest gt (types_upto (w :: ws) (S i)) = latest gt' (types_upto ws i)) by (intros; unfold gt', types_upto, latest; cbn [map firstn fold_left]; destruct (wType w); reflexivity).
    assert (L3 : forall i, latest id (ids_upto (w :: ws) (S i)) = latest id' (ids_upto ws i)) by (intros; unfold id', ids_upto, latest; cbn [map firstn fold_left]; destruct (wID w); reflexivity).
    assert (M1 : latest prev (cmds_upto (w :: ws) 0) = prev') by (unfold prev', cmds_upto, latest; cbn [map firstn fold_left]; destruct (wCmds w); reflexivity).
    assert (M2 : latest gt (types_upto (w :: ws) 0) = gt') by (unfold gt', types_upto, latest; cbn [map firstn fold_left]; destruct (wType w); reflexivity).
    assert (M3 : latest id (ids_upto (w :: ws) 0) = id') by (unfold id', ids_upto, latest; cbn [map firstn fold_left]; destruct (wID w); reflexivity).
    destruct (HD 0%nat w eq_refl) as (c & gd & D1 & D2). rewrite M1 in D1. rewrite M2 in D2.
    destruct (IH bs ps HB' HK' ltac:(intros; apply (HI w0 z); [right|]; auto) HF' id' gt' gp' prev' HG') as (os & E & Hl & HO).
    { intros i w' Hi. destruct (HD (S i) w' Hi) as (c' & gd' & X1 & X2). rewrite L1 in X1. rewrite L2 in X2. eauto. }
    assert (exists e, ReadPackedUInt32 buf gp' = Ok (c, e)) as (e & Er).
    { rewrite D1 in HG'. destruct HG' as [X1 X2]. apply (holds_read buf gp' c Hb' X2 X1). }
    exists (mkGF64 id' (mput str_layer (WString name) m) (proj gd) :: os). split; [|split].
    + intros fuel Hf. cbn [read_feats64]. rewrite (ReadVarint_at _ _ _ _ Hp), (at_len_wrap _ _ _ _ Hb' Hp1). cbn [bind]. rewrite (at_wrap _ _ _ _ Hb' Hp1).
      rewrite EV in *. rewrite (Rn fuel Hf). cbn [bind rfID rfType rfProps rfGeomPos]. rewrite Er. cbn [bind]. rewrite D2. cbn [bind]. rewrite (E fuel Hf). reflexivity.
    + cbn [length]. lia.
    + intros [|i] w' o H1 H2.
      * cbn [nth_error] in H1, H2. apply some_inj in H1, H2. subst w' o. cbn [g6ID g6Props g6Geom]. rewrite M1, M2, M3. split; auto. split; eauto.
      * cbn [nth_error] in H1, H2. rewrite L1, L2, L3. apply HO; auto.
Qed.


Definition layer_out64 (proj : wlayer -> geomdata64 -> geometry (f64 * f64)) (L : wlayer) (os : list gfeat64) : Prop :=
  length os = length (wlFeats L) /\
  forall i w o, nth_error (wlFeats L) i = Some w -> nth_error os i = Some o ->
      g6ID o = latest 0 (ids_upto (wlFeats L) i) /\
      (exists m, wire_props (wProps w) m /\ g6Props o = mput str_layer (WString (wlName L)) m) /\
      (exists c gd, latest None (cmds_upto (wlFeats L) i) = Some c /\ LoadGeometry64 (latest 0 (types_upto (wlFeats L) i)) c = Ok gd /\ g6Geom o = proj L gd).
Definition layer_in64 (L : wlayer) : Prop :=
  Forall feat_ok (wlFeats L) /\ (forall w z, In w (wlFeats L) -> wID w = Some z -> in_i64 z) /\
  (forall i w, nth_error (wlFeats L) i = Some w -> exists c gd, latest None (cmds_upto (wlFeats L) i) = Some c /\ LoadGeometry64 (latest 0 (types_upto (wlFeats L) i)) c = Ok gd).

Lemma read_geo64_at lm mExp t P buf : dialect P -> zlen buf < 2 ^ 62 -> forall Ls bss, Forall2 (is_layer P) Ls bss -> Forall layer_in64 Ls ->
  forall pos acc fuel, at_ buf pos (concat bss) -> (length (concat bss) + 4 < fuel)%nat ->
  exists oss, read_geo64 lm mExp fuel t P buf pos acc = Ok (acc ++ concat oss) /\ Forall2 (layer_out64 (fun L => geo64_of lm mExp t (MvtGeo_Props.ext_read L))) Ls oss.
Proof.
  intros HP Hb Ls bss HF. induction HF as [|L bs Ls bss H1 HF IH]; intros HI pos acc fuel Hp Hf.
  - exists []. cbn [concat] in *. rewrite app_nil_r. apply at_pos in Hp as [_ Hp]. rewrite zlen_nil in Hp. split; [|constructor].
    destruct fuel; cbn [read_geo64]; destruct (Z.ltb_spec pos (zlen buf)); try lia; reflexivity.
  - inversion HI as [|? ? (I1 & I2 & I3) HI']; subst. cbn [concat] in *. rewrite app_length in Hf. destruct fuel as [|fuel]; [lia|].
    destruct (layer_at false P buf L bs pos _ HP Hb H1 Hp) as (size & p1 & c0 & r & A1 & A2 & A3 & A4 & A5 & A6 & A7 & A8 & A9 & bd & A10 & A11 & A12).
    assert (Hl : (0 < length bs)%nat) by (rewrite A10; cbn [layer_bytes length]; lia).
    cbn [read_geo64]. destruct (at_pos _ _ _ Hp) as [Q1 Q2]. rewrite zlen_app in Q2. pose proof (zlen_nonneg (concat bss)).
    destruct (Z.ltb_spec pos (zlen buf)); [|unfold zlen in *; lia]. rewrite A1. cbn [bind]. rewrite !Z.eqb_refl. cbn [andb]. rewrite A2. cbn [bind].
    destruct (Z.eqb_spec size 0); [lia|]. rewrite A7. cbn [bind]. rewrite A5, A8 by lia. cbn [bind].
    destruct A9 as (bodies & vt & B1 & B2 & B3 & B4 & B5 & B6 & B7 & B8).
    destruct (read_feats64_at 0 (geo64_of lm mExp t (if lrExtent r =? 0 then 4096 else lrExtent r)) P buf (lrName r) r vt HP Hb ltac:(lia) B4 (wlFeats L) bodies (lrFeats r) B1 I1 I2 B8 0 0 0 None I I3) as (os & E & Hlen & HO).
    cbv zeta. rewrite (E fuel) by lia. cbn [bind].
    destruct (IH HI' (p1 + size) (acc ++ os) fuel A6 ltac:(lia)) as (oss & E2 & F2).
    exists (os :: oss). split; [rewrite E2; cbn [concat]; rewrite app_assoc; reflexivity|]. constructor; auto. split; auto. rewrite <- B2. unfold MvtGeo_Props.ext_read. rewrite <- B6. exact HO.
Qed.
Lemma own64 lm S f g cmds : fGeom f = Some g -> geom_cmds (SinglePoint64 lm (NewCursorExtent64 lm (gTile (g6Cfg S)) (g6_extent S) (gExtentBool (g6Cfg S)))) peq64 g = Ok (Some cmds) ->
  own_cmds (sProj (source64_of lm S)) (sPeq (source64_of lm S)) f = Some cmds.
Proof. intros Hg C. unfold own_cmds. rewrite Hg. cbn [source64_of sProj sPeq]. unfold cursor64_of. rewrite g6_extent_eq, C. reflexivity. Qed.

(** What the bytes of a written layer hold for the readers *)
Definition grid64 (lm : libm) (S : geosource64) : lnglat64 -> Z * Z := SinglePoint64 lm (NewCursorExtent64 lm (gTile (g6Cfg S)) (g6_extent S) (gExtentBool (g6Cfg S))).
Lemma decodes64 lm mExp pt S bs : good_proj lm mExp -> geo_written64 lm pt S bs -> all_drawable64 S -> forall i f, nth_error (g6Feats S) i = Some f ->
  exists g cmds gd, fGeom f = Some g /\ geom_cmds (grid64 lm S) peq64 g = Ok (Some cmds) /\ latest None (cmds_until (sProj (source64_of lm S)) (sPeq (source64_of lm S)) (g6Feats S) i) = Some cmds /\ latest 0 (types_until (g6Feats S) i) = wire_type g /\
    LoadGeometry64 (wire_type g) cmds = Ok gd /\ gd <> GNil64 /\ faithful64 (gTile (g6Cfg S)) (g6_extent S) (grid64 lm S) g (geo64_of lm mExp (gTile (g6Cfg S)) (g6_extent S) gd).
Proof.
  intros G (_ & _ & _ & _ & _ & (M & He & HN) & _) A i f Hi. unfold all_drawable64 in A. rewrite Forall_forall in A. destruct (A f (nth_error_In _ _ Hi)) as (g & Hg & Hd).
  destruct (geometry_seen (gExtentBool (g6Cfg S)) (gTile (g6Cfg S)) (g6_extent S) lm mExp G M He HN g Hd) as (cmds & gd & C1 & C2 & C3 & C4). pose proof (own64 lm S f g cmds Hg C1) as O.
  exists g, cmds, gd. split; [exact Hg|]. split; [exact C1|]. split; [|split; [|split; [exact C2|split; [exact C3|exact C4]]]].
  - unfold cmds_until. apply latest_own. rewrite nth_error_map, Hi. cbn [option_map]. rewrite O. reflexivity.
  - unfold types_until. apply (latest_own _ _ (wire_type g)). rewrite nth_error_map, Hi. cbn [option_map]. rewrite Hg. reflexivity.
Qed.
Definition raw_out (lm : libm) (proj : geosource64 -> geomdata64 -> geometry (f64 * f64)) (S : geosource64) (gs : list gfeat64) : Prop :=
  length gs = length (g6Feats S) /\
  forall i f g gf, nth_error (g6Feats S) i = Some f -> fGeom f = Some g -> nth_error gs i = Some gf ->
    g6ID gf = latest 0 (ids_until (g6Feats S) i) /\
    (exists mp, wire_props (fProps f) mp /\ g6Props gf = mput str_layer (WString (gName (g6Cfg S))) mp) /\
    exists cmds gd, geom_cmds (grid64 lm S) peq64 g = Ok (Some cmds) /\ LoadGeometry64 (wire_type g) cmds = Ok gd /\ g6Geom gf = proj S gd.

Section Written.
Context (m : libm) (mExp : f64 -> f64) (GP : good_proj m mExp) (pt : Z).
Definition layers_of (Ss : list geosource64) (wss : list (list wfeat)) : list wlayer := map (fun x => src_layer (fst x) (snd x)) (combine (map (source64_of m) Ss) wss).
Lemma layers_in Ss : forall bss wss, Forall2 (geo_written64 m pt) Ss bss -> Forall all_drawable64 Ss -> Forall2 (fun S ws => Forall2 (describe (sProj S) (sPeq S)) (sFeats S) ws) (map (source64_of m) Ss) wss -> Forall layer_in64 (layers_of Ss wss).
Proof.
  unfold layers_of. induction Ss as [|S Ss IH]; intros bss wss HW Hd D; inversion D as [|? ws ? wss' D1 D2]; subst; [constructor|].
  inversion HW as [|? bs ? bss' W1 W2]; subst. inversion Hd as [|? ? Hd1 Hd2]; subst. cbn [combine map fst snd]. constructor; [|eapply IH; eauto].
  pose proof (decodes64 m mExp pt S bs GP W1 Hd1) as Dec. pose proof W1 as (_ & _ & GF & _).
  destruct (until_describe _ _ _ _ D1) as (U1 & U2 & U3).
  assert (X : Forall (fun w => feat_ok w /\ forall z, wID w = Some z -> in_i64 z) ws).
  { clear - D1 GF. cbn [source64_of sFeats] in D1. induction D1 as [|f w fs ws D _ IH]; constructor; inversion GF; subst; auto. eapply describe_ok; eauto. }
  rewrite Forall_forall in X. unfold layer_in64. cbn [src_layer wlFeats]. split; [apply Forall_forall; intros w Hw; apply X; auto|]. split; [intros w z Hw Hz; eapply X; eauto|].
  intros i w Hi. destruct (Forall2_nth_r _ _ _ D1 i w Hi) as (f & Hfi & _). unfold cmds_upto, types_upto. rewrite U2, U3. cbn [source64_of sFeats] in Hfi. destruct (Dec i f Hfi) as (g & cmds & gd & _ & _ & E1 & E2 & E3 & _). exists cmds, gd. split; [exact E1|].
  rewrite <- E3. f_equal. exact E2.
Qed.
Lemma layers_out (pL : wlayer -> geomdata64 -> geometry (f64 * f64)) (pS : geosource64 -> geomdata64 -> geometry (f64 * f64)) Ss : forall bss wss oss, Forall2 (geo_written64 m pt) Ss bss -> Forall all_drawable64 Ss ->
  Forall2 (fun S ws => Forall2 (describe (sProj S) (sPeq S)) (sFeats S) ws) (map (source64_of m) Ss) wss -> (forall S ws gd, In S Ss -> pL (src_layer (source64_of m S) ws) gd = pS S gd) ->
  Forall2 (layer_out64 pL) (layers_of Ss wss) oss -> Forall2 (raw_out m pS) Ss oss.
Proof.
  unfold layers_of. induction Ss as [|S Ss IH]; intros bss wss oss HW Hd D HP F; inversion D as [|? ws ? wss' D1 D2]; subst; cbn [combine map fst snd] in F; inversion F as [|? os ? oss' (F1 & F2) F3]; subst; [constructor|].
  inversion HW as [|? bs ? bss' W1 W2]; subst. inversion Hd as [|? ? Hd1 Hd2]; subst. constructor; [|eapply IH; eauto; intros; apply HP; right; auto].
  destruct (until_describe _ _ _ _ D1) as (U1 & U2 & U3). cbn [src_layer wlFeats wlName source64_of sFeats sCfg] in *.
  split; [rewrite F1; symmetry; apply (Forall2_len _ _ _ D1)|].
  intros i f g gf Hi Hg Hgf. destruct (Forall2_nth _ _ _ D1 i f Hi) as (w & Hw & Dw). destruct (F2 i w gf Hw Hgf) as (O1 & O2 & c & gd & O3 & O4 & O5). unfold ids_upto, types_upto, cmds_upto in *. rewrite U1 in O1. rewrite U3 in O3. rewrite U2 in O4.
  destruct Dw as (_ & Ew & _). rewrite Ew in O2. split; [exact O1|]. split; [exact O2|].
  destruct (decodes64 m mExp pt S bs GP W1 Hd1 i f Hi) as (g' & cmds & gd' & Hg' & E0 & E1 & E2 & E3 & _). rewrite Hg in Hg'. apply some_inj in Hg'. subst g'.
  pose proof (eq_trans (eq_sym E1) O3) as EC. apply some_inj in EC. subst c. unfold types_until in E2. rewrite E2, E3 in O4. assert (gd' = gd) as -> by (injection O4; auto).
  exists cmds, gd. split; [exact E0|]. split; [exact E3|]. rewrite O5. apply HP. left. reflexivity.
Qed.
Lemma ext_read_S S bs ws : geo_written64 m pt S bs -> MvtGeo_Props.ext_read (src_layer (source64_of m S) ws) = g6_extent S.
Proof.
  intros (_ & _ & _ & Xx & _ & (M & He & HN) & _). unfold MvtGeo_Props.ext_read, src_layer. cbn [wlExt source64_of sCfg]. rewrite g6_extent_eq.
  rewrite wrap64_id by (unfold in_i64; lia). destruct (Z.eqb_spec (g6_extent S) 0); lia.
Qed.
Lemma written_In S Ss : forall bss, Forall2 (geo_written64 m pt) Ss bss -> In S Ss -> exists bs, geo_written64 m pt S bs.
Proof. intros bss W HS. induction W as [|S0 b0 Ss bss H _ IH]; [destruct HS|]. destruct HS as [->|HS]; [exists b0; exact H|apply IH, HS]. Qed.
Lemma outs_some proj Ss gss : Forall2 (raw_out m proj) Ss gss -> (exists S, In S Ss /\ g6Feats S <> []) -> concat gss <> [].
Proof.
  intros R2 (S & HS & Hn) Eg. induction R2 as [|S0 gs Ss gss (H & _) _ IH]; [destruct HS|]. cbn [concat] in Eg. apply app_eq_nil in Eg as [-> Eg]. destruct HS as [->|HS]; [|auto]. apply Hn. destruct (g6Feats S); [reflexivity|discriminate].
Qed.
Lemma read_tile_out t Ss bss : Forall2 (geo_written64 m pt) Ss bss -> zlen (concat bss) < 2 ^ 62 -> Forall all_drawable64 Ss -> (exists S, In S Ss /\ g6Feats S <> []) -> forall fuel, (length (concat bss) + 4 < fuel)%nat ->
  exists gss, ReadTile64 m mExp fuel pt (concat bss) t = OValue (concat gss) /\ Forall2 (raw_out m (fun S => geo64_of m mExp t (g6_extent S))) Ss gss.
Proof.
  intros HW Hb Hd Hne fuel Hf. pose proof (getProto_dialect pt) as HP. destruct (written_all pt (map (source64_of m) Ss) bss (MvtGeo64_Props.all_written m pt Ss bss HW)) as (wss & D & L).
  assert (A0 : at_ (concat bss) 0 (concat bss)) by (exists []; auto).
  destruct (read_geo64_at m mExp t (getProto pt) _ HP Hb (layers_of Ss wss) bss L (layers_in Ss bss wss HW Hd D) 0 [] fuel A0 Hf) as (oss & E & F). cbn [app] in E.
  pose proof (layers_out (fun L => geo64_of m mExp t (MvtGeo_Props.ext_read L)) (fun S => geo64_of m mExp t (g6_extent S)) Ss bss wss oss HW Hd D ltac:(intros S ws gd HS; destruct (written_In S Ss bss HW HS) as (bs & W); cbv beta; rewrite (ext_read_S S bs ws W); reflexivity) F) as R.
  exists oss. split; [|exact R]. unfold ReadTile64. rewrite E. pose proof (outs_some _ _ _ R Hne). destruct (concat oss); [congruence|reflexivity].
Qed.
End Written.

(** ** Theorems *)
Theorem C145_read_tile : forall m mExp pt t Ss bss, good_proj m mExp -> Forall2 (geo_written64 m pt) Ss bss -> zlen (concat bss) < 2 ^ 62 -> Forall all_drawable64 Ss -> Forall (fun S => gTile (g6Cfg S) = t) Ss ->
  (exists S, In S Ss /\ g6Feats S <> []) -> forall fuel, (length (concat bss) + 4 < fuel)%nat ->
  exists gss, ReadTile64 m mExp fuel pt (concat bss) t = OValue (concat gss) /\ Forall2 geo_out64 Ss gss.
Proof.
  intros m mExp pt t Ss bss GP HW Hb Hd Ht Hne fuel Hf. destruct (read_tile_out m mExp GP pt t Ss bss HW Hb Hd Hne fuel Hf) as (gss & E & R). exists gss. split; [exact E|]. clear E Hne Hb Hf. revert bss HW.
  induction R as [|S gs Ss gss (R1 & R2) _ IH]; intros bss HW; [constructor|]. inversion HW as [|? bs ? bss' W1 W2]; subst. inversion Hd as [|? ? Hd1 Hd2]; subst. inversion Ht as [|? ? Ht1 Ht2]; subst. constructor; [|eapply IH; eauto].
  split; [exact R1|]. pose proof W1 as (_ & _ & _ & _ & _ & (M & He & HN) & _). exists (grid64 m S). split; [eapply q_gridding; eauto|].
  intros i f g gf Hi Hg Hgf. destruct (R2 i f g gf Hi Hg Hgf) as (O1 & O2 & cmds & gd & O3 & O4 & O5). split; [exact O1|]. split; [exact O2|]. destruct (decodes64 m mExp pt S bs GP W1 Hd1 i f Hi) as (g' & cmds' & gd' & Hg' & E0 & _ & _ & E3 & _ & E4).
  rewrite Hg in Hg'. apply some_inj in Hg'. subst g'. rewrite O3 in E0. assert (cmds' = cmds) as -> by (injection E0; auto). rewrite O4 in E3. assert (gd' = gd) as -> by (injection E3; auto). rewrite O5. exact E4.
Qed.
Print Assumptions C145_read_tile.

(** The lazy reader gives the very same coordinates. *)
Theorem C145_same : forall m mExp pt t Ss bss, good_proj m mExp -> Forall2 (geo_written64 m pt) Ss bss -> zlen (concat bss) < 2 ^ 62 -> Forall all_drawable64 Ss -> Forall (fun S => gTile (g6Cfg S) = t) Ss ->
  (exists S, In S Ss /\ g6Feats S <> []) -> NoDup (map (fun S => gName (g6Cfg S)) Ss) -> forall fuel, (length (concat bss) + 4 < fuel)%nat ->
  exists tl gss, NewTile fuel pt (concat bss) = Ok tl /\ ReadTile64 m mExp fuel pt (concat bss) t = OValue (concat gss) /\
    Forall2 (fun S gs => length gs = length (g6Feats S) /\ exists l, mget (gName (g6Cfg S)) (tMap tl) = Some l /\
      forall i gf, nth_error gs i = Some gf -> exists rf lf, Feature fuel (getProto pt) (concat bss) l i = Ok rf /\ ToGeoJSON64 m mExp (concat bss) l rf t = OValue lf /\ g6Geom lf = g6Geom gf) Ss gss.
Proof.
  intros m mExp pt t Ss bss GP HW Hb Hd Ht Hne N fuel Hf. destruct (read_tile_out m mExp GP pt t Ss bss HW Hb Hd Hne fuel Hf) as (gss & E & R).
  destruct (C19_lazy_round_trip lnglat64 pt (map (source64_of m) Ss) bss (MvtGeo64_Props.all_written m pt Ss bss HW) Hb) as (tl & E1 & _ & _ & L); [rewrite map_map; exact N|].
  exists tl, gss. split; [apply E1; lia|]. split; [exact E|]. rewrite Forall_map in L. set (buf := concat bss) in *. assert (Hf4 : (4 <= fuel)%nat) by lia. clearbody buf. clear E E1 Hne Hb Hf N. revert bss HW.
  induction R as [|S gs Ss gss (R1 & R2) _ IH]; intros bss HW; [constructor|]. inversion HW as [|? bs ? bss' W1 W2]; subst. inversion Hd as [|? ? Hd1 Hd2]; subst. inversion Ht as [|? ? Ht1 Ht2]; subst. inversion L as [|? ? (l & GE & (_ & X & _ & _ & H)) L2]; subst. constructor; [|eapply IH; eauto].
  split; [exact R1|]. exists l. split; [exact GE|]. intros i gf Hgf. destruct (nth_error (g6Feats S) i) as [f|] eqn:Hi; [|apply nth_error_None in Hi; rewrite <- R1 in Hi; apply nth_error_None in Hi; congruence].
  destruct (decodes64 m mExp pt S bs GP W1 Hd1 i f Hi) as (g & cmds & gd & Hg & E0 & _ & _ & E3 & NG & _). destruct (R2 i f g gf Hi Hg Hgf) as (_ & _ & cmds' & gd' & O3 & O4 & O5).
  rewrite O3 in E0. assert (cmds' = cmds) as -> by (injection E0; auto). rewrite O4 in E3. assert (gd' = gd) as -> by (injection E3; auto).
  destruct (H i f Hi) as (rf & F & _ & _ & Q3). rewrite Hg in Q3. destruct Q3 as (Q3 & Q4). destruct (Q4 cmds) as [Q6 _]. { unfold source64_of, cursor64_of. cbn [sProj sPeq]. rewrite g6_extent_eq. exact O3. }
  exists rf. eexists. split; [apply F; exact Hf4|]. unfold ToGeoJSON64. rewrite Q6. cbn [bind]. rewrite Q3. change (geom_code g) with (wire_type g). rewrite O4. cbn [source64_of sCfg] in X. rewrite X, g6_extent_of. split; [destruct gd; try reflexivity; congruence|].
  cbn [g6Geom]. symmetry. exact O5.
Qed.
Print Assumptions C145_same.

(** ** ReadRawTile *)
Definition setx (s : layerr) (x : Z) : layerr := mkLR (lrName s) (lrNames s) (lrFeats s) (lrKeys s) (lrVals s) x (lrVersion s).
(** The extent before a layer either passes through or is overwritten; nothing else depends on it *)
Lemma layer_ext chk P buf endpos : forall fuel c s r, layer_loop chk fuel P buf endpos c s = Ok r ->
  (forall x, layer_loop chk fuel P buf endpos c (setx s x) = Ok (setx r x)) \/ (forall x, layer_loop chk fuel P buf endpos c (setx s x) = Ok r).
Proof.
  induction fuel as [|fuel IH]; intros c s r H; cbn [layer_loop] in *.
  - destruct (cPos c <? endpos); [discriminate|]. injection H as <-. left. reflexivity.
  - destruct (cPos c <? endpos); [|injection H as <-; left; reflexivity].
    destruct ((cKey c =? pName P) && (cVal c =? wBytes)).
    + destruct (ReadString buf (cPos c)) as [[n pos]| |]; cbn [bind] in *; try discriminate. destruct (next_tag buf pos) as [c1| |]; cbn [bind] in *; try discriminate.
      destruct (feats_loop fuel P buf c1) as [[fs c2]| |]; cbn [bind] in *; try discriminate. destruct (keys_loop fuel P buf c2) as [[ks c3]| |]; cbn [bind] in *; try discriminate. destruct (values_loop chk fuel P buf c3) as [[vs c4]| |]; cbn [bind] in *; try discriminate.
      cbn [lrName lrNames lrFeats lrKeys lrVals lrExtent lrVersion setx] in *.
      destruct ((cKey c4 =? pExtent P) && (cVal c4 =? wVarint)).
      * destruct (ReadVarint buf (cPos c4)) as [[e p5]| |]; cbn [bind] in *; try discriminate. destruct (next_tag buf p5) as [c5| |]; cbn [bind] in *; try discriminate. right. intros x. exact H.
      * cbn [bind] in *. destruct ((cKey c4 =? pVersion P) && (cVal c4 =? wVarint)).
        -- destruct (ReadVarint buf (cPos c4)) as [[e p5]| |]; cbn [bind] in *; try discriminate. destruct (next_tag buf p5) as [c5| |]; cbn [bind] in *; try discriminate. apply IH in H. destruct H as [H|H]; [left|right]; intros x; exact (H x).
        -- cbn [bind] in *. apply IH in H. destruct H as [H|H]; [left|right]; intros x; exact (H x).
    + cbn [bind] in *. destruct (feats_loop fuel P buf c) as [[fs c2]| |]; cbn [bind] in *; try discriminate. destruct (keys_loop fuel P buf c2) as [[ks c3]| |]; cbn [bind] in *; try discriminate. destruct (values_loop chk fuel P buf c3) as [[vs c4]| |]; cbn [bind] in *; try discriminate.
      cbn [lrName lrNames lrFeats lrKeys lrVals lrExtent lrVersion setx] in *.
      destruct ((cKey c4 =? pExtent P) && (cVal c4 =? wVarint)).
      * destruct (ReadVarint buf (cPos c4)) as [[e p5]| |]; cbn [bind] in *; try discriminate. destruct (next_tag buf p5) as [c5| |]; cbn [bind] in *; try discriminate. right. intros x. exact H.
      * cbn [bind] in *. destruct ((cKey c4 =? pVersion P) && (cVal c4 =? wVarint)).
        -- destruct (ReadVarint buf (cPos c4)) as [[e p5]| |]; cbn [bind] in *; try discriminate. destruct (next_tag buf p5) as [c5| |]; cbn [bind] in *; try discriminate. apply IH in H. destruct H as [H|H]; [left|right]; intros x; exact (H x).
        -- cbn [bind] in *. apply IH in H. destruct H as [H|H]; [left|right]; intros x; exact (H x).
Qed.
Lemma layer_ext0 chk P buf endpos fuel c r x : layer_loop chk fuel P buf endpos c layerr0 = Ok r -> lrExtent r <> 0 -> layer_loop chk fuel P buf endpos c (mkLR [] [] [] [] [] x 0) = Ok r.
Proof.
  intros H Hn. destruct (layer_ext _ _ _ _ _ _ _ _ H) as [K|K]; [|exact (K x)]. specialize (K 0). change (setx layerr0 0) with layerr0 in K. rewrite H in K. exfalso. apply Hn. assert (E : r = setx r 0) by (injection K; auto). rewrite E. reflexivity.
Qed.
(** The extent that is left: that of the last layer, or the one before *)
Definition last_ext (ext : Z) (Ls : list wlayer) : Z := fold_left (fun _ L => wrap64 (wlExt L)) Ls ext.
Lemma read_raw64_at P buf : dialect P -> zlen buf < 2 ^ 62 -> forall Ls bss, Forall2 (is_layer P) Ls bss -> Forall layer_in64 Ls -> Forall (fun L => wrap64 (wlExt L) <> 0) Ls ->
  forall pos ext acc fuel, at_ buf pos (concat bss) -> (length (concat bss) + 4 < fuel)%nat ->
  exists oss, read_raw64 fuel P buf pos ext acc = Ok (acc ++ concat oss, last_ext ext Ls) /\ Forall2 (layer_out64 (fun _ => geo_raw)) Ls oss.
Proof.
  intros HP Hb Ls bss HF. induction HF as [|L bs Ls bss H1 HF IH]; intros HI HX pos ext acc fuel Hp Hf.
  - exists []. cbn [concat] in *. rewrite app_nil_r. apply at_pos in Hp as [_ Hp]. rewrite zlen_nil in Hp. split; [|constructor].
    destruct fuel; cbn [read_raw64]; destruct (Z.ltb_spec pos (zlen buf)); try lia; reflexivity.
  - inversion HI as [|? ? (I1 & I2 & I3) HI']; subst. inversion HX as [|? ? X1 X2]; subst. cbn [concat] in *. rewrite app_length in Hf. destruct fuel as [|fuel]; [lia|].
    destruct (layer_at true P buf L bs pos _ HP Hb H1 Hp) as (size & p1 & c0 & r & A1 & A2 & A3 & A4 & A5 & A6 & A7 & A8 & A9 & bd & A10 & A11 & A12).
    assert (Hl : (0 < length bs)%nat) by (rewrite A10; cbn [layer_bytes length]; lia).
    cbn [read_raw64]. destruct (at_pos _ _ _ Hp) as [Q1 Q2]. rewrite zlen_app in Q2. pose proof (zlen_nonneg (concat bss)).
    destruct (Z.ltb_spec pos (zlen buf)); [|unfold zlen in *; lia]. rewrite A1. cbn [bind]. rewrite !Z.eqb_refl. cbn [andb]. rewrite A2. cbn [bind]. cbv zeta.
    destruct (Z.eqb_spec size 0); [lia|]. rewrite A7. cbn [bind]. rewrite A5.
    destruct A9 as (bodies & vt & B1 & B2 & B3 & B4 & B5 & B6 & B7 & B8). rewrite (layer_ext0 _ _ _ _ _ _ r ext (A8 fuel ltac:(lia))) by (rewrite B6; exact X1). cbn [bind].
    destruct (read_feats64_at 1 geo_raw P buf (lrName r) r vt HP Hb ltac:(lia) B4 (wlFeats L) bodies (lrFeats r) B1 I1 I2 B8 0 0 0 None I I3) as (os & E & Hlen & HO).
    rewrite (E fuel) by lia. cbn [bind]. rewrite B6. destruct (Z.eqb_spec (wrap64 (wlExt L)) 0); [congruence|].
    destruct (IH HI' X2 (p1 + size) (wrap64 (wlExt L)) (acc ++ os) fuel A6 ltac:(lia)) as (oss & E2 & F2).
    exists (os :: oss). split; [rewrite E2; cbn [concat]; rewrite app_assoc; reflexivity|]. constructor; auto. split; auto. rewrite <- B2. exact HO.
Qed.

Theorem C145_corners : forall m mExp t e, good_proj m mExp -> fine t e -> corners_of t (unproject64 m mExp t e (fint 0, fint 0)) (unproject64 m mExp t e (fint e, fint e)).
Proof.
  intros m mExp t e G (M & He & HN). destruct (Bounds_exact t M) as (BW & BE & BN & BS). pose proof M as (Z0 & HX & HY). assert (P0 : (0 < 2 ^ tZ t)%Z) by (apply pz; lia).
  assert (N0 : (0 < IZR (2 ^ tZ t))%R) by (apply IZR_lt; exact P0). assert (E0 : (1 <= IZR e)%R) by (apply IZR_le; lia).
  assert (N1 : near_tile t e false (0, 0)%Z) by (unfold near_tile; cbn [fst snd]; assert (0 <= e * tY t /\ e * tY t + e <= e * 2 ^ tZ t)%Z by nia; lia).
  assert (N2 : near_tile t e false (e, e)%Z) by (unfold near_tile; cbn [fst snd]; assert (0 <= e * tY t /\ e * tY t + e <= e * 2 ^ tZ t)%Z by nia; lia).
  destruct (u_at false t e m mExp G M He HN _ N1) as (A1 & A2 & A3). destruct (u_at false t e m mExp G M He HN _ N2) as (B1 & B2 & B3). change (lp (0, 0)) with (fint 0, fint 0) in *. change (lp (e, e)) with (fint e, fint e) in *.
  cbn [fst snd] in *. rewrite !Z.add_0_r in *. assert (H : forall x, (IZR (e * x) / IZR (e * 2 ^ tZ t) = IZR x / IZR (2 ^ tZ t))%R) by (intros x; rewrite !mult_IZR; field; lra).
  replace (e * tX t + e)%Z with (e * (tX t + 1))%Z in * by ring. replace (e * tY t + e)%Z with (e * (tY t + 1))%Z in * by ring. rewrite H in *.
  split; [exact A1|]. split; [exact B1|]. rewrite BW, BE, BN, BS. unfold gd. split; [|split; [|split]].
  - replace (IZR (tX t) / IZR (2 ^ tZ t) * 360 - 180)%R with (360 * (IZR (tX t) / IZR (2 ^ tZ t)) - 180)%R by ring. exact A2.
  - replace (1 - 2 * IZR (tY t) / IZR (2 ^ tZ t))%R with (1 - 2 * (IZR (tY t) / IZR (2 ^ tZ t)))%R by (unfold Rdiv; ring). exact A3.
  - replace (IZR (tX t + 1) / IZR (2 ^ tZ t) * 360 - 180)%R with (360 * (IZR (tX t + 1) / IZR (2 ^ tZ t)) - 180)%R by ring. exact B2.
  - replace (1 - 2 * (IZR (tY t) + 1) / IZR (2 ^ tZ t))%R with (1 - 2 * (IZR (tY t + 1) / IZR (2 ^ tZ t)))%R by (rewrite plus_IZR; unfold Rdiv; ring). exact B3.
Qed.
Print Assumptions C145_corners.

Lemma map_geo_raw m mExp t e gd : map_geo (unproject64 m mExp t e) (geo_raw gd) = geo64_of m mExp t e gd.
Proof. destruct gd; reflexivity. Qed.
Lemma pairs_out m (p q : geosource64 -> geomdata64 -> geometry (f64 * f64)) (R : geosource64 -> gfeat64 -> gfeat64 -> Prop) :
  (forall S gd a b, g6ID a = g6ID b -> g6Geom a = p S gd -> g6Geom b = q S gd -> R S a b) -> forall Ss, Forall all_drawable64 Ss -> forall xs, Forall2 (raw_out m p) Ss xs -> forall ys, Forall2 (raw_out m q) Ss ys ->
  exists prs, xs = map fst prs /\ ys = map snd prs /\ Forall2 (fun S pr => length (fst pr) = length (g6Feats S) /\ Forall2 (R S) (fst pr) (snd pr)) Ss prs.
Proof.
  intros HR. induction Ss as [|S Ss IH]; intros Hd xs FX ys FY; inversion FX as [|? x ? xs' (X1 & X2) FX']; subst; inversion FY as [|? y ? ys' (Y1 & Y2) FY']; subst; [exists []; repeat split; constructor|].
  inversion Hd as [|? ? Hd1 Hd2]; subst. destruct (IH Hd2 xs' FX' ys' FY') as (prs & -> & -> & F). exists ((x, y) :: prs). split; [reflexivity|]. split; [reflexivity|]. constructor; [|exact F]. cbn [fst snd]. split; [exact X1|].
  assert (K : forall i a b, nth_error x i = Some a -> nth_error y i = Some b -> R S a b).
  { intros i a b Ha Hb. destruct (nth_error (g6Feats S) i) as [f|] eqn:Hi; [|apply nth_error_None in Hi; rewrite <- X1 in Hi; apply nth_error_None in Hi; congruence].
    unfold all_drawable64 in Hd1. rewrite Forall_forall in Hd1. destruct (Hd1 f (nth_error_In _ _ Hi)) as (g & Hg & _). destruct (X2 i f g a Hi Hg Ha) as (I1 & _ & c1 & d1 & C1 & C2 & C3). destruct (Y2 i f g b Hi Hg Hb) as (J1 & _ & c2 & d2 & D1 & D2 & D3).
    rewrite C1 in D1. assert (c2 = c1) as -> by (injection D1; auto). rewrite C2 in D2. assert (d2 = d1) as -> by (injection D2; auto). apply (HR S d1); [rewrite I1, J1; reflexivity|exact C3|exact D3]. }
  assert (LE : length x = length y) by (rewrite X1, Y1; reflexivity). clear - K LE. revert y K LE. induction x as [|a x IH]; intros [|b y] K LE; try discriminate; constructor; [apply (K 0%nat); reflexivity|]. apply IH; [intros i u v Hu Hv; apply (K (Datatypes.S i)); auto|]. injection LE. auto.
Qed.

(** ReadTile gives the places of the coordinates ReadRawTile gives, projected one by one; the corners ReadRawTile gives are those of the tile, whatever the extents of the layers. *)
Theorem C145_raw : forall m mExp pt t Ss bss, good_proj m mExp -> Forall2 (geo_written64 m pt) Ss bss -> zlen (concat bss) < 2 ^ 62 -> Forall all_drawable64 Ss -> Forall (fun S => gTile (g6Cfg S) = t) Ss ->
  (exists S, In S Ss /\ g6Feats S <> []) -> forall fuel, (length (concat bss) + 4 < fuel)%nat ->
  exists prs nw se, ReadTile64 m mExp fuel pt (concat bss) t = OValue (concat (map fst prs)) /\ ReadRawTile64 m mExp fuel pt (concat bss) t = OValue (concat (map snd prs), (nw, se)) /\ corners_of t nw se /\
    Forall2 (fun S pr => length (fst pr) = length (g6Feats S) /\ Forall2 (fun a b => g6ID a = g6ID b /\ g6Geom a = map_geo (unproject64 m mExp t (g6_extent S)) (g6Geom b)) (fst pr) (snd pr)) Ss prs.
Proof.
  intros m mExp pt t Ss bss GP HW Hb Hd Ht Hne fuel Hf. destruct (read_tile_out m mExp GP pt t Ss bss HW Hb Hd Hne fuel Hf) as (gss & E & R).
  pose proof (getProto_dialect pt) as HP. destruct (written_all pt (map (source64_of m) Ss) bss (MvtGeo64_Props.all_written m pt Ss bss HW)) as (wss & D & L). fold (layers_of m Ss wss) in L.
  assert (A0 : at_ (concat bss) 0 (concat bss)) by (exists []; auto).
  assert (XE : forall L0, In L0 (layers_of m Ss wss) -> exists S, In S Ss /\ wrap64 (wlExt L0) = g6_extent S /\ fine t (g6_extent S)).
  { clear - HW Ht. unfold layers_of. revert bss wss HW. induction Ss as [|S Ss IH]; intros bss wss HW L0 H0; [destruct H0|]. destruct wss as [|ws wss]; [destruct H0|]. inversion HW as [|? bs ? bss' W1 W2]; subst. inversion Ht as [|? ? Ht1 Ht2]; subst. cbn [map combine fst snd] in H0. destruct H0 as [<-|H0].
    - exists S. split; [left; reflexivity|]. destruct W1 as (_ & _ & _ & _ & _ & Fi & _). pose proof Fi as (M & He & HN). split; [|exact Fi]. unfold src_layer. cbn [wlExt source64_of sCfg]. rewrite g6_extent_eq. apply wrap64_id. unfold in_i64. lia.
    - destruct (IH Ht2 bss' wss W2 L0 H0) as (S' & HS & X). exists S'. split; [right; exact HS|exact X]. }
  assert (XN : Forall (fun L => wrap64 (wlExt L) <> 0) (layers_of m Ss wss)). { apply Forall_forall. intros L0 H0. destruct (XE L0 H0) as (S & _ & -> & (_ & He & _)). lia. }
  destruct (read_raw64_at (getProto pt) _ HP Hb (layers_of m Ss wss) bss L (layers_in m mExp GP pt Ss bss wss HW Hd D) XN 0 0 [] fuel A0 Hf) as (oss & E2 & F). cbn [app] in E2.
  pose proof (layers_out m mExp GP pt (fun _ => geo_raw) (fun _ => geo_raw) Ss bss wss oss HW Hd D ltac:(reflexivity) F) as R2.
  destruct (pairs_out m (fun S => geo64_of m mExp t (g6_extent S)) (fun _ => geo_raw) (fun S a b => g6ID a = g6ID b /\ g6Geom a = map_geo (unproject64 m mExp t (g6_extent S)) (g6Geom b)) ltac:(intros S gd a b I G1 G2; split; [exact I|]; rewrite G1, G2, map_geo_raw; reflexivity) Ss Hd gss R oss R2) as (prs & -> & -> & FP).
  assert (XL : exists S, last_ext 0 (layers_of m Ss wss) = g6_extent S /\ fine t (g6_extent S)).
  { assert (NE : layers_of m Ss wss <> []). { destruct Hne as (S & HS & _). unfold layers_of. destruct Ss as [|S0 Ss]; [destruct HS|]. inversion D as [|? ws ? wss' D1 D2]; subst. discriminate. }
    clear - XE NE. unfold last_ext. destruct (exists_last NE) as (l & a & EL). rewrite EL in *. rewrite fold_left_app. cbn [fold_left]. destruct (XE a) as (S & _ & X1 & X2); [apply in_or_app; right; left; reflexivity|]. exists S. auto. }
  destruct XL as (S & XL & Fi). pose proof Fi as (_ & He & _). exists prs. eexists. eexists. split; [exact E|]. split; [|split; [|exact FP]].
  - unfold ReadRawTile64. rewrite E2. pose proof (outs_some m _ _ _ R2 Hne). rewrite XL. destruct (Z.eqb_spec (g6_extent S) 0); [lia|]. destruct (concat (map snd prs)); [congruence|reflexivity].
  - apply C145_corners; auto.
Qed.
Print Assumptions C145_raw.

(** A layer with a line south of the equator *)
Lemma line_layer {P} (proj : P -> pt) peq c r gs : map proj r = gs -> WriteLayer proj peq [mkFeat (IDInt 7) [] (Some (XLineString r))] c = WriteLayer (fun g => g) (fun _ _ => false) [mkFeat (IDInt 7) [] (Some (XLineString gs))] c.
Proof.
  intros <-. unfold WriteLayer, fold_res, AddFeature. cbn [fID fProps fGeom geom_cmds bind geom_code]. rewrite !MakeLineFloat_map, map_id. reflexivity.
Qed.
Definition line_bytes : bytes := Eval vm_compute in
  match WriteLayer (fun g => g) (fun _ _ => false) [mkFeat (IDInt 7) [] (Some (XLineString [(-5, 0); (95, 0); (95, 100); (-5, 100)]))] (mkConfig [97] 4096 2 0) with Ok bs => bs | _ => [] end.
Lemma line_bytes_eq : WriteLayer (fun g => g) (fun _ _ => false) [mkFeat (IDInt 7) [] (Some (XLineString [(-5, 0); (95, 0); (95, 100); (-5, 100)]))] (mkConfig [97] 4096 2 0) = Ok line_bytes.
Proof. vm_compute. reflexivity. Qed.
Example C145_nonvacuous : exists (S : geosource64) (bs : bytes),
  good_proj exact_libm exact_exp /\ geo_written64 exact_libm 0 S bs /\ all_drawable64 S /\ g6Feats S <> [] /\ zlen bs = 31 /\ gTile (g6Cfg S) = mkTile 3 5 3.
Proof.
  destruct C136_nonvacuous as (r & h & G & F & A & _ & _ & D & _). set (t := mkTile 3 5 3) in *.
  set (cfg := mkCfg t [97] 4096 2 false 0). pose proof F as (M & He & HN).
  assert (Q : map (SinglePoint64 exact_libm (cursor64_of exact_libm cfg)) r = [(-5, 0); (95, 0); (95, 100); (-5, 100)]).
  { destruct D as (_ & _ & D). change (cursor64_of exact_libm cfg) with (NewCursorExtent64 exact_libm t 4096 false). 
    assert (RG : Forall (fun g : Z * Z => 0 <= snd g <= 100) [(-5, 0); (95, 0); (95, 100); (-5, 100)]) by (repeat (apply Forall_cons; [cbn [snd]; lia|]); apply Forall_nil).
    set (l := [(-5, 0); (95, 0); (95, 100); (-5, 100)]) in *. clearbody l. induction A as [|g p l r A1 A2 IH]; [reflexivity|]. inversion D as [|? ? D1 D2]; subst. inversion RG as [|? ? G1 G2]; subst. cbn [map]. f_equal; [|apply IH; assumption].
    apply (at_next t 4096 g _ p F); [change (tY t) with 5; change (2 ^ tZ t) with 8; lia|exact A1|]. apply (q_next false t 4096 exact_libm exact_exp G M He HN p D1). }
  exists (mkGS64 [mkFeat (IDInt 7) [] (Some (XLineString r))] cfg), line_bytes. split; [exact G|]. split; [|split; [|split; [discriminate|split]]].
  - split; [cbn [g6Feats g6Cfg]; unfold WriteLayer64; rewrite (line_layer _ _ _ _ _ Q); exact line_bytes_eq|]. split; [reflexivity|]. split; [constructor; [|constructor]|].
    + split; [split; cbn [fProps map]; [constructor|intros k v []]|cbn [fID]; lia].
    + cbn [g6Cfg cfg gExtent gVersion]. split; [lia|]. split; [lia|]. split; [exact F|vm_compute; discriminate].
  - constructor; [|constructor]. exists (XLineString r). split; [reflexivity|exact D].
  - vm_compute. reflexivity.
  - reflexivity.
Qed.
