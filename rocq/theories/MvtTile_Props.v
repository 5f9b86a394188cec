(** Whole tiles through the readers (C19-C23). *)
From Coq Require Import ZArith List Lia Bool Permutation.
From Verif Require Import GoBase Pbf_Model Pbf_Proofs MvtGeom_Model MvtGeom_Spec MvtGeom_Props MvtLayer_Model MvtLayer_Spec MvtLayer_Proofs MvtLayerRead_Proofs MvtTile_Proofs MvtLayer_Props.
Import ListNotations.
Open Scope Z_scope.

(** A layer to write: how its points are projected and compared, its features, its configuration. *)
Record source (Pt : Type) := mkSrc { sProj : Pt -> Z * Z; sPeq : Pt -> Pt -> bool; sFeats : list (feature Pt); sCfg : config }.
Arguments mkSrc {Pt}. Arguments sProj {Pt}. Arguments sPeq {Pt}. Arguments sFeats {Pt}. Arguments sCfg {Pt}.

(** [bs] is what WriteLayer returns for the layer, in dialect [pt]; values are Go values and the layer
    has at most 2^32 properties. *)
Definition written {Pt} (pt : Z) (S : source Pt) (bs : bytes) : Prop :=
  WriteLayer (sProj S) (sPeq S) (sFeats S) (sCfg S) = Ok bs /\ cProto (sCfg S) = pt /\
  Forall go_feature (sFeats S) /\ go_config (sCfg S) /\
  fold_right (fun f n => zlen (fProps f) + n) 0 (sFeats S) <= 2 ^ 32.

(** What Feature() and LoadGeometryRaw() give for a written feature *)
Definition reads_back {Pt} (S : source Pt) (buf : bytes) (f : feature Pt) (rf : rfeat) : Prop :=
  rfID rf = id_of (fID f) /\ wire_props (fProps f) (rfProps rf) /\
  match fGeom f with
  | None => rfType rf = 0
  | Some g => rfType rf = wire_type g /\
      forall cmds, geom_cmds (sProj S) (sPeq S) g = Ok (Some cmds) ->
        LoadGeometryRaw buf rf = Ok cmds /\ LoadGeometry buf rf = LoadGeometryCmds (wire_type g) cmds
  end.

(** From WriteLayer to the description of its output *)
Definition src_layer {Pt} (S : source Pt) (ws : list wfeat) : wlayer := mkWL (cName (sCfg S)) (cfgExtent (sCfg S)) (cfgVersion (sCfg S)) ws.
Lemma fold_describe {Pt} (proj : Pt -> Z * Z) peq P fs : forall s s', fold_res (AddFeature proj peq P) fs s = Ok s' ->
  exists ws, Forall2 (describe proj peq) fs ws /\ fold_res (add_w P) ws s = Ok s'.
Proof.
  induction fs as [|f fs IH]; intros s s' E; cbn [fold_res] in E.
  - exists []. split; auto.
  - destruct (AddFeature proj peq P s f) as [s1| |] eqn:E1; cbn [bind] in E; try discriminate.
    apply AddFeature_w in E1 as (w & D & E1). destruct (IH s1 s' E) as (ws & Ds & E2). exists (w :: ws). split; [constructor; auto|].
    cbn [fold_res]. rewrite E1. exact E2.
Qed.
Lemma describe_ok {Pt} (proj : Pt -> Z * Z) peq f w : go_feature f -> describe proj peq f w -> feat_ok w /\ (forall z, wID w = Some z -> in_i64 z).
Proof.
  intros ((G1 & G2) & G3) (D1 & D2 & D3 & D4). split; [split; [|split]|].
  - rewrite D2. auto.
  - intros t Ht. rewrite D3 in Ht. destruct (fGeom f) as [g|]; [|discriminate]. cbn in Ht. injection Ht as <-. destruct g; cbn; lia.
  - intros cs Hc. destruct (fGeom f) as [g|]; [|congruence]. rewrite Hc in D4. eapply geom_u32; eauto.
  - intros z Hz. rewrite D1 in Hz. destruct (fID f); try discriminate. injection Hz as <-. unfold in_i64. lia.
Qed.
Lemma total_describe {Pt} (proj : Pt -> Z * Z) peq fs ws : Forall2 (describe proj peq) fs ws ->
  total_props ws = fold_right (fun f n => zlen (fProps f) + n) 0 fs.
Proof. induction 1 as [|f w fs ws (_ & E & _) _ IH]; auto. unfold total_props in *. cbn [fold_right]. rewrite IH, E. reflexivity. Qed.

Lemma written_is_layer {Pt} pt (S : source Pt) bs : written pt S bs ->
  exists ws, Forall2 (describe (sProj S) (sPeq S)) (sFeats S) ws /\ is_layer (getProto pt) (src_layer S ws) bs.
Proof.
  intros (E & Ep & Hf & Hc & Ht). unfold WriteLayer in E. rewrite Ep in E. cbv zeta in E.
  destruct (fold_res (AddFeature (sProj S) (sPeq S) (getProto pt)) (sFeats S) layerw0) as [s| |] eqn:E1; cbn [bind] in E; try discriminate. injection E as <-.
  apply fold_describe in E1 as (ws & D & E1). exists ws. split; auto. apply flush_is_layer; auto.
  - rewrite (total_describe _ _ _ _ D). auto.
  - intros w k v Hw Hk. clear - D Hf Hw Hk. induction D as [|f w0 fs ws (_ & E & _) _ IH]; [destruct Hw|]. inversion Hf as [|? ? ((_ & G) & _)]; subst.
    destruct Hw as [<-|Hw]; [|auto]. rewrite E in Hk. eauto.
Qed.

Lemma cfg_range c : go_config c -> in_i64 (cfgExtent c) /\ in_i64 (cfgVersion c) /\ cfgExtent c <> 0.
Proof.
  intros (H1 & H2). unfold cfgExtent, cfgVersion, in_i64. destruct (Z.eqb_spec (cExtent c) 0), (Z.eqb_spec (cVersion c) 0); lia.
Qed.

Lemma Forall2_nth {A B} (R : A -> B -> Prop) l l' : Forall2 R l l' -> forall i a, nth_error l i = Some a -> exists b, nth_error l' i = Some b /\ R a b.
Proof. induction 1 as [|x y l l' H _ IH]; intros [|i] a Hi; try discriminate; cbn in *; [injection Hi as <-; eauto|auto]. Qed.
Lemma Forall2_nth_r {A B} (R : A -> B -> Prop) l l' : Forall2 R l l' -> forall i b, nth_error l' i = Some b -> exists a, nth_error l i = Some a /\ R a b.
Proof. induction 1 as [|x y l l' H _ IH]; intros [|i] a Hi; try discriminate; cbn in *; [injection Hi as <-; eauto|auto]. Qed.
Lemma Forall2_len {A B} (R : A -> B -> Prop) l l' : Forall2 R l l' -> length l = length l'.
Proof. induction 1; cbn; auto. Qed.

(** ** C19 *)

(** The layer a tile holds for a written layer *)
Definition layer_holds {Pt} (pt : Z) (S : source Pt) (buf : bytes) (l : layer) : Prop :=
  lName l = cName (sCfg S) /\ lExtent l = extent_of (sCfg S) /\ lVersion l = version_of (sCfg S) /\
  length (lFeats l) = length (sFeats S) /\
  forall i f, nth_error (sFeats S) i = Some f ->
    exists rf, (forall fuel, (4 <= fuel)%nat -> Feature fuel (getProto pt) buf l i = Ok rf) /\ reads_back S buf f rf.

Lemma from_holds {Pt} pt (S : source Pt) ws buf bs l : zlen buf < 2 ^ 62 -> Forall go_feature (sFeats S) -> go_config (sCfg S) ->
  Forall2 (describe (sProj S) (sPeq S)) (sFeats S) ws -> layer_from buf (getProto pt) (src_layer S ws) bs l -> layer_holds pt S buf l.
Proof.
  intros Hb Hf Hc HD (r & bd & HR & Ebs & Hat & He & El). pose proof (getProto_dialect pt) as HP. destruct (cfg_range _ Hc) as (C1 & C2 & C3).
  pose proof HR as (bodies & vt & B1 & B2 & B3 & B4 & B5 & B6 & B7 & B8). cbn [src_layer wlName wlExt wlVer wlFeats] in *.
  rewrite El. unfold layer_holds. cbn [lName lExtent lVersion lFeats lKeys lVals lStart lEnd].
  split; auto. split. { rewrite B6, wrap64_id by auto. destruct (Z.eqb_spec (cfgExtent (sCfg S)) 0); auto. lia. }
  split. { rewrite B7, wrap64_id by auto. auto. }
  split. { rewrite (Forall2_len _ _ _ B8), <- (Forall2_len _ _ _ B1), <- (Forall2_len _ _ _ HD). auto. }
  intros i f Hi. destruct (Forall2_nth _ _ _ HD i f Hi) as (w & Hw & D). rewrite Forall_forall in Hf. pose proof (Hf f (nth_error_In _ _ Hi)) as Gf.
  destruct (describe_ok _ _ f w Gf D) as [K1 K2].
  destruct (nth_feature 0 (getProto pt) buf _ r i w 0 0 0 HP Hb ltac:(lia) HR Hw K1) as (p & size & p1 & m & gp & N1 & N2 & N3 & N4 & N5).
  eexists. split.
  - intros fuel Hfu. unfold Feature. cbn [lFeats lKeys lVals]. rewrite N1, N2. cbn [bind]. apply N5. auto.
  - destruct D as (D1 & D2 & D3 & D4). split; [|split]; cbn [rfID rfType rfProps].
    + rewrite D1. unfold id_of. destruct (fID f) eqn:E; auto. apply wrap64_id. apply K2. rewrite D1. reflexivity.
    + rewrite D2 in N3. auto.
    + rewrite D3. destruct (fGeom f) as [g|]; cbn [option_map]; auto. split; auto. intros cmds Ec. rewrite Ec in D4. injection D4 as D4.
      rewrite <- D4 in N4. destruct K1 as (_ & _ & K3). assert (Hb' : zlen buf < 2 ^ 63) by lia.
      destruct (holds_read buf gp cmds Hb' (K3 _ (eq_sym D4)) N4) as (e & Er). unfold LoadGeometry, LoadGeometryRaw. cbn [rfGeomPos rfType]. rewrite Er. auto.
Qed.

Lemma written_all {Pt} pt (Ss : list (source Pt)) bss : Forall2 (written pt) Ss bss ->
  exists wss, Forall2 (fun S ws => Forall2 (describe (sProj S) (sPeq S)) (sFeats S) ws) Ss wss /\
    Forall2 (is_layer (getProto pt)) (map (fun x => src_layer (fst x) (snd x)) (combine Ss wss)) bss.
Proof.
  induction 1 as [|S bs Ss bss H _ (wss & I1 & I2)]; [exists []; split; constructor|].
  apply written_is_layer in H as (ws & H1 & H2). exists (ws :: wss). split; constructor; auto.
Qed.

Lemma named_layers {Pt} (Ss : list (source Pt)) wss : length Ss = length wss ->
  flat_map (fun L => name_list (wlName L)) (map (fun x => src_layer (fst x) (snd x)) (combine Ss wss)) =
  filter (fun n => negb (bytes_eqb n [])) (map (fun S => cName (sCfg S)) Ss).
Proof.
  revert wss. induction Ss as [|S Ss IH]; intros [|ws wss] H; try discriminate; auto. cbn [combine map flat_map filter fst snd src_layer wlName].
  injection H as H. rewrite IH by auto. unfold name_list. destruct (cName (sCfg S)) as [|a n]; reflexivity.
Qed.

Theorem C19_lazy_round_trip : forall (Pt : Type) pt (Ss : list (source Pt)) bss,
  Forall2 (written pt) Ss bss -> zlen (concat bss) < 2 ^ 62 -> NoDup (map (fun S => cName (sCfg S)) Ss) ->
  exists t, (forall fuel, (length (concat bss) < fuel)%nat -> NewTile fuel pt (concat bss) = Ok t) /\
    tNames t = filter (fun n => negb (bytes_eqb n [])) (map (fun S => cName (sCfg S)) Ss) /\
    map fst (tMap t) = map (fun S => cName (sCfg S)) Ss /\
    Forall (fun S => exists l, mget (cName (sCfg S)) (tMap t) = Some l /\ layer_holds pt S (concat bss) l) Ss.
Proof.
  intros Pt pt Ss bss HW Hb Hn. pose proof (getProto_dialect pt) as HP. destruct (written_all pt Ss bss HW) as (wss & D & L).
  set (Ls := map (fun x => src_layer (fst x) (snd x)) (combine Ss wss)) in *.
  set (buf := concat bss) in *.
  assert (A0 : at_ buf 0 (concat bss)) by (exists []; auto).
  destruct (tile_loop_at (getProto pt) buf HP Hb Ls bss L 0 (mkTileV [] []) (S (length buf)) A0 ltac:(unfold buf; lia)) as (ls & E & F).
  assert (HL : Forall2 (fun S l => layer_holds pt S buf l) Ss ls).
  { clear - HW D L F Hb. unfold Ls in *. clearbody buf. clear Ls. revert wss bss HW D L ls F. induction Ss as [|S Ss IH]; intros wss bss HW D L ls F.
    - inversion D; subst. cbn in *. inversion F; subst. constructor.
    - inversion D as [|? ws ? wss' D1 D2]; subst. inversion HW as [|? bs ? bss' W1 W2]; subst. cbn [combine map fst snd] in *.
      inversion F as [|? l ? ls' F1 F2]; subst. inversion L; subst. destruct W1 as (_ & _ & G1 & G2 & _). constructor.
      + eapply from_holds; eauto.
      + eapply IH; eauto. }
  assert (HN : map lName ls = map (fun S => cName (sCfg S)) Ss).
  { clear - HL. induction HL as [|S l Ss ls (H & _) _ IH]; auto. cbn [map]. rewrite H, IH. auto. }
  exists (mkTileV (flat_map (fun L => name_list (wlName L)) Ls) (put_all ls [])). split.
  - intros fuel Hf. unfold NewTile.
    destruct (tile_loop_at (getProto pt) buf HP Hb Ls bss L 0 (mkTileV [] []) fuel A0 Hf) as (ls' & E' & _).
    rewrite E'. cbn [tNames tMap app] in *. clear - E E' Hf.
    f_equal. apply (tile_loop_det _ _ _ _ _ _ _ _ E' E).
  - cbn [tNames tMap]. split; [apply named_layers; apply (Forall2_len _ _ _ D)|].
    rewrite put_all_list by (cbn [map app]; rewrite HN; auto). cbn [app]. rewrite map_map. cbn [fst]. split; [exact HN|].
    rewrite <- (app_nil_l (map _ ls)). rewrite <- put_all_list by (cbn [map app]; rewrite HN; auto).
    assert (Hn' : NoDup (map lName ls)) by (rewrite HN; auto). clear - HL Hn'.
    assert (G : forall l, In l ls -> mget (lName l) (put_all ls []) = Some l) by (intros; apply put_all_get; auto).
    revert G. generalize (put_all ls []). intros m G. induction HL as [|S l Ss ls H _ IH]; constructor.
    + exists l. split; auto. destruct H as (<- & _). apply G. left; auto.
    + apply IH. { inversion Hn'; auto. } intros x Hx. apply G. right; auto.
Qed.
Print Assumptions C19_lazy_round_trip.

(** Composed with C11: a line written in a tile is the line read, up to repeated points. *)
Theorem C19_line_read_back : forall (Pt : Type) (S : source Pt) buf f rf l,
  reads_back S buf f rf -> fGeom f = Some (XLineString l) ->
  l <> [] -> Forall (fun p => - 2 ^ 30 <= fst (sProj S p) < 2 ^ 30 /\ - 2 ^ 30 <= snd (sProj S p) < 2 ^ 30) l -> Z.of_nat (length l) < 2 ^ 29 ->
  LoadGeometry buf rf = Ok (GLineString (merge_runs (map (sProj S) l))).
Proof.
  intros Pt S buf f rf l (_ & _ & H) Eg H1 H2 H3. rewrite Eg in H. destruct H as (_ & H).
  destruct (C11_float_line_round_trip Pt (sProj S) l H1 H2 H3) as (c & E & D). destruct (H (geo c)) as [_ ->]; auto.
  cbn [geom_cmds]. rewrite E. reflexivity.
Qed.
Print Assumptions C19_line_read_back.

(** Layers built feature by feature with AddFeatureRaw and flushed *)
Record rawfeat := mkRaw { rID : Z; rGeomType : Z; rGeometry : list Z; rProps : list (list Z * gval) }.
Definition go_raw (f : rawfeat) : Prop :=
  go_map (rProps f) /\ - 2 ^ 63 <= rID f < 2 ^ 63 /\ 0 <= rGeomType f < 128 /\ Forall (fun z => 0 <= z < 2 ^ 32) (rGeometry f).
Definition raw_layer (P : proto) (name : list Z) (ext ver : Z) (fs : list rawfeat) : res bytes :=
  let! s := fold_res (fun s f => AddFeatureRaw P s (rID f) (rGeomType f) (rGeometry f) (rProps f)) fs layerw0 in Ok (Flush P name ext ver s).

Lemma fold_raw P fs : forall s, fold_res (fun s f => AddFeatureRaw P s (rID f) (rGeomType f) (rGeometry f) (rProps f)) fs s =
  fold_res (add_w P) (map (fun f => raw_w (rID f) (rGeomType f) (rGeometry f) (rProps f)) fs) s.
Proof.
  induction fs as [|f fs IH]; intros s; auto. cbn [fold_res map]. rewrite AddFeatureRaw_w. destruct (add_w P s _); cbn [bind]; auto.
Qed.

Theorem C19_raw_round_trip : forall pt name ext ver fs bs,
  raw_layer (getProto pt) name ext ver fs = Ok bs -> Forall go_raw fs -> fold_right (fun f n => zlen (rProps f) + n) 0 fs <= 2 ^ 32 ->
  - 2 ^ 63 <= ext < 2 ^ 63 -> - 2 ^ 63 <= ver < 2 ^ 63 -> zlen bs < 2 ^ 62 ->
  exists t l, (forall fuel, (length bs < fuel)%nat -> NewTile fuel pt bs = Ok t) /\
    tNames t = filter (fun n => negb (bytes_eqb n [])) [name] /\ tMap t = [(name, l)] /\
    lName l = name /\ lExtent l = (if ext =? 0 then 4096 else ext) /\ lVersion l = ver /\ length (lFeats l) = length fs /\
    forall i f, nth_error fs i = Some f ->
      exists rf, (forall fuel, (4 <= fuel)%nat -> Feature fuel (getProto pt) bs l i = Ok rf) /\
        rfID rf = Z.max 0 (rID f) /\ wire_props (rProps f) (rfProps rf) /\ rfType rf = rGeomType f /\
        (rGeometry f <> [] -> LoadGeometryRaw bs rf = Ok (rGeometry f)).
Proof.
  intros pt name ext ver fs bs E Hf Ht He Hv Hb. pose proof (getProto_dialect pt) as HP. unfold raw_layer in E. rewrite fold_raw in E.
  set (ws := map (fun f => raw_w (rID f) (rGeomType f) (rGeometry f) (rProps f)) fs) in *.
  destruct (fold_res (add_w (getProto pt)) ws layerw0) as [s| |] eqn:E1; cbn [bind] in E; try discriminate. injection E as <-.
  set (bs := Flush (getProto pt) name ext ver s) in *.
  assert (HL : is_layer (getProto pt) (mkWL name ext ver ws) bs).
  { apply flush_is_layer; auto.
    - unfold total_props, ws. clear - Ht. revert Ht. generalize (2 ^ 32). induction fs as [|f fs IH]; intros z Hz; cbn [map fold_right] in *; [lia|].
      cbn [raw_w wProps]. specialize (IH (z - zlen (rProps f)) ltac:(lia)). lia.
    - intros w k v Hw Hk. apply in_map_iff in Hw as (f & <- & Hi). rewrite Forall_forall in Hf. destruct (Hf f Hi) as ((_ & G) & _). eapply G; eauto. }
  assert (A0 : at_ bs 0 (concat [bs])) by (exists []; cbn [concat app]; rewrite app_nil_r; auto).
  assert (Lb : length (concat [bs]) = length bs) by (cbn [concat]; rewrite app_nil_r; auto).
  destruct (tile_loop_at (getProto pt) bs HP Hb [mkWL name ext ver ws] [bs] ltac:(constructor; auto) 0 (mkTileV [] []) (S (length bs)) A0 ltac:(lia)) as (ls & ET & F).
  cbn [combine] in F. inversion F as [|? l ? ls' (r & bd & HR & Ebs & Hat & Hend & El) F2]; subst. inversion F2; subst. cbn [fst snd] in *.
  pose proof HR as (bodies & vt & B1 & B2 & B3 & B4 & B5 & B6 & B7 & B8). cbn [wlName wlExt wlVer wlFeats] in *.
  assert (Nl : lName l = name) by (rewrite El; auto).
  exists (mkTileV (name_list name) [(name, l)]), l. split.
  { intros fuel Hfu. unfold NewTile.
    destruct (tile_loop_at (getProto pt) bs HP Hb [mkWL name ext ver ws] [bs] ltac:(constructor; auto) 0 (mkTileV [] []) fuel A0 ltac:(lia)) as (ls' & ET' & _).
    pose proof (tile_loop_det _ _ _ _ _ _ _ _ ET ET') as X. rewrite ET', <- X. cbn [tNames tMap flat_map put_all mput wlName app]. rewrite app_nil_r, Nl. reflexivity. }
  split; [destruct name; reflexivity|]. split; [reflexivity|]. rewrite El. cbn [lName lExtent lVersion lFeats].
  split; auto. split; [rewrite B6, wrap64_id by (unfold in_i64; lia); auto|]. split; [rewrite B7, wrap64_id by (unfold in_i64; lia); auto|].
  split. { rewrite (Forall2_len _ _ _ B8), <- (Forall2_len _ _ _ B1). unfold ws. apply map_length. }
  intros i f Hi. rewrite Forall_forall in Hf. destruct (Hf f (nth_error_In _ _ Hi)) as ((G1 & G1') & G2 & G3 & G4).
  assert (Hw : nth_error ws i = Some (raw_w (rID f) (rGeomType f) (rGeometry f) (rProps f))) by (unfold ws; rewrite nth_error_map, Hi; reflexivity).
  assert (K1 : feat_ok (raw_w (rID f) (rGeomType f) (rGeometry f) (rProps f))).
  { split; [|split]; cbn [raw_w wProps wType wCmds]; auto.
    - intros t. destruct (rGeomType f =? 0); [discriminate|]. intros X. injection X as <-. auto.
    - intros cs. destruct (rGeometry f); [discriminate|]. intros X. injection X as <-. auto. }
  destruct (nth_feature 0 (getProto pt) bs _ r i _ 0 0 0 HP Hb ltac:(lia) HR Hw K1) as (p & size & p1 & m & gp & N1 & N2 & N3 & N4 & N5).
  eexists. split; [|split; [|split; [|split]]].
  - intros fuel Hfu. unfold Feature. cbn [lFeats lKeys lVals]. rewrite N1, N2. cbn [bind]. apply N5. auto.
  - cbn [rfID raw_w wID]. destruct (Z.ltb_spec 0 (rID f)); [rewrite wrap64_id by (unfold in_i64; lia)|]; lia.
  - exact N3.
  - cbn [rfType raw_w wType]. destruct (Z.eqb_spec (rGeomType f) 0); auto.
  - intros Hg. cbn [raw_w wCmds] in N4. unfold LoadGeometryRaw. cbn [rfGeomPos]. assert (Hb' : zlen bs < 2 ^ 63) by lia.
    destruct (rGeometry f) as [|c cs] eqn:Eg; [congruence|]. destruct (holds_read bs gp (c :: cs) Hb' G4 N4) as (e & ->). reflexivity.
Qed.
Print Assumptions C19_raw_round_trip.

(** Concrete layers, written and read in both dialects. *)
Definition ex_feats : list (feature (Z * Z)) :=
  [mkFeat (IDInt 7) [([107], VInt 0 5); ([115], VString 1 [120; 121])] (Some (XLineString [(0, 0); (3, 4); (3, 4); (5, 6)]));
   mkFeat IDNil [([107], VFloat64 2 4607182418800017408)] (Some (XPoint (1, 2)))].
Definition ex_src (pt : Z) : source (Z * Z) := mkSrc (fun p => p) pt_eqb ex_feats (mkConfig [114] 0 0 pt).
Definition ex_bytes (pt : Z) : bytes := match WriteLayer (fun p : Z * Z => p) pt_eqb ex_feats (mkConfig [114] 0 0 pt) with Ok b => b | _ => [] end.
Example C19_nonvacuous : forall pt, pt = 0 \/ pt = 1 -> written pt (ex_src pt) (ex_bytes pt) /\
  match NewTile 300 pt (ex_bytes pt) with
  | Ok t => match mget [114] (tMap t) with
            | Some l => match Feature 9 (getProto pt) (ex_bytes pt) l 0, Feature 9 (getProto pt) (ex_bytes pt) l 1 with
                        | Ok a, Ok b => rfID a = 7 /\ rfProps a = [([107], WInt 5); ([115], WString [120; 121])] /\
                            LoadGeometry (ex_bytes pt) a = Ok (GLineString [(0, 0); (3, 4); (5, 6)]) /\
                            rfID b = 0 /\ rfProps b = [([107], WDouble 4607182418800017408)] /\ LoadGeometry (ex_bytes pt) b = Ok (GPoint (1, 2))
                        | _, _ => False end
            | None => False end
  | _ => False end.
Proof.
  intros pt H. split.
  - split; [destruct H as [->| ->]; vm_compute; reflexivity|]. split; auto. split; [|split; [split; cbn; lia|cbn; lia]].
    apply Forall_cons; [split; [split|cbn; lia]|apply Forall_cons; [split; [split|cbn; exact I]|apply Forall_nil]]; cbn [fProps map fst].
    + apply NoDup_cons; [cbn; intuition discriminate|]. apply NoDup_cons; [cbn; tauto|apply NoDup_nil].
    + intros k v [E|[E|[]]]; injection E as <- <-; cbn; auto; lia.
    + apply NoDup_cons; [cbn; tauto|apply NoDup_nil].
    + intros k v [E|[]]; injection E as <- <-; cbn; lia.
  - destruct H as [->| ->]; vm_compute; repeat split.
Qed.

(** ** C20 *)

(** What ReadTile needs of a layer: the geometry each feature ends up with can be decoded. *)
Definition decodes {Pt} (S : source Pt) : Prop := forall i f, nth_error (sFeats S) i = Some f ->
  exists c g, latest None (cmds_until (sProj S) (sPeq S) (sFeats S) i) = Some c /\ LoadGeometryCmds (latest 0 (types_until (sFeats S) i)) c = Ok g.

(** The features of a layer as ReadTile returns them: id and geometry are the latest written ones. *)
Definition read_out {Pt} (S : source Pt) (os : list ofeat) : Prop :=
  length os = length (sFeats S) /\
  forall i f o, nth_error (sFeats S) i = Some f -> nth_error os i = Some o ->
    ofID o = latest 0 (ids_until (sFeats S) i) /\
    (exists m, wire_props (fProps f) m /\ ofProps o = mput str_layer (WString (cName (sCfg S))) m) /\
    (exists c, latest None (cmds_until (sProj S) (sPeq S) (sFeats S) i) = Some c /\ LoadGeometryCmds (latest 0 (types_until (sFeats S) i)) c = Ok (ofGeom o)).

Lemma until_describe {Pt} (proj : Pt -> Z * Z) peq fs ws : Forall2 (describe proj peq) fs ws ->
  map wID ws = map (fun f => int_id (fID f)) fs /\ map wType ws = map (fun f => option_map wire_type (fGeom f)) fs /\
  map (fun w => option_map Some (wCmds w)) ws = map (fun f => option_map Some (own_cmds proj peq f)) fs.
Proof.
  induction 1 as [|f w fs ws (D1 & D2 & D3 & D4) _ (I1 & I2 & I3)]; auto. cbn [map]. rewrite I1, I2, I3, D1, D3. split; auto. split; auto. f_equal.
  unfold own_cmds. destruct (fGeom f) as [g|]; [rewrite D4; destruct (wCmds w); auto|rewrite D4; auto].
Qed.

Lemma read_written {Pt} chk extra pt (Ss : list (source Pt)) bss : 0 <= extra <= 1 ->
  Forall2 (written pt) Ss bss -> zlen (concat bss) < 2 ^ 62 -> Forall decodes Ss ->
  forall fuel, (length (concat bss) + 4 < fuel)%nat ->
  exists oss, read_loop fuel chk extra (getProto pt) (concat bss) 0 [] = Ok (concat oss) /\ Forall2 read_out Ss oss.
Proof.
  intros Hx HW Hb Hd fuel Hf. pose proof (getProto_dialect pt) as HP. destruct (written_all pt Ss bss HW) as (wss & D & L).
  set (Ls := map (fun x => src_layer (fst x) (snd x)) (combine Ss wss)) in *. set (buf := concat bss) in *.
  assert (A0 : at_ buf 0 (concat bss)) by (exists []; auto).
  assert (HI : Forall layer_in Ls).
  { clear - HW D Hd. unfold Ls. clear Ls. revert bss wss HW D. induction Ss as [|S Ss IH]; intros bss wss HW D; inversion D as [|? ws ? wss' D1 D2]; subst; [constructor|].
    inversion HW as [|? bs ? bss' (_ & _ & W1 & _) W2]; subst. inversion Hd as [|? ? Hd1 Hd2]; subst. cbn [combine map fst snd]. constructor; [|eapply IH; eauto].
    destruct (until_describe _ _ _ _ D1) as (U1 & U2 & U3).
    assert (X : Forall (fun w => feat_ok w /\ forall z, wID w = Some z -> in_i64 z) ws).
    { clear - D1 W1. induction D1 as [|f w fs ws D _ IH]; constructor; inversion W1; subst; auto. eapply describe_ok; eauto. }
    rewrite Forall_forall in X. unfold layer_in. cbn [src_layer wlFeats]. split; [apply Forall_forall; intros w Hw; apply X; auto|]. split; [intros w z Hw Hz; eapply X; eauto|].
    intros i w Hi. destruct (Forall2_nth_r _ _ _ D1 i w Hi) as (f & Hfi & _). unfold cmds_upto, types_upto. rewrite U2, U3. apply (Hd1 i f Hfi). }
  destruct (read_loop_at chk extra (getProto pt) buf HP Hb Hx Ls bss L HI 0 [] fuel A0 Hf) as (oss & E & F). exists oss. split; [exact E|].
  clear - D F. unfold Ls in F. clear Ls. revert wss D oss F. induction Ss as [|S Ss IH]; intros wss D oss F; inversion D as [|? ws ? wss' D1 D2]; subst; cbn [combine map fst snd] in F; inversion F as [|? os ? oss' (F1 & F2) F3]; subst; constructor; [|eapply IH; eauto].
  destruct (until_describe _ _ _ _ D1) as (U1 & U2 & U3). cbn [src_layer wlFeats wlName] in *. split; [rewrite F1; symmetry; apply (Forall2_len _ _ _ D1)|].
  intros i f o Hi Ho. destruct (Forall2_nth _ _ _ D1 i f Hi) as (w & Hw & Dw). specialize (F2 i w o Hw Ho). unfold ids_upto, types_upto, cmds_upto in F2. rewrite U1, U2, U3 in F2.
  destruct Dw as (_ & <- & _). exact F2.
Qed.

Theorem C20_read_tile_round_trip : forall (Pt : Type) pt (Ss : list (source Pt)) bss,
  Forall2 (written pt) Ss bss -> zlen (concat bss) < 2 ^ 62 -> Forall decodes Ss ->
  forall fuel, (length (concat bss) + 4 < fuel)%nat ->
  exists oss, ReadTile fuel pt (concat bss) = Ok (concat oss) /\ Forall2 read_out Ss oss.
Proof. intros. apply read_written; auto. lia. Qed.
Print Assumptions C20_read_tile_round_trip.

(** ReadRawTile returns the same description of the tile. *)
Theorem C20_read_raw_tile_round_trip : forall (Pt : Type) pt (Ss : list (source Pt)) bss,
  Forall2 (written pt) Ss bss -> zlen (concat bss) < 2 ^ 62 -> Forall decodes Ss ->
  forall fuel, (length (concat bss) + 4 < fuel)%nat ->
  exists oss, ReadRawTile fuel pt (concat bss) = Ok (concat oss) /\ Forall2 read_out Ss oss.
Proof. intros. apply read_written; auto. lia. Qed.
Print Assumptions C20_read_raw_tile_round_trip.

(** When every feature has an encodable geometry of its own, that is the geometry read. *)
Lemma latest_own {A} (d : A) l a i : nth_error l i = Some (Some a) -> latest d (firstn (S i) l) = a.
Proof.
  revert d i. induction l as [|x l IH]; intros d [|i] H; try discriminate; cbn [nth_error] in H.
  - injection H as ->. reflexivity.
  - change (firstn (S (S i)) (x :: l)) with (x :: firstn (S i) l). unfold latest. cbn [fold_left]. apply IH. auto.
Qed.
Theorem C20_own_geometry : forall (Pt : Type) (S : source Pt) os i f o g cmds, read_out S os ->
  nth_error (sFeats S) i = Some f -> nth_error os i = Some o -> fGeom f = Some g -> geom_cmds (sProj S) (sPeq S) g = Ok (Some cmds) ->
  LoadGeometryCmds (wire_type g) cmds = Ok (ofGeom o).
Proof.
  intros Pt S os i f o g cmds (_ & H) Hi Ho Eg Ec. destruct (H i f o Hi Ho) as (_ & _ & c & E1 & E2).
  unfold cmds_until, types_until in *. rewrite (latest_own _ _ (Some cmds)) in E1 by (rewrite nth_error_map, Hi; cbn; unfold own_cmds; rewrite Eg, Ec; reflexivity).
  rewrite (latest_own _ _ (wire_type g)) in E2 by (rewrite nth_error_map, Hi; cbn; rewrite Eg; reflexivity). injection E1 as <-. exact E2.
Qed.
Print Assumptions C20_own_geometry.

(** Ids are faithful exactly when no feature without an id follows one with an id (ids other than 0). *)
Lemma latest_none {A} (d : A) l : (forall x, In x l -> x = None) -> latest d l = d.
Proof. induction l as [|x l IH]; intros H; auto. unfold latest. cbn [fold_left]. rewrite (H x) by (left; auto). apply IH. intros y Hy. apply H. right; auto. Qed.
Lemma latest_in {A} (d : A) l : (exists a, In (Some a) l) -> exists a, In (Some a) l /\ latest d l = a.
Proof.
  revert d. induction l as [|x l IH]; intros d (a & Ha); [destruct Ha|].
  assert (C : (exists b, In (Some b) l) \/ (forall y, In y l -> y = None)).
  { clear. induction l as [|y l IH]; [right; intros ? []|]. destruct y as [b|]; [left; exists b; left; auto|].
    destruct IH as [(b & Hb)|H]; [left; exists b; right; auto|right; intros y [<-|Hy]; auto]. }
  destruct C as [C|C].
  - destruct (IH (match x with Some a => a | None => d end) C) as (b & Hb & E). exists b. split; [right; auto|]. exact E.
  - destruct Ha as [->|Ha]; [|specialize (C _ Ha); discriminate]. exists a. split; [left; auto|]. unfold latest. cbn [fold_left]. apply (latest_none a l C).
Qed.
Lemma in_firstn_nth {A} (l : list A) n x : In x (firstn n l) <-> exists j, (j < n)%nat /\ nth_error l j = Some x.
Proof.
  revert n. induction l as [|a l IH]; intros [|n]; cbn [firstn].
  - split; [intros []|intros (j & H & _); lia].
  - split; [intros []|intros (j & _ & H); destruct j; discriminate].
  - split; [intros []|intros (j & H & _); lia].
  - cbn [In]. rewrite IH. split.
    + intros [<-|(j & H & E)]; [exists 0%nat; split; [lia|reflexivity]|exists (S j); split; [lia|auto]].
    + intros ([|j] & H & E); [cbn in E; injection E; auto|right; exists j; split; [lia|auto]].
Qed.

Theorem C20_ids_faithful_iff : forall (Pt : Type) (S : source Pt) os, read_out S os ->
  (forall f, In f (sFeats S) -> fID f <> IDInt 0) ->
  ((forall i f o, nth_error (sFeats S) i = Some f -> nth_error os i = Some o -> ofID o = id_of (fID f)) <->
   (forall i j f g, (i < j)%nat -> nth_error (sFeats S) i = Some f -> nth_error (sFeats S) j = Some g -> int_id (fID f) <> None -> int_id (fID g) <> None)).
Proof.
  intros Pt S os (Hl & H) H0. split.
  - intros HF i j f g Hij Hi Hj Hf Hg.
    assert (exists o, nth_error os j = Some o) as (o & Ho).
    { destruct (nth_error os j) eqn:E; eauto. apply nth_error_None in E. assert (j < length (sFeats S))%nat by (apply nth_error_Some; congruence). lia. }
    pose proof (HF j g o Hj Ho) as E. destruct (H j g o Hj Ho) as (E2 & _). rewrite E2 in E.
    destruct (int_id (fID f)) as [z|] eqn:Ez; [|congruence].
    destruct (latest_in 0 (ids_until (sFeats S) j)) as (a & Ha & El).
    { exists z. unfold ids_until. apply in_firstn_nth. exists i. split; [lia|]. rewrite nth_error_map, Hi. cbn. congruence. }
    assert (id_of (fID g) = 0) by (destruct (fID g); cbn in *; congruence).
    unfold ids_until in Ha. apply in_firstn_nth in Ha as (k & _ & Hk). rewrite nth_error_map in Hk. destruct (nth_error (sFeats S) k) as [fk|] eqn:Ek; [|discriminate].
    cbn in Hk. injection Hk as Hk. apply (H0 fk (nth_error_In _ _ Ek)). destruct (fID fk); cbn in Hk; try discriminate. f_equal. congruence.
  - intros HF i f o Hi Ho. destruct (H i f o Hi Ho) as (-> & _). destruct (int_id (fID f)) as [z|] eqn:Ez.
    + unfold ids_until. rewrite (latest_own _ _ z) by (rewrite nth_error_map, Hi; cbn; congruence). destruct (fID f); cbn in *; congruence.
    + replace (id_of (fID f)) with 0 by (destruct (fID f); cbn in *; congruence). apply latest_none. intros x Hx. unfold ids_until in Hx. apply in_firstn_nth in Hx as (k & Hk & E).
      rewrite nth_error_map in E. destruct (nth_error (sFeats S) k) as [fk|] eqn:Ek; [|discriminate]. cbn in E. injection E as <-.
      destruct (int_id (fID fk)) eqn:Ef; auto. exfalso. assert (k = i \/ (k < i)%nat) as [->|Hlt] by lia; [congruence|].
      apply (HF k i fk f Hlt Ek Hi); congruence.
Qed.
Print Assumptions C20_ids_faithful_iff.

(** The leak: in the example layer the second feature has no id of its own. *)
Theorem C20_id_leak_refuted : exists os, ReadTile 400 0 (ex_bytes 0) = Ok os /\ map ofID os = [7; 7].
Proof. eexists. split; [vm_compute; reflexivity|reflexivity]. Qed.
Print Assumptions C20_id_leak_refuted.

Example C20_nonvacuous : decodes (ex_src 0) /\ decodes (ex_src 1).
Proof.
  assert (D : decodes (ex_src 0)).
  { intros [|[|i]] f H; cbn in H; try (destruct i; discriminate); injection H as <-; vm_compute; do 2 eexists; split; reflexivity. }
  split; exact D.
Qed.

(** ** C21 *)

(** A tag none of the layer loop's branches handles. *)
Definition unknown_field (P : proto) (k w : Z) : Prop :=
  k <> pValues P /\ ~ ((k = pName P \/ k = pFeatures P \/ k = pKeys P) /\ w = 2) /\ ~ ((k = pExtent P \/ k = pVersion P) /\ w = 0).

Lemma layer_stuck chk P buf endpos c s : unknown_field P (cKey c) (cVal c) -> cPos c < endpos -> forall fuel, layer_loop chk fuel P buf endpos c s = NoFuel.
Proof.
  intros (U1 & U2 & U3) Hc fuel. revert s. induction fuel as [|fuel IH]; intros s; cbn [layer_loop]; (destruct (Z.ltb_spec (cPos c) endpos); [|lia]); auto.
  assert (F : forall n, (n = pName P \/ n = pFeatures P \/ n = pKeys P) -> (cKey c =? n) && (cVal c =? wBytes) = false).
  { intros n Hn. destruct (Z.eqb_spec (cKey c) n), (Z.eqb_spec (cVal c) wBytes); auto. exfalso. apply U2. unfold wBytes in *. intuition congruence. }
  assert (G : forall n, (n = pExtent P \/ n = pVersion P) -> (cKey c =? n) && (cVal c =? wVarint) = false).
  { intros n Hn. destruct (Z.eqb_spec (cKey c) n), (Z.eqb_spec (cVal c) wVarint); auto. exfalso. apply U3. unfold wVarint in *. intuition congruence. }
  rewrite (F (pName P)) by auto. cbn [bind].
  replace (feats_loop fuel P buf c) with (Ok (@nil Z, c)) by (destruct fuel; cbn [feats_loop]; rewrite (F (pFeatures P)) by auto; reflexivity). cbn [bind].
  replace (keys_loop fuel P buf c) with (Ok (@nil (list Z), c)) by (destruct fuel; cbn [keys_loop]; rewrite (F (pKeys P)) by auto; reflexivity). cbn [bind].
  assert (V : (cKey c =? pValues P) = false) by (apply Z.eqb_neq; auto).
  replace (values_loop chk fuel P buf c) with (Ok (@nil wval, c)) by (destruct fuel; cbn [values_loop]; rewrite V; reflexivity). cbn [bind].
  rewrite (G (pExtent P)) by auto. cbn [bind]. rewrite (G (pVersion P)) by auto. cbn [bind]. apply IH.
Qed.

(** The tile loop on a first layer of stated size whose loop never ends *)
Lemma tile_stuck P buf pos size rest t : dialect P -> zlen buf < 2 ^ 62 -> 0 < size < 2 ^ 62 ->
  at_ buf pos (tag_byte (pLayers P) wBytes :: EncodeVarint size ++ rest) ->
  (forall c, next_tag buf (pos + 1 + zlen (EncodeVarint size)) = Ok c ->
     forall fuel, layer_loop true fuel P buf (pos + 1 + zlen (EncodeVarint size) + size) c layerr0 = NoFuel) ->
  forall fuel, tile_loop fuel P buf pos t = NoFuel.
Proof.
  intros HP Hb Hs H HL fuel. pose proof (p_ranges P HP) as R. pose proof w_ranges as W. destruct (at_pos _ _ _ H) as [Q1 Q2]. rewrite zlen_cons in Q2.
  pose proof (zlen_nonneg (EncodeVarint size ++ rest)). pose proof (at_cons _ _ _ _ H) as H1. pose proof (at_app _ _ _ _ H1) as H2. destruct (at_pos _ _ _ H2) as [Q3 Q4]. pose proof (zlen_nonneg rest).
  destruct fuel as [|fuel]; cbn [tile_loop]; (destruct (Z.ltb_spec pos (zlen buf)); [|lia]); auto.
  assert (E1 : ReadTag buf pos = Ok (pLayers P, wBytes, pos + 1)) by (refine (ReadTag_tag _ _ _ _ _ _ _ H); lia). rewrite E1. cbn [bind]. rewrite !Z.eqb_refl. cbn [andb].
  rewrite (ReadVarint_at _ _ _ _ H1). cbn [bind]. rewrite (wrap64_id size) by (unfold in_i64; lia). destruct (Z.eqb_spec size 0); [lia|].
  rewrite wrap64_id by (unfold in_i64; lia). unfold NewLayer. destruct (tagged_ok _ _ _ H2) as (c & E2 & _). rewrite E2. cbn [bind]. rewrite (HL c E2). reflexivity.
Qed.

(** A layer that begins with an unknown field *)
Theorem C21_unknown_field_never_ends : forall pt b size rest,
  let P := getProto pt in
  unknown_field P (b / 8) (b mod 8) -> 2 <= size < 2 ^ 62 -> zlen rest < 2 ^ 61 ->
  forall fuel, NewTile fuel pt (tag_byte (pLayers P) 2 :: EncodeVarint size ++ b :: rest) = NoFuel.
Proof.
  intros pt b size rest P U Hs Hr fuel. subst P. set (P := getProto pt) in *. pose proof (getProto_dialect pt) as HP. fold P in HP.
  pose proof (Encode_len size) as L. assert (Lb : zlen (EncodeVarint size) <= 10) by apply Encode_len.
  apply (tile_stuck P _ 0 size (b :: rest)); auto; try lia.
  - rewrite zlen_cons, zlen_app, zlen_cons. lia.
  - exists []. auto.
  - intros c Ec f. assert (A : at_ (tag_byte (pLayers P) 2 :: EncodeVarint size ++ b :: rest) (0 + 1 + zlen (EncodeVarint size)) (b :: rest)).
    { exists (tag_byte (pLayers P) 2 :: EncodeVarint size). split; [reflexivity|rewrite zlen_cons; lia]. }
    remember (0 + 1 + zlen (EncodeVarint size)) as p1 eqn:Ep1. unfold next_tag in Ec. rewrite (ReadTag_at _ _ _ _ A) in Ec. cbn [bind] in Ec. assert (Ec' : c = mkC (Z.shiftr b 3) (Z.land b 7) (p1 + 1)) by congruence. subst c. clear Ec.
    apply layer_stuck; cbn [cKey cVal cPos]; [|lia].
    rewrite Z.shiftr_div_pow2 by lia. change 7 with (Z.ones 3). rewrite Z.land_ones by lia. exact U.
Qed.
Print Assumptions C21_unknown_field_never_ends.

(** A tile cut off just after a layer's size *)
Theorem C21_truncated_never_ends : forall pt size, 0 < size < 2 ^ 62 ->
  forall fuel, NewTile fuel pt (tag_byte (pLayers (getProto pt)) 2 :: EncodeVarint size) = NoFuel.
Proof.
  intros pt size Hs fuel. set (P := getProto pt) in *. pose proof (getProto_dialect pt) as HP. fold P in HP.
  assert (Lb : zlen (EncodeVarint size) <= 10) by apply Encode_len.
  apply (tile_stuck P _ 0 size []); auto; try lia.
  - rewrite zlen_cons. lia.
  - exists []. rewrite app_nil_r. auto.
  - intros c Ec f. assert (A : at_ (tag_byte (pLayers P) 2 :: EncodeVarint size) (0 + 1 + zlen (EncodeVarint size)) []).
    { exists (tag_byte (pLayers P) 2 :: EncodeVarint size). split; [rewrite app_nil_r; reflexivity|rewrite zlen_cons; lia]. }
    remember (0 + 1 + zlen (EncodeVarint size)) as p1 eqn:Ep1. unfold next_tag in Ec. rewrite (ReadTag_end _ _ A) in Ec. cbn [bind] in Ec. assert (Ec' : c = mkC 100 100 p1) by congruence. subst c. clear Ec.
    apply layer_stuck; cbn [cKey cVal cPos]; [|lia]. clear - HP. destruct HP as [->| ->]; cbn; unfold unknown_field; cbn; lia.
Qed.
Print Assumptions C21_truncated_never_ends.

(** An unknown field after everything WriteLayer writes *)
Theorem C21_extended_layer_never_ends : forall (Pt : Type) pt (S : source Pt) bs b payload rest,
  let P := getProto pt in
  written pt S bs -> unknown_field P (b / 8) (b mod 8) -> payload <> [] -> zlen bs + zlen payload + zlen rest < 2 ^ 61 ->
  exists body, bs = tag_byte (pLayers P) 2 :: EncodeVarint (zlen body) ++ body /\
    forall fuel, NewTile fuel pt (tag_byte (pLayers P) 2 :: EncodeVarint (zlen (body ++ b :: payload)) ++ (body ++ b :: payload) ++ rest) = NoFuel.
Proof.
  intros Pt pt S bs b payload rest P HW U Hp Hz. subst P. set (P := getProto pt) in *. pose proof (getProto_dialect pt) as HP. fold P in HP.
  apply written_is_layer in HW as (ws & _ & bodies & kt & vt & (T1 & T2 & T3) & Ebs). cbn [src_layer wlName wlExt wlVer] in Ebs. fold P in Ebs.
  set (body := body_of P (cName (sCfg S)) bodies kt vt (cfgExtent (sCfg S)) (cfgVersion (sCfg S))) in *.
  exists body. split; [exact Ebs|]. set (body2 := body ++ b :: payload). intros fuel.
  assert (Lp : 1 <= zlen payload) by (destruct payload; [congruence|rewrite zlen_cons; pose proof (zlen_nonneg payload); lia]).
  assert (Lz : zlen body <= zlen bs) by (rewrite Ebs; unfold layer_bytes; rewrite zlen_cons, zlen_app; pose proof (zlen_nonneg (EncodeVarint (zlen body))); lia).
  assert (L2 : zlen body2 = zlen body + 1 + zlen payload) by (unfold body2; rewrite zlen_app, zlen_cons; lia).
  pose proof (zlen_nonneg body). pose proof (zlen_nonneg rest). assert (Lb : zlen (EncodeVarint (zlen body2)) <= 10) by apply Encode_len.
  set (buf := tag_byte (pLayers P) 2 :: EncodeVarint (zlen body2) ++ body2 ++ rest).
  assert (Hb : zlen buf < 2 ^ 62) by (unfold buf; rewrite zlen_cons, !zlen_app; lia). assert (Hb' : zlen buf < 2 ^ 63) by lia.
  apply (tile_stuck P buf 0 (zlen body2) (body2 ++ rest)); auto; try lia.
  - exists []. auto.
  - intros c Ec f. set (p1 := 0 + 1 + zlen (EncodeVarint (zlen body2))) in *.
    assert (A : at_ buf p1 (body ++ b :: payload ++ rest)).
    { exists (tag_byte (pLayers P) 2 :: EncodeVarint (zlen body2)). split; [unfold buf, body2; cbn [app]; rewrite <- !app_assoc; reflexivity|unfold p1; rewrite zlen_cons; lia]. }
    assert (X : forall n, (length bodies + length kt + length vt < n)%nat -> layer_loop true (Datatypes.S n) P buf (p1 + zlen body2) c layerr0 = NoFuel).
    { intros n Hn. destruct (layer_loop_at true P buf p1 (cName (sCfg S)) bodies kt vt (cfgExtent (sCfg S)) (cfgVersion (sCfg S)) (b :: payload ++ rest) n HP Hb' T2 A Hn) as (c0 & c' & poss & E0 & (p0 & A0 & Et) & El & G1 & G2 & _).
      assert (c0 = c) by congruence. subst c0. fold body in G1, G2. rewrite El by lia.
      unfold next_tag in Et. rewrite (ReadTag_at _ _ _ _ A0) in Et. cbn [bind] in Et. assert (Et' : c' = mkC (Z.shiftr b 3) (Z.land b 7) (p0 + 1)) by congruence. subst c'. clear Et.
      pose proof (at_app _ _ _ _ A) as A1. destruct (at_pos _ _ _ A1) as [_ A2]. destruct (at_pos _ _ _ A0) as [_ A3]. fold body in A2.
      apply layer_stuck; cbn [cKey cVal cPos]; [|lia]. rewrite Z.shiftr_div_pow2 by lia. change 7 with (Z.ones 3). rewrite Z.land_ones by lia. exact U. }
    destruct (layer_loop true f P buf (p1 + zlen body2) c layerr0) as [r| |] eqn:E; auto; exfalso.
    + pose proof (X (f + (length bodies + length kt + length vt + 1))%nat ltac:(lia)) as Y.
      pose proof (layer_loop_more true P buf f (Datatypes.S (f + (length bodies + length kt + length vt + 1))) _ _ _ _ E ltac:(lia) ltac:(discriminate)). congruence.
    + pose proof (X (f + (length bodies + length kt + length vt + 1))%nat ltac:(lia)) as Y.
      pose proof (layer_loop_more true P buf f (Datatypes.S (f + (length bodies + length kt + length vt + 1))) _ _ _ _ E ltac:(lia) ltac:(discriminate)). congruence.
Qed.
Print Assumptions C21_extended_layer_never_ends.

(** A layer of negative size: the tile loop goes back to the start of the layer. *)
Theorem C21_negative_size_never_ends : forall pt rest, zlen rest < 2 ^ 61 ->
  forall fuel, NewTile fuel pt (tag_byte (pLayers (getProto pt)) 2 :: EncodeVarint (-11) ++ rest) = NoFuel.
Proof.
  intros pt rest Hr. set (P := getProto pt) in *. pose proof (getProto_dialect pt) as HP. fold P in HP. unfold NewTile. fold P.
  set (buf := tag_byte (pLayers P) 2 :: EncodeVarint (-11) ++ rest).
  assert (A0 : at_ buf 0 buf) by (exists []; auto). pose proof (p_ranges P HP) as R. pose proof w_ranges as W.
  assert (L11 : zlen (EncodeVarint (-11)) = 10) by reflexivity.
  pose proof (at_cons _ _ _ _ A0) as A1. pose proof (at_app _ _ _ _ A1) as A2. rewrite L11 in A2. change (0 + 1 + 10) with 11 in A2. pose proof (zlen_nonneg rest).
  destruct (tagged_ok _ _ _ A2) as (c & Ec & _ & Hc).
  assert (E1 : ReadTag buf 0 = Ok (pLayers P, wBytes, 0 + 1)) by (refine (ReadTag_tag _ _ _ _ _ _ _ A0); lia).
  intros fuel. generalize (mkTileV [] []). induction fuel as [|fuel IH]; intros t; cbn [tile_loop].
  - destruct (Z.ltb_spec 0 (zlen buf)); auto. unfold buf in *. rewrite zlen_cons, zlen_app in *. lia.
  - destruct (Z.ltb_spec 0 (zlen buf)) as [_|Hbad]; [|unfold buf in Hbad; rewrite zlen_cons, zlen_app in Hbad; lia].
    rewrite E1. cbn [bind]. rewrite !Z.eqb_refl. cbn [andb].
    rewrite (ReadVarint_at _ _ _ _ A1). cbn [bind]. rewrite L11. change (wrap64 (-11) =? 0) with false. cbn iota.
    change (wrap64 (0 + 1 + 10 + wrap64 (-11))) with 0. unfold NewLayer. change (0 + 1 + 10) with 11. rewrite Ec. cbn [bind].
    replace (layer_loop true fuel P buf 0 c layerr0) with (Ok layerr0) by (destruct fuel; cbn [layer_loop]; (destruct (Z.ltb_spec (cPos c) 0); [lia|reflexivity])). cbn [bind]. apply IH.
Qed.
Print Assumptions C21_negative_size_never_ends.

(** And it does end on everything WriteLayer writes, within as many steps as there are bytes. *)
Theorem C21_written_ends : forall (Pt : Type) pt (Ss : list (source Pt)) bss,
  Forall2 (written pt) Ss bss -> zlen (concat bss) < 2 ^ 62 -> exists t, NewTile (S (length (concat bss))) pt (concat bss) = Ok t.
Proof.
  intros Pt pt Ss bss HW Hb. destruct (written_all pt Ss bss HW) as (wss & D & L).
  destruct (tile_loop_at (getProto pt) (concat bss) (getProto_dialect pt) Hb _ bss L 0 (mkTileV [] []) (S (length (concat bss))) ltac:(exists []; auto) ltac:(lia)) as (ls & E & _).
  eexists. exact E.
Qed.
Print Assumptions C21_written_ends.

(** Field 16 of a layer (varint) is unknown in both dialects; fields known to one dialect may be unknown to the other. *)
Example C21_nonvacuous : unknown_field MapboxProto (128 / 8) (128 mod 8) /\ unknown_field LKProto (26 / 8) (26 mod 8).
Proof. unfold unknown_field. cbn. lia. Qed.

(** ** C22 *)

Theorem C22_panics_become_errors : forall fuel pt buf,
  (NewTile_outcome fuel pt buf = OError <-> NewTile fuel pt buf = Panic) /\
  (ReadTile_outcome fuel pt buf = OError <-> ReadTile fuel pt buf = Panic \/ ReadTile fuel pt buf = Ok []).
Proof.
  intros fuel pt buf. unfold NewTile_outcome, ReadTile_outcome. split.
  - destruct (NewTile fuel pt buf); split; congruence.
  - destruct (ReadTile fuel pt buf) as [[|o l]| |]; split; intros H; auto; try discriminate; destruct H; discriminate.
Qed.
Print Assumptions C22_panics_become_errors.

Lemma LoadGeometryCmds_nil gt cs g : LoadGeometryCmds gt cs = Ok g -> (g = GNil <-> gt <> 1 /\ gt <> 2 /\ gt <> 3).
Proof.
  unfold LoadGeometryCmds. intros H. destruct (geom_loop (length cs) (zlen cs) gt true None [] cs) as [lines| |]; cbn [bind] in H; try discriminate.
  destruct (Z.eqb_spec gt 3); [cbv zeta in H; destruct (match map close_line lines with [l] => [[l]] | _ => _ end) as [|p [|q ps]]; injection H as <-; split; [discriminate|lia|discriminate|lia|discriminate|lia]|].
  destruct (Z.eqb_spec gt 1); [destruct lines as [|[|x [|y l]] ls]; try discriminate; injection H as <-; split; (discriminate || lia)|].
  destruct (Z.eqb_spec gt 2); [destruct lines as [|x [|y l]]; injection H as <-; split; (discriminate || lia)|].
  injection H as <-. split; auto.
Qed.
Theorem C22_silent_failures_refuted : forall fuel pt buf,
  (ReadRawTile_outcome fuel pt buf = ONilNoError <-> ReadRawTile fuel pt buf = Panic) /\
  (forall f, ToGeoJSON_outcome buf f = ONilNoError <-> (rfType f <> 1 /\ rfType f <> 2 /\ rfType f <> 3 /\ exists g, LoadGeometry buf f = Ok g)).
Proof.
  intros fuel pt buf. split.
  - unfold ReadRawTile_outcome. destruct (ReadRawTile fuel pt buf) as [[|o l]| |]; split; congruence.
  - intros f. unfold ToGeoJSON_outcome, LoadGeometry. destruct (LoadGeometryRaw buf f) as [cs| |]; cbn [bind]; try (split; [discriminate|intros (_ & _ & _ & g & H); discriminate]).
    pose proof (LoadGeometryCmds_nil (rfType f) cs) as N. destruct (LoadGeometryCmds (rfType f) cs) as [g| |]; try (split; [discriminate|intros (_ & _ & _ & g & H); discriminate]).
    specialize (N g eq_refl). split.
    + intros H. assert (g = GNil) by (destruct g; congruence). apply N in H0. intuition eauto.
    + intros (H1 & H2 & H3 & _). destruct N as [_ N]. rewrite N by auto. reflexivity.
Qed.
Print Assumptions C22_silent_failures_refuted.

(** A layer whose name runs past the end of the buffer panics in every reader: an error from NewTile and
    ReadTile, silence from ReadRawTile. *)
Theorem C22_overlong_name : forall pt n m rest fuel, 2 <= n < 128 -> zlen rest < m < 128 ->
  let buf := tag_byte (pLayers (getProto pt)) 2 :: n :: tag_byte (pName (getProto pt)) 2 :: m :: rest in
  NewTile_outcome (S (S fuel)) pt buf = OError /\ ReadTile_outcome (S (S fuel)) pt buf = OError /\ ReadRawTile_outcome (S (S fuel)) pt buf = ONilNoError.
Proof.
  intros pt n m rest fuel Hn Hm buf. pose proof (zlen_nonneg rest).
  assert (A0 : at_ buf 0 buf) by (exists []; auto). pose proof (getProto_dialect pt) as HP. pose proof (p_ranges _ HP) as R. pose proof w_ranges as W.
  pose proof (at_cons _ _ _ _ A0) as A1. pose proof (at_cons _ _ _ _ A1) as A2. pose proof (at_cons _ _ _ _ A2) as A3.
  assert (E1 : ReadTag buf 0 = Ok (pLayers (getProto pt), wBytes, 0 + 1)) by (refine (ReadTag_tag _ _ _ _ _ _ _ A0); lia).
  assert (E2 : ReadVarint buf (0 + 1) = Ok (n, 2)).
  { assert (B : at_ buf (0 + 1) (EncodeVarint n ++ tag_byte (pName (getProto pt)) 2 :: m :: rest)) by (rewrite Encode_small by lia; exact A1).
    rewrite (ReadVarint_at _ _ _ _ B), Encode_small by lia. rewrite wrap64_id by (unfold in_i64; lia). reflexivity. }
  assert (E3 : next_tag buf 2 = Ok (mkC (pName (getProto pt)) wBytes 3)).
  { unfold next_tag. assert (X : ReadTag buf (0 + 1 + 1) = Ok (pName (getProto pt), wBytes, 0 + 1 + 1 + 1)) by (refine (ReadTag_tag _ _ _ _ _ _ _ A2); lia). change (0 + 1 + 1) with 2 in X. rewrite X. reflexivity. }
  assert (E4 : ReadString buf 3 = Panic).
  { unfold ReadString. change (0 + 1 + 1 + 1) with 3 in A3.
    assert (B : at_ buf 3 (EncodeVarint m ++ rest)) by (rewrite Encode_small by lia; exact A3).
    rewrite (ReadVarint_at _ _ _ _ B), Encode_small by lia. cbn [bind]. rewrite (wrap64_id m) by (unfold in_i64; lia).
    change (zlen [m]) with 1. rewrite wrap64_id by (unfold in_i64; lia). unfold slice_res.
    assert (Lb : zlen buf = 4 + zlen rest) by (unfold buf; rewrite !zlen_cons; lia). rewrite Lb.
    replace ((0 <=? 3 + 1) && (3 + 1 <=? 3 + 1 + m) && (3 + 1 + m <=? 4 + zlen rest)) with false by lia. reflexivity. }
  assert (Lb : (0 <? zlen buf) = true) by (unfold buf; rewrite !zlen_cons; lia).
  assert (LL : forall chk, layer_loop chk (S fuel) (getProto pt) buf (wrap64 (2 + n)) (mkC (pName (getProto pt)) wBytes 3) layerr0 = Panic).
  { intros chk. rewrite wrap64_id by (unfold in_i64; lia). cbn [layer_loop cKey cVal cPos]. destruct (Z.ltb_spec 3 (2 + n)); [|lia]. rewrite !Z.eqb_refl. cbn [andb]. rewrite E4. reflexivity. }
  unfold NewTile_outcome, ReadTile_outcome, ReadRawTile_outcome, NewTile, ReadTile, ReadRawTile. split; [|split].
  - cbn [tile_loop]. rewrite Lb, E1. cbn [bind]. rewrite !Z.eqb_refl. cbn [andb]. rewrite E2. cbn [bind]. destruct (Z.eqb_spec n 0); [lia|].
    unfold NewLayer. rewrite E3. cbn [bind]. rewrite LL. reflexivity.
  - cbn [read_loop]. rewrite Lb, E1. cbn [bind]. rewrite !Z.eqb_refl. cbn [andb]. rewrite E2. cbn [bind]. destruct (Z.eqb_spec n 0); [lia|].
    rewrite E3. cbn [bind]. rewrite LL. reflexivity.
  - cbn [read_loop]. rewrite Lb, E1. cbn [bind]. rewrite !Z.eqb_refl. cbn [andb]. rewrite E2. cbn [bind]. destruct (Z.eqb_spec n 0); [lia|].
    rewrite E3. cbn [bind]. rewrite LL. reflexivity.
Qed.
Print Assumptions C22_overlong_name.

(** A feature without geometry read lazily: ToGeoJSON returns nil, nil or an error, never a feature. *)
Example C22_nonvacuous : ToGeoJSON_outcome [3; 9; 0; 0] (mkRF 0 0 [] 0) = ONilNoError /\ ToGeoJSON_outcome [3; 9; 0; 0] (mkRF 0 1 [] 0) = OValue (GPoint (0, 0)).
Proof. vm_compute. auto. Qed.

(** ** C23 *)

Lemma tile_of_written {Pt} pt (Ss : list (source Pt)) bss fuel t : Forall2 (written pt) Ss bss -> zlen (concat bss) < 2 ^ 62 ->
  NoDup (map (fun S => cName (sCfg S)) Ss) -> NewTile fuel pt (concat bss) = Ok t ->
  Forall2 (fun l x => written pt (fst x) (snd x) /\ lName l = cName (sCfg (fst x)) /\ exists bd s, snd x = layer_bytes (getProto pt) bd /\ at_ (concat bss) (lStart l) (bd ++ s) /\ lEnd l = lStart l + zlen bd)
          (map snd (tMap t)) (combine Ss bss).
Proof.
  intros HW Hb Hn Et. destruct (written_all pt Ss bss HW) as (wss & D & L).
  set (Ls := map (fun x => src_layer (fst x) (snd x)) (combine Ss wss)) in *. set (buf := concat bss) in *.
  destruct (tile_loop_at (getProto pt) buf (getProto_dialect pt) Hb Ls bss L 0 (mkTileV [] []) (S (length buf)) ltac:(exists []; auto) ltac:(unfold buf; lia)) as (ls & E & F).
  unfold NewTile in Et. pose proof (tile_loop_det _ _ _ _ _ _ _ _ Et E) as ->. cbn [tMap].
  assert (HN : map lName ls = map (fun S => cName (sCfg S)) Ss).
  { clear - F D L. unfold Ls in *. clear Ls. clearbody buf. revert wss D bss L ls F. induction Ss as [|S Ss IH]; intros wss D bss L ls F.
    - inversion D; subst. cbn in F. inversion F; subst. reflexivity.
    - inversion D; subst. cbn [combine map] in *. inversion L; subst. cbn [combine] in F. inversion F as [|? ? ? ? H]; subst. cbn [map]. f_equal; [|eapply IH; eauto].
      destruct H as (r & bd & (? & ? & ? & Hn & _) & _ & _ & _ & ->). cbn [lName]. rewrite Hn. reflexivity. }
  rewrite put_all_list by (cbn [map app]; rewrite HN; auto). cbn [app]. rewrite map_map. cbn [snd]. rewrite map_id.
  clear - F HW L D. unfold Ls in *. clear Ls. clearbody buf. revert wss D bss HW L ls F. induction Ss as [|S Ss IH]; intros wss D bss HW L ls F.
  - inversion D; subst. cbn in F. inversion F; subst. constructor.
  - inversion D; subst. inversion HW; subst. cbn [combine map] in *. inversion L; subst. cbn [combine] in F. inversion F as [|? ? ? ? H]; subst. constructor; [|eapply IH; eauto].
    cbn [fst snd] in *. split; auto. destruct H as (r & bd & (? & ? & ? & Hn & _) & Hbs & Hat & He & El). split; [rewrite El; cbn [lName]; rewrite Hn; reflexivity|]. exists bd. eexists. split; [exact Hbs|]. split; [exact Hat|exact He].
Qed.

Lemma Render_concat buf order bss : Forall2 (fun l bs => exists bd s, bs = layer_bytes MapboxProto bd /\ at_ buf (lStart l) (bd ++ s) /\ lEnd l = lStart l + zlen bd) order bss ->
  Render buf order = Ok (concat bss).
Proof.
  intros H. unfold Render. assert (G : forall acc, fold_res (fun acc l => let! bs := slice_res buf (lStart l) (lEnd l) in Ok (acc ++ (26 :: EncodeVarint (zlen bs) ++ bs))) order acc = Ok (acc ++ concat bss)).
  { induction H as [|l bs order bss (bd & s & -> & A & E) _ IH]; intros acc; cbn [fold_res concat]; [rewrite app_nil_r; auto|].
    rewrite E, (slice_at _ _ _ _ A). cbn [bind]. rewrite IH, <- app_assoc. reflexivity. }
  rewrite G. reflexivity.
Qed.

Theorem C23_render_reparses : forall (Pt : Type) pt (Ss : list (source Pt)) bss fuel t,
  pt <> 1 -> Forall2 (written pt) Ss bss -> zlen (concat bss) < 2 ^ 62 -> NoDup (map (fun S => cName (sCfg S)) Ss) ->
  NewTile fuel pt (concat bss) = Ok t ->
  forall order, Permutation order (map snd (tMap t)) ->
  exists out t', Render (concat bss) order = Ok out /\
    (forall fuel, (length out < fuel)%nat -> NewTile fuel pt out = Ok t') /\
    map fst (tMap t') = map lName order /\
    Forall (fun S => exists l, mget (cName (sCfg S)) (tMap t') = Some l /\ layer_holds pt S out l) Ss.
Proof.
  intros Pt pt Ss bss fuel t Hpt HW Hb Hn Et order HO.
  assert (EP : getProto pt = MapboxProto) by (unfold getProto; destruct (pt =? 0); auto; destruct (Z.eqb_spec pt 1); auto; lia).
  pose proof (tile_of_written pt Ss bss fuel t HW Hb Hn Et) as F.
  destruct (Permutation_Forall2 (Permutation_sym HO) F) as (xs & HP & FX).
  assert (Lc : length Ss = length bss) by apply (Forall2_len _ _ _ HW).
  assert (P1 : Permutation Ss (map fst xs)).
  { apply (Permutation_map fst) in HP. rewrite <- HP. clear - Lc. revert bss Lc. induction Ss as [|S Ss IH]; intros [|b bss] H; try discriminate; cbn; auto. }
  assert (P2 : Permutation bss (map snd xs)).
  { apply (Permutation_map snd) in HP. rewrite <- HP. clear - Lc. revert bss Lc. induction Ss as [|S Ss IH]; intros [|b bss] H; try discriminate; cbn; auto. }
  assert (HW' : Forall2 (written pt) (map fst xs) (map snd xs)) by (clear - FX; induction FX as [|l x ls xs (H & _) _ IH]; constructor; auto).
  assert (Hb2 : zlen (concat (map snd xs)) < 2 ^ 62).
  { replace (zlen (concat (map snd xs))) with (zlen (concat bss)); auto. clear - P2. induction P2; cbn [concat]; rewrite ?zlen_app in *; lia. }
  assert (Hn' : NoDup (map (fun S => cName (sCfg S)) (map fst xs))) by (eapply Permutation_NoDup; [apply Permutation_map; exact P1|auto]).
  destruct (C19_lazy_round_trip Pt pt _ _ HW' Hb2 Hn') as (t' & T1 & T2 & T3 & T4).
  exists (concat (map snd xs)), t'. split; [|split; [exact T1|split]].
  - apply Render_concat. rewrite EP in FX. clear - FX. induction FX as [|l x ls xs (_ & _ & H) _ IH]; constructor; auto.
  - rewrite T3, map_map. clear - FX. induction FX as [|l x ls xs (_ & H & _) _ IH]; cbn [map]; f_equal; auto.
  - eapply Permutation_Forall; [apply Permutation_sym; exact P1|exact T4].
Qed.
Print Assumptions C23_render_reparses.

Definition ex_two : list (source (Z * Z)) := [ex_src 0; mkSrc (fun p => p) pt_eqb [] (mkConfig [122] 512 1 0)].
Definition ex_two_bytes : list bytes := [ex_bytes 0; [26; 8; 10; 1; 122; 40; 128; 4; 120; 1]].
Example C23_nonvacuous : Forall2 (written 0) ex_two ex_two_bytes /\ NoDup (map (fun S => cName (sCfg S)) ex_two) /\
  match NewTile 400 0 (concat ex_two_bytes) with
  | Ok t => Render (concat ex_two_bytes) (rev (map snd (tMap t))) = Ok (concat (rev ex_two_bytes))
  | _ => False end.
Proof.
  split; [|split; [cbn; apply NoDup_cons; [cbn; intuition discriminate|apply NoDup_cons; [cbn; tauto|apply NoDup_nil]]|vm_compute; reflexivity]].
  unfold ex_two, ex_two_bytes. pose proof (C19_nonvacuous 0 (or_introl eq_refl)) as [HX _]. refine (Forall2_cons _ _ HX _). constructor; [|constructor].
  split; [vm_compute; reflexivity|]. split; auto. split; [apply Forall_nil|]. split; [split; cbn; lia|cbn; lia].
Qed.

(** In the LK dialect the layer is written back under the wrong tag and is not found again. *)
Theorem C23_lk_render_refuted : exists bs t out,
  WriteLayer (fun p : Z * Z => p) pt_eqb [] (mkConfig [122] 0 0 1) = Ok bs /\
  (forall fuel, (length bs < fuel)%nat -> NewTile fuel 1 bs = Ok t) /\ tNames t = [[122]] /\
  Render bs (map snd (tMap t)) = Ok out /\ NewTile 100 1 out = Ok (mkTileV [] []).
Proof.
  set (bs := match WriteLayer (fun p : Z * Z => p) pt_eqb [] (mkConfig [122] 0 0 1) with Ok b => b | _ => [] end).
  set (t := match NewTile 100 1 bs with Ok t => t | _ => mkTileV [] [] end).
  exists bs, t, (match Render bs (map snd (tMap t)) with Ok o => o | _ => [] end).
  assert (W : written 1 (mkSrc (fun p : Z * Z => p) pt_eqb [] (mkConfig [122] 0 0 1)) bs).
  { split; [vm_compute; reflexivity|]. split; auto. split; [apply Forall_nil|]. split; [split; cbn; lia|cbn; lia]. }
  split; [vm_compute; reflexivity|]. split; [|split; [vm_compute; reflexivity|split; vm_compute; reflexivity]].
  destruct (C19_lazy_round_trip (Z * Z) 1 [mkSrc (fun p : Z * Z => p) pt_eqb [] (mkConfig [122] 0 0 1)] [bs]) as (t' & H & _).
  - constructor; auto.
  - vm_compute. reflexivity.
  - cbn. apply NoDup_cons; [cbn; tauto|apply NoDup_nil].
  - replace (concat [bs]) with bs in H by (cbn [concat]; rewrite app_nil_r; reflexivity).
    intros fuel Hf. rewrite (H fuel Hf). f_equal. assert (X : NewTile 100 1 bs = Ok t) by (vm_compute; reflexivity).
    rewrite H in X by (vm_compute; lia). congruence.
Qed.
Print Assumptions C23_lk_render_refuted.

(** ** C80: ReadRawTile skips a byte after a feature's geometry *)

(** On what the writer produces this is harmless (C20_read_raw_tile_round_trip), the geometry being the
    last field; with the geometry type after the geometry, ReadTile finds the point and ReadRawTile
    loses the type. *)
Theorem C80_raw_tile_field_after_geometry_refuted : exists buf,
  ReadTile_outcome 100 0 buf = OValue [mkOF 0 [(str_layer, WString [122])] (GPoint (1, 2))] /\
  ReadRawTile_outcome 100 0 buf = OValue [mkOF 0 [(str_layer, WString [122])] GNil].
Proof. exists [26; 12; 10; 1; 122; 18; 7; 34; 3; 9; 2; 4; 24; 1]. split; vm_compute; reflexivity. Qed.
Print Assumptions C80_raw_tile_field_after_geometry_refuted.

(** The exact difference: after a geometry field the two readers continue one byte apart. *)
Theorem C80_skip_distance : forall pt extra buf keys vals pos cs s endpos f fuel,
  zlen buf < 2 ^ 62 -> 0 <= extra <= 1 -> at_ buf pos (WritePackedUInt32 (pGeometry (getProto pt)) cs ++ s) -> pos < endpos ->
  feat_loop (S fuel) extra (getProto pt) buf keys vals pos endpos f =
  feat_loop fuel extra (getProto pt) buf keys vals (pos + zlen (WritePackedUInt32 (pGeometry (getProto pt)) cs) + extra) endpos
    (mkRF (rfID f) (rfType f) (rfProps f) (pos + 1)).
Proof.
  intros pt extra buf keys vals pos cs s endpos f fuel Hb He H Hp. pose proof (getProto_dialect pt) as HP. set (P := getProto pt) in *.
  unfold WritePackedUInt32, WriteTag in *. rewrite !zlen_app, zlen_cons, zlen_nil in *.
  pose proof (Encode_len (zlen (packed cs))). pose proof (zlen_nonneg (packed cs)). pose proof (p_ranges P HP) as R. pose proof w_ranges as W.
  rewrite <- !app_assoc in H. cbn [app] in H.
  pose proof H as Hc0. apply at_cons in Hc0. cbn [feat_loop]. destruct (Z.ltb_spec pos endpos); [|lia].
  assert (E1 : ReadTag buf pos = Ok (pGeometry P, wBytes, pos + 1)) by (refine (ReadTag_tag _ _ _ _ _ _ _ H); lia). rewrite E1. cbn [bind].
  replace (pGeometry P =? pID P) with false by (destruct HP as [->| ->]; reflexivity). cbn [andb bind].
  replace (pGeometry P =? pTags P) with false by (destruct HP as [->| ->]; reflexivity). cbn [andb bind].
  replace (pGeometry P =? pType P) with false by (destruct HP as [->| ->]; reflexivity). cbn [andb bind].
  rewrite Z.eqb_refl. change (wBytes =? wBytes) with true. cbn [andb].
  pose proof (at_app _ _ _ _ Hc0) as Hc2. rewrite (ReadVarint_at _ _ _ _ Hc0). cbn [bind].
  destruct (at_pos _ _ _ Hc2) as [Q1 Q2]. rewrite zlen_app in Q2. pose proof (zlen_nonneg s).
  rewrite (wrap64_id (zlen (packed cs))) by (unfold in_i64; lia). rewrite wrap64_id by (unfold in_i64; lia). f_equal. lia.
Qed.
Print Assumptions C80_skip_distance.

Example C80_nonvacuous : at_ [34; 3; 9; 2; 4; 24; 1] 0 (WritePackedUInt32 (pGeometry (getProto 0)) [9; 2; 4] ++ [24; 1]).
Proof. exists []. auto. Qed.

(** ** C81: a layer that ends with its name takes the following layer for a key *)

(** Mapbox dialect.  The layer written by another program holds only its name; the layer after it is one
    WriteLayer wrote: its bytes become a key of the first layer, and it is still read itself. *)
Theorem C81_next_layer_read_as_key : forall (Pt : Type) pt (S : source Pt) name bs,
  pt <> 1 -> written pt S bs -> name <> [] -> cName (sCfg S) <> name -> zlen name + zlen bs < 2 ^ 60 ->
  exists body t l l2,
    bs = 26 :: EncodeVarint (zlen body) ++ body /\
    (forall fuel, (length bs + 3 < fuel)%nat ->
       NewTile fuel pt (26 :: EncodeVarint (zlen (WriteString 1 name)) ++ WriteString 1 name ++ bs) = Ok t) /\
    mget name (tMap t) = Some l /\ lKeys l = [body] /\ lFeats l = [] /\
    mget (cName (sCfg S)) (tMap t) = Some l2 /\
    layer_holds pt S (26 :: EncodeVarint (zlen (WriteString 1 name)) ++ WriteString 1 name ++ bs) l2.
Proof.
  intros Pt pt S name bs Hpt HW Hn Hne Hz.
  assert (EP : getProto pt = MapboxProto) by (unfold getProto; destruct (pt =? 0); auto; destruct (Z.eqb_spec pt 1); auto; lia).
  pose proof HW as (_ & _ & G1 & G2 & _). apply written_is_layer in HW as (ws & D & HL). pose proof HL as (bodies & kt & vt & _ & Ebs).
  set (body := body_of (getProto pt) (wlName (src_layer S ws)) bodies kt vt (wlExt (src_layer S ws)) (wlVer (src_layer S ws))) in *.
  set (nm := WriteString 1 name). set (buf := 26 :: EncodeVarint (zlen nm) ++ nm ++ bs).
  assert (Lnm : zlen nm = 1 + zlen (EncodeVarint (zlen name)) + zlen name) by (unfold nm, WriteString, WriteTag; rewrite !zlen_app, zlen_cons, zlen_nil; lia).
  pose proof (Encode_len (zlen nm)) as L1. pose proof (Encode_len (zlen name)) as L2. pose proof (Encode_len (zlen body)) as L3. pose proof (zlen_nonneg name). pose proof (zlen_nonneg body).
  assert (Lbs : zlen bs = 1 + zlen (EncodeVarint (zlen body)) + zlen body) by (rewrite Ebs; unfold layer_bytes; rewrite zlen_cons, zlen_app; lia).
  assert (Hb : zlen buf < 2 ^ 62) by (unfold buf; rewrite zlen_cons, !zlen_app; lia). assert (Hb' : zlen buf < 2 ^ 63) by lia.
  set (p1 := 1 + zlen (EncodeVarint (zlen nm))). set (e := p1 + zlen nm).
  assert (A1 : at_ buf 1 (EncodeVarint (zlen nm) ++ nm ++ bs)) by (exists [26]; split; reflexivity).
  pose proof (at_app _ _ _ _ A1) as A2. fold p1 in A2. pose proof (at_app _ _ _ _ A2) as A3. fold e in A3.
  set (l := mkLayer name 4096 0 [body] [] [] p1 e).
  destruct (tile_loop_at (getProto pt) buf (getProto_dialect pt) Hb [src_layer S ws] [bs] ltac:(constructor; auto) e (mkTileV [name] [(name, l)]) (Datatypes.S (length bs)) ltac:(cbn [concat]; rewrite app_nil_r; exact A3) ltac:(cbn [concat]; rewrite app_nil_r; lia)) as (ls & ET & F).
  cbn [combine] in F. inversion F as [|? l2 ? ls' HF F2]; subst ls. inversion F2; subst ls'. cbn [fst snd] in HF. clear F F2.
  pose proof (from_holds pt S ws buf bs l2 Hb G1 G2 D HF) as HH.
  exists body, (mkTileV ([name] ++ flat_map (fun L => name_list (wlName L)) [src_layer S ws]) (put_all [l2] [(name, l)])), l, l2.
  split; [rewrite Ebs, EP; reflexivity|]. split; [|split; [|split; [reflexivity|split; [reflexivity|split; [|exact HH]]]]].
  - intros fuel Hf. fold nm. fold buf. unfold NewTile. destruct fuel as [|fuel]; [lia|]. cbn [tile_loop].
    assert (Lp : (0 <? zlen buf) = true) by (unfold buf; rewrite zlen_cons; pose proof (zlen_nonneg (EncodeVarint (zlen nm) ++ nm ++ bs)); lia). rewrite Lp.
    assert (E0 : ReadTag buf 0 = Ok (pLayers (getProto pt), wBytes, 0 + 1)) by (rewrite EP; refine (ReadTag_tag buf 0 3 2 _ _ _ _); [lia|lia|exists []; split; reflexivity]).
    rewrite E0. cbn [bind]. rewrite !Z.eqb_refl. cbn [andb]. change (0 + 1) with 1. rewrite (ReadVarint_at _ _ _ _ A1). cbn [bind]. fold p1.
    rewrite (wrap64_id (zlen nm)) by (unfold in_i64; lia). destruct (Z.eqb_spec (zlen nm) 0); [lia|]. fold e. rewrite wrap64_id by (unfold in_i64, e, p1; lia).
    unfold NewLayer.
    assert (En : next_tag buf p1 = Ok (mkC 1 2 (p1 + 1))).
    { unfold next_tag. assert (X : ReadTag buf p1 = Ok (1, 2, p1 + 1)) by (refine (ReadTag_tag buf p1 1 2 _ _ _ A2); lia). rewrite X. reflexivity. }
    rewrite En. cbn [bind].
    assert (LL : layer_loop true fuel (getProto pt) buf e (mkC 1 2 (p1 + 1)) layerr0 = Ok (mkLR name [name] [] [body] [] 0 0)).
    { destruct fuel as [|fuel]; [lia|]. rewrite EP. cbn [layer_loop cKey cVal cPos]. destruct (Z.ltb_spec (p1 + 1) e); [|unfold e in *; lia].
      change ((1 =? pName MapboxProto) && (2 =? wBytes)) with true. cbn iota.
      assert (A4 : at_ buf (p1 + 1) (EncodeVarint (zlen name) ++ name ++ bs)).
      { apply at_cons with (a := 10). revert A2. unfold nm, WriteString, WriteTag. cbn [app]. rewrite <- app_assoc. auto. }
      destruct (ReadString_at _ _ _ _ Hb' A4) as [-> A5]. cbn [bind].
      replace (p1 + 1 + zlen (EncodeVarint (zlen name)) + zlen name) with e by (unfold e; lia).
      assert (A6 : at_ buf e (26 :: EncodeVarint (zlen body) ++ body ++ [])) by (rewrite app_nil_r; rewrite Ebs, EP in A3; exact A3).
      assert (X : ReadTag buf e = Ok (3, 2, e + 1)) by (refine (ReadTag_tag buf e 3 2 _ _ _ A6); lia).
      unfold next_tag at 1. rewrite X. cbn [bind]. destruct fuel as [|fuel]; [lia|]. cbn [feats_loop cKey cVal cPos].
      change ((3 =? pFeatures MapboxProto) && (2 =? wBytes)) with false. cbn [bind]. cbn [keys_loop cKey cVal cPos].
      change ((3 =? pKeys MapboxProto) && (2 =? wBytes)) with true. cbn iota. apply at_cons in A6.
      destruct (ReadString_at _ _ _ _ Hb' A6) as [-> A7]. cbn [bind]. unfold next_tag. rewrite (ReadTag_end _ _ A7). cbn [bind].
      set (pe := e + 1 + zlen (EncodeVarint (zlen body)) + zlen body) in *.
      replace (keys_loop fuel MapboxProto buf (mkC 100 100 pe)) with (Ok (@nil (list Z), mkC 100 100 pe)) by (destruct fuel; reflexivity). cbn [bind].
      cbn [values_loop cKey cVal]. change ((100 =? pValues MapboxProto) && (negb true || (100 =? wBytes))) with false. cbn [bind cKey cVal].
      change ((100 =? pExtent MapboxProto) && (100 =? wVarint)) with false. cbn [bind cKey cVal].
      change ((100 =? pVersion MapboxProto) && (100 =? wVarint)) with false. cbn [bind cKey cVal].
      cbn [layer_loop cPos]. destruct (Z.ltb_spec pe e); [unfold pe in *; lia|]. reflexivity. }
    rewrite LL. cbn [bind lrName lrNames lrExtent lrVersion lrKeys lrVals lrFeats tNames tMap app].
    change (if 0 =? 0 then 4096 else 0) with 4096. cbn [mput]. fold l.
    destruct (tile_loop_at (getProto pt) buf (getProto_dialect pt) Hb [src_layer S ws] [bs] ltac:(constructor; auto) e (mkTileV [name] [(name, l)]) fuel ltac:(cbn [concat]; rewrite app_nil_r; exact A3) ltac:(cbn [concat]; rewrite app_nil_r; lia)) as (ls2 & ET2 & _).
    pose proof (tile_loop_det _ _ _ _ _ _ _ _ ET ET2) as X. rewrite ET2, <- X. reflexivity.
  - cbn [tMap put_all]. rewrite mget_mput. destruct HH as (-> & _). destruct (bytes_eqb name (cName (sCfg S))) eqn:E; [apply bytes_eqb_eq in E; congruence|].
    unfold mget. cbn [assoc]. rewrite bytes_eqb_refl. reflexivity.
  - cbn [tMap put_all]. rewrite mget_mput. destruct HH as (-> & _). rewrite bytes_eqb_refl. reflexivity.
Qed.
Print Assumptions C81_next_layer_read_as_key.

Example C81_nonvacuous : written 0 (ex_src 0) (ex_bytes 0) /\ cName (sCfg (ex_src 0)) <> [122].
Proof. destruct (C19_nonvacuous 0 (or_introl eq_refl)) as [HX _]. split; [exact HX|discriminate]. Qed.

(** The tile of mvt/read_write_test.go TestM, read by the model: a layer of another program without
    version 2's extent, one line string with thirteen properties. *)
Definition testM : bytes := [26; 195; 2; 10; 4; 84; 101; 115; 116; 18; 60; 18; 26; 0; 0; 1; 1; 2; 2; 3; 3; 4; 4; 5; 5; 6; 6; 7; 7; 8; 8; 9; 9; 10; 10; 11; 10; 12; 11; 24; 2; 34; 28; 9; 128; 65; 222; 3; 66; 117; 141; 1; 171; 1; 113; 93; 91; 169; 1; 131; 1; 143; 1; 87; 219; 2; 105; 67; 33; 29; 25; 26; 7; 82; 79; 85; 84; 69; 73; 68; 26; 8; 83; 117; 98; 82; 111; 117; 116; 101; 26; 10; 67; 111; 117; 110; 116; 121; 67; 111; 100; 101; 26; 8; 68; 105; 115; 116; 114; 105; 99; 116; 26; 6; 79; 78; 69; 87; 65; 89; 26; 5; 76; 97; 98; 101; 108; 26; 5; 82; 111; 117; 116; 101; 26; 10; 83; 105; 103; 110; 83; 121; 115; 116; 101; 109; 26; 3; 69; 77; 80; 26; 10; 83; 104; 97; 112; 101; 95; 76; 101; 110; 103; 26; 3; 66; 77; 80; 26; 8; 83; 117; 112; 112; 67; 111; 100; 101; 26; 10; 83; 116; 114; 101; 101; 116; 78; 97; 109; 101; 34; 15; 10; 13; 53; 48; 52; 48; 48; 53; 50; 54; 53; 48; 48; 48; 48; 34; 9; 25; 0; 0; 0; 0; 0; 64; 80; 64; 34; 9; 25; 0; 0; 0; 0; 0; 0; 73; 64; 34; 9; 25; 0; 0; 0; 0; 0; 0; 0; 64; 34; 2; 56; 0; 34; 7; 10; 5; 53; 50; 47; 54; 53; 34; 9; 25; 0; 0; 0; 0; 0; 0; 74; 64; 34; 3; 10; 1; 52; 34; 9; 25; 64; 150; 79; 160; 153; 153; 13; 64; 34; 9; 25; 145; 128; 242; 243; 104; 187; 182; 64; 34; 9; 25; 0; 0; 0; 0; 0; 0; 0; 0; 34; 20; 10; 18; 66; 73; 71; 32; 83; 65; 78; 68; 89; 32; 82; 73; 86; 69; 82; 32; 82; 68; 120; 2].
Example testM_reads :
  match NewTile 400 0 testM with
  | Ok t => tNames t = [[84; 101; 115; 116]] /\
      match mget [84; 101; 115; 116] (tMap t) with
      | Some l => lExtent l = 4096 /\ lVersion l = 2 /\ length (lKeys l) = 13%nat /\ length (lVals l) = 12%nat /\ length (lFeats l) = 1%nat /\
          match Feature 9 MapboxProto testM l 0 with
          | Ok f => rfID f = 0 /\ rfType f = 2 /\ length (rfProps f) = 13%nat /\
              match LoadGeometry testM f with Ok (GLineString (p :: r)) => p = (4160, 239) /\ length r = 8%nat | _ => False end
          | _ => False end
      | None => False end
  | _ => False end.
Proof. vm_compute. repeat split. Qed.
