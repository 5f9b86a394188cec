(** Reading features does not depend on the order of evaluation (C130). *)
From Coq Require Import ZArith List Lia Bool.
From Verif Require Import GoBase Pbf_Model Pbf_Proofs MvtGeom_Model MvtGeom_Spec MvtGeom_Props MvtLayer_Model MvtLayer_Spec MvtLayer_Proofs MvtLayerRead_Proofs MvtTile_Proofs MvtLayer_Props MvtTile_Props MvtOrder_Model MvtOrder_Proofs.
Import ListNotations.
Open Scope Z_scope.

(** The geometry of the feature, if it has one of the six types, has at least one point: a command
    and two parameters. *)
Definition pointed {Pt} (S : source Pt) (f : feature Pt) : Prop :=
  forall g cmds, fGeom f = Some g -> geom_cmds (sProj S) (sPeq S) g = Ok (Some cmds) -> (3 <= length cmds)%nat.

Lemma pointed_long {Pt} (S : source Pt) f w : describe (sProj S) (sPeq S) f w -> pointed S f -> long_end w.
Proof.
  intros (_ & _ & _ & D4) H cs E. destruct (fGeom f) as [g|] eqn:Eg; [|congruence]. rewrite E in D4. apply (H g cs Eg D4).
Qed.
Lemma type_alone {Pt} (S : source Pt) f w : describe (sProj S) (sPeq S) f w -> wCmds w = None -> forall t, wType w = Some t -> fGeom f = Some XOther /\ t = 0.
Proof.
  intros (_ & _ & D3 & D4) E t Et. rewrite D3 in Et. destruct (fGeom f) as [g|]; [|discriminate]. rewrite E in D4. cbn in Et. injection Et as <-.
  destruct g; cbn [geom_cmds] in D4; try discriminate; auto; exfalso.
  all: match type of D4 with bind ?x _ = _ => destruct x; cbn [bind] in D4; discriminate end.
Qed.
Lemma tag_props_none w tags kt vt m : resolves kt vt (wProps w) tags -> tag_props kt (map norm vt) tags [] = Ok m -> wProps w = [] -> m = [].
Proof. intros R E H. rewrite H in R. inversion R; subst. cbn in E. congruence. Qed.

(** The layer of a tile against the source it was written from, with features read in either order *)
Definition layer_holds_any {Pt} (pt : Z) (S : source Pt) (buf : bytes) (l : layer) : Prop :=
  length (lFeats l) = length (sFeats S) /\
  forall i f, nth_error (sFeats S) i = Some f ->
    exists rf, (forall early fuel, (4 <= fuel)%nat -> FeatureO early fuel (getProto pt) buf l i = Ok rf) /\ reads_back S buf f rf.

Lemma from_holds_any {Pt} pt (S : source Pt) ws buf bs l : zlen buf < 2 ^ 28 -> Forall go_feature (sFeats S) -> Forall (pointed S) (sFeats S) ->
  Forall2 (describe (sProj S) (sPeq S)) (sFeats S) ws -> layer_from buf (getProto pt) (src_layer S ws) bs l -> layer_holds_any pt S buf l.
Proof.
  intros Hb Hf Hg HD (r & bd & HR & Ebs & Hat & He & El). pose proof (getProto_dialect pt) as HP.
  pose proof HR as (bodies & vt & B1 & B2 & B3 & B4 & B5 & B6 & B7 & B8). cbn [src_layer wlName wlExt wlVer wlFeats] in *.
  rewrite El. unfold layer_holds_any. cbn [lName lExtent lVersion lFeats lKeys lVals lStart lEnd].
  split. { rewrite (Forall2_len _ _ _ B8), <- (Forall2_len _ _ _ B1), <- (Forall2_len _ _ _ HD). auto. }
  intros i f Hi. destruct (Forall2_nth _ _ _ HD i f Hi) as (w & Hw & D). rewrite Forall_forall in Hf, Hg. pose proof (Hf f (nth_error_In _ _ Hi)) as Gf. pose proof (Hg f (nth_error_In _ _ Hi)) as Pf.
  destruct (describe_ok _ _ f w Gf D) as [(K1 & K2 & K3) K4].
  destruct (Forall2_nth _ _ _ B1 i w Hw) as (b & Eb & tags & -> & R).
  destruct (Forall2_nth_r _ _ _ B8 i _ Eb) as (p & Ep & s' & Hp).
  destruct (tag_props_at _ _ _ _ R [] K1) as (m & Em & Wm). cbn [app] in Em.
  pose proof (at_app _ _ _ _ Hp) as Hp1. assert (Hb' : zlen buf < 2 ^ 63) by lia.
  eexists. split.
  - intros early fuel Hfu. unfold FeatureO. cbn [lFeats lKeys lVals]. rewrite Ep, (ReadVarint_at _ _ _ _ Hp), (at_len_wrap _ _ _ _ Hb' Hp1). cbn [bind]. rewrite B4.
    apply (feature_early 0 (getProto pt) buf (lrKeys r) vt w tags p s' m early (mkRF 0 0 [] 0) HP Hb ltac:(lia) Hp R Em).
    + intros E. eapply tag_props_none; eauto.
    + reflexivity.
    + auto.
    + eapply pointed_long; eauto.
    + intros E t Et. cbn [rfType]. apply (type_alone S f w D E t Et).
    + auto.
  - pose proof (feature_early_holds _ _ _ _ _ _ Hp1) as HH. destruct D as (D1 & D2 & D3 & D4). split; [|split]; unfold read_as; cbn [rfID rfType rfProps].
    + rewrite D1. unfold id_of. destruct (fID f) eqn:E; auto. apply wrap64_id. apply K4. rewrite D1. reflexivity.
    + rewrite D2 in Wm. auto.
    + rewrite D3. destruct (fGeom f) as [g|]; cbn [option_map]; auto. split; auto. intros cmds Ec. rewrite Ec in D4. injection D4 as D4.
      rewrite <- D4. specialize (HH cmds (eq_sym D4)).
      destruct (holds_read buf _ cmds Hb' (K3 _ (eq_sym D4)) HH) as (e & Er). unfold LoadGeometry, LoadGeometryRaw. cbn [rfGeomPos rfType]. rewrite Er. auto.
Qed.

(** ** C130 *)

(** Layers written by this library: whichever operand Go evaluates first, NewTile and Feature give
    the written features back. *)
Theorem C130_lazy_any_order : forall (Pt : Type) pt (Ss : list (source Pt)) bss,
  Forall2 (written pt) Ss bss -> zlen (concat bss) < 2 ^ 28 -> NoDup (map (fun S => cName (sCfg S)) Ss) ->
  Forall (fun S => Forall (pointed S) (sFeats S)) Ss ->
  exists t, (forall fuel, (length (concat bss) < fuel)%nat -> NewTile fuel pt (concat bss) = Ok t) /\
    Forall (fun S => exists l, mget (cName (sCfg S)) (tMap t) = Some l /\ layer_holds_any pt S (concat bss) l) Ss.
Proof.
  intros Pt pt Ss bss HW Hb Hn Hg. pose proof (getProto_dialect pt) as HP. destruct (written_all pt Ss bss HW) as (wss & D & L).
  assert (Hb2 : zlen (concat bss) < 2 ^ 62) by lia.
  set (Ls := map (fun x => src_layer (fst x) (snd x)) (combine Ss wss)) in *.
  set (buf := concat bss) in *.
  assert (A0 : at_ buf 0 (concat bss)) by (exists []; auto).
  destruct (tile_loop_at (getProto pt) buf HP Hb2 Ls bss L 0 (mkTileV [] []) (S (length buf)) A0 ltac:(unfold buf; lia)) as (ls & E & F).
  assert (HL : Forall2 (fun S l => lName l = cName (sCfg S) /\ layer_holds_any pt S buf l) Ss ls).
  { clear - HW D L F Hb Hg. unfold Ls in *. clearbody buf. clear Ls. revert wss bss HW D L ls F Hg. induction Ss as [|S Ss IH]; intros wss bss HW D L ls F Hg.
    - inversion D; subst. cbn in *. inversion F; subst. constructor.
    - inversion D as [|? ws ? wss' D1 D2]; subst. inversion HW as [|? bs ? bss' W1 W2]; subst. cbn [combine map fst snd] in *. inversion Hg as [|? ? Hg1 Hg2]; subst.
      inversion F as [|? l ? ls' F1 F2]; subst. inversion L; subst. destruct W1 as (_ & _ & G1 & G2 & _). constructor.
      + split; [|eapply from_holds_any; eauto]. destruct F1 as (r & bd & HR & _ & _ & _ & El). destruct HR as (bodies & vt & _ & B2 & _). rewrite El. exact B2.
      + eapply IH; eauto. }
  assert (HN : map lName ls = map (fun S => cName (sCfg S)) Ss).
  { clear - HL. induction HL as [|S l Ss ls (H & _) _ IH]; auto. cbn [map]. rewrite H, IH. auto. }
  exists (mkTileV (flat_map (fun L => name_list (wlName L)) Ls) (put_all ls [])). split.
  - intros fuel Hf. unfold NewTile.
    destruct (tile_loop_at (getProto pt) buf HP Hb2 Ls bss L 0 (mkTileV [] []) fuel A0 Hf) as (ls' & E' & _).
    rewrite E'. cbn [tNames tMap app] in *. clear - E E' Hf.
    f_equal. apply (tile_loop_det _ _ _ _ _ _ _ _ E' E).
  - cbn [tNames tMap].
    assert (Hn' : NoDup (map lName ls)) by (rewrite HN; auto). clear - HL Hn'.
    assert (G : forall l, In l ls -> mget (lName l) (put_all ls []) = Some l) by (intros; apply put_all_get; auto).
    revert G. generalize (put_all ls []). intros m G. induction HL as [|S l Ss ls [H1 H2] _ IH]; constructor.
    + exists l. split; auto. rewrite <- H1. apply G. left; auto.
    + apply IH. { inversion Hn'; auto. } intros x Hx. apply G. right; auto.
Qed.
Print Assumptions C130_lazy_any_order.

Lemma read_featsO_same early extra P buf kt vt name : dialect P -> zlen buf < 2 ^ 28 -> 0 <= extra <= 1 -> forall ws bodies poss,
  bodies_ok P kt vt ws bodies -> Forall feat_ok ws -> Forall long_end ws -> Forall (fun w => wCmds w = None -> wType w = None) ws ->
  Forall2 (fun p b => exists s', at_ buf p (EncodeVarint (zlen b) ++ b ++ s')) poss bodies ->
  forall id gt gp fuel, (4 <= fuel)%nat ->
  read_featsO early fuel extra P buf kt (map norm vt) name poss id gt gp = read_feats fuel extra P buf kt (map norm vt) name poss id gt gp.
Proof.
  intros HP Hb He. induction ws as [|w ws IH]; intros bodies poss HB HK HL HN HF id gt gp fuel Hf.
  - inversion HB; subst. inversion HF; subst. reflexivity.
  - inversion HB as [|? b ? bs (tags & -> & R) HB']; subst. inversion HF as [|p ? ps ? (s' & Hp) HF']; subst. inversion HK as [|? ? (K1 & K2 & K3) HK']; subst.
    inversion HL as [|? ? L1 L2]; subst. inversion HN as [|? ? N1 N2]; subst.
    assert (Hb' : zlen buf < 2 ^ 63) by lia. pose proof (at_app _ _ _ _ Hp) as Hp1.
    destruct (tag_props_at _ _ _ _ R [] K1) as (m & Em & Wm). cbn [app] in Em.
    cbn [read_featsO read_feats]. rewrite (ReadVarint_at _ _ _ _ Hp), (at_len_wrap _ _ _ _ Hb' Hp1). cbn [bind].
    assert (X : forall e, feat_loop fuel extra P buf kt (map norm vt) (p + zlen (EncodeVarint (zlen (feature_bytes P w tags))))
       (feat_end e p (p + zlen (EncodeVarint (zlen (feature_bytes P w tags)))) (zlen (feature_bytes P w tags))) (mkRF id gt [] gp) =
       Ok (read_as P w tags (p + zlen (EncodeVarint (zlen (feature_bytes P w tags)))) m (mkRF id gt [] gp))).
    { intros e. apply (feature_early extra P buf kt vt w tags p s' m e (mkRF id gt [] gp) HP Hb He Hp R Em); auto.
      - intros E. eapply tag_props_none; eauto.
      - intros E t Et. rewrite (N1 E) in Et. discriminate. }
    rewrite (X early). pose proof (X false) as X0. unfold feat_end in X0. rewrite X0. cbn [bind].
    destruct (ReadPackedUInt32 _ _) as [[c e]| |]; cbn [bind]; auto. destruct (LoadGeometryCmds _ _); cbn [bind]; auto.
    rewrite (IH bs ps HB' HK' L2 N2 HF' _ _ _ fuel Hf). auto.
Qed.

Lemma read_loopO_same early chk extra P buf : dialect P -> zlen buf < 2 ^ 28 -> 0 <= extra <= 1 -> forall Ls bss, Forall2 (is_layer P) Ls bss ->
  Forall (fun L => Forall feat_ok (wlFeats L) /\ Forall long_end (wlFeats L) /\ Forall (fun w => wCmds w = None -> wType w = None) (wlFeats L)) Ls ->
  forall pos acc fuel, at_ buf pos (concat bss) -> (length (concat bss) + 4 < fuel)%nat ->
  read_loopO early fuel chk extra P buf pos acc = read_loop fuel chk extra P buf pos acc.
Proof.
  intros HP Hb He Ls bss HF. assert (Hb2 : zlen buf < 2 ^ 62) by lia. induction HF as [|L bs Ls bss H1 HF IH]; intros HI pos acc fuel Hp Hf.
  - cbn [concat] in *. apply at_pos in Hp as [_ Hp]. rewrite zlen_nil in Hp.
    destruct fuel; cbn [read_loopO read_loop]; destruct (Z.ltb_spec pos (zlen buf)); try lia; reflexivity.
  - inversion HI as [|? ? (I1 & I2 & I3) HI']; subst. cbn [concat] in *. rewrite app_length in Hf. destruct fuel as [|fuel]; [lia|].
    destruct (layer_at chk P buf L bs pos _ HP Hb2 H1 Hp) as (size & p1 & c0 & r & A1 & A2 & A3 & A4 & A5 & A6 & A7 & A8 & A9 & bd & A10 & A11 & A12).
    assert (Hl : (0 < length bs)%nat) by (rewrite A10; cbn [layer_bytes length]; lia).
    cbn [read_loopO read_loop]. destruct (pos <? zlen buf); auto. rewrite A1. cbn [bind]. rewrite !Z.eqb_refl. cbn [andb]. rewrite A2. cbn [bind].
    destruct (Z.eqb_spec size 0); [lia|]. rewrite A7. cbn [bind]. rewrite A5, A8 by lia. cbn [bind].
    destruct A9 as (bodies & vt & B1 & B2 & B3 & B4 & B5 & B6 & B7 & B8). rewrite B4.
    rewrite (read_featsO_same early extra P buf (lrKeys r) vt (lrName r) HP Hb He (wlFeats L) bodies (lrFeats r) B1 I1 I2 I3 B8 0 0 0 fuel) by lia.
    destruct (read_feats _ _ _ _ _ _ _ _ _ _ _) as [fs| |]; cbn [bind]; auto. apply IH; auto. lia.
Qed.

(** ReadTile and ReadRawTile on written layers: the same result in either order, when every geometry is
    of one of the six types. *)
Theorem C130_read_tile_any_order : forall (Pt : Type) pt (Ss : list (source Pt)) bss,
  Forall2 (written pt) Ss bss -> zlen (concat bss) < 2 ^ 28 ->
  Forall (fun S => Forall (pointed S) (sFeats S) /\ Forall (fun f => fGeom f <> Some XOther) (sFeats S)) Ss ->
  forall early fuel, (length (concat bss) + 4 < fuel)%nat ->
  ReadTileO early fuel pt (concat bss) = ReadTile fuel pt (concat bss) /\
  ReadRawTileO early fuel pt (concat bss) = ReadRawTile fuel pt (concat bss).
Proof.
  intros Pt pt Ss bss HW Hb Hg early fuel Hf. pose proof (getProto_dialect pt) as HP. destruct (written_all pt Ss bss HW) as (wss & D & L).
  set (Ls := map (fun x => src_layer (fst x) (snd x)) (combine Ss wss)) in *.
  assert (A0 : at_ (concat bss) 0 (concat bss)) by (exists []; auto).
  assert (HI : Forall (fun L => Forall feat_ok (wlFeats L) /\ Forall long_end (wlFeats L) /\ Forall (fun w => wCmds w = None -> wType w = None) (wlFeats L)) Ls).
  { clear - HW D Hg. unfold Ls. clear Ls. revert bss wss HW D Hg. induction Ss as [|S Ss IH]; intros bss wss HW D Hg; inversion D as [|? ws ? wss' D1 D2]; subst; [constructor|].
    inversion HW as [|? bs ? bss' (_ & _ & W1 & _) W2]; subst. inversion Hg as [|? ? [G1 G2] G3]; subst. cbn [combine map fst snd]. constructor; [|eapply IH; eauto].
    cbn [src_layer wlFeats]. clear - D1 W1 G1 G2. induction D1 as [|f w fs ws D _ IH]; [repeat split; constructor|].
    inversion W1; subst. inversion G1; subst. inversion G2; subst. destruct IH as (I1 & I2 & I3); auto. repeat split; constructor; auto.
    - eapply describe_ok; eauto.
    - eapply pointed_long; eauto.
    - intros E. destruct (wType w) as [t|] eqn:Et; auto. destruct (type_alone S f w D E t Et) as [X _]. contradiction. }
  split; unfold ReadTileO, ReadRawTileO, ReadTile, ReadRawTile; apply (read_loopO_same early _ _ _ _ HP Hb) with (Ls := Ls) (bss := bss); auto; lia.
Qed.
Print Assumptions C130_read_tile_any_order.

(** Tiles of other programs may put a short field last.  A feature of 130 bytes, 63 pairs of tags
    and then its type: read early, the type is missed. *)
Definition late_type : bytes :=
  [26; 139; 1; 10; 1; 97; 18; 130; 1; 18; 126] ++ repeat 0 126 ++ [24; 1; 26; 1; 107].
Theorem C130_type_last_refuted : exists t l f1 f2,
  NewTile 400 0 late_type = Ok t /\ mget [97] (tMap t) = Some l /\
  FeatureO false 400 MapboxProto late_type l 0 = Ok f1 /\ FeatureO true 400 MapboxProto late_type l 0 = Ok f2 /\
  rfType f1 = 1 /\ rfType f2 = 0.
Proof. do 4 eexists. split; [vm_compute; reflexivity|]. split; [vm_compute; reflexivity|]. split; [vm_compute; reflexivity|]. split; [vm_compute; reflexivity|]. split; vm_compute; reflexivity. Qed.
Print Assumptions C130_type_last_refuted.

(** And a feature of this library with a geometry of another type (or none of its points encoded) can
    differ in ReadTile, which keeps the type of the feature before it. *)
Definition other_pair : list (feature (Z * Z)) :=
  [mkFeat IDNil [] (Some (XPoint (1, 2)));
   mkFeat IDNil (map (fun n => ([Z.of_nat n], VBool 0 true)) (seq 0 70)) (Some XOther)].
Definition other_bytes : bytes := Eval vm_compute in match WriteLayer (fun p : Z * Z => p) pt_eqb other_pair (mkConfig [97] 0 0 0) with Ok b => b | _ => [] end.
Theorem C130_other_type_refuted : exists bs os1 os2,
  written 0 (mkSrc (fun p => p) pt_eqb other_pair (mkConfig [97] 0 0 0)) bs /\
  ReadTileO false 600 0 bs = Ok os1 /\ ReadTileO true 600 0 bs = Ok os2 /\
  map ofGeom os1 = [GPoint (1, 2); GNil] /\ map ofGeom os2 = [GPoint (1, 2); GPoint (1, 2)].
Proof.
  exists other_bytes. do 2 eexists. split.
  - split; [vm_compute; reflexivity|]. cbn [sCfg sFeats cProto]. split; [reflexivity|]. split; [|split].
    + apply Forall_cons; [|apply Forall_cons; [|apply Forall_nil]]; (split; [split|exact I]); cbn [fProps other_pair].
      * apply NoDup_nil.
      * intros k v [].
      * rewrite map_map. cbn [fst]. apply FinFun.Injective_map_NoDup; [|apply seq_NoDup]. intros a b H. injection H. lia.
      * intros k v H. apply in_map_iff in H as (n & H & _). injection H as <- <-. exact I.
    + unfold go_config. cbn. lia.
    + vm_compute. discriminate.
  - split; [vm_compute; reflexivity|]. split; [vm_compute; reflexivity|]. split; vm_compute; reflexivity.
Qed.
Print Assumptions C130_other_type_refuted.

(** Non-vacuity: a layer that meets the conditions and has features. *)
Example C130_nonvacuous : exists bs, written 0 (mkSrc (fun p => p) pt_eqb [mkFeat (IDInt 7) [] (Some (XPoint (1, 2)))] (mkConfig [97] 0 0 0)) bs /\
  zlen bs < 2 ^ 28 /\ Forall (pointed (mkSrc (fun p => p) pt_eqb [mkFeat (IDInt 7) [] (Some (XPoint (1, 2)))] (mkConfig [97] 0 0 0))) [mkFeat (IDInt 7) [] (Some (XPoint (1, 2)))] /\
  exists o, ReadTileO true 100 0 bs = Ok [o] /\ ofID o = 7.
Proof.
  eexists. split; [|split; [|split]].
  - split; [vm_compute; reflexivity|]. cbn [sCfg sFeats cProto]. split; [reflexivity|]. split; [|split].
    + apply Forall_cons; [|apply Forall_nil]. split; [split|]; cbn; [apply NoDup_nil|intros k v []|lia].
    + unfold go_config. cbn. lia.
    + cbv. discriminate.
  - vm_compute. reflexivity.
  - apply Forall_cons; [|apply Forall_nil]. intros g cmds Eg Ec. cbn [fGeom] in Eg. injection Eg as <-. vm_compute in Ec. injection Ec as <-. cbn. lia.
  - eexists. split; vm_compute; reflexivity.
Qed.
