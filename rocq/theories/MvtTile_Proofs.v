(** Whole tiles: what the writer puts in a layer, and the tile loops on such layers. *)
From Coq Require Import ZArith List Lia Bool.
From Verif Require Import GoBase Pbf_Model Pbf_Proofs MvtGeom_Model MvtLayer_Model MvtLayer_Spec MvtLayer_Proofs MvtLayerRead_Proofs.
Import ListNotations.
Open Scope Z_scope.

(** ** Geometry commands are uint32 *)
Lemma u32_in z : in_u32 (u32 z). Proof. apply u32_range. Qed.
Lemma cmd_u32 id count : in_u32 (cmdEnc id count).
Proof.
  unfold cmdEnc, in_u32. change 7 with (Z.ones 3). rewrite Z.land_ones by lia.
  pose proof (Z.mod_pos_bound id (2 ^ 3) ltac:(lia)). pose proof (u32_range (Z.shiftl count 3)) as H1. unfold in_u32 in H1.
  set (a := id mod 2 ^ 3) in *. set (b := u32 (Z.shiftl count 3)) in *.
  assert (0 <= Z.lor a b) by (apply Z.lor_nonneg; lia). split; auto.
  destruct (Z.eq_dec (Z.lor a b) 0) as [->|Hn]; [lia|].
  apply Z.log2_lt_pow2; [lia|]. rewrite Z.log2_lor by lia.
  apply Z.max_lub_lt.
  - destruct (Z.eq_dec a 0) as [->|]; [cbn; lia|]. apply Z.log2_lt_pow2; lia.
  - destruct (Z.eq_dec b 0) as [->|]; [cbn; lia|]. apply Z.log2_lt_pow2; lia.
Qed.
Ltac fu := repeat (apply Forall_cons; [first [apply cmd_u32 | apply u32_range]|]); apply Forall_nil.
Definition cu (c : cursor) : Prop := Forall in_u32 (geo c).
Lemma MovePoint_u c p : cu c -> cu (MovePoint c p).
Proof. intros H. apply Forall_app. split; auto. fu. Qed.
Lemma LinePoint_u c p : cu c -> cu (LinePoint c p).
Proof.
  intros H. unfold LinePoint. destruct (negb _); auto. apply Forall_app. split; auto. fu.
Qed.
Lemma fold_u {A} (f : cursor -> A -> cursor) l : (forall c a, cu c -> cu (f c a)) -> forall c, cu c -> cu (fold_left f l c).
Proof. intros Hf. induction l as [|a l IH]; intros c H; cbn [fold_left]; auto. Qed.
Lemma set_nth_u n v l : in_u32 v -> Forall in_u32 l -> Forall in_u32 (set_nth n v l).
Proof. intros Hv. revert n. induction l as [|a l IH]; intros n H; [destruct n; exact H|]. inversion H; subst. destruct n; cbn [set_nth]; apply Forall_cons; auto. Qed.
Lemma MakeLine_u c l c' : cu c -> MakeLine c l = Ok c' -> cu c'.
Proof.
  unfold MakeLine. destruct l as [|p r]; [discriminate|]. intros H E. injection E as <-. apply set_nth_u; [apply cmd_u32|].
  apply (fold_u LinePoint); [intros; apply LinePoint_u; auto|]. apply Forall_app. split; [apply MovePoint_u; auto|]. fu.
Qed.
Lemma MakeLineFloat_u {Pt} (proj : Pt -> Z * Z) c l c' : cu c -> MakeLineFloat proj c l = Ok c' -> cu c'.
Proof.
  unfold MakeLineFloat. destruct l as [|p r]; [discriminate|]. intros H E. injection E as <-. apply set_nth_u; [apply cmd_u32|].
  apply (fold_u (fun c p => LinePoint c (proj p))); [intros; apply LinePoint_u; auto|]. apply Forall_app. split; [apply MovePoint_u; auto|]. fu.
Qed.
Lemma fold_res_u {A} (f : cursor -> A -> res cursor) l : (forall c a c', cu c -> f c a = Ok c' -> cu c') -> forall c c', cu c -> fold_res f l c = Ok c' -> cu c'.
Proof.
  intros Hf. induction l as [|a l IH]; intros c c' H E; cbn [fold_res] in E; [injection E as <-; auto|].
  destruct (f c a) as [c1| |] eqn:E1; cbn [bind] in E; try discriminate. eauto.
Qed.
Lemma AssertConvert_u {Pt} (proj : Pt -> Z * Z) cw c l c' : cu c -> AssertConvert proj cw c l = Ok c' -> cu c'.
Proof.
  unfold AssertConvert. destruct l as [|p r]; [discriminate|]. intros H E. cbv zeta in E.
  match type of E with (let! _ := MakeLine ?x ?y in _) = _ => destruct (MakeLine x y) as [nc| |] eqn:E1; cbn [bind] in E; try discriminate end.
  injection E as <-. apply MakeLine_u in E1; [|constructor]. apply Forall_app. split; auto. apply Forall_app. split; auto. fu.
Qed.
Lemma MakePolygonFloat_u {Pt} (proj : Pt -> Z * Z) peq c l c' : cu c -> MakePolygonFloat proj peq c l = Ok c' -> cu c'.
Proof.
  unfold MakePolygonFloat. intros H E. destruct (map_res (TrimRing peq) l) as [[|o hs]| |]; cbn [bind] in E; try discriminate.
  destruct (AssertConvert proj true c o) as [c1| |] eqn:E1; cbn [bind] in E; try discriminate.
  eapply (fold_res_u (AssertConvert proj false)); [|eapply AssertConvert_u; eauto|exact E]. intros; eapply AssertConvert_u; eauto.
Qed.
Lemma geom_u32 {Pt} (proj : Pt -> Z * Z) peq g cmds : geom_cmds proj peq g = Ok (Some cmds) -> Forall in_u32 cmds.
Proof.
  assert (C0 : cu cursor0) by constructor.
  assert (CM : forall n, cu (mkCur [moveTo n] (0, 0) 0)) by (intros; unfold cu; cbn [geo]; fu).
  destruct g as [p|l|rs|ps|ls|ps|]; cbn [geom_cmds]; intros E.
  - injection E as <-. apply LinePoint_u. apply CM.
  - destruct (MakeLineFloat proj cursor0 l) eqn:E1; cbn [bind] in E; try discriminate. injection E as <-. eapply MakeLineFloat_u; eauto.
  - destruct (MakePolygonFloat proj peq cursor0 rs) eqn:E1; cbn [bind] in E; try discriminate. injection E as <-. eapply MakePolygonFloat_u; eauto.
  - injection E as <-. apply (fold_u (fun c p => LinePoint c (proj p))); [intros; apply LinePoint_u; auto|]. apply CM.
  - destruct (MakeMultiLineFloat proj cursor0 ls) eqn:E1; cbn [bind] in E; try discriminate. injection E as <-.
    eapply (fold_res_u (MakeLineFloat proj)); [|exact C0|exact E1]. intros; eapply MakeLineFloat_u; eauto.
  - destruct (MakeMultiPolygonFloat proj peq cursor0 ps) eqn:E1; cbn [bind] in E; try discriminate. injection E as <-.
    eapply (fold_res_u (MakePolygonFloat proj peq)); [|exact C0|exact E1]. intros; eapply MakePolygonFloat_u; eauto.
  - discriminate.
Qed.

(** ** The writer *)

Definition add_w (P : proto) (s : layerw) (w : wfeat) : res layerw :=
  let! (tags, s1) := match wProps w with [] => Ok ([], s) | _ => GetTags P s (wProps w) end in
  Ok (mkLW (lwKeysMap s1) (lwValuesMap s1) (lwFeatures s1 ++ feat_field P (feature_bytes P w tags)) (lwKeys s1) (lwValues s1)).

(** What AddFeature writes for a feature *)
Definition describe {Pt} (proj : Pt -> Z * Z) peq (f : feature Pt) (w : wfeat) : Prop :=
  wID w = match fID f with IDInt z => Some z | _ => None end /\ wProps w = fProps f /\
  wType w = option_map geom_code (fGeom f) /\
  match fGeom f with None => wCmds w = None | Some g => geom_cmds proj peq g = Ok (wCmds w) end.

Lemma AddFeature_w {Pt} (proj : Pt -> Z * Z) peq P s f s' : AddFeature proj peq P s f = Ok s' ->
  exists w, describe proj peq f w /\ add_w P s w = Ok s'.
Proof.
  unfold AddFeature, describe, add_w. destruct f as [id props g]. cbn [fID fProps fGeom]. intros E.
  assert (Hid : exists oid, oid = match id with IDInt z => Some z | _ => None end /\
     (match id with IDInt z => Ok (WriteUInt64 (pID P) z) | IDUint _ => Panic | _ => Ok [] end) = Ok (match oid with Some z => WriteUInt64 (pID P) z | None => [] end)).
  { destruct id; eexists; (split; [reflexivity|]); cbn; auto. discriminate. }
  destruct Hid as (oid & Eo & Ei). rewrite Ei in E. cbn [bind] in E. clear Ei.
  assert (Hc : exists oc, match g with None => oc = None | Some g => geom_cmds proj peq g = Ok oc end /\
    match g with None => Ok [] | Some g => let! oc := geom_cmds proj peq g in Ok match oc with None => [] | Some cmds => WritePackedUInt32 (pGeometry P) cmds end end =
      Ok (match oc with Some c => WritePackedUInt32 (pGeometry P) c | None => [] end)).
  { destruct g as [g|]; [|exists None; auto]. destruct (geom_cmds proj peq g) as [oc| |]; cbn [bind] in *.
    - exists oc. split; auto.
    - destruct props; [|destruct (GetTags P s (p :: props)) as [[? ?]| |]]; cbn [bind] in E; discriminate.
    - destruct props; [|destruct (GetTags P s (p :: props)) as [[? ?]| |]]; cbn [bind] in E; discriminate. }
  destruct Hc as (oc & Eg & Ec). rewrite Ec in E. cbn [bind] in E. clear Ec.
  exists (mkWF oid props (option_map geom_code g) oc). cbn [wID wProps wType wCmds]. split; [auto|].
  assert (Ety : (match g with None => [] | Some g => WriteVarint (pType P) (geom_code g) end) =
      match option_map geom_code g with Some t => WriteVarint (pType P) t | None => [] end) by (destruct g; reflexivity).
  rewrite Ety in E.
  destruct props as [|kv props].
  - cbn [bind] in E |- *. exact E.
  - destruct (GetTags P s (kv :: props)) as [[tags s1]| |]; cbn [bind] in E |- *; try discriminate. exact E.
Qed.

(** What AddFeatureRaw writes *)
Definition raw_w (id geomtype : Z) (geometry : list Z) (props : list (list Z * gval)) : wfeat :=
  mkWF (if 0 <? id then Some id else None) props (if geomtype =? 0 then None else Some geomtype)
       (match geometry with [] => None | _ => Some geometry end).
Lemma AddFeatureRaw_w P s id gt geometry props : AddFeatureRaw P s id gt geometry props = add_w P s (raw_w id gt geometry props).
Proof.
  unfold AddFeatureRaw, add_w, raw_w, feature_bytes, idseg, tagseg, typeseg, geomseg, feat_field. cbn [wID wProps wType wCmds].
  destruct (0 <? id), (gt =? 0), geometry, props as [|kv props]; cbn [bind]; try reflexivity;
    destruct (GetTags P s (kv :: props)) as [[tags s1]| |]; cbn [bind]; reflexivity.
Qed.

Definition total_props (ws : list wfeat) : Z := fold_right (fun w n => zlen (wProps w) + n) 0 ws.
Lemma total_nonneg ws : 0 <= total_props ws.
Proof. induction ws as [|w ws IH]; cbn [total_props fold_right]; [lia|]. pose proof (zlen_nonneg (wProps w)). unfold total_props in IH. lia. Qed.

Definition bodies_ok (P : proto) (kt : list (list Z)) (vt : list gval) (ws : list wfeat) (bodies : list bytes) : Prop :=
  Forall2 (fun w b => exists tags, b = feature_bytes P w tags /\ resolves kt vt (wProps w) tags) ws bodies.
Lemma bodies_ext P kt vt k2 v2 ws bodies : bodies_ok P kt vt ws bodies -> bodies_ok P (kt ++ k2) (vt ++ v2) ws bodies.
Proof. intros H. unfold bodies_ok in *. induction H as [|w b ws bs (tags & E & R) _ IH]; constructor; auto. exists tags. split; auto. apply resolves_ext. auto. Qed.

Lemma fold_add P ws : forall s s' kt vt ws0 bodies0,
  dict_inv P s kt vt -> bodies_ok P kt vt ws0 bodies0 -> lwFeatures s = flat_map (feat_field P) bodies0 ->
  zlen kt + total_props ws <= 2 ^ 32 -> zlen vt + total_props ws <= 2 ^ 32 ->
  fold_res (add_w P) ws s = Ok s' ->
  exists k2 v2 bodies, dict_inv P s' (kt ++ k2) (vt ++ v2) /\ bodies_ok P (kt ++ k2) (vt ++ v2) (ws0 ++ ws) (bodies0 ++ bodies) /\
    lwFeatures s' = flat_map (feat_field P) (bodies0 ++ bodies) /\
    (forall v, In v v2 -> exists w k, In w ws /\ In (k, v) (wProps w)).
Proof.
  induction ws as [|w ws IH]; intros s s' kt vt ws0 bodies0 HI HB HF Hk Hv E.
  - cbn [fold_res] in E. injection E as <-. exists [], [], []. rewrite !app_nil_r. repeat split; try apply HI; auto. intros v [].
  - cbn [fold_res] in E. unfold total_props in Hk, Hv. cbn [fold_right] in Hk, Hv. fold (total_props ws) in Hk, Hv. pose proof (total_nonneg ws).
    unfold add_w in E at 1.
    assert (S1 : exists tags s1 k1 v1, match wProps w with [] => Ok ([], s) | _ => GetTags P s (wProps w) end = Ok (tags, s1) /\
       dict_inv P s1 (kt ++ k1) (vt ++ v1) /\ zlen k1 <= zlen (wProps w) /\ zlen v1 <= zlen (wProps w) /\ lwFeatures s1 = lwFeatures s /\
       resolves (kt ++ k1) (vt ++ v1) (wProps w) tags /\ (forall v, In v v1 -> In v (map snd (wProps w)))).
    { destruct (wProps w) as [|kv props] eqn:EP.
      - exists [], s, [], []. rewrite !app_nil_r. split; auto. split; auto. split; [reflexivity|]. split; [reflexivity|]. split; auto. split; [constructor|]. intros v [].
      - destruct (GetTags P s (kv :: props)) as [[tags s1]| |] eqn:EG; cbn [bind] in E; try discriminate.
        destruct (GetTags_inv P (kv :: props) s kt vt tags s1 HI ltac:(lia) ltac:(lia) EG) as (k1 & v1 & J1 & J2 & J3 & J4 & J5 & J6 & J7).
        exists tags, s1, k1, v1. auto 10. }
    destruct S1 as (tags & s1 & k1 & v1 & ES & J1 & J2 & J3 & J4 & J5 & J6). rewrite ES in E. cbn [bind] in E.
    set (s2 := mkLW (lwKeysMap s1) (lwValuesMap s1) (lwFeatures s1 ++ feat_field P (feature_bytes P w tags)) (lwKeys s1) (lwValues s1)) in *.
    assert (B1 : bodies_ok P (kt ++ k1) (vt ++ v1) (ws0 ++ [w]) (bodies0 ++ [feature_bytes P w tags])).
    { apply Forall2_app; [apply bodies_ext; auto|]. constructor; [|constructor]. exists tags. auto. }
    destruct (IH s2 s' (kt ++ k1) (vt ++ v1) (ws0 ++ [w]) (bodies0 ++ [feature_bytes P w tags])) as (k2 & v2 & bodies & K1 & K2 & K3 & K4); auto.
    + unfold s2. cbn [lwFeatures]. rewrite J4, HF, flat_map_app. cbn [flat_map]. rewrite app_nil_r. reflexivity.
    + rewrite zlen_app. lia.
    + rewrite zlen_app. lia.
    + exists (k1 ++ k2), (v1 ++ v2), (feature_bytes P w tags :: bodies). rewrite !app_assoc.
      repeat rewrite <- app_assoc in K1, K2, K3. repeat rewrite <- app_assoc in K1. repeat rewrite <- app_assoc in K2. cbn [app] in K2, K3. repeat rewrite <- app_assoc. refine (conj K1 (conj K2 (conj K3 _))).
      intros v Hv'. apply in_app_iff in Hv' as [Hv'|Hv'].
      * apply J6 in Hv'. apply in_map_iff in Hv' as ([k v0] & <- & Hi). exists w, k. split; [left|]; auto.
      * destruct (K4 v Hv') as (w' & k & H1 & H2). exists w', k. split; [right|]; auto.
Qed.

(** A layer as bytes: built from some tables and feature messages. *)
Record wlayer := mkWL { wlName : list Z; wlExt : Z; wlVer : Z; wlFeats : list wfeat }.
Definition tables_ok (P : proto) (L : wlayer) (bodies : list bytes) (kt : list (list Z)) (vt : list gval) : Prop :=
  NoDup kt /\ Forall go_value vt /\ bodies_ok P kt vt (wlFeats L) bodies.
Definition layer_bytes (P : proto) (body : bytes) : bytes := tag_byte (pLayers P) wBytes :: EncodeVarint (zlen body) ++ body.
Definition is_layer (P : proto) (L : wlayer) (bs : bytes) : Prop :=
  exists bodies kt vt, tables_ok P L bodies kt vt /\ bs = layer_bytes P (body_of P (wlName L) bodies kt vt (wlExt L) (wlVer L)).

Lemma flush_is_layer P name ext ver ws s : fold_res (add_w P) ws layerw0 = Ok s -> total_props ws <= 2 ^ 32 ->
  (forall w k v, In w ws -> In (k, v) (wProps w) -> go_value v) ->
  is_layer P (mkWL name ext ver ws) (Flush P name ext ver s).
Proof.
  intros E Ht Hg.
  destruct (fold_add P ws layerw0 s [] [] [] []) as (kt & vt & bodies & J1 & J2 & J3 & J4); auto.
  { repeat split; auto. constructor. }
  { constructor. }
  cbn [app] in *. exists bodies, kt, vt. destruct J1 as (I1 & I2 & I3 & I4 & I5). split.
  - split; auto. split; auto. apply Forall_forall. intros v Hv. destruct (J4 v Hv) as (w & k & H1 & H2). eauto.
  - unfold Flush, layer_bytes. cbn [wlName wlExt wlVer]. unfold layer_body, body_of, name_field. rewrite J3, I4, I5. reflexivity.
Qed.

(** The loops give the same result whatever the fuel, when they end. *)
Lemma layer_loop_det chk P buf : forall f1 f2 e c s r1 r2, layer_loop chk f1 P buf e c s = Ok r1 -> layer_loop chk f2 P buf e c s = Ok r2 -> r1 = r2.
Proof.
      assert (FM : forall f1 f2 c r1 r2, feats_loop f1 P buf c = Ok r1 -> feats_loop f2 P buf c = Ok r2 -> r1 = r2).
      { induction f1 as [|f1 IH]; intros f2 c r1 r2; destruct f2; cbn [feats_loop]; destruct (_ && _); try congruence.
        destruct (ReadVarint buf (cPos c)) as [[sz p]| |]; cbn [bind]; try discriminate.
        destruct (next_tag buf (wrap64 (p + sz))) as [c'| |]; cbn [bind]; try discriminate.
        destruct (feats_loop f1 P buf c') as [[x y]| |] eqn:E1; cbn [bind]; try discriminate.
        destruct (feats_loop f2 P buf c') as [[x2 y2]| |] eqn:E2; cbn [bind]; try discriminate.
        pose proof (IH _ _ _ _ E1 E2). congruence. }
      assert (KM : forall f1 f2 c r1 r2, keys_loop f1 P buf c = Ok r1 -> keys_loop f2 P buf c = Ok r2 -> r1 = r2).
      { induction f1 as [|f1 IH]; intros f2 c r1 r2; destruct f2; cbn [keys_loop]; destruct (_ && _); try congruence.
        destruct (ReadString buf (cPos c)) as [[sz p]| |]; cbn [bind]; try discriminate.
        destruct (next_tag buf p) as [c'| |]; cbn [bind]; try discriminate.
        destruct (keys_loop f1 P buf c') as [[x y]| |] eqn:E1; cbn [bind]; try discriminate.
        destruct (keys_loop f2 P buf c') as [[x2 y2]| |] eqn:E2; cbn [bind]; try discriminate.
        pose proof (IH _ _ _ _ E1 E2). congruence. }
      assert (VM : forall f1 f2 c r1 r2, values_loop chk f1 P buf c = Ok r1 -> values_loop chk f2 P buf c = Ok r2 -> r1 = r2).
      { induction f1 as [|f1 IH]; intros f2 c r1 r2; destruct f2; cbn [values_loop]; destruct (_ && _); try congruence.
        destruct (read_value P buf (cPos c)) as [[sz p]| |]; cbn [bind]; try discriminate.
        destruct (next_tag buf p) as [c'| |]; cbn [bind]; try discriminate.
        destruct (values_loop chk f1 P buf c') as [[x y]| |] eqn:E1; cbn [bind]; try discriminate.
        destruct (values_loop chk f2 P buf c') as [[x2 y2]| |] eqn:E2; cbn [bind]; try discriminate.
        pose proof (IH _ _ _ _ E1 E2). congruence. }
      induction f1 as [|f1 IH]; intros f2 e c s r1 r2; destruct f2; cbn [layer_loop]; destruct (_ <? _); try congruence.
      match goal with |- bind ?x _ = _ -> _ => destruct x as [[s1 c1]| |]; cbn [bind]; try discriminate end.
      destruct (feats_loop f1 P buf c1) as [[fs c2]| |] eqn:E1; cbn [bind]; try discriminate.
      destruct (keys_loop f1 P buf c2) as [[ks c3]| |] eqn:E2; cbn [bind]; try discriminate.
      destruct (values_loop chk f1 P buf c3) as [[vs c4]| |] eqn:E3; cbn [bind]; try discriminate.
      intros Q1.
      destruct (feats_loop f2 P buf c1) as [[fs' c2']| |] eqn:E1'; cbn [bind]; try discriminate. pose proof (FM _ _ _ _ _ E1 E1') as X. injection X as <- <-.
      destruct (keys_loop f2 P buf c2) as [[ks' c3']| |] eqn:E2'; cbn [bind]; try discriminate. pose proof (KM _ _ _ _ _ E2 E2') as X. injection X as <- <-.
      destruct (values_loop chk f2 P buf c3) as [[vs' c4']| |] eqn:E3'; cbn [bind]; try discriminate. pose proof (VM _ _ _ _ _ E3 E3') as X. injection X as <- <-.
      revert Q1. match goal with |- bind ?x _ = _ -> _ => destruct x as [[s5 c5]| |]; cbn [bind]; try discriminate end.
      match goal with |- bind ?x _ = _ -> _ => destruct x as [[s6 c6]| |]; cbn [bind]; try discriminate end. apply IH.
Qed.
Lemma tile_loop_det P buf : forall f1 f2 pos t r1 r2, tile_loop f1 P buf pos t = Ok r1 -> tile_loop f2 P buf pos t = Ok r2 -> r1 = r2.
Proof.
  induction f1 as [|f1 IH]; intros f2 pos t r1 r2; destruct f2; cbn [tile_loop]; destruct (pos <? zlen buf); try congruence.
  destruct (ReadTag buf pos) as [[[k v] p]| |]; cbn [bind]; try discriminate. destruct (_ && _); [|apply IH].
  destruct (ReadVarint buf p) as [[sz p1]| |]; cbn [bind]; try discriminate. destruct (sz =? 0); [apply IH|]. unfold NewLayer.
  destruct (next_tag buf p1) as [c| |]; cbn [bind]; try discriminate.
  destruct (layer_loop true f1 P buf (wrap64 (p1 + sz)) c layerr0) as [s1| |] eqn:E1; cbn [bind]; try discriminate. intros H1.
  destruct (layer_loop true f2 P buf (wrap64 (p1 + sz)) c layerr0) as [s2| |] eqn:E2; cbn [bind]; try discriminate.
  pose proof (layer_loop_det _ _ _ _ _ _ _ _ _ _ E1 E2) as <-. revert H1. apply IH.
Qed.

(** More fuel does not change a result. *)
Lemma feats_more P buf : forall f1 f2 c r, feats_loop f1 P buf c = r -> (f1 <= f2)%nat -> r <> NoFuel -> feats_loop f2 P buf c = r.
Proof.
  induction f1 as [|f1 IH]; intros f2 c r E Hf Hr; (destruct f2 as [|f2]; [try lia|]); cbn [feats_loop] in *; destruct (_ && _); try congruence.
  destruct (ReadVarint buf (cPos c)) as [[sz p]| |]; cbn [bind] in *; auto.
  destruct (next_tag buf (wrap64 (p + sz))) as [c'| |]; cbn [bind] in *; auto.
  destruct (feats_loop f1 P buf c') as [[x y]| |] eqn:E1; cbn [bind] in *; try congruence; rewrite (IH f2 c' _ E1) by (lia || discriminate); auto.
Qed.
Lemma keys_more P buf : forall f1 f2 c r, keys_loop f1 P buf c = r -> (f1 <= f2)%nat -> r <> NoFuel -> keys_loop f2 P buf c = r.
Proof.
  induction f1 as [|f1 IH]; intros f2 c r E Hf Hr; (destruct f2 as [|f2]; [try lia|]); cbn [keys_loop] in *; destruct (_ && _); try congruence.
  destruct (ReadString buf (cPos c)) as [[sz p]| |]; cbn [bind] in *; auto.
  destruct (next_tag buf p) as [c'| |]; cbn [bind] in *; auto.
  destruct (keys_loop f1 P buf c') as [[x y]| |] eqn:E1; cbn [bind] in *; try congruence; rewrite (IH f2 c' _ E1) by (lia || discriminate); auto.
Qed.
Lemma values_more chk P buf : forall f1 f2 c r, values_loop chk f1 P buf c = r -> (f1 <= f2)%nat -> r <> NoFuel -> values_loop chk f2 P buf c = r.
Proof.
  induction f1 as [|f1 IH]; intros f2 c r E Hf Hr; (destruct f2 as [|f2]; [try lia|]); cbn [values_loop] in *; destruct (_ && _); try congruence.
  destruct (read_value P buf (cPos c)) as [[sz p]| |]; cbn [bind] in *; auto.
  destruct (next_tag buf p) as [c'| |]; cbn [bind] in *; auto.
  destruct (values_loop chk f1 P buf c') as [[x y]| |] eqn:E1; cbn [bind] in *; try congruence; rewrite (IH f2 c' _ E1) by (lia || discriminate); auto.
Qed.
Lemma layer_loop_more chk P buf : forall f1 f2 e c s r, layer_loop chk f1 P buf e c s = r -> (f1 <= f2)%nat -> r <> NoFuel -> layer_loop chk f2 P buf e c s = r.
Proof.
  induction f1 as [|f1 IH]; intros f2 e c s r E Hf Hr; (destruct f2 as [|f2]; [try lia|]); cbn [layer_loop] in *; destruct (_ <? _); try congruence.
  revert E. match goal with |- bind ?x _ = _ -> _ => destruct x as [[s1 c1]| |]; cbn [bind]; auto end. intros E.
  destruct (feats_loop f1 P buf c1) as [[fs c2]| |] eqn:E1; cbn [bind] in E; try congruence; rewrite (feats_more P buf f1 f2 c1 _ E1) by (lia || discriminate); cbn [bind]; auto.
  destruct (keys_loop f1 P buf c2) as [[ks c3]| |] eqn:E2; cbn [bind] in E; try congruence; rewrite (keys_more P buf f1 f2 c2 _ E2) by (lia || discriminate); cbn [bind]; auto.
  destruct (values_loop chk f1 P buf c3) as [[vs c4]| |] eqn:E3; cbn [bind] in E; try congruence; rewrite (values_more chk P buf f1 f2 c3 _ E3) by (lia || discriminate); cbn [bind]; auto.
  revert E. match goal with |- bind ?x _ = _ -> _ => destruct x as [[s5 c5]| |]; cbn [bind]; auto end.
  match goal with |- bind ?x _ = _ -> _ => destruct x as [[s6 c6]| |]; cbn [bind]; auto end. intros E. apply (IH f2 _ _ _ _ E); [lia|auto].
Qed.

(** ** The tile loops *)
Definition layer_read (buf : bytes) (P : proto) (L : wlayer) (r : layerr) : Prop :=
  exists bodies vt, bodies_ok P (lrKeys r) vt (wlFeats L) bodies /\
    lrName r = wlName L /\ lrNames r = name_list (wlName L) /\ lrVals r = map norm vt /\ NoDup (lrKeys r) /\
    lrExtent r = wrap64 (wlExt L) /\ lrVersion r = wrap64 (wlVer L) /\
    Forall2 (fun p b => exists s', at_ buf p (EncodeVarint (zlen b) ++ b ++ s')) (lrFeats r) bodies.

Lemma layer_at chk P buf L bs pos rest : dialect P -> zlen buf < 2 ^ 62 -> is_layer P L bs -> at_ buf pos (bs ++ rest) ->
  exists size p1 c0 r, ReadTag buf pos = Ok (pLayers P, wBytes, pos + 1) /\ ReadVarint buf (pos + 1) = Ok (size, p1) /\ 0 < size /\
    p1 + size = pos + zlen bs /\ wrap64 (p1 + size) = p1 + size /\ at_ buf (p1 + size) rest /\
    next_tag buf p1 = Ok c0 /\ (forall fuel, (length bs <= fuel)%nat -> layer_loop chk fuel P buf (p1 + size) c0 layerr0 = Ok r) /\
    layer_read buf P L r /\ (exists bd, bs = layer_bytes P bd /\ size = zlen bd /\ at_ buf p1 (bd ++ rest)).
Proof.
  intros HP Hb (bodies & kt & vt & (T1 & T2 & T3) & ->) H. assert (Hb' : zlen buf < 2 ^ 63) by lia.
  set (body := body_of P (wlName L) bodies kt vt (wlExt L) (wlVer L)) in *.
  pose proof (p_ranges P HP) as R. pose proof w_ranges as W. unfold layer_bytes in H. rewrite <- app_comm_cons, <- app_assoc in H.
  pose proof (at_cons _ _ _ _ H) as H1. pose proof (at_app _ _ _ _ H1) as H2. pose proof (at_app _ _ _ _ H2) as H3.
  set (p1 := pos + 1 + zlen (EncodeVarint (zlen body))) in *.
  pose proof (body_len P (wlName L) bodies kt vt (wlExt L) (wlVer L)) as BL. fold body in BL.
  assert (exists c0 poss, next_tag buf p1 = Ok c0 /\ (forall fuel, (length (layer_bytes P body) <= fuel)%nat ->
     layer_loop chk fuel P buf (p1 + zlen body) c0 layerr0 = Ok (mkLR (wlName L) (name_list (wlName L)) poss kt (map norm vt) (wrap64 (wlExt L)) (wrap64 (wlVer L)))) /\
     Forall2 (fun p b => exists s', at_ buf p (EncodeVarint (zlen b) ++ b ++ s')) poss bodies) as (c0 & poss & E0 & EL & F).
  { pose proof (layer_loop_at chk P buf p1 (wlName L) bodies kt vt (wlExt L) (wlVer L) rest (length body) HP Hb' T2 H2 ltac:(lia)) as (c0 & _ & _ & E0 & _).
    destruct (layer_loop_done chk P buf p1 (wlName L) bodies kt vt (wlExt L) (wlVer L) rest (length (layer_bytes P body)) HP Hb' T2 H2) as (c0' & poss & E0' & EL & F).
    { unfold layer_bytes. cbn [length]. rewrite app_length. fold body. lia. }
    exists c0', poss. split; auto. split; auto. intros fuel Hf.
    destruct (layer_loop_done chk P buf p1 (wlName L) bodies kt vt (wlExt L) (wlVer L) rest fuel HP Hb' T2 H2) as (c1 & poss1 & E1 & EL1 & F1).
    { unfold layer_bytes in Hf. cbn [length] in Hf. rewrite app_length in Hf. fold body. lia. }
    assert (c1 = c0') by congruence. subst c1. fold body in EL, EL1. rewrite EL1. f_equal. f_equal.
    pose proof (layer_loop_det chk P buf _ _ _ _ _ _ _ EL EL1) as X. injection X. auto. }
  exists (zlen body), p1, c0. eexists. split; [|split; [|split; [|split; [|split; [|split; [|split; [|split; [|split]]]]]]]].
  - refine (ReadTag_tag _ _ _ _ _ _ _ H); lia.
  - rewrite (ReadVarint_at _ _ _ _ H1), (at_len_wrap _ _ _ _ Hb' H2). reflexivity.
  - unfold zlen. lia.
  - unfold layer_bytes. rewrite zlen_cons, zlen_app. unfold p1. lia.
  - apply (at_wrap _ _ _ _ Hb' H2).
  - exact H3.
  - exact E0.
  - exact EL.
  - exists bodies, vt. cbn [lrName lrNames lrFeats lrKeys lrVals lrExtent lrVersion]. auto 10.
  - exists body. auto.
Qed.

(** A feature of a read layer, from any starting values *)
Definition feat_ok (w : wfeat) : Prop :=
  NoDup (map fst (wProps w)) /\ (forall t, wType w = Some t -> 0 <= t < 128) /\ (forall cs, wCmds w = Some cs -> Forall in_u32 cs).
Lemma nth_feature extra P buf L r i w id gt gp : dialect P -> zlen buf < 2 ^ 62 -> 0 <= extra <= 1 -> layer_read buf P L r ->
  nth_error (wlFeats L) i = Some w -> feat_ok w ->
  exists p size p1 m gp', nth_error (lrFeats r) i = Some p /\ ReadVarint buf p = Ok (size, p1) /\ wire_props (wProps w) m /\
    match wCmds w with Some cs => holds_cmds buf gp' cs | None => gp' = gp end /\
    forall fuel, (4 <= fuel)%nat -> feat_loop fuel extra P buf (lrKeys r) (lrVals r) p1 (wrap64 (p1 + size)) (mkRF id gt [] gp) =
      Ok (mkRF (match wID w with Some z => wrap64 z | None => id end) (match wType w with Some t => t | None => gt end) m gp').
Proof.
  intros HP Hb He (bodies & vt & B & E1 & E2 & E3 & E4 & E5 & E6 & F) Hi (K1 & K2 & K3). assert (Hb' : zlen buf < 2 ^ 63) by lia.
  assert (exists b, nth_error bodies i = Some b /\ exists tags, b = feature_bytes P w tags /\ resolves (lrKeys r) vt (wProps w) tags) as (b & Eb & tags & -> & R).
  { clear - B Hi. unfold bodies_ok in B. revert i Hi. induction B as [|w0 b ws bs H _ IH]; intros [|i] Hi; try discriminate.
    - cbn in Hi. injection Hi as ->. exists b. auto.
    - cbn in Hi. destruct (IH i Hi) as (b' & H1 & H2). exists b'. auto. }
  assert (exists p s', nth_error (lrFeats r) i = Some p /\ at_ buf p (EncodeVarint (zlen (feature_bytes P w tags)) ++ feature_bytes P w tags ++ s')) as (p & s' & Ep & Hp).
  { clear - F Eb. revert i Eb. induction F as [|p b ps bs (s' & H) _ IH]; intros [|i] Eb; try discriminate.
    - cbn in Eb. injection Eb as ->. exists p, s'. auto.
    - cbn in Eb. destruct (IH i Eb) as (p' & s2 & H1 & H2). exists p', s2. auto. }
  pose proof (at_app _ _ _ _ Hp) as Hp1.
  exists p, (zlen (feature_bytes P w tags)). eexists.
  destruct (feature_read extra P buf (lrKeys r) vt _ HP Hb He w tags _ s' (mkRF id gt [] gp) Hp1 eq_refl R K1 eq_refl K2) as (m & gp' & W & G & Rn).
  exists m, gp'. split; auto. split; [rewrite (ReadVarint_at _ _ _ _ Hp), (at_len_wrap _ _ _ _ Hb' Hp1); reflexivity|].
  split; auto. split; auto. intros fuel Hf. rewrite (at_wrap _ _ _ _ Hb' Hp1), E3. apply Rn. auto.
Qed.

(** NewTile on a sequence of layers: the names in order and the map built by assignment *)
Fixpoint put_all (ls : list layer) (m : list (list Z * layer)) : list (list Z * layer) :=
  match ls with [] => m | l :: r => put_all r (mput (lName l) l m) end.
Definition layer_from (buf : bytes) (P : proto) (L : wlayer) (bs : bytes) (l : layer) : Prop :=
  exists r bd, layer_read buf P L r /\ bs = layer_bytes P bd /\ at_ buf (lStart l) (bd ++ skipn (Z.to_nat (lEnd l)) buf) /\ lEnd l = lStart l + zlen bd /\
    l = mkLayer (lrName r) (if lrExtent r =? 0 then 4096 else lrExtent r) (lrVersion r) (lrKeys r) (lrVals r) (lrFeats r) (lStart l) (lEnd l).

Lemma tile_loop_at P buf : dialect P -> zlen buf < 2 ^ 62 -> forall Ls bss, Forall2 (is_layer P) Ls bss ->
  forall pos t fuel, at_ buf pos (concat bss) -> (length (concat bss) < fuel)%nat ->
  exists ls, tile_loop fuel P buf pos t = Ok (mkTileV (tNames t ++ flat_map (fun L => name_list (wlName L)) Ls) (put_all ls (tMap t))) /\
    Forall2 (fun x l => layer_from buf P (fst x) (snd x) l) (combine Ls bss) ls.
Proof.
  intros HP Hb Ls bss HF. induction HF as [|L bs Ls bss H1 HF IH]; intros pos t fuel Hp Hf.
  - exists []. cbn [flat_map put_all concat combine] in *. rewrite app_nil_r. apply at_pos in Hp as [_ Hp]. rewrite zlen_nil in Hp. split; [|constructor].
    destruct fuel; cbn [tile_loop]; destruct (Z.ltb_spec pos (zlen buf)); try lia; destruct t; reflexivity.
  - cbn [concat] in *. rewrite app_length in Hf. destruct fuel as [|fuel]; [lia|].
    destruct (layer_at true P buf L bs pos _ HP Hb H1 Hp) as (size & p1 & c0 & r & A1 & A2 & A3 & A4 & A5 & A6 & A7 & A8 & A9 & bd & A10 & A11 & A12).
    assert (Hl : (0 < length bs)%nat) by (rewrite A10; cbn [layer_bytes length]; lia).
    cbn [tile_loop]. destruct (at_pos _ _ _ Hp) as [Q1 Q2]. rewrite zlen_app in Q2. pose proof (zlen_nonneg (concat bss)).
    destruct (Z.ltb_spec pos (zlen buf)); [|unfold zlen in *; lia]. rewrite A1. cbn [bind]. rewrite !Z.eqb_refl. cbn [andb]. rewrite A2. cbn [bind].
    destruct (Z.eqb_spec size 0); [lia|]. unfold NewLayer. rewrite A7. cbn [bind]. rewrite A5, A8 by lia. cbn [bind].
    set (l := mkLayer (lrName r) (if lrExtent r =? 0 then 4096 else lrExtent r) (lrVersion r) (lrKeys r) (lrVals r) (lrFeats r) p1 (p1 + size)).
    destruct (IH (p1 + size) (mkTileV (tNames t ++ lrNames r) (mput (lrName r) l (tMap t))) fuel A6 ltac:(lia)) as (ls & E & F).
    exists (l :: ls). split.
    + rewrite E. cbn [tNames tMap flat_map put_all]. f_equal. f_equal. rewrite <- app_assoc. f_equal. f_equal.
      destruct A9 as (? & ? & ? & ? & ? & ?). auto.
    + cbn [combine]. constructor; auto. cbn [fst snd]. exists r, bd. split; auto. split; auto. change (lStart l) with p1. change (lEnd l) with (p1 + size).
      rewrite (at_skipn _ _ _ A6). split; auto. split; [lia|reflexivity].
Qed.

(** Looking a layer up *)
Lemma mget_mput {V} k k' (v : V) m : mget k (mput k' v m) = if bytes_eqb k k' then Some v else mget k m.
Proof.
  unfold mget. induction m as [|[a x] m IH]; cbn [mput assoc].
  - destruct (bytes_eqb k k'); auto.
  - destruct (bytes_eqb k' a) eqn:E; cbn [assoc].
    + apply bytes_eqb_eq in E as ->. destruct (bytes_eqb k a); auto.
    + destruct (bytes_eqb k a) eqn:E2; auto. apply bytes_eqb_eq in E2 as ->.
      destruct (bytes_eqb a k') eqn:E3; auto. apply bytes_eqb_eq in E3 as ->. rewrite (proj2 (bytes_eqb_eq k' k') eq_refl) in E. discriminate.
Qed.
Lemma put_all_other k ls : ~ In k (map lName ls) -> forall m, mget k (put_all ls m) = mget k m.
Proof.
  induction ls as [|l ls IH]; intros Hn m; auto. cbn [put_all]. cbn [map In] in Hn. rewrite IH by tauto. rewrite mget_mput.
  destruct (bytes_eqb k (lName l)) eqn:E; auto. apply bytes_eqb_eq in E. subst k. exfalso. apply Hn. left. reflexivity.
Qed.
Lemma put_all_get ls : NoDup (map lName ls) -> forall m l, In l ls -> mget (lName l) (put_all ls m) = Some l.
Proof.
  induction ls as [|a ls IH]; intros Hn m l [] ; cbn [map] in Hn; inversion Hn; subst; cbn [put_all].
  - rewrite put_all_other by auto. rewrite mget_mput, (proj2 (bytes_eqb_eq _ _) eq_refl). reflexivity.
  - apply IH; auto.
Qed.
Lemma mput_new {V} k (v : V) m : ~ In k (map fst m) -> mput k v m = m ++ [(k, v)].
Proof.
  induction m as [|[a x] m IH]; intros H; auto. cbn [mput map fst In] in *. destruct (bytes_eqb k a) eqn:E; [apply bytes_eqb_eq in E as ->; tauto|].
  rewrite IH by tauto. reflexivity.
Qed.
Lemma put_all_list ls : forall m, NoDup (map fst m ++ map lName ls) -> put_all ls m = m ++ map (fun l => (lName l, l)) ls.
Proof.
  induction ls as [|l ls IH]; intros m H; cbn [put_all map]; [rewrite app_nil_r; auto|]. cbn [map] in H.
  assert (~ In (lName l) (map fst m)). { intros Hi. apply NoDup_remove_2 in H. apply H. apply in_app_iff. auto. }
  rewrite mput_new by auto. rewrite IH.
  - rewrite <- app_assoc. reflexivity.
  - rewrite map_app, <- app_assoc. exact H.
Qed.

(** ** ReadTile and ReadRawTile *)

Definition ids_upto (ws : list wfeat) (i : nat) : list (option Z) := firstn (S i) (map wID ws).
Definition types_upto (ws : list wfeat) (i : nat) : list (option Z) := firstn (S i) (map wType ws).
Definition cmds_upto (ws : list wfeat) (i : nat) : list (option (option (list Z))) := firstn (S i) (map (fun w => option_map Some (wCmds w)) ws).

Definition geom_prev (buf : bytes) (gp : Z) (prev : option (list Z)) : Prop :=
  match prev with Some cs => holds_cmds buf gp cs /\ Forall in_u32 cs | None => True end.

Lemma read_feats_at extra P buf name r vt : dialect P -> zlen buf < 2 ^ 62 -> 0 <= extra <= 1 -> lrVals r = map norm vt ->
  forall ws bodies poss, bodies_ok P (lrKeys r) vt ws bodies -> Forall feat_ok ws -> (forall w z, In w ws -> wID w = Some z -> in_i64 z) ->
  Forall2 (fun p b => exists s', at_ buf p (EncodeVarint (zlen b) ++ b ++ s')) poss bodies ->
  forall id gt gp prev, geom_prev buf gp prev ->
  (forall i w, nth_error ws i = Some w -> exists c gd, latest prev (cmds_upto ws i) = Some c /\ LoadGeometryCmds (latest gt (types_upto ws i)) c = Ok gd) ->
  exists os, (forall fuel, (4 <= fuel)%nat -> read_feats fuel extra P buf (lrKeys r) (lrVals r) name poss id gt gp = Ok os) /\ length os = length ws /\
    forall i w o, nth_error ws i = Some w -> nth_error os i = Some o ->
      ofID o = latest id (ids_upto ws i) /\
      (exists m, wire_props (wProps w) m /\ ofProps o = mput str_layer (WString name) m) /\
      (exists c, latest prev (cmds_upto ws i) = Some c /\ LoadGeometryCmds (latest gt (types_upto ws i)) c = Ok (ofGeom o)).
Proof.
  intros HP Hb He EV. induction ws as [|w ws IH]; intros bodies poss HB HK HI HF id gt gp prev HG HD.
  - inversion HB; subst. inversion HF; subst. exists []. split; [reflexivity|]. split; auto. intros [|i] w o H; discriminate.
  - inversion HB as [|? b ? bs (tags & -> & R) HB']; subst. inversion HF as [|p ? ps ? (s' & Hp) HF']; subst. inversion HK as [|? ? (K1 & K2 & K3) HK']; subst.
    assert (Hb' : zlen buf < 2 ^ 63) by lia. pose proof (at_app _ _ _ _ Hp) as Hp1.
    destruct (feature_read extra P buf (lrKeys r) vt _ HP Hb He w tags _ s' (mkRF id gt [] gp) Hp1 eq_refl R K1 eq_refl K2) as (m & gp' & W & G & Rn).
    cbn [rfID rfType rfGeomPos] in *.
    set (id' := match wID w with Some z => z | None => id end).
    assert (Ei : match wID w with Some z => wrap64 z | None => id end = id').
    { unfold id'. destruct (wID w) as [z|] eqn:E; auto. apply wrap64_id. apply (HI w z); [left|]; auto. }
    rewrite Ei in Rn. set (gt' := match wType w with Some t => t | None => gt end) in *.
    set (prev' := match wCmds w with Some c => Some c | None => prev end).
    assert (HG' : geom_prev buf gp' prev').
    { unfold prev'. destruct (wCmds w) as [cs|] eqn:E; [split; auto; apply K3; auto|]. subst gp'. exact HG. }
    assert (L1 : forall i, latest prev (cmds_upto (w :: ws) (S i)) = latest prev' (cmds_upto ws i)) by (intros; unfold prev', cmds_upto, latest; cbn [map firstn fold_left]; destruct (wCmds w); reflexivity).
    assert (L2 : forall i, latest gt (types_upto (w :: ws) (S i)) = latest gt' (types_upto ws i)) by (intros; unfold gt', types_upto, latest; cbn [map firstn fold_left]; destruct (wType w); reflexivity).
    assert (L3 : forall i, latest id (ids_upto (w :: ws) (S i)) = latest id' (ids_upto ws i)) by (intros; unfold id', ids_upto, latest; cbn [map firstn fold_left]; destruct (wID w); reflexivity).
    assert (M1 : latest prev (cmds_upto (w :: ws) 0) = prev') by (unfold prev', cmds_upto, latest; cbn [map firstn fold_left]; destruct (wCmds w); reflexivity).
    assert (M2 : latest gt (types_upto (w :: ws) 0) = gt') by (unfold gt', types_upto, latest; cbn [map firstn fold_left]; destruct (wType w); reflexivity).
    assert (M3 : latest id (ids_upto (w :: ws) 0) = id') by (unfold id', ids_upto, latest; cbn [map firstn fold_left]; destruct (wID w); reflexivity).
    destruct (HD 0%nat w eq_refl) as (c & gd & D1 & D2). rewrite M1 in D1. rewrite M2 in D2.
    destruct (IH bs ps HB' HK' ltac:(intros; apply (HI w0 z); [right|]; auto) HF' id' gt' gp' prev' HG') as (os & E & Hl & HO).
    { intros i w' Hi. destruct (HD (S i) w' Hi) as (c' & gd' & X1 & X2). rewrite L1 in X1. rewrite L2 in X2. eauto. }
    assert (exists e, ReadPackedUInt32 buf gp' = Ok (c, e)) as (e & Er).
    { rewrite D1 in HG'. destruct HG' as [X1 X2]. apply (holds_read buf gp' c Hb' X2 X1). }
    exists (mkOF id' (mput str_layer (WString name) m) gd :: os). split; [|split].
    + intros fuel Hf. cbn [read_feats]. rewrite (ReadVarint_at _ _ _ _ Hp), (at_len_wrap _ _ _ _ Hb' Hp1). cbn [bind]. rewrite (at_wrap _ _ _ _ Hb' Hp1).
      rewrite EV in *. rewrite (Rn fuel Hf). cbn [bind rfID rfType rfProps rfGeomPos]. rewrite Er. cbn [bind]. rewrite D2. cbn [bind]. rewrite (E fuel Hf). reflexivity.
    + cbn [length]. lia.
    + intros [|i] w' o H1 H2.
      * cbn in H1, H2. injection H1 as <-. injection H2 as <-. cbn [ofID ofProps ofGeom]. rewrite M1, M2, M3. split; auto. split; eauto.
      * cbn [nth_error] in H1, H2. rewrite L1, L2, L3. apply HO; auto.
Qed.

(** The features of one layer as the readers return them *)
Definition layer_out (L : wlayer) (os : list ofeat) : Prop :=
  length os = length (wlFeats L) /\
  forall i w o, nth_error (wlFeats L) i = Some w -> nth_error os i = Some o ->
      ofID o = latest 0 (ids_upto (wlFeats L) i) /\
      (exists m, wire_props (wProps w) m /\ ofProps o = mput str_layer (WString (wlName L)) m) /\
      (exists c, latest None (cmds_upto (wlFeats L) i) = Some c /\ LoadGeometryCmds (latest 0 (types_upto (wlFeats L) i)) c = Ok (ofGeom o)).
Definition layer_in (L : wlayer) : Prop :=
  Forall feat_ok (wlFeats L) /\ (forall w z, In w (wlFeats L) -> wID w = Some z -> in_i64 z) /\
  (forall i w, nth_error (wlFeats L) i = Some w -> exists c gd, latest None (cmds_upto (wlFeats L) i) = Some c /\ LoadGeometryCmds (latest 0 (types_upto (wlFeats L) i)) c = Ok gd).

Lemma read_loop_at chk extra P buf : dialect P -> zlen buf < 2 ^ 62 -> 0 <= extra <= 1 -> forall Ls bss, Forall2 (is_layer P) Ls bss -> Forall layer_in Ls ->
  forall pos acc fuel, at_ buf pos (concat bss) -> (length (concat bss) + 4 < fuel)%nat ->
  exists oss, read_loop fuel chk extra P buf pos acc = Ok (acc ++ concat oss) /\ Forall2 layer_out Ls oss.
Proof.
  intros HP Hb He Ls bss HF. induction HF as [|L bs Ls bss H1 HF IH]; intros HI pos acc fuel Hp Hf.
  - exists []. cbn [concat] in *. rewrite app_nil_r. apply at_pos in Hp as [_ Hp]. rewrite zlen_nil in Hp. split; [|constructor].
    destruct fuel; cbn [read_loop]; destruct (Z.ltb_spec pos (zlen buf)); try lia; reflexivity.
  - inversion HI as [|? ? (I1 & I2 & I3) HI']; subst. cbn [concat] in *. rewrite app_length in Hf. destruct fuel as [|fuel]; [lia|].
    destruct (layer_at chk P buf L bs pos _ HP Hb H1 Hp) as (size & p1 & c0 & r & A1 & A2 & A3 & A4 & A5 & A6 & A7 & A8 & A9 & bd & A10 & A11 & A12).
    assert (Hl : (0 < length bs)%nat) by (rewrite A10; cbn [layer_bytes length]; lia).
    cbn [read_loop]. destruct (at_pos _ _ _ Hp) as [Q1 Q2]. rewrite zlen_app in Q2. pose proof (zlen_nonneg (concat bss)).
    destruct (Z.ltb_spec pos (zlen buf)); [|unfold zlen in *; lia]. rewrite A1. cbn [bind]. rewrite !Z.eqb_refl. cbn [andb]. rewrite A2. cbn [bind].
    destruct (Z.eqb_spec size 0); [lia|]. rewrite A7. cbn [bind]. rewrite A5, A8 by lia. cbn [bind].
    destruct A9 as (bodies & vt & B1 & B2 & B3 & B4 & B5 & B6 & B7 & B8).
    destruct (read_feats_at extra P buf (lrName r) r vt HP Hb He B4 (wlFeats L) bodies (lrFeats r) B1 I1 I2 B8 0 0 0 None I I3) as (os & E & Hlen & HO).
    rewrite (E fuel) by lia. cbn [bind].
    destruct (IH HI' (p1 + size) (acc ++ os) fuel A6 ltac:(lia)) as (oss & E2 & F2).
    exists (os :: oss). split; [rewrite E2; cbn [concat]; rewrite app_assoc; reflexivity|]. constructor; auto. split; auto. rewrite <- B2. exact HO.
Qed.
