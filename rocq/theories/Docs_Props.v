(** Documents: layer data of a tileset, TileJSON, answers of the API, languages of a font. *)
From Coq Require Import String ZArith Reals List Lia Lra Bool Permutation.
From Verif Require Import GoBase Num Json StyleJson_Model StyleJson_Proofs StyleFile_Model Client_Model Font_Model Docs_Model Docs_Proofs.
From Verif Require Meta_Model Meta_Proofs Meta_Props Font_Props Client_Props.
Import ListNotations.
Open Scope Z_scope.

(** * C109: LayerData, mbtiles/metadata.go:96-127 *)
Definition int64 (n : Z) : Prop := - 2 ^ 63 <= n < 2 ^ 63.
Definition all {A} (P : A -> Prop) (o : option (list A)) : Prop := forall l, o = Some l -> Forall P l.
Definition attribute_wf (a : Attribute) : Prop := int64 (atCount a).
Definition layer_wf (l : Layer) : Prop := int64 (lyCount l) /\ int64 (lyAttributeCount l) /\ all attribute_wf (lyAttributes l).
Definition tilestats_wf (t : TileStats) : Prop := int64 (tsLayerCount t) /\ all layer_wf (tsLayers t).
Definition mvectorlayer_wf (v : MVectorLayer) : Prop := int64 (mvMinZoom v) /\ int64 (mvMaxZoom v).
Definition layerdata_wf (d : LayerData) : Prop :=
  (forall o, ldVectorLayers d = Some o -> all mvectorlayer_wf o) /\ (forall t, ldTileStats d = Some t -> tilestats_wf t).
(** What comes back: empty attribute lists and pointers to nil slices are nil *)
Definition settle_layer (l : Layer) : Layer := mkLy (lyName l) (lyCount l) (lyGeometry l) (lyAttributeCount l) (match lyAttributes l with Some [] => None | o => o end).
Definition settle_stats (t : TileStats) : TileStats := mkTS (tsLayerCount t) (option_map (map settle_layer) (tsLayers t)).
Definition settle_data (d : LayerData) : LayerData := mkLD (match ldVectorLayers d with Some None => None | o => o end) (option_map settle_stats (ldTileStats d)).

Ltac nodup := unfold distinct; match goal with |- NoDup ?l => let l' := eval vm_compute in l in change (NoDup l') end; repeat (apply NoDup_cons; [intros X; vm_compute in X; repeat (destruct X as [X|X]; [discriminate X|]); exact X|]); apply NoDup_nil.
Ltac items := repeat (apply Forall_cons; [cbn [iTy iDoc iP]|]); [..|apply Forall_nil].
Ltac item_fields F := repeat (let E := fresh "E" in apply Forall_cons_iff in F; destruct F as [E F]; cbn [iP iName] in E); clear F.
Ltac rewrite_fields := repeat match goal with E : ?x = _ |- context [?x] => rewrite E; clear E end.

Lemma any_elem j : elem no_custom TAny (fun x => x) any_of (fun x => x) j.
Proof. destruct j; eexists; split; reflexivity. Qed.
Lemma str_elem s : elem no_custom TString estr string_of (fun x => x) s.
Proof. eexists; split; reflexivity. Qed.
Lemma elem_all {A} t (e : A -> json) f g (P : A -> Prop) o : (forall x, P x -> elem no_custom t e f g x) -> all P o -> forall l, o = Some l -> Forall (elem no_custom t e f g) l.
Proof. intros H W l E. eapply Forall_impl; [exact H|]. apply W. exact E. Qed.
Lemma map_some_id {A} (o : option (list A)) : option_map (map (fun x => x)) o = o.
Proof. destruct o; cbn; rewrite ?map_id; reflexivity. Qed.

Lemma attribute_elem a : attribute_wf a -> elem no_custom AttributeT encAttribute attribute_of (fun x => x) a.
Proof.
  intros W. destruct (back_struct no_custom
    [mkItem (B "attribute") TString (Some (estr (atName a))) (fun v => string_of v = atName a);
     mkItem (B "count") TInt64 (Some (eint (atCount a))) (fun v => int_of v = atCount a);
     mkItem (B "type") TString (Some (estr (atType a))) (fun v => string_of v = atType a);
     mkItem (B "values") (TSlice TAny) (Some (eslice (fun x => x) (atValues a))) (fun v => option_map (map any_of) (slice_opt v) = option_map (map (fun x => x)) (atValues a))])
    as (v & Hv & F).
  - nodup.
  - items; [apply back_str|apply back_int; exact W|apply back_str|]. apply back_slice. intros l _. apply Forall_forall. intros j _. apply any_elem.
  - exists v. split; [exact Hv|]. item_fields F. unfold attribute_of. rewrite_fields. rewrite map_some_id. destruct a; reflexivity.
Qed.
Lemma layer_elem l : layer_wf l -> elem no_custom StatLayerT encLayer layer_of settle_layer l.
Proof.
  intros (W1 & W2 & W3). destruct (back_struct no_custom
    [mkItem (B "layer") TString (Some (estr (lyName l))) (fun v => string_of v = lyName l);
     mkItem (B "count") TInt64 (Some (eint (lyCount l))) (fun v => int_of v = lyCount l);
     mkItem (B "geometry") TString (Some (estr (lyGeometry l))) (fun v => string_of v = lyGeometry l);
     mkItem (B "attributeCount") TInt64 (Some (eint (lyAttributeCount l))) (fun v => int_of v = lyAttributeCount l);
     mkItem (B "attributes") (TSlice AttributeT) (oslice encAttribute (lyAttributes l)) (fun v => option_map (map attribute_of) (slice_opt v) = option_map (map (fun x => x)) (non_empty (lyAttributes l)))])
    as (v & Hv & F).
  - nodup.
  - items; [apply back_str|apply back_int; auto|apply back_str|apply back_int; auto|]. apply back_oslice. eapply elem_all; [|exact W3]. apply attribute_elem.
  - exists v. split; [exact Hv|]. item_fields F. unfold layer_of. rewrite_fields. rewrite map_some_id. unfold settle_layer. destruct (lyAttributes l) as [[|]|]; reflexivity.
Qed.
Lemma tilestats_elem t : tilestats_wf t -> elem no_custom TileStatsT encTileStats tilestats_of settle_stats t.
Proof.
  intros (W1 & W2). destruct (back_struct no_custom
    [mkItem (B "layerCount") TInt64 (Some (eint (tsLayerCount t))) (fun v => int_of v = tsLayerCount t);
     mkItem (B "layers") (TSlice StatLayerT) (Some (eslice encLayer (tsLayers t))) (fun v => option_map (map layer_of) (slice_opt v) = option_map (map settle_layer) (tsLayers t))])
    as (v & Hv & F).
  - nodup.
  - items; [apply back_int; auto|]. apply back_slice. eapply elem_all; [|exact W2]. apply layer_elem.
  - exists v. split; [exact Hv|]. item_fields F. unfold tilestats_of. rewrite_fields. reflexivity.
Qed.
Lemma mvectorlayer_elem l : mvectorlayer_wf l -> elem no_custom MVectorLayerT encMVectorLayer mvectorlayer_of (fun x => x) l.
Proof.
  intros (W1 & W2). destruct (back_struct no_custom
    [mkItem (B "id") TString (Some (estr (mvID l))) (fun v => string_of v = mvID l);
     mkItem (B "fields") (TMap TAny) (Some (emap (fun x => x) (mvFields l))) (fun v => option_map (map (fun kx => (fst kx, any_of (snd kx)))) (map_opt v) = mvFields l);
     mkItem (B "description") TString (ostr (mvDescription l)) (fun v => string_of v = mvDescription l);
     mkItem (B "minzoom") TInt64 (oint (mvMinZoom l)) (fun v => int_of v = mvMinZoom l);
     mkItem (B "maxzoom") TInt64 (oint (mvMaxZoom l)) (fun v => int_of v = mvMaxZoom l)])
    as (v & Hv & F).
  - nodup.
  - items; [apply back_str| |apply back_ostr|apply back_oint; auto|apply back_oint; auto]. apply back_map. intros fs _. apply Forall_forall. intros j _. apply any_elem.
  - exists v. split; [exact Hv|]. item_fields F. unfold mvectorlayer_of. rewrite_fields. destruct l; reflexivity.
Qed.
Lemma emit_not_null f : emit f <> JNull.
Proof. discriminate. Qed.

Theorem C109_round_trip : forall d, layerdata_wf d -> decLayerData (encLayerData d) = Val (Some (settle_data d)).
Proof.
  intros d (W1 & W2). destruct (back_struct no_custom
    [mkItem (B "vector_layers") (TPtr (TSlice MVectorLayerT)) (optr (eslice encMVectorLayer) (ldVectorLayers d))
       (fun v => option_map (fun p => option_map (map mvectorlayer_of) (slice_opt p)) (ptr_of v) = match ldVectorLayers d with Some None => None | o => o end);
     mkItem (B "tilestats") (TPtr TileStatsT) (optr encTileStats (ldTileStats d)) (fun v => option_map tilestats_of (ptr_of v) = option_map settle_stats (ldTileStats d))])
    as (v & Hv & F).
  - nodup.
  - items.
    + split; [reflexivity|]. destruct (ldVectorLayers d) as [[l|]|]; [|exists GZero; split; reflexivity..]. cbn [optr eslice value].
      destruct (back_list no_custom MVectorLayerT encMVectorLayer mvectorlayer_of (fun x => x) l) as (vs & H1 & H2).
      { eapply Forall_impl; [exact mvectorlayer_elem|]. apply (W1 (Some l)); reflexivity. }
      exists (GPtr (GSlice vs)). split; [apply ptr_good; right; split; [discriminate|eauto]|]. cbn. rewrite H2, map_id. reflexivity.
    + split; [reflexivity|]. destruct (ldTileStats d) as [t|]; [|exists GZero; split; reflexivity]. cbn [optr value].
      destruct (tilestats_elem t (W2 t eq_refl)) as (w & H1 & H2). exists (GPtr w). split; [apply ptr_good; right; split; [apply emit_not_null|eauto]|]. cbn. congruence.
  - item_fields F. unfold decLayerData. assert (Hp : Unmarshal no_custom (TPtr LayerDataT) (encLayerData d) = Val (GPtr v)).
    { apply ptr_good. right. split; [apply emit_not_null|]. eauto. }
    rewrite Hp. cbn [obind ptr_of option_map]. unfold layerdata_of. rewrite_fields. reflexivity.
Qed.
Print Assumptions C109_round_trip.
(** So the layer data that survive are those without empty attribute lists and without a pointer to a nil slice. *)
Theorem C109_identity : forall d, settle_data d = d <->
  ldVectorLayers d <> Some None /\ forall t ls l, ldTileStats d = Some t -> tsLayers t = Some ls -> In l ls -> lyAttributes l <> Some [].
Proof.
  intros [v s]. unfold settle_data. cbn [ldVectorLayers ldTileStats]. split.
  - intros H. injection H as H1 H2. split; [intros ->; discriminate|]. intros t ls l -> Hl Hin Ha. injection H2 as H2. destruct t as [n o]. cbn [tsLayers] in Hl. subst o.
    unfold settle_stats in H2. cbn [tsLayers tsLayerCount option_map] in H2. injection H2 as H2.
    assert (S : settle_layer l = l). { revert H2 Hin. clear. induction ls as [|a ls IH]; cbn [map]; intros H Hin; [destruct Hin|]; injection H as H1 H2; destruct Hin as [->|Hin]; auto. }
    rewrite <- S in Ha. unfold settle_layer in Ha. cbn [lyAttributes] in Ha. destruct (lyAttributes l) as [[|]|]; discriminate.
  - intros [H1 H2]. f_equal; [destruct v as [[l|]|]; auto; contradiction|]. destruct s as [[n [ls|]]|]; auto. cbn [option_map]. f_equal. unfold settle_stats. cbn [tsLayers tsLayerCount option_map].
    f_equal. f_equal. specialize (fun l => H2 _ _ l eq_refl eq_refl). clear -H2. induction ls as [|a ls IH]; [reflexivity|]. cbn [map]. f_equal; [|apply IH; intros l Hl; apply H2; right; exact Hl].
    specialize (H2 a (or_introl eq_refl)). destruct a as [a1 a2 a3 a4 [[|x r]|]]; auto. cbn in H2. congruence.
Qed.
Example C109_refuted : exists d, layerdata_wf d /\ decLayerData (encLayerData d) <> Val (Some d).
Proof.
  exists (mkLD (Some None) None). split; [split; [intros o H; injection H as <-; intros l; discriminate|discriminate]|].
  rewrite C109_round_trip; [discriminate|]. split; [intros o H; injection H as <-; intros l; discriminate|discriminate].
Qed.

Lemma dec_layerdata j : (exists r, decLayerData j = Val r) <-> exists v, Unmarshal no_custom (TPtr LayerDataT) j = Val v.
Proof. unfold decLayerData. destruct (Unmarshal no_custom (TPtr LayerDataT) j); cbn [obind]; split; intros [r H]; try discriminate; eauto. Qed.
Ltac members := repeat (apply Forall2_cons; [split; [reflexivity|cbn [snd]]|]); [..|apply Forall2_nil].
Ltac kinds := repeat first [apply reads_str|apply reads_float|apply reads_any|apply reads_int|apply reads_slice|apply reads_array|apply reads_map|apply reads_ptr; [left; reflexivity|]].

(** Documents written by other tools: which are read.  The rest is refused with an error. *)
Theorem C109_reads : forall j,
  decLayerData j <> Crash /\
  ((exists d, decLayerData j = Val d) <->
   obj_doc
     [(B "vector_layers", arr_doc (obj_doc
        [(B "id", str_doc); (B "fields", map_doc any_doc); (B "description", str_doc); (B "minzoom", int_doc (- 2 ^ 63) (2 ^ 63)); (B "maxzoom", int_doc (- 2 ^ 63) (2 ^ 63))]));
      (B "tilestats", obj_doc
        [(B "layerCount", int_doc (- 2 ^ 63) (2 ^ 63));
         (B "layers", arr_doc (obj_doc
            [(B "layer", str_doc); (B "count", int_doc (- 2 ^ 63) (2 ^ 63)); (B "geometry", str_doc); (B "attributeCount", int_doc (- 2 ^ 63) (2 ^ 63));
             (B "attributes", arr_doc (obj_doc [(B "attribute", str_doc); (B "count", int_doc (- 2 ^ 63) (2 ^ 63)); (B "type", str_doc); (B "values", arr_doc any_doc)]))]))])] j).
Proof.
  intros j. split.
  - unfold decLayerData. pose proof (plain_no_crash no_custom (TPtr LayerDataT) j eq_refl). destruct (Unmarshal no_custom (TPtr LayerDataT) j); cbn [obind]; congruence.
  - rewrite dec_layerdata. revert j. apply reads_ptr; [left; reflexivity|]. apply reads_struct; [nodup|]. members; kinds.
    + apply reads_struct; [nodup|]. members; kinds.
    + apply reads_struct; [nodup|]. members; kinds. apply reads_struct; [nodup|]. members; kinds. apply reads_struct; [nodup|]. members; kinds.
Qed.
Print Assumptions C109_reads.

(** Metadata with layer data go through the metadata table, as far as the JSON text of the layer data is read back. *)
Theorem C109_metadata : forall (text : json -> gstr) (parse : gstr -> option json) (m : Meta_Model.Metadata LayerData) d,
  Meta_Props.md_ok m -> Meta_Model.mLayerData m = Some d -> layerdata_wf d -> settle_data d = d -> Meta_Model.mMaxZoom m <> 0 ->
  text (encLayerData d) <> [] -> parse (text (encLayerData d)) = Some (encLayerData d) ->
  let enc x := text (encLayerData x) in
  let decj s := match parse s with Some j => match decLayerData j with Val r => Some r | _ => None end | None => None end in
  exists l, Meta_Model.ToMap enc m = Val l /\ forall rows tiles, Permutation rows l -> Meta_Model.GetMetadata decj rows tiles = Val (Meta_Props.stored m).
Proof.
  intros text parse m d O E W S Z T1 T2 enc decj. destruct (Meta_Props.C66_round_trip enc decj m O) as (l & H1 & H2).
  - intros d' E'. rewrite E in E'. injection E' as <-. split; [exact T1|]. unfold decj, enc. rewrite T2, C109_round_trip by exact W. rewrite S. reflexivity.
  - exists l. split; [exact H1|]. intros rows tiles P. destruct (H2 [] rows tiles P) as (_ & H3 & _). auto.
Qed.
Print Assumptions C109_metadata.

(** What stands in the documents: the optional members only when there is something to say *)
Definition present (l : list (gstr * bool)) : list gstr := map fst (filter snd l).
Definition members_of (j : json) : list gstr := match j with JObj l => map fst l | _ => [] end.
Definition given {A} (o : option (list A)) : bool := match o with Some (_ :: _) => true | _ => false end.
Theorem C109_written :
  (forall d, members_of (encLayerData d) = present [(B "vector_layers", match ldVectorLayers d with Some _ => true | None => false end); (B "tilestats", match ldTileStats d with Some _ => true | None => false end)]) /\
  (forall v, members_of (encMVectorLayer v) = present [(B "id", true); (B "fields", true); (B "description", negb (seqb (mvDescription v) [])); (B "minzoom", negb (mvMinZoom v =? 0)); (B "maxzoom", negb (mvMaxZoom v =? 0))]) /\
  (forall t, members_of (encTileStats t) = [B "layerCount"; B "layers"]) /\
  (forall l, members_of (encLayer l) = present [(B "layer", true); (B "count", true); (B "geometry", true); (B "attributeCount", true); (B "attributes", given (lyAttributes l))]) /\
  (forall a, members_of (encAttribute a) = [B "attribute"; B "count"; B "type"; B "values"]).
Proof.
  split; [|split; [|split; [|split]]].
  - intros [[v|] [t|]]; reflexivity.
  - intros [i f de mi ma]. unfold encMVectorLayer. cbn [mvID mvFields mvDescription mvMinZoom mvMaxZoom]. unfold oint. destruct de as [|c de]; destruct (mi =? 0), (ma =? 0); reflexivity.
  - reflexivity.
  - intros [n c g k [[|a r]|]]; reflexivity.
  - reflexivity.
Qed.
Print Assumptions C109_written.

Definition ld_example : LayerData :=
  mkLD (Some (Some [mkMV (B "water") (Some [(B "class", JStr (B "String"))]) [] 0 14]))
    (Some (mkTS 1 (Some [mkLy (B "water") 20 (B "Polygon") 1 (Some [mkAt (B "class") 2 (B "string") (Some [JStr (B "ocean"); JNull])])]))).
Example C109_nonvacuous : layerdata_wf ld_example /\ settle_data ld_example = ld_example /\
  decLayerData (encLayerData ld_example) = Val (Some ld_example) /\
  (exists k, encLayerData ld_example = JObj k /\ map fst k = [B "vector_layers"; B "tilestats"]) /\
  decLayerData (JObj [(B "VECTOR_LAYERS", JArr [JObj [(B "minzoom", JStr (B "0"))]])]) = Err.
Proof.
  assert (W : layerdata_wf ld_example).
  { split.
    - intros o H. injection H as <-. intros l H. injection H as <-. apply Forall_cons; [split; cbn; unfold int64; lia|apply Forall_nil].
    - intros t H. injection H as <-. split; [cbn; unfold int64; lia|]. intros l H. injection H as <-. apply Forall_cons; [|apply Forall_nil].
      split; [cbn; unfold int64; lia|split; [cbn; unfold int64; lia|]]. intros l H. injection H as <-. apply Forall_cons; [cbn; unfold attribute_wf, int64; cbn; lia|apply Forall_nil]. }
  split; [exact W|]. split; [reflexivity|]. split; [rewrite C109_round_trip by exact W; reflexivity|]. split; [eexists; split; reflexivity|reflexivity].
Qed.

(** * C110: TileJSON documents, tilejson/tilejson.go *)
Definition uint64 (n : Z) : Prop := 0 <= n < 2 ^ 64.
Definition vl_wf (l : VectorLayer) : Prop := int64 (vlVersion l) /\ int64 (vlExtent l) /\ uint64 (vlMinZoom l) /\ uint64 (vlMaxZoom l).
Definition tj_wf (t : TileJSON) : Prop :=
  length (tjBounds t) = 4%nat /\ length (tjCenter t) = 3%nat /\ uint64 (tjMinZoom t) /\ uint64 (tjMaxZoom t) /\ 0 <= tjTileSize t < 2 ^ 32 /\ all vl_wf (tjVectorLayers t).
(** What comes back: empty feature tags and an empty list of vector layers are nil *)
Definition settle_vl (l : VectorLayer) : VectorLayer :=
  mkVL (vlVersion l) (vlExtent l) (vlID l) (vlSource l) (vlName l) (vlFields l) (match vlFeatureTags l with Some [] => None | o => o end)
    (vlGeometryType l) (vlMinZoom l) (vlMaxZoom l) (vlTiles l).
Definition settle_tj (t : TileJSON) : TileJSON :=
  mkTJ (tjId t) (tjAttribution t) (tjBounds t) (tjCenter t) (tjFormat t) (tjMinZoom t) (tjMaxZoom t) (tjName t) (tjDescription t) (tjScheme t)
    (tjTileJSON t) (tjTiles t) (tjGrids t) (tjData t) (tjVersion t) (tjTemplate t) (tjLegend t)
    (match tjVectorLayers t with Some [] => None | o => option_map (map settle_vl) o end) (tjType t) (tjTileSize t).

Lemma strs_elem o : forall l, o = Some l -> Forall (elem no_custom TString estr string_of (fun x => x)) l.
Proof. intros l _. apply Forall_forall. intros s _. apply str_elem. Qed.
Ltac back_kinds := first [apply back_str|apply back_ostr|apply back_strptr|apply back_int; assumption|apply back_array; assumption|apply back_slice; apply strs_elem|apply back_oslice; apply strs_elem|idtac].
Lemma vectorlayer_elem l : vl_wf l -> elem no_custom VectorLayerT encVectorLayer vectorlayer_of settle_vl l.
Proof.
  intros (W1 & W2 & W3 & W4). destruct (back_struct no_custom
    [mkItem (B "version") TInt64 (Some (eint (vlVersion l))) (fun g => int_of g = vlVersion l);
     mkItem (B "extent") TInt64 (Some (eint (vlExtent l))) (fun g => int_of g = vlExtent l);
     mkItem (B "id") TString (Some (estr (vlID l))) (fun g => string_of g = vlID l);
     mkItem (B "source") TString (Some (estr (vlSource l))) (fun g => string_of g = vlSource l);
     mkItem (B "source_name") TString (Some (estr (vlName l))) (fun g => string_of g = vlName l);
     mkItem (B "fields") (TMap TString) (Some (emap estr (vlFields l))) (fun g => option_map (map (fun kx => (fst kx, string_of (snd kx)))) (map_opt g) = vlFields l);
     mkItem (B "feature_tags") (TSlice TString) (oslice estr (vlFeatureTags l)) (fun g => option_map (map string_of) (slice_opt g) = option_map (map (fun x => x)) (non_empty (vlFeatureTags l)));
     mkItem (B "geometry_type") TString (ostr (vlGeometryType l)) (fun g => string_of g = vlGeometryType l);
     mkItem (B "minzoom") TUint (Some (eint (vlMinZoom l))) (fun g => int_of g = vlMinZoom l);
     mkItem (B "maxzoom") TUint (Some (eint (vlMaxZoom l))) (fun g => int_of g = vlMaxZoom l);
     mkItem (B "tiles") (TSlice TString) (Some (eslice estr (vlTiles l))) (fun g => option_map (map string_of) (slice_opt g) = option_map (map (fun x => x)) (vlTiles l))])
    as (v & Hv & F).
  - nodup.
  - items; back_kinds. apply back_map. intros fs _. apply Forall_forall. intros j _. apply str_elem.
  - exists v. split; [exact Hv|]. item_fields F. unfold vectorlayer_of, strings_of. rewrite_fields. rewrite !map_some_id. unfold settle_vl. destruct (vlFeatureTags l) as [[|]|]; reflexivity.
Qed.
Theorem C110_round_trip : forall t, tj_wf t -> decTileJSON (encTileJSON t) = Val (settle_tj t).
Proof.
  intros t (W1 & W2 & W3 & W4 & W5 & W6). destruct (back_struct no_custom
    [mkItem (B "id") TString (Some (estr (tjId t))) (fun g => string_of g = tjId t);
     mkItem (B "attribution") (TPtr TString) (Some (eptr estr (tjAttribution t))) (fun g => string_ptr g = tjAttribution t);
     mkItem (B "bounds") (TArray 4 TFloat) (Some (JArr (map JNum (tjBounds t)))) (fun g => floats_of 4 g = tjBounds t);
     mkItem (B "center") (TArray 3 TFloat) (Some (JArr (map JNum (tjCenter t)))) (fun g => floats_of 3 g = tjCenter t);
     mkItem (B "format") TString (Some (estr (tjFormat t))) (fun g => string_of g = tjFormat t);
     mkItem (B "minzoom") TUint (Some (eint (tjMinZoom t))) (fun g => int_of g = tjMinZoom t);
     mkItem (B "maxzoom") TUint (Some (eint (tjMaxZoom t))) (fun g => int_of g = tjMaxZoom t);
     mkItem (B "name") (TPtr TString) (Some (eptr estr (tjName t))) (fun g => string_ptr g = tjName t);
     mkItem (B "description") (TPtr TString) (Some (eptr estr (tjDescription t))) (fun g => string_ptr g = tjDescription t);
     mkItem (B "scheme") TString (Some (estr (tjScheme t))) (fun g => string_of g = tjScheme t);
     mkItem (B "tilejson") TString (Some (estr (tjTileJSON t))) (fun g => string_of g = tjTileJSON t);
     mkItem (B "tiles") (TSlice TString) (Some (eslice estr (tjTiles t))) (fun g => option_map (map string_of) (slice_opt g) = option_map (map (fun x => x)) (tjTiles t));
     mkItem (B "grids") (TSlice TString) (Some (eslice estr (tjGrids t))) (fun g => option_map (map string_of) (slice_opt g) = option_map (map (fun x => x)) (tjGrids t));
     mkItem (B "data") (TSlice TString) (Some (eslice estr (tjData t))) (fun g => option_map (map string_of) (slice_opt g) = option_map (map (fun x => x)) (tjData t));
     mkItem (B "version") TString (Some (estr (tjVersion t))) (fun g => string_of g = tjVersion t);
     mkItem (B "template") (TPtr TString) (Some (eptr estr (tjTemplate t))) (fun g => string_ptr g = tjTemplate t);
     mkItem (B "legend") (TPtr TString) (Some (eptr estr (tjLegend t))) (fun g => string_ptr g = tjLegend t);
     mkItem (B "vector_layers") (TSlice VectorLayerT) (oslice encVectorLayer (tjVectorLayers t)) (fun g => option_map (map vectorlayer_of) (slice_opt g) = option_map (map settle_vl) (non_empty (tjVectorLayers t)));
     mkItem (B "type") TString (Some (estr (tjType t))) (fun g => string_of g = tjType t);
     mkItem (B "tileSize") TUint32 (Some (eint (tjTileSize t))) (fun g => int_of g = tjTileSize t)])
    as (v & Hv & F).
  - nodup.
  - items; back_kinds. apply back_oslice. eapply elem_all; [|exact W6]. apply vectorlayer_elem.
  - unfold decTileJSON. change (Unmarshal no_custom TileJSONT (encTileJSON t) = Val v) in Hv. rewrite Hv. cbn [obind]. f_equal.
    item_fields F. unfold tilejson_of, strings_of. rewrite_fields. rewrite !map_some_id. unfold settle_tj. destruct (tjVectorLayers t) as [[|]|]; reflexivity.
Qed.
Print Assumptions C110_round_trip.

(** A document from elsewhere is read iff its members have the right kinds; reading never panics. *)
Definition vector_layer_doc : json -> Prop := obj_doc
         [(B "version", int_doc (- 2 ^ 63) (2 ^ 63)); (B "extent", int_doc (- 2 ^ 63) (2 ^ 63)); (B "id", str_doc); (B "source", str_doc); (B "source_name", str_doc); (B "fields", map_doc str_doc); (B "feature_tags", arr_doc str_doc); (B "geometry_type", str_doc); (B "minzoom", int_doc 0 (2 ^ 64)); (B "maxzoom", int_doc 0 (2 ^ 64)); (B "tiles", arr_doc str_doc)].
Theorem C110_reads : forall j, decTileJSON j <> Crash /\ ((exists t, decTileJSON j = Val t) <-> obj_doc
     [(B "id", str_doc); (B "attribution", str_doc); (B "bounds", fixed_doc 4 num_doc); (B "center", fixed_doc 3 num_doc); (B "format", str_doc); (B "minzoom", int_doc 0 (2 ^ 64)); (B "maxzoom", int_doc 0 (2 ^ 64)); (B "name", str_doc); (B "description", str_doc); (B "scheme", str_doc); (B "tilejson", str_doc); (B "tiles", arr_doc str_doc); (B "grids", arr_doc str_doc); (B "data", arr_doc str_doc); (B "version", str_doc); (B "template", str_doc); (B "legend", str_doc); (B "vector_layers", arr_doc vector_layer_doc); (B "type", str_doc); (B "tileSize", int_doc 0 (2 ^ 32))] j).
Proof.
  intros j. split.
  - unfold decTileJSON. pose proof (plain_no_crash no_custom TileJSONT j eq_refl). destruct (Unmarshal no_custom TileJSONT j); cbn [obind]; congruence.
  - assert (E : (exists t, decTileJSON j = Val t) <-> exists v, Unmarshal no_custom TileJSONT j = Val v).
    { unfold decTileJSON. destruct (Unmarshal no_custom TileJSONT j); cbn [obind]; split; intros [r H]; try discriminate; eauto. }
    rewrite E. clear E. revert j. apply reads_struct; [nodup|]. members; kinds. apply reads_struct; [nodup|]. members; kinds.
Qed.
Print Assumptions C110_reads.

(** What is read: the members by name, null or absent ones as the zero value *)
Definition str_value (x : json) (s : gstr) : Prop := (x = JNull /\ s = []) \/ x = JStr s.
Definition ptr_value (x : json) (o : option gstr) : Prop := match o with None => x = JNull | Some s => x = JStr s end.
Definition int_value (x : json) (n : Z) : Prop := (x = JNull /\ n = 0) \/ x = JNum (IZR n).
(** Elements past the end of the document's array, and null ones, are 0 *)
Definition num_value (x : option json) (r : R) : Prop := match x with Some (JNum q) => r = q | _ => r = 0%R end.
Definition arr_value (n : nat) (x : json) (l : list R) : Prop :=
  length l = n /\ forall i, (i < n)%nat -> num_value (match x with JArr d => nth_error d i | _ => None end) (nth i l 0%R).
Definition list_value {A} (P : json -> A -> Prop) (x : json) (o : option (list A)) : Prop :=
  match o with None => x = JNull | Some l => exists d, x = JArr d /\ Forall2 P d l end.
Definition strs_value : json -> option (list gstr) -> Prop := list_value str_value.
Definition map_value (x : json) (o : option (list (gstr * gstr))) : Prop :=
  match o with None => x = JNull | Some l => exists d, x = JObj d /\ Forall2 (fun a b => fst a = fst b /\ str_value (snd a) (snd b)) d l end.
Definition layer_value (x : json) (l : VectorLayer) : Prop :=
  int_value (doc_field (B "version") x) (vlVersion l) /\
  int_value (doc_field (B "extent") x) (vlExtent l) /\
  str_value (doc_field (B "id") x) (vlID l) /\
  str_value (doc_field (B "source") x) (vlSource l) /\
  str_value (doc_field (B "source_name") x) (vlName l) /\
  map_value (doc_field (B "fields") x) (vlFields l) /\
  strs_value (doc_field (B "feature_tags") x) (vlFeatureTags l) /\
  str_value (doc_field (B "geometry_type") x) (vlGeometryType l) /\
  int_value (doc_field (B "minzoom") x) (vlMinZoom l) /\
  int_value (doc_field (B "maxzoom") x) (vlMaxZoom l) /\
  strs_value (doc_field (B "tiles") x) (vlTiles l).
Definition layers_value : json -> option (list VectorLayer) -> Prop := list_value layer_value.
Lemma string_value c x v : Unmarshal c TString x = Val v -> str_value x (string_of v).
Proof. intros H. apply string_good in H. destruct H as [[-> ->]|(s & -> & ->)]; [left; auto|right; reflexivity]. Qed.
Lemma string_ptr_value c x v : Unmarshal c (TPtr TString) x = Val v -> ptr_value x (string_ptr v).
Proof.
  intros H. apply ptr_good in H. destruct H as [[-> ->]|(N & w & -> & H)]; [reflexivity|]. apply string_good in H. destruct H as [[-> ->]|(s & -> & ->)]; [contradiction|reflexivity].
Qed.
Lemma integer_value c lo hi x v : Unmarshal c (TInt lo hi) x = Val v -> int_value x (int_of v).
Proof. intros H. apply int_good_inv in H. destruct H as [[-> ->]|(n & _ & -> & ->)]; [left; auto|right; reflexivity]. Qed.
Lemma slice_value {A} c t (f : gv -> A) (P : json -> A -> Prop) x v : (forall y w, Unmarshal c t y = Val w -> P y (f w)) -> Unmarshal c (TSlice t) x = Val v -> list_value P x (option_map (map f) (slice_opt v)).
Proof.
  intros K H. apply slice_good in H. destruct H as [[-> ->]|(l & vs & -> & -> & F)]; [reflexivity|]. exists l. split; [reflexivity|]. induction F as [|y w l vs Hy F IH]; constructor; auto.
Qed.
Lemma array_value c n x v : Unmarshal c (TArray n TFloat) x = Val v -> arr_value n x (floats_of n v).
Proof.
  intros H. split; [unfold floats_of; rewrite map_length, seq_length; reflexivity|]. intros i Hi. unfold floats_of.
  rewrite (nth_indep _ 0%R (float_of (nth 0 (slice_of v) GZero))) by (rewrite map_length, seq_length; exact Hi).
  rewrite (map_nth (fun i => float_of (nth i (slice_of v) GZero))), seq_nth by exact Hi. cbn [Nat.add].
  destruct x as [|b|r|s|l|l]; try discriminate; [injection H as <-; cbn; destruct i; reflexivity|]. rewrite array_slice in H.
  apply slice_good in H. destruct H as [[H _]|(l' & vs & H & -> & F)]; [discriminate|]. injection H as <-. cbn [slice_of].
  destruct (nth_error l i) as [y|] eqn:E.
  - assert (E' : nth_error (firstn n l) i = Some y) by (apply nth_error_firstn_iff; auto). clear E. revert i Hi E'. induction F as [|a w l0 vs Ha F IH]; intros i Hi E; [destruct i; discriminate|].
    destruct i as [|i]; cbn [nth_error nth] in *; [|apply IH; [lia|exact E]]. injection E as ->. apply float_good in Ha. destruct Ha as [[-> ->]|(r & -> & ->)]; reflexivity.
  - cbn [num_value]. rewrite nth_overflow; [reflexivity|]. assert (L : length vs = length (firstn n l)) by (clear -F; induction F; cbn [length]; auto). rewrite L, firstn_length. apply nth_error_None in E. lia.
Qed.
Lemma strmap_value c x v : Unmarshal c (TMap TString) x = Val v -> map_value x (option_map (map (fun kx => (fst kx, string_of (snd kx)))) (map_opt v)).
Proof.
  intros H. apply map_good in H. destruct H as [[-> ->]|(l & vs & -> & -> & F)]; [reflexivity|]. exists l. split; [reflexivity|].
  induction F as [|y w l vs [H1 H2] F IH]; cbn [map]; constructor; auto. cbn [fst snd]. split; [exact H1|eapply string_value; exact H2].
Qed.
Definition fields_of (t : ty) : list (gstr * ty) := match t with TStruct fs => fs | _ => [] end.
Lemma distinct_vl : distinct (fields_of VectorLayerT).
Proof. nodup. Qed.
Lemma distinct_tj : distinct (fields_of TileJSONT).
Proof. nodup. Qed.
Ltac infs := vm_compute; repeat first [left; reflexivity | right].
Ltac field_of_doc fl D H := let c := match type of H with Unmarshal ?c _ _ = _ => c end in first
  [apply (string_value c); refine (field_value_flat _ _ _ _ _ _ fl D _ H _); [infs|reflexivity]
  |apply (string_ptr_value c); refine (field_value_flat _ _ _ _ _ _ fl D _ H _); [infs|reflexivity]
  |eapply (integer_value c); refine (field_value_flat _ _ _ _ _ _ fl D _ H _); [infs|reflexivity]
  |apply (array_value c); refine (field_value_flat _ _ _ _ _ _ fl D _ H _); [infs|reflexivity]
  |apply (strmap_value c); refine (field_value_flat _ _ _ _ _ _ fl D _ H _); [infs|reflexivity]
  |apply (slice_value c TString string_of str_value); [exact (string_value c)|]; refine (field_value_flat _ _ _ _ _ _ fl D _ H _); [infs|reflexivity]
  |idtac].

(** No object of the document that is read as a struct has two members whose keys differ in case only. *)
Definition keys_once (j : json) : Prop := flat j /\ forall d x, doc_field (B "vector_layers") j = JArr d -> In x d -> flat x.
Lemma vectorlayer_value x v : flat x -> Unmarshal no_custom VectorLayerT x = Val v -> layer_value x (vectorlayer_of v).
Proof. intros fl H. pose proof distinct_vl as D. unfold layer_value, vectorlayer_of. cbn [vlVersion vlExtent vlID vlSource vlName vlFields vlFeatureTags vlGeometryType vlMinZoom vlMaxZoom vlTiles]. unfold strs_value, strings_of; repeat match goal with |- _ /\ _ => split end; field_of_doc fl D H. Qed.
Theorem C110_values : forall j t, keys_once j -> decTileJSON j = Val t ->
  str_value (doc_field (B "id") j) (tjId t) /\
  ptr_value (doc_field (B "attribution") j) (tjAttribution t) /\
  arr_value 4 (doc_field (B "bounds") j) (tjBounds t) /\
  arr_value 3 (doc_field (B "center") j) (tjCenter t) /\
  str_value (doc_field (B "format") j) (tjFormat t) /\
  int_value (doc_field (B "minzoom") j) (tjMinZoom t) /\
  int_value (doc_field (B "maxzoom") j) (tjMaxZoom t) /\
  ptr_value (doc_field (B "name") j) (tjName t) /\
  ptr_value (doc_field (B "description") j) (tjDescription t) /\
  str_value (doc_field (B "scheme") j) (tjScheme t) /\
  str_value (doc_field (B "tilejson") j) (tjTileJSON t) /\
  strs_value (doc_field (B "tiles") j) (tjTiles t) /\
  strs_value (doc_field (B "grids") j) (tjGrids t) /\
  strs_value (doc_field (B "data") j) (tjData t) /\
  str_value (doc_field (B "version") j) (tjVersion t) /\
  ptr_value (doc_field (B "template") j) (tjTemplate t) /\
  ptr_value (doc_field (B "legend") j) (tjLegend t) /\
  layers_value (doc_field (B "vector_layers") j) (tjVectorLayers t) /\
  str_value (doc_field (B "type") j) (tjType t) /\
  int_value (doc_field (B "tileSize") j) (tjTileSize t).
Proof.
  intros j t [fl fls] D. unfold decTileJSON in D. destruct (Unmarshal no_custom TileJSONT j) as [v| |] eqn:H; cbn [obind] in D; try discriminate. injection D as <-. pose proof distinct_tj as D.
  unfold tilejson_of. cbn [tjId tjAttribution tjBounds tjCenter tjFormat tjMinZoom tjMaxZoom tjName tjDescription tjScheme tjTileJSON tjTiles tjGrids tjData tjVersion tjTemplate tjLegend tjVectorLayers tjType tjTileSize]. unfold strs_value, strings_of; repeat match goal with |- _ /\ _ => split end; field_of_doc fl D H.
  assert (K : Unmarshal no_custom (TSlice VectorLayerT) (doc_field (B "vector_layers") j) = Val (gfield (B "vector_layers") v)).
  { refine (field_value_flat _ _ _ _ _ _ fl D _ H _); [infs|reflexivity]. }
  apply slice_good in K. destruct K as [[-> ->]|(l & vs & E & -> & F)]; [reflexivity|]. rewrite E. exists l. split; [reflexivity|]. specialize (fun x => fls l x E). clear -F fls.
  induction F as [|y w l vs Hy F IH]; cbn [map]; constructor; [apply vectorlayer_value; auto with datatypes|apply IH; auto with datatypes].
Qed.
Print Assumptions C110_values.

(** So the documents that survive are those without empty lists of vector layers or feature tags. *)
Theorem C110_identity : forall t, settle_tj t = t <-> tjVectorLayers t <> Some [] /\ forall ls l, tjVectorLayers t = Some ls -> In l ls -> vlFeatureTags l <> Some [].
Proof.
  intros t. split.
  - intros H. pose proof (f_equal tjVectorLayers H) as E. unfold settle_tj in E. cbn [tjVectorLayers] in E. split; [intros K; rewrite K in E; discriminate|].
    intros ls l K Hin Ha. rewrite K in E. destruct ls as [|a ls]; [destruct Hin|]. cbn [option_map] in E. injection E as E.
    assert (S : settle_vl l = l). { change (settle_vl a = a /\ map settle_vl ls = ls) in E || idtac. assert (F : map settle_vl (a :: ls) = a :: ls) by (cbn [map]; f_equal; assumption).
      revert F Hin. generalize (a :: ls). clear. intros ls. induction ls as [|b ls IH]; cbn [map]; intros F Hin; [destruct Hin|]. injection F as F1 F2. destruct Hin as [->|Hin]; auto. }
    rewrite <- S in Ha. unfold settle_vl in Ha. cbn [vlFeatureTags] in Ha. destruct (vlFeatureTags l) as [[|]|]; discriminate.
  - intros [H1 H2]. unfold settle_tj. destruct t as [t1 t2 t3 t4 t5 t6 t7 t8 t9 t10 t11 t12 t13 t14 t15 t16 t17 o t19 t20]. cbn [tjVectorLayers tjId tjAttribution tjBounds tjCenter tjFormat tjMinZoom tjMaxZoom tjName tjDescription tjScheme tjTileJSON tjTiles tjGrids tjData tjVersion tjTemplate tjLegend tjType tjTileSize] in *.
    f_equal. destruct o as [ls|]; [|reflexivity]. specialize (fun l => H2 ls l eq_refl). destruct ls as [|a ls]; [contradiction|]. cbn [option_map]. f_equal. clear H1. revert H2. generalize (a :: ls). clear. intros ls H.
    induction ls as [|b ls IH]; [reflexivity|]. cbn [map]. f_equal; [|apply IH; intros l Hl; apply H; right; exact Hl].
    specialize (H b (or_introl eq_refl)). destruct b as [b1 b2 b3 b4 b5 b6 [[|x r]|] b8 b9 b10 b11]; cbn in *; auto. congruence.
Qed.
Definition vl_example : VectorLayer := mkVL 2 4096 (B "water") [] [] (Some [(B "class", B "String")]) None (B "polygon") 0 14 None.
Definition tj_example : TileJSON :=
  mkTJ (B "a.b") (Some []) (NewTileBounds (-180) (-85) 180 85) (NewTileCenter 0 0 2) (B "pbf") 0 14 None None (B "xyz") (B "2.2.0") (Some [B "https://h/{z}"]) None (Some [])
    (B "1.0.0") None None (Some [vl_example]) (B "vector") 512.
Example C110_nonvacuous : tj_wf tj_example /\ settle_tj tj_example = tj_example /\ decTileJSON (encTileJSON tj_example) = Val tj_example /\
  (forall a b c d, decTileJSON (JObj [(B "Bounds", JArr [JNum a; JNum b; JNum c; JNum d; JStr (B "x")])]) =
     Val (mkTJ [] None (NewTileBounds a b c d) (NewTileCenter 0 0 0) [] 0 0 None None [] [] None None None [] None None None [] 0)) /\
  (forall a b c, decTileJSON (JObj [(B "center", JArr [JNum a; JNum b; JNum c])]) =
     Val (mkTJ [] None (NewTileBounds 0 0 0 0) (NewTileCenter a b c) [] 0 0 None None [] [] None None None [] None None None [] 0)) /\
  decTileJSON (JObj [(B "bounds", JArr [JNum 1; JStr (B "2")])]) = Err.
Proof.
  assert (W : tj_wf tj_example).
  { unfold tj_wf, tj_example, uint64. cbn [tjBounds tjCenter tjMinZoom tjMaxZoom tjTileSize tjVectorLayers NewTileBounds NewTileCenter length]. repeat (split; [reflexivity || lia|]).
    intros l H. injection H as <-. apply Forall_cons; [|apply Forall_nil]. unfold vl_wf, int64, uint64. cbn. lia. }
  split; [exact W|]. split; [reflexivity|]. split; [rewrite C110_round_trip by exact W; reflexivity|]. split; [intros; reflexivity|]. split; [intros; reflexivity|reflexivity].
Qed.
Theorem C110_written :
  (forall t, members_of (encTileJSON t) = present
     [(B "id", true); (B "attribution", true); (B "bounds", true); (B "center", true); (B "format", true); (B "minzoom", true); (B "maxzoom", true); (B "name", true); (B "description", true); (B "scheme", true); (B "tilejson", true); (B "tiles", true);
      (B "grids", true); (B "data", true); (B "version", true); (B "template", true); (B "legend", true); (B "vector_layers", given (tjVectorLayers t)); (B "type", true); (B "tileSize", true)]) /\
  (forall v, members_of (encVectorLayer v) = present
     [(B "version", true); (B "extent", true); (B "id", true); (B "source", true); (B "source_name", true); (B "fields", true); (B "feature_tags", given (vlFeatureTags v)); (B "geometry_type", negb (seqb (vlGeometryType v) []));
      (B "minzoom", true); (B "maxzoom", true); (B "tiles", true)]).
Proof.
  split.
  - intros t. unfold encTileJSON, oslice. destruct (tjVectorLayers t) as [[|l r]|]; reflexivity.
  - intros v. unfold encVectorLayer, oslice, ostr. destruct (vlFeatureTags v) as [[|l r]|], (vlGeometryType v); reflexivity.
Qed.
Print Assumptions C110_written.
Example C110_refuted : exists t, tj_wf t /\ decTileJSON (encTileJSON t) <> Val t.
Proof.
  exists (mkTJ [] None [0; 0; 0; 0]%R [0; 0; 0]%R [] 0 0 None None [] [] None None None [] None None (Some []) [] 0).
  assert (W : tj_wf (mkTJ [] None [0; 0; 0; 0]%R [0; 0; 0]%R [] 0 0 None None [] [] None None None [] None None (Some []) [] 0)).
  { unfold tj_wf, uint64. cbn [tjBounds tjCenter tjMinZoom tjMaxZoom tjTileSize tjVectorLayers length]. repeat (split; [reflexivity || lia|]). intros l H. injection H as <-. apply Forall_nil. }
  split; [exact W|]. rewrite C110_round_trip by exact W. discriminate.
Qed.
Print Assumptions C110_identity.

(** * C111: single documents from the API, client/client.go *)
Lemma auth_empty token b : addAuthentication token (mkURL b []) = mkURL b (B "access_token=" ++ QueryEscape token).
Proof. reflexivity. Qed.
(** One request; the answer decides through its body alone, whatever its status is. *)
Theorem C111_tilejson : forall send token ids, ids <> [] -> Forall Client_Props.seg_ok ids ->
  GetTileJSON send token ids =
  match send (mkURL (B "https://api.mapbox.com/v4/" ++ join_with (B ",") ids ++ B ".json") (B "access_token=" ++ QueryEscape token)) with
  | Some (mkResp _ _ (Some j)) => decTileJSON j
  | _ => Err
  end.
Proof.
  intros send token ids N F. unfold GetTileJSON, do. rewrite auth_empty.
  destruct (Client_Props.C93_paths (B "u")) as (_ & _ & _ & K & _); [|].
  2:{ rewrite K by auto. unfold base. rewrite app_assoc. change (B "https://api.mapbox.com/" ++ B "v4/") with (B "https://api.mapbox.com/v4/").
      destruct (send _) as [[st ln [j|]]|]; cbn [rBody obind]; try reflexivity. unfold decTileJSON. destruct (Unmarshal no_custom TileJSONT j); reflexivity. }
  Client_Props.seglit.
Qed.
Theorem C111_style : forall send token u id draft, Client_Props.seg_ok u -> Client_Props.seg_ok id ->
  GetStyle send token u id draft =
  match send (mkURL (B "https://api.mapbox.com/styles/v1/" ++ u ++ B "/" ++ id ++ (if draft then B "/draft" else [])) (B "access_token=" ++ QueryEscape token)) with
  | Some (mkResp _ _ (Some j)) => Unmarshal style_custom StyleT j
  | _ => Err
  end.
Proof.
  intros send token u id draft Hu Hi. unfold GetStyle, do. rewrite auth_empty. destruct (Client_Props.C93_paths u Hu) as (_ & _ & K & _). destruct (K id Hi) as [K1 K2].
  assert (E : base (stylePath u id draft) = B "https://api.mapbox.com/styles/v1/" ++ u ++ B "/" ++ id ++ (if draft then B "/draft" else [])).
  { unfold base. destruct draft; [rewrite K2|rewrite K1, app_nil_r]; rewrite app_assoc; reflexivity. }
  rewrite E. destruct (send _) as [[st ln [j|]]|]; cbn [rBody obind]; try reflexivity. destruct (Unmarshal style_custom StyleT j); reflexivity.
Qed.
Print Assumptions C111_tilejson.
Print Assumptions C111_style.
(** An answer that has none of the members, as error messages have, is a document of zero values and no error. *)
Definition zero_tilejson : TileJSON :=
  mkTJ [] None [0; 0; 0; 0]%R [0; 0; 0]%R [] 0 0 None None [] [] None None None [] None None None [] 0.
Lemma unknown_members custom fs l : (forall k x n t, In (k, x) l -> In (n, t) fs -> ~ same_key n k) -> Unmarshal custom (TStruct fs) (JObj l) = Val (GStruct []).
Proof.
  intros H. apply unmarshal_good. cbn [decode].
  assert (E : field_results (map (fun '(n, t') => (n, decode custom t')) fs) l = []).
  { induction l as [|[k x] l IH]; [reflexivity|]. unfold field_results. cbn [flat_map]. rewrite find_field. fold (field_results (map (fun '(n, t') => (n, decode custom t')) fs) l).
    rewrite IH by (intros; eapply H; eauto; right; eauto). destruct (field_of fs k) as [[n t]|] eqn:E; [|reflexivity]. apply find_some in E. destruct E as [E1 E2]. cbn [fst] in E2.
    exfalso. apply (H k x n t); auto with datatypes. apply keyeq_spec. exact E2. }
  rewrite E. reflexivity.
Qed.
Theorem C111_message : forall l,
  ((forall k x n, In (k, x) l -> In n [B "id"; B "attribution"; B "bounds"; B "center"; B "format"; B "minzoom"; B "maxzoom"; B "name"; B "description"; B "scheme"; B "tilejson"; B "tiles";
      B "grids"; B "data"; B "version"; B "template"; B "legend"; B "vector_layers"; B "type"; B "tileSize"] -> ~ same_key n k) ->
   decTileJSON (JObj l) = Val zero_tilejson) /\
  ((forall k x n, In (k, x) l -> In n [B "bearing"; B "center"; B "glyphs"; B "layers"; B "light"; B "metadata"; B "name"; B "pitch"; B "sources"; B "sprite"; B "transition"; B "version"; B "zoom"; B "id"] -> ~ same_key n k) ->
   exists s, Unmarshal style_custom StyleT (JObj l) = Val s /\ Layers s = [] /\ StyleValidate s = Err).
Proof.
  intros l. split; intros H.
  - unfold decTileJSON. unfold TileJSONT at 1. rewrite unknown_members; [reflexivity|]. intros k x n t Hk Hn. apply (H k x n Hk). apply (in_map fst) in Hn. exact Hn.
  - exists (GStruct []). split; [|split; reflexivity]. apply unknown_members. intros k x n t Hk Hn. apply (H k x n Hk). apply (in_map fst) in Hn. exact Hn.
Qed.
Print Assumptions C111_message.
Theorem C111_status_refuted : ~ (forall send token ids u resp, send u = Some resp -> rStatus resp = 404 -> (forall v, send v = send u) -> GetTileJSON send token ids = Err).
Proof.
  intros H. specialize (H (fun _ => Some (mkResp 404 [] (Some (JObj [(B "message", JStr (B "Not Found"))])))) (B "t") [B "a.b"] (mkURL [] []) _ eq_refl eq_refl (fun _ => eq_refl)).
  vm_compute in H. discriminate.
Qed.

(** Pages of listings, client/types.go and tilejson/tilejson.go:67-78 *)
Definition time_doc (is_time : gstr -> bool) (x : json) : Prop := x = JNull \/ exists s, x = JStr s /\ is_time s = true.
Lemma reads_time is_time : reads (doc_custom is_time) (TCustom KTime) (time_doc is_time).
Proof.
  intros x. split.
  - intros [v H]. apply custom_good in H. cbn [doc_custom] in H. destruct x as [| | |s| |]; try discriminate; [left; reflexivity|]. destruct (is_time s) eqn:E; [|discriminate]. right. eauto.
  - intros [->|(s & -> & E)]; [exists GZero; reflexivity|]. exists (GTime s). apply custom_good. cbn [doc_custom]. rewrite E. reflexivity.
Qed.
Theorem C111_pages : forall is_time j,
  ((exists v, Unmarshal (doc_custom is_time) (TSlice ListStyleT) j = Val v) <->
   arr_doc (obj_doc [(B "version", int_doc (- 2 ^ 63) (2 ^ 63)); (B "name", str_doc); (B "created", time_doc is_time); (B "id", str_doc); (B "modified", time_doc is_time); (B "owner", str_doc)]) j) /\
  ((exists v, Unmarshal (doc_custom is_time) (TSlice TilesetT) j = Val v) <->
   arr_doc (obj_doc [(B "type", str_doc); (B "center", fixed_doc 3 num_doc); (B "created", time_doc is_time); (B "description", str_doc); (B "filesize", int_doc (- 2 ^ 63) (2 ^ 63));
     (B "id", str_doc); (B "modified", time_doc is_time); (B "name", str_doc); (B "visibility", str_doc); (B "status", str_doc)]) j).
Proof.
  intros is_time j. split; revert j; apply reads_slice; (apply reads_struct; [nodup|]; members; kinds; apply reads_time).
Qed.
Print Assumptions C111_pages.
(** What a page is read as, and that the listings are of such pages *)
Definition time_value (x : json) (o : option gstr) : Prop := match o with None => x = JNull | Some s => x = JStr s end.
Definition liststyle_value (x : json) (l : ListStyle) : Prop :=
  int_value (doc_field (B "version") x) (lsVersion l) /\ str_value (doc_field (B "name") x) (lsName l) /\ time_value (doc_field (B "created") x) (lsCreated l) /\
  str_value (doc_field (B "id") x) (lsID l) /\ time_value (doc_field (B "modified") x) (lsModified l) /\ str_value (doc_field (B "owner") x) (lsOwner l).
Definition tileset_value (x : json) (l : Tileset) : Prop :=
  str_value (doc_field (B "type") x) (tlType l) /\ arr_value 3 (doc_field (B "center") x) (tlCenter l) /\ time_value (doc_field (B "created") x) (tlCreated l) /\
  str_value (doc_field (B "description") x) (tlDescription l) /\ int_value (doc_field (B "filesize") x) (tlFilesize l) /\ str_value (doc_field (B "id") x) (tlID l) /\
  time_value (doc_field (B "modified") x) (tlModified l) /\ str_value (doc_field (B "name") x) (tlName l) /\ str_value (doc_field (B "visibility") x) (tlVisibility l) /\
  str_value (doc_field (B "status") x) (tlStatus l).
Lemma times_value is_time x v : Unmarshal (doc_custom is_time) (TCustom KTime) x = Val v -> time_value x (time_of v).
Proof. intros H. apply custom_good in H. cbn [doc_custom] in H. destruct x as [| | |s| |]; try discriminate; [injection H as <-; reflexivity|]. destruct (is_time s); [|discriminate]. injection H as <-. reflexivity. Qed.
Ltac page_fields fl D H := let t := match type of H with Unmarshal (doc_custom ?t) _ _ = _ => t end in
  repeat match goal with |- _ /\ _ => split end; field_of_doc fl D H; (apply (times_value t); refine (field_value_flat _ _ _ _ _ _ fl D _ H _); [infs|reflexivity]).
Lemma page_spec {A} is_time t (f : gv -> A) (V : json -> A -> Prop) reply n u p link :
  (forall x w, flat x -> Unmarshal (doc_custom is_time) t x = Val w -> V x (f w)) ->
  page_of is_time t f reply n u = Some (p, link) ->
  exists resp j, reply n u = Some resp /\ rBody resp = Some j /\ link = rLink resp /\ ((j = JNull /\ p = []) \/ exists d, j = JArr d /\ length d = length p /\ (Forall flat d -> Forall2 V d p)).
Proof.
  intros K H. unfold page_of in H. destruct (reply n u) as [resp|]; [|discriminate]. destruct (rBody resp) as [j|] eqn:E; [|discriminate]. destruct (Unmarshal (doc_custom is_time) (TSlice t) j) as [v| |] eqn:U; try discriminate.
  injection H as <- <-. exists resp, j. split; [reflexivity|]. split; [exact E|]. split; [reflexivity|]. apply slice_good in U. destruct U as [[-> ->]|(d & vs & -> & -> & F)]; [left; auto|]. right. exists d. split; [reflexivity|]. cbn [slice_of].
  split; [rewrite map_length; clear -F; induction F; cbn [length]; auto|]. intros Fl. clear -K F Fl. induction F as [|x w d vs Hx F IH]; cbn [map]; constructor; [apply K; [inversion Fl; auto|exact Hx]|apply IH; inversion Fl; auto].
Qed.
Theorem C111_page_values : forall is_time reply n u link,
  (forall p, page_of is_time ListStyleT liststyle_of reply n u = Some (p, link) ->
    exists resp j, reply n u = Some resp /\ rBody resp = Some j /\ link = rLink resp /\ ((j = JNull /\ p = []) \/ exists d, j = JArr d /\ length d = length p /\ (Forall flat d -> Forall2 liststyle_value d p))) /\
  (forall p, page_of is_time TilesetT tileset_of reply n u = Some (p, link) ->
    exists resp j, reply n u = Some resp /\ rBody resp = Some j /\ link = rLink resp /\ ((j = JNull /\ p = []) \/ exists d, j = JArr d /\ length d = length p /\ (Forall flat d -> Forall2 tileset_value d p))) /\
  (page_of is_time ListStyleT liststyle_of reply n u = None <-> forall resp j, reply n u = Some resp -> rBody resp = Some j -> ~ exists v, Unmarshal (doc_custom is_time) (TSlice ListStyleT) j = Val v) /\
  (page_of is_time TilesetT tileset_of reply n u = None <-> forall resp j, reply n u = Some resp -> rBody resp = Some j -> ~ exists v, Unmarshal (doc_custom is_time) (TSlice TilesetT) j = Val v).
Proof.
  intros is_time reply n u link.
  assert (N : forall A t (f : gv -> A), page_of is_time t f reply n u = None <-> forall resp j, reply n u = Some resp -> rBody resp = Some j -> ~ exists v, Unmarshal (doc_custom is_time) (TSlice t) j = Val v).
  { intros A t f. unfold page_of. destruct (reply n u) as [resp|]; [|split; [discriminate|reflexivity]]. destruct (rBody resp) as [j|] eqn:E; [|split; [intros _ r' j' H; injection H as <-; congruence|reflexivity]].
    destruct (Unmarshal (doc_custom is_time) (TSlice t) j) as [v| |] eqn:U; (split; [try discriminate|try reflexivity]).
    - intros H. exfalso. apply (H resp j eq_refl E). eauto.
    - intros _ r' j' H H' [v Hv]. injection H as <-. congruence.
    - intros _ r' j' H H' [v Hv]. injection H as <-. congruence. }
  split; [|split; [|split; apply N]]; intros p; apply page_spec; intros x w fl H.
  - assert (D : distinct (fields_of ListStyleT)) by nodup. unfold liststyle_value, liststyle_of. cbn [lsVersion lsName lsCreated lsID lsModified lsOwner]. page_fields fl D H.
  - assert (D : distinct (fields_of TilesetT)) by nodup. unfold tileset_value, tileset_of. cbn [tlType tlCenter tlCreated tlDescription tlFilesize tlID tlModified tlName tlVisibility tlStatus]. page_fields fl D H.
Qed.
Print Assumptions C111_page_values.
(** ListStyles and ListTilesets with these pages: the decoded pages of the chain of links, in order *)
Theorem C111_listing : forall {A} is_time t (f : gv -> A) Parse reply token u l,
  (exists fuel, pages Parse (page_of is_time t f reply) token fuel 0 (Some u) [] = Listed l) <-> exists ps, Client_Props.chain Parse (page_of is_time t f reply) token 0 u ps /\ l = concat ps.
Proof. intros. apply Client_Props.C70_complete. Qed.
Example C111_nonvacuous :
  GetTileJSON (fun u => if seqb (uBase u) (B "https://api.mapbox.com/v4/a.b,c.d.json") && seqb (uRawQuery u) (B "access_token=t%3D") then Some (mkResp 500 [] (Some (encTileJSON tj_example))) else None) (B "t=") [B "a.b"; B "c.d"]
    = decTileJSON (encTileJSON tj_example) /\
  GetStyle (fun u => Some (mkResp 200 [] None)) [] (B "u") (B "s") false = Err /\
  decTileJSON (JObj [(B "message", JStr (B "Not Found"))]) = Val zero_tilejson /\
  Unmarshal (doc_custom (fun s => seqb s (B "2020"))) (TSlice ListStyleT) (JArr [JObj [(B "created", JStr (B "2020"))]; JNull]) = Val (GSlice [GStruct [(B "created", GTime (B "2020"))]; GZero]) /\
  Unmarshal (doc_custom (fun s => seqb s (B "2020"))) (TSlice ListStyleT) (JArr [JObj [(B "created", JStr [])]]) = Err.
Proof. split; [|repeat split; vm_compute; reflexivity]. rewrite C111_tilejson; [reflexivity|discriminate|]. repeat (apply Forall_cons; [Client_Props.seglit|]). apply Forall_nil. Qed.

(** * C112: languages and their coverage, font/cover.go *)
Definition code_doc : json -> Prop := arr_doc (int_doc 0 (2 ^ 32)).
Definition language_doc : json -> Prop := obj_doc
  [(B "id", str_doc); (B "name", str_doc); (B "codepoints", obj_doc [(B "exemplarCharacters", code_doc); (B "auxiliary", code_doc); (B "index", code_doc); (B "punctuation", code_doc)])].
Lemma coverage_none j : (exists l, NewFontCoverage (Some j) = Val l) <-> exists v, Unmarshal no_custom (TSlice (TPtr LanguageT)) j = Val v.
Proof. unfold NewFontCoverage. destruct (Unmarshal no_custom (TSlice (TPtr LanguageT)) j); cbn [obind]; split; intros [r H]; try discriminate; eauto. Qed.
(** Which files are read, and what of: null elements are nil languages; one language per element *)
Theorem C112_languages : forall j,
  NewFontCoverage None = Err /\ NewFontCoverage (Some j) <> Crash /\
  ((exists l, NewFontCoverage (Some j) = Val l) <-> arr_doc language_doc j) /\
  forall l, NewFontCoverage (Some j) = Val l ->
    Forall2 (fun x o => match o with
      | None => x = JNull
      | Some g => x <> JNull /\ (flat x -> str_value (doc_field (B "id") x) (lgId g) /\ str_value (doc_field (B "name") x) (lgName g) /\
          let c := doc_field (B "codepoints") x in flat c ->
          list_value int_value (doc_field (B "exemplarCharacters") c) (lgExemplar g) /\ list_value int_value (doc_field (B "auxiliary") c) (lgAuxiliary g) /\
          list_value int_value (doc_field (B "index") c) (lgIndex g) /\ list_value int_value (doc_field (B "punctuation") c) (lgPunctuation g))
      end) (match j with JArr d => d | _ => [] end) l.
Proof.
  intros j. split; [reflexivity|]. split; [|split].
  - unfold NewFontCoverage. pose proof (plain_no_crash no_custom (TSlice (TPtr LanguageT)) j eq_refl). destruct (Unmarshal no_custom _ j); cbn [obind]; congruence.
  - rewrite coverage_none. revert j. apply reads_slice. apply reads_ptr; [left; reflexivity|]. apply reads_struct; [nodup|]. members; kinds. apply reads_struct; [nodup|]. members; kinds.
  - intros l H. unfold NewFontCoverage in H. destruct (Unmarshal no_custom (TSlice (TPtr LanguageT)) j) as [v| |] eqn:E; cbn [obind] in H; try discriminate. injection H as <-.
    apply slice_good in E. destruct E as [[-> ->]|(d & vs & -> & -> & F)]; [constructor|]. cbn [slice_of]. induction F as [|x w d vs Hx F IH]; cbn [map]; constructor; [|exact IH].
    apply ptr_good in Hx. destruct Hx as [[-> ->]|(N & w' & -> & Hx)]; [reflexivity|]. cbn [ptr_of option_map]. split; [exact N|]. intros fl.
    assert (D : distinct (fields_of LanguageT)) by nodup. assert (D' : distinct (fields_of CodePointsT)) by nodup. unfold language_of. cbn [lgId lgName lgExemplar lgAuxiliary lgIndex lgPunctuation].
    split; [field_of_doc fl D Hx|]. split; [field_of_doc fl D Hx|]. cbv zeta.
    assert (K : Unmarshal no_custom CodePointsT (doc_field (B "codepoints") x) = Val (gfield (B "codepoints") w')) by (refine (field_value_flat _ _ _ _ _ _ fl D _ Hx _); [infs|reflexivity]).
    intros fc. unfold ints_of. repeat match goal with |- _ /\ _ => split end; (apply (slice_value no_custom TUint32 int_of int_value); [intros y z; apply integer_value|]; refine (field_value_flat _ _ _ _ _ _ fc D' _ K _); [infs|reflexivity]).
Qed.
Print Assumptions C112_languages.

Lemma parse_all_spec {F} (parse : list Z -> option F) unicodes ttfs :
  match parse_all parse unicodes ttfs with
  | Val ps => Forall2 (fun t p => exists f, parse t = Some f /\ p = unicodes f) ttfs ps
  | Err => exists t, In t ttfs /\ parse t = None
  | Crash => False
  end.
Proof.
  induction ttfs as [|t ttfs IH]; cbn [parse_all]; [constructor|]. destruct (parse t) as [f|] eqn:E; [|exists t; auto with datatypes].
  destruct (parse_all parse unicodes ttfs) as [ps| |]; cbn [obind]; [constructor; eauto| |exact IH]. destruct IH as (t' & H1 & H2). exists t'. auto with datatypes.
Qed.
Lemma coverage_langs_spec languages points :
  match coverage_langs languages points with
  | Val l => Forall2 (fun o r => exists g, o = Some g /\ ncName r = lgName g /\ ncId r = lgId g /\ ncCoverage r = cover_language (match lgExemplar g with Some e => e | None => [] end) points) languages l
  | Err => False
  | Crash => In None languages
  end.
Proof.
  induction languages as [|[g|] languages IH]; cbn [coverage_langs]; [constructor| |left; reflexivity]. destruct (coverage_langs languages points) as [l| |]; cbn [obind]; [|exact IH|right; exact IH].
  constructor; [exists g; auto|exact IH].
Qed.
(** Font bytes that do not parse are an error; nil languages panic; otherwise every language is reported under its name, counting the exemplar characters
    by the first font that has them. *)
Theorem C112_coverage : forall {F} (parse : list Z -> option F) (unicodes : F -> list Z) languages ttfs,
  (Coverage parse unicodes languages ttfs = Err <-> exists t, In t ttfs /\ parse t = None) /\
  (Coverage parse unicodes languages ttfs = Crash <-> (forall t, In t ttfs -> parse t <> None) /\ In None languages) /\
  forall fonts, Forall2 (fun t f => parse t = Some f) ttfs fonts ->
    Coverage parse unicodes languages ttfs = CoverageTTFS unicodes languages fonts /\
    forall l, CoverageTTFS unicodes languages fonts = Val l ->
      Forall2 (fun o r => exists g, o = Some g /\ ncName r = lgName g /\ ncId r = lgId g /\
        let exs := match lgExemplar g with Some e => e | None => [] end in
        let pts := map unicodes fonts in
        lcTotal (ncCoverage r) = Z.of_nat (length exs) /\ lcCount (ncCoverage r) = Font_Props.count (fun c => existsb (fun f => Font_Props.inb c f) pts) exs /\
        length (lcCoverages (ncCoverage r)) = length pts /\
        forall i, (i < length pts)%nat -> nth i (lcCoverages (ncCoverage r)) 0 = Font_Props.count (fun c => Font_Props.first_in c (firstn i pts) (nth i pts [])) exs) languages l.
Proof.
  intros F parse unicodes languages ttfs. pose proof (parse_all_spec parse unicodes ttfs) as P. unfold Coverage.
  assert (G : forall ps, Forall2 (fun t p => exists f, parse t = Some f /\ p = unicodes f) ttfs ps -> forall t, In t ttfs -> parse t <> None).
  { clear P. intros ps H. induction H as [|t p ttfs' ps' (f & H1 & _) H IH]; intros t' Hin; [destruct Hin|]. destruct Hin as [<-|Hin]; [congruence|auto]. }
  split; [|split].
  - destruct (parse_all parse unicodes ttfs) as [ps| |]; cbn [obind]; [|tauto|contradiction]. pose proof (coverage_langs_spec languages ps) as L. split; [intros E; rewrite E in L; contradiction|].
    intros (t & H1 & H2). exfalso. apply (G _ P t H1 H2).
  - destruct (parse_all parse unicodes ttfs) as [ps| |]; cbn [obind]; [| |contradiction].
    + pose proof (coverage_langs_spec languages ps) as L. split; [intros E; rewrite E in L; split; [exact (G _ P)|exact L]|]. intros [_ H]. destruct (coverage_langs languages ps) as [l| |]; [|contradiction|reflexivity].
      exfalso. clear -L H. induction L as [|o r ls l (g & -> & _) L IH]; [destruct H|]. destruct H as [H|H]; [discriminate|auto].
    + split; [discriminate|]. intros [H _]. destruct P as (t & H1 & H2). exfalso. apply (H t H1 H2).
  - intros fonts H. assert (E : parse_all parse unicodes ttfs = Val (map unicodes fonts)).
    { clear P G. induction H as [|t f ttfs' fonts' Ht H IH]; [reflexivity|]. cbn [parse_all map]. rewrite Ht, IH. reflexivity. }
    rewrite E. cbn [obind]. split; [reflexivity|]. intros l Hl. unfold CoverageTTFS in Hl. pose proof (coverage_langs_spec languages (map unicodes fonts)) as L. rewrite Hl in L.
    eapply Forall2_imp; [|exact L]. cbn beta. intros o r (g & -> & H1 & H2 & H3). exists g. split; [reflexivity|]. split; [exact H1|]. split; [exact H2|]. cbv zeta.
    pose proof (Font_Props.C62_coverage [match lgExemplar g with Some e => e | None => [] end] (map unicodes fonts)) as K. inversion K as [|? ? ? ? K1 _]; subst. rewrite H3. exact K1.
Qed.
Print Assumptions C112_coverage.
Example C112_nonvacuous :
  let j := JArr [JObj [(B "id", JStr (B "en")); (B "name", JStr (B "English")); (B "codepoints", JObj [(B "exemplarCharacters", JArr [])])]; JNull] in
  (exists g, NewFontCoverage (Some j) = Val [Some g; None] /\ lgId g = B "en" /\ lgExemplar g = Some []) /\
  Coverage (fun b => match b with [] => None | _ => Some b end) (fun f => f) [Some (mkLang (B "en") (B "English") (Some [97; 98; 99]) None None None)] [[98]; [97; 98]]
    = Val [mkNC (B "English") (B "en") (mkLC 3 2 [1; 1])] /\
  Coverage (fun b => match b with [] => None | _ => Some b end) (fun f => f) [None] [[98]] = Crash /\ Coverage (fun b => match b with [] => None | _ => Some b end) (fun f => f) [None] [[98]; []] = Err.
Proof. split; [eexists; repeat split; vm_compute; reflexivity|repeat split; vm_compute; reflexivity]. Qed.
