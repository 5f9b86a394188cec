(** Property C163: the fields of a feature message in any order, and repeated. *)
From Coq Require Import ZArith List Lia Bool.
From Verif Require Import GoBase Pbf_Model Pbf_Proofs MvtGeom_Model MvtGeom_Spec MvtGeom_Proofs MvtLayer_Model MvtLayer_Spec MvtLayer_Proofs MvtLayerRead_Proofs MvtForeign_Props MvtStandard_Props MvtStandardBytes_Props.
Import ListNotations.
Open Scope Z_scope.

(** ** Specification *)
(** The fields of a feature message: id (1), tags (2, packed), type (3) and geometry (4, packed) *)
Inductive field := FId (v : Z) | FTags (tags : list Z) | FType (t : Z) | FGeom (cmds : list Z).
Definition field_bytes (f : field) : list Z :=
  match f with
  | FId v => 8 :: EncodeVarint v
  | FTags tags => 18 :: EncodeVarint (Z.of_nat (length (flat_map EncodeVarint tags))) ++ flat_map EncodeVarint tags
  | FType t => [24; t]
  | FGeom cmds => 34 :: EncodeVarint (Z.of_nat (length (flat_map EncodeVarint cmds))) ++ flat_map EncodeVarint cmds
  end.
Definition field_ok (f : field) : Prop :=
  match f with
  | FId v => 0 <= v < 2 ^ 63
  | FTags tags => uint32s tags /\ Nat.Even (length tags)
  | FType t => 1 <= t <= 3
  | FGeom cmds => uint32s cmds
  end.
(** The values of the id, type and geometry fields in the order of the message; all the tags *)
Definition ids (fs : list field) : list Z := flat_map (fun f => match f with FId v => [v] | _ => [] end) fs.
Definition types (fs : list field) : list Z := flat_map (fun f => match f with FType t => [t] | _ => [] end) fs.
Definition geoms (fs : list field) : list (list Z) := flat_map (fun f => match f with FGeom c => [c] | _ => [] end) fs.
Definition all_tags (fs : list field) : list Z := flat_map (fun f => match f with FTags t => t | _ => [] end) fs.

(** ** Lemmas *)
Lemma run_geom_mid buf kt vt e0 w cmds N pos f r s : zlen buf < 2 ^ 62 -> wCmds w = Some cmds ->
  at_ buf pos (geomseg MapboxProto w ++ s) -> pos + zlen (geomseg MapboxProto w) <= e0 ->
  run 0 MapboxProto buf kt vt e0 N (pos + zlen (geomseg MapboxProto w)) (mkRF (rfID f) (rfType f) (rfProps f) (pos + 1)) r ->
  run 0 MapboxProto buf kt vt e0 (S N) pos f r /\ holds_cmds buf (pos + 1) cmds.
Proof.
  intros Hb Ew. unfold geomseg. rewrite Ew. intros H Hp Hr. unfold WritePackedUInt32, WriteTag in *. rewrite !zlen_app, zlen_cons, zlen_nil in *.
  pose proof (Encode_len (zlen (packed cmds))). pose proof (zlen_nonneg (packed cmds)).
  rewrite <- !app_assoc in H. cbn [app] in H. pose proof (p_ranges MapboxProto (or_introl eq_refl)) as R. pose proof w_ranges as W.
  assert (R1 : 0 <= pGeometry MapboxProto < 32) by lia. assert (W1 : 0 <= wBytes < 8) by lia.
  pose proof H as Hc0. apply at_cons in Hc0. split; [|exists s; exact Hc0].
  intros n Hn. destruct n as [|n]; [lia|]. cbn [feat_loop]. destruct (Z.ltb_spec pos e0); [|lia].
  rewrite (ReadTag_tag _ _ _ _ _ R1 W1 H). cbn [bind].
  change (pGeometry MapboxProto =? pID MapboxProto) with false. change (pGeometry MapboxProto =? pTags MapboxProto) with false. change (pGeometry MapboxProto =? pType MapboxProto) with false. cbn [andb bind].
  rewrite Z.eqb_refl. change (wBytes =? wBytes) with true. cbn [andb].
  pose proof (at_app _ _ _ _ Hc0) as Hc2. rewrite (ReadVarint_at _ _ _ _ Hc0). cbn [bind].
  destruct (at_pos _ _ _ Hc2) as [Q1 Q2]. rewrite zlen_app in Q2. pose proof (zlen_nonneg s).
  rewrite (wrap64_id (zlen (packed cmds))) by (unfold in_i64; lia). rewrite wrap64_id by (unfold in_i64; lia).
  match goal with |- feat_loop _ _ _ _ _ _ ?x _ _ = _ => replace x with (pos + (1 + 0 + (zlen (EncodeVarint (zlen (packed cmds))) + zlen (packed cmds)))) by lia end. apply Hr. lia.
Qed.
Lemma tag_pairs_app keys vals a b : Nat.Even (length a) -> tag_pairs keys vals (a ++ b) = tag_pairs keys vals a ++ tag_pairs keys vals b.
Proof.
  induction a as [|x|x y a IH] using two_ind; intros H; [reflexivity|exfalso; destruct H as (k & H); cbn in H; lia|].
  cbn [app tag_pairs]. f_equal. apply IH. destruct H as (k & H). cbn [length] in H. exists (k - 1)%nat. lia.
Qed.
Lemma all_tags_even fs : Forall field_ok fs -> Nat.Even (length (all_tags fs)).
Proof.
  induction 1 as [|f fs H _ IH]; [exists 0%nat; reflexivity|]. unfold all_tags in *. cbn [flat_map]. rewrite app_length.
  apply Nat.Even_Even_add; [|exact IH]. destruct f; try (exists 0%nat; reflexivity). apply H.
Qed.
Lemma last_cons {A} (a d : A) l : last (a :: l) d = last l a.
Proof. revert a d. induction l as [|b l IH]; intros a d; [reflexivity|]. change (last (b :: l) d = last (b :: l) a). rewrite !IH. reflexivity. Qed.
Definition put_all (l : list (list Z * wval)) m := fold_left (fun m kv => mput (fst kv) (snd kv) m) l m.
Lemma run_fields buf kt vt e0 : zlen buf < 2 ^ 62 -> forall fs pos f s, Forall field_ok fs -> at_ buf pos (flat_map field_bytes fs ++ s) -> e0 = pos + zlen (flat_map field_bytes fs) ->
  exists gp, run 0 MapboxProto buf kt vt e0 (length fs) pos f
      (mkRF (last (ids fs) (rfID f)) (last (types fs) (rfType f)) (put_all (tag_pairs kt (map norm vt) (all_tags fs)) (rfProps f)) gp) /\
    match rev (geoms fs) with cmds :: _ => holds_cmds buf gp cmds | [] => gp = rfGeomPos f end.
Proof.
  intros Hb. induction fs as [|x fs IH]; intros pos f s Hok A Ee.
  - exists (rfGeomPos f). split; [|reflexivity]. destruct f. apply run_end. cbn in Ee. lia.
  - inversion Hok as [|? ? Hx Hfs]; subst x0 l. cbn [flat_map] in A, Ee. rewrite <- app_assoc in A. rewrite zlen_app in Ee. pose proof (zlen_nonneg (flat_map field_bytes fs)) as Z0.
    pose proof (at_app _ _ _ _ A) as A1. destruct x as [v|tags|t|cmds]; cbn [field_ok] in Hx.
    + set (w := mkWF (Some v) [] None None). change (field_bytes (FId v)) with (idseg MapboxProto w) in *.
      destruct (IH _ (mkRF v (rfType f) (rfProps f) (rfGeomPos f)) s Hfs A1 ltac:(lia)) as (gp & R & G). exists gp. split; [|exact G].
      change (ids (FId v :: fs)) with (v :: ids fs). rewrite last_cons. cbn [rfID rfType rfProps rfGeomPos] in R.
      apply (run_id 0 MapboxProto buf kt vt e0 (or_introl eq_refl) w _ _ _ _ _ A); [lia|]. cbn [w wID]. rewrite wrap64_id by (unfold in_i64; lia). exact R.
    + set (w := mkWF None [([], VUnhash)] None None). change (field_bytes (FTags tags)) with (tagseg MapboxProto w tags) in *. destruct Hx as [Hu He].
      set (m := put_all (tag_pairs kt (map norm vt) tags) (rfProps f)).
      destruct (IH _ (mkRF (rfID f) (rfType f) m (rfGeomPos f)) s Hfs A1 ltac:(lia)) as (gp & R & G). exists gp. split; [|exact G].
      change (all_tags (FTags tags :: fs)) with (tags ++ all_tags fs). rewrite tag_pairs_app by exact He. unfold put_all. rewrite fold_left_app. cbn [rfID rfType rfProps rfGeomPos] in R.
      apply (run_tags 0 MapboxProto buf kt vt e0 (or_introl eq_refl) Hb w tags _ _ _ _ m _ A); [lia|exact Hu| |discriminate|exact R].
      rewrite tag_props_fold. apply Nat.even_spec in He. rewrite He. reflexivity.
    + set (w := mkWF None [] (Some t) None). assert (Ef : field_bytes (FType t) = typeseg MapboxProto w) by (assert (t = 1 \/ t = 2 \/ t = 3) as [->|[->| ->]] by lia; reflexivity). rewrite Ef in *.
      destruct (IH _ (mkRF (rfID f) t (rfProps f) (rfGeomPos f)) s Hfs A1 ltac:(lia)) as (gp & R & G). exists gp. split; [|exact G].
      change (types (FType t :: fs)) with (t :: types fs). rewrite last_cons. cbn [rfID rfType rfProps rfGeomPos] in R.
      apply (run_type 0 MapboxProto buf kt vt e0 (or_introl eq_refl) w _ _ _ _ _ A); [lia|intros y Y; injection Y as <-; lia|exact R].
    + set (w := mkWF None [] None (Some cmds)). change (field_bytes (FGeom cmds)) with (geomseg MapboxProto w) in *.
      destruct (IH _ (mkRF (rfID f) (rfType f) (rfProps f) (pos + 1)) s Hfs A1 ltac:(lia)) as (gp & R & G). cbn [rfID rfType rfProps rfGeomPos] in R, G.
      destruct (run_geom_mid buf kt vt e0 w cmds _ _ _ _ _ Hb eq_refl A ltac:(lia) R) as (R' & Hc). exists gp. split; [exact R'|].
      change (geoms (FGeom cmds :: fs)) with (cmds :: geoms fs). cbn [rev]. destruct (rev (geoms fs)); [|exact G]. cbn [app]. subst gp. exact Hc.
Qed.

(** ** Theorems *)
(** The lazy reader takes the fields in any order: the last id, the last type and the last geometry count, and the tags of all tag fields. *)
Theorem C163_fields : forall buf l i fs, Z.of_nat (length buf) < 2 ^ 62 -> Forall field_ok fs -> has_feature buf l i (flat_map field_bytes fs) ->
  exists rf, (forall fuel, (length fs <= fuel)%nat -> Feature fuel MapboxProto buf l i = Ok rf) /\
    rfID rf = last (ids fs) 0 /\ rfType rf = last (types fs) 0 /\
    (geoms fs <> [] -> LoadGeometryRaw buf rf = Ok (last (geoms fs) []) /\ LoadGeometry buf rf = LoadGeometryCmds (last (types fs) 0) (last (geoms fs) [])) /\
    NoDup (map fst (rfProps rf)) /\ (forall k v, In (k, v) (rfProps rf) <-> exists before after, tag_pairs (lKeys l) (lVals l) (all_tags fs) = before ++ (k, v) :: after /\ ~ In k (map fst after)).
Proof.
  intros buf l i fs Hb Hok (pre & s & E & Hn).
  assert (A : at_ buf (zlen pre) (EncodeVarint (zlen (flat_map field_bytes fs)) ++ flat_map field_bytes fs ++ s)) by (exists pre; split; [exact E|reflexivity]).
  pose proof (at_app _ _ _ _ A) as A1. destruct (norm_onto (lVals l)) as (vt & Ev). assert (Hb3 : zlen buf < 2 ^ 63) by (unfold zlen; lia).
  destruct (run_fields buf (lKeys l) vt _ Hb fs _ (mkRF 0 0 [] 0) s Hok A1 eq_refl) as (gp & R & G). cbn [rfID rfType rfProps rfGeomPos] in R, G. rewrite <- Ev in R.
  destruct (proj2 (C83_tags (lKeys l) (lVals l) (all_tags fs)) (all_tags_even fs Hok)) as (m & Em & Nm & Im). rewrite tag_props_fold in Em.
  pose proof (all_tags_even fs Hok) as Hev. apply Nat.even_spec in Hev. rewrite Hev in Em. injection Em as Em. change (put_all (tag_pairs (lKeys l) (lVals l) (all_tags fs)) [] = m) in Em. rewrite Em in R.
  eexists. split; [|split; [|split; [|split; [|split]]]].
  - intros fuel Hf. unfold Feature. rewrite Hn. change (Z.of_nat (length pre)) with (zlen pre). rewrite (ReadVarint_at _ _ _ _ A). cbn [bind]. rewrite (at_len_wrap _ _ _ _ Hb3 A1), (at_wrap _ _ _ _ Hb3 A1), Ev. apply R, Hf.
  - reflexivity.
  - reflexivity.
  - intros Hg. destruct (exists_last Hg) as (gs & cmds & Eg). rewrite Eg in *. rewrite rev_app_distr in G. cbn [rev app] in G. rewrite last_last.
    assert (Hc : uint32s cmds).
    { assert (I : In cmds (geoms fs)) by (rewrite Eg; apply in_or_app; right; left; reflexivity). apply in_flat_map in I as (x & Ix & Iy). rewrite Forall_forall in Hok. apply Hok in Ix. destruct x; cbn in Iy; try contradiction. destruct Iy as [<-|[]]. exact Ix. }
    destruct (holds_read buf gp cmds Hb3 Hc G) as (e & K). unfold LoadGeometry, LoadGeometryRaw. cbn [rfGeomPos rfType]. rewrite K. split; reflexivity.
  - exact Nm.
  - exact Im.
Qed.
Print Assumptions C163_fields.
(** A protobuf reader must join the parts of a repeated packed field; of a geometry in two parts only the second is seen. *)
Theorem C163_parts_refuted : forall buf l i t a b, Z.of_nat (length buf) < 2 ^ 62 -> 1 <= t <= 3 -> uint32s a -> uint32s b -> a <> [] -> has_feature buf l i (flat_map field_bytes [FType t; FGeom a; FGeom b]) ->
  exists rf, (forall fuel, (3 <= fuel)%nat -> Feature fuel MapboxProto buf l i = Ok rf) /\ LoadGeometryRaw buf rf = Ok b /\ LoadGeometryRaw buf rf <> Ok (a ++ b).
Proof.
  intros buf l i t a b Hb Ht Ha Hbb N F. destruct (C163_fields buf l i [FType t; FGeom a; FGeom b] Hb) as (rf & R & _ & _ & G & _).
  - repeat constructor; auto; apply Ht.
  - exact F.
  - exists rf. split; [exact R|]. destruct G as [G _]; [discriminate|]. cbn [geoms flat_map app last] in G. split; [exact G|]. rewrite G. intros X. injection X as X. apply (f_equal (@length Z)) in X. rewrite app_length in X. destruct a; [apply N; reflexivity|cbn in X; lia].
Qed.
Print Assumptions C163_parts_refuted.

(** ** Not vacuous: geometry first, in a tile of one layer *)
Example C163_nonvacuous : let fs := [FGeom (std_points [(1, 2)]); FType 1; FTags [0; 0]; FId 7; FTags [0; 1]] in
  let m := flat_map field_bytes fs in let buf := [26; 22; 10; 1; 97; 18; 17] ++ m in
  m = [34; 3; 9; 2; 4; 24; 1; 18; 2; 0; 0; 8; 7; 18; 2; 0; 1] /\ Forall field_ok fs /\
  exists t l, NewTile 400 0 buf = Ok t /\ mget [97] (tMap t) = Some l /\ has_feature buf l 0 m.
Proof.
  cbv zeta. split; [reflexivity|]. split; [repeat constructor; cbn; try lia; try (exists 1%nat; reflexivity)|].
  do 2 eexists. split; [vm_compute; reflexivity|]. split; [vm_compute; reflexivity|]. exists [26; 22; 10; 1; 97; 18], []. split; reflexivity.
Qed.
