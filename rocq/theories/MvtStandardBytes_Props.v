(** Property C162: features of other producers from bytes to geometry. *)
From Coq Require Import ZArith List Lia Bool.
From Verif Require Import GoBase Pbf_Model Pbf_Proofs MvtGeom_Model MvtGeom_Spec MvtGeom_Proofs MvtLayer_Model MvtLayer_Spec MvtLayer_Proofs MvtLayerRead_Proofs MvtOrder_Model MvtOrder_Proofs MvtForeign_Props MvtStandard_Props.
Import ListNotations.
Open Scope Z_scope.

(** ** Specification *)
(** A feature message of the vector tile specification without tags: id (field 1), type (field 3) and geometry (field 4, packed) *)
Definition std_feature (id : option Z) (t : Z) (cmds : list Z) : list Z :=
  match id with Some v => 8 :: EncodeVarint v | None => [] end ++ [24; t] ++ 34 :: EncodeVarint (Z.of_nat (length (flat_map EncodeVarint cmds))) ++ flat_map EncodeVarint cmds.
(** and with tags (field 2, packed) after the id *)
Definition std_tagged (id : option Z) (tags : list Z) (t : Z) (cmds : list Z) : list Z :=
  match id with Some v => 8 :: EncodeVarint v | None => [] end ++ (18 :: EncodeVarint (Z.of_nat (length (flat_map EncodeVarint tags))) ++ flat_map EncodeVarint tags) ++
  [24; t] ++ 34 :: EncodeVarint (Z.of_nat (length (flat_map EncodeVarint cmds))) ++ flat_map EncodeVarint cmds.
(** The feature number [i] of the layer is such a message, somewhere in the buffer, after its length. *)
Definition has_feature (buf : list Z) (l : layer) (i : nat) (m : list Z) : Prop := exists pre s,
  buf = pre ++ EncodeVarint (Z.of_nat (length m)) ++ m ++ s /\ nth_error (lFeats l) i = Some (Z.of_nat (length pre)).
Definition uint32s (cmds : list Z) : Prop := Forall (fun c => 0 <= c < 2 ^ 32) cmds.

(** ** Lemmas *)
Lemma norm_onto ws : exists vt, ws = map norm vt.
Proof.
  induction ws as [|w ws (vt & ->)]; [exists []; reflexivity|].
  assert (exists v, w = norm v) as (v & ->); [|exists (v :: vt); reflexivity].
  destruct w; [exists (VString 0 s)|exists (VFloat32 0 bits)|exists (VFloat64 0 bits)|exists (VInt 0 z)|exists (VUInt 0 z)|exists (VBool 0 b)]; reflexivity.
Qed.
Lemma std_feature_eq id t cmds : 1 <= t <= 3 -> std_feature id t cmds = feature_bytes MapboxProto (mkWF id [] (Some t) (Some cmds)) [].
Proof.
  intros Ht. unfold feature_bytes, idseg, tagseg, typeseg, geomseg. cbn [wID wProps wType wCmds app]. unfold std_feature. f_equal.
  assert (t = 1 \/ t = 2 \/ t = 3) as [->|[->| ->]] by lia; reflexivity.
Qed.
Lemma std_tagged_eq id tags t cmds : 1 <= t <= 3 -> std_tagged id tags t cmds = feature_bytes MapboxProto (mkWF id [([], VUnhash)] (Some t) (Some cmds)) tags.
Proof.
  intros Ht. unfold feature_bytes, idseg, tagseg, typeseg, geomseg. cbn [wID wProps wType wCmds]. unfold std_tagged. f_equal. f_equal.
  assert (t = 1 \/ t = 2 \/ t = 3) as [->|[->| ->]] by lia; reflexivity.
Qed.

(** ** Theorems *)
(** The lazy reader finds the id and the geometry numbers of the message, *)
Theorem C162_feature : forall buf l i id t cmds, Z.of_nat (length buf) < 2 ^ 62 -> 1 <= t <= 3 -> uint32s cmds -> match id with Some v => 0 <= v < 2 ^ 63 | None => True end ->
  has_feature buf l i (std_feature id t cmds) ->
  exists rf, (forall fuel, (4 <= fuel)%nat -> Feature fuel MapboxProto buf l i = Ok rf) /\
    rfID rf = match id with Some v => v | None => 0 end /\ rfType rf = t /\ rfProps rf = [] /\
    LoadGeometryRaw buf rf = Ok cmds /\ LoadGeometry buf rf = LoadGeometryCmds t cmds.
Proof.
  intros buf l i id t cmds Hb Ht Hc Hid (pre & s & E & Hn). set (w := mkWF id [] (Some t) (Some cmds)). rewrite (std_feature_eq id t cmds Ht) in E. fold w in E.
  assert (A : at_ buf (zlen pre) (EncodeVarint (zlen (feature_bytes MapboxProto w [])) ++ feature_bytes MapboxProto w [] ++ s)) by (exists pre; split; [exact E|reflexivity]).
  pose proof (at_app _ _ _ _ A) as A1. destruct (norm_onto (lVals l)) as (vt & Ev). assert (Hb3 : zlen buf < 2 ^ 63) by (unfold zlen; lia).
  destruct (feature_read 0 MapboxProto buf (lKeys l) vt _ (or_introl eq_refl) Hb ltac:(lia) w [] _ s (mkRF 0 0 [] 0) A1 eq_refl (res_nil _ _) (NoDup_nil _) eq_refl ltac:(intros x X; injection X as <-; lia)) as (m & gp & W & G & Rn).
  cbn [w wID wProps wType wCmds rfID rfType] in *. inversion W; subst m. exists (mkRF (match id with Some z => wrap64 z | None => 0 end) t [] gp). cbn [rfID rfType rfProps]. split; [|split; [|split; [reflexivity|split; [reflexivity|split]]]].
  - intros fuel Hf. unfold Feature. rewrite Hn. change (Z.of_nat (length pre)) with (zlen pre). rewrite (ReadVarint_at _ _ _ _ A). cbn [bind]. rewrite (at_len_wrap _ _ _ _ Hb3 A1), (at_wrap _ _ _ _ Hb3 A1), Ev. apply Rn, Hf.
  - destruct id; [|reflexivity]. apply wrap64_id. unfold in_i64. lia.
  - destruct (holds_read buf gp cmds Hb3 Hc G) as (e & K). unfold LoadGeometryRaw. cbn [rfGeomPos]. rewrite K. reflexivity.
  - destruct (holds_read buf gp cmds Hb3 Hc G) as (e & K). unfold LoadGeometry, LoadGeometryRaw. cbn [rfGeomPos rfType]. rewrite K. reflexivity.
Qed.
Print Assumptions C162_feature.
(** so conforming polygons come out of the bytes as they went in, rings with their first point at the end, *)
Theorem C162_polygons : forall buf l i id ps, Z.of_nat (length buf) < 2 ^ 62 -> match id with Some v => 0 <= v < 2 ^ 63 | None => True end ->
  ps <> [] -> Forall std_polygon ps -> Forall (Forall (fun r => r <> [])) ps -> uint32s (std_rings (0, 0) (concat ps)) -> has_feature buf l i (std_feature id 3 (std_rings (0, 0) (concat ps))) ->
  exists rf, (forall fuel, (4 <= fuel)%nat -> Feature fuel MapboxProto buf l i = Ok rf) /\
    LoadGeometry buf rf = Ok (match ps with [p] => GPolygon (map shut p) | _ => GMultiPolygon (map (map shut) ps) end).
Proof.
  intros buf l i id ps Hb Hid N H Hn U F. destruct (C162_feature buf l i id 3 _ Hb ltac:(lia) U Hid F) as (rf & A & _ & _ & _ & _ & B). exists rf. split; [exact A|]. rewrite B. apply C157_polygons; auto.
Qed.
Print Assumptions C162_polygons.
(** and lines as they went in; *)
Theorem C162_lines : forall buf l i id ls, Z.of_nat (length buf) < 2 ^ 62 -> match id with Some v => 0 <= v < 2 ^ 63 | None => True end ->
  ls <> [] -> Forall (fun r => r <> []) ls -> uint32s (std_lines (0, 0) ls) -> has_feature buf l i (std_feature id 2 (std_lines (0, 0) ls)) ->
  exists rf, (forall fuel, (4 <= fuel)%nat -> Feature fuel MapboxProto buf l i = Ok rf) /\
    LoadGeometry buf rf = Ok (match ls with [x] => GLineString x | _ => GMultiLineString ls end).
Proof.
  intros buf l i id ls Hb Hid N H U F. destruct (C162_feature buf l i id 2 _ Hb ltac:(lia) U Hid F) as (rf & A & _ & _ & _ & _ & B). exists rf. split; [exact A|]. rewrite B. apply C157_lines; auto.
Qed.
Print Assumptions C162_lines.
(** several points do not. *)
Theorem C162_points_refuted : forall buf l i id ps, Z.of_nat (length buf) < 2 ^ 62 -> match id with Some v => 0 <= v < 2 ^ 63 | None => True end ->
  (2 <= length ps)%nat -> uint32s (std_points ps) -> has_feature buf l i (std_feature id 1 (std_points ps)) ->
  exists rf, (forall fuel, (4 <= fuel)%nat -> Feature fuel MapboxProto buf l i = Ok rf) /\ LoadGeometry buf rf <> Ok (GMultiPoint ps).
Proof.
  intros buf l i id ps Hb Hid N U F. destruct (C162_feature buf l i id 1 _ Hb ltac:(lia) U Hid F) as (rf & A & _ & _ & _ & _ & B). exists rf. split; [exact A|]. rewrite B. intros X. apply C157_points_refuted in X; [lia|exact N].
Qed.
Print Assumptions C162_points_refuted.

(** All this does not depend on which operand of [Buf.Pos + Buf.ReadVarint()] Go evaluates first, in buffers below 2^28 bytes. *)
Theorem C162_any_order : forall buf l i id t cmds, Z.of_nat (length buf) < 2 ^ 28 -> 1 <= t <= 3 -> uint32s cmds -> (3 <= length cmds)%nat -> match id with Some v => 0 <= v < 2 ^ 63 | None => True end ->
  has_feature buf l i (std_feature id t cmds) ->
  exists rf, (forall early fuel, (4 <= fuel)%nat -> FeatureO early fuel MapboxProto buf l i = Ok rf) /\
    rfID rf = match id with Some v => v | None => 0 end /\ rfType rf = t /\ rfProps rf = [] /\
    LoadGeometryRaw buf rf = Ok cmds /\ LoadGeometry buf rf = LoadGeometryCmds t cmds.
Proof.
  intros buf l i id t cmds Hb Ht Hc H3 Hid (pre & s & E & Hn). set (w := mkWF id [] (Some t) (Some cmds)). rewrite (std_feature_eq id t cmds Ht) in E. fold w in E.
  assert (A : at_ buf (zlen pre) (EncodeVarint (zlen (feature_bytes MapboxProto w [])) ++ feature_bytes MapboxProto w [] ++ s)) by (exists pre; split; [exact E|reflexivity]).
  pose proof (at_app _ _ _ _ A) as A1. destruct (norm_onto (lVals l)) as (vt & Ev). assert (Hb3 : zlen buf < 2 ^ 63) by (unfold zlen; lia).
  destruct (holds_read buf _ cmds Hb3 Hc (feature_early_holds _ _ _ _ _ _ A1 cmds eq_refl)) as (e & K).
  exists (read_as MapboxProto w [] (zlen pre + zlen (EncodeVarint (zlen (feature_bytes MapboxProto w [])))) [] (mkRF 0 0 [] 0)). split; [|split; [|split; [reflexivity|split; [reflexivity|split]]]].
  - intros early fuel Hf. unfold FeatureO. rewrite Hn. change (Z.of_nat (length pre)) with (zlen pre). rewrite (ReadVarint_at _ _ _ _ A). cbn [bind]. rewrite (at_len_wrap _ _ _ _ Hb3 A1), Ev.
    apply (feature_early 0 MapboxProto buf (lKeys l) vt w [] (zlen pre) s [] early (mkRF 0 0 [] 0) (or_introl eq_refl) Hb ltac:(lia) A (res_nil _ _) eq_refl); [reflexivity|reflexivity|intros x X; injection X as <-; lia|intros cs X; injection X as <-; exact H3|discriminate|exact Hf].
  - unfold read_as. cbn [rfID w wID]. destruct id; [|reflexivity]. apply wrap64_id. unfold in_i64. lia.
  - unfold LoadGeometryRaw, read_as. cbn [rfGeomPos w wCmds]. rewrite K. reflexivity.
  - unfold LoadGeometry, LoadGeometryRaw, read_as. cbn [rfGeomPos rfType w wCmds wType]. rewrite K. reflexivity.
Qed.
Print Assumptions C162_any_order.

(** With tags, the properties are those of the table entries the tags point to, the last one for each key. *)
Theorem C162_tags : forall buf l i id tags t cmds, Z.of_nat (length buf) < 2 ^ 62 -> 1 <= t <= 3 -> uint32s cmds -> uint32s tags -> Nat.Even (length tags) -> match id with Some v => 0 <= v < 2 ^ 63 | None => True end ->
  has_feature buf l i (std_tagged id tags t cmds) ->
  exists rf, (forall fuel, (4 <= fuel)%nat -> Feature fuel MapboxProto buf l i = Ok rf) /\
    rfID rf = match id with Some v => v | None => 0 end /\ rfType rf = t /\
    LoadGeometryRaw buf rf = Ok cmds /\ LoadGeometry buf rf = LoadGeometryCmds t cmds /\
    NoDup (map fst (rfProps rf)) /\ (forall k v, In (k, v) (rfProps rf) <-> exists before after, tag_pairs (lKeys l) (lVals l) tags = before ++ (k, v) :: after /\ ~ In k (map fst after)).
Proof.
  intros buf l i id tags t cmds Hb Ht Hc Hg Hev Hid (pre & s & E & Hn). set (w := mkWF id [([], VUnhash)] (Some t) (Some cmds)). rewrite (std_tagged_eq id tags t cmds Ht) in E. fold w in E.
  assert (A : at_ buf (zlen pre) (EncodeVarint (zlen (feature_bytes MapboxProto w tags)) ++ feature_bytes MapboxProto w tags ++ s)) by (exists pre; split; [exact E|reflexivity]).
  pose proof (at_app _ _ _ _ A) as A1. destruct (norm_onto (lVals l)) as (vt & Ev). assert (Hb3 : zlen buf < 2 ^ 63) by (unfold zlen; lia).
  destruct (proj2 (C83_tags (lKeys l) (lVals l) tags) Hev) as (m & Em & Nm & Im). rewrite Ev in Em.
  set (p0 := zlen pre + zlen (EncodeVarint (zlen (feature_bytes MapboxProto w tags)))) in *. set (e0 := p0 + zlen (feature_bytes MapboxProto w tags)).
  assert (A2 : at_ buf p0 (idseg MapboxProto w ++ tagseg MapboxProto w tags ++ typeseg MapboxProto w ++ geomseg MapboxProto w ++ s)) by (unfold feature_bytes in A1; rewrite <- !app_assoc in A1; exact A1).
  assert (Ee : e0 = p0 + zlen (idseg MapboxProto w) + zlen (tagseg MapboxProto w tags) + zlen (typeseg MapboxProto w) + zlen (geomseg MapboxProto w)) by (unfold e0, feature_bytes; rewrite !zlen_app; lia).
  pose proof (at_app _ _ _ _ A2) as A3. pose proof (at_app _ _ _ _ A3) as A4. pose proof (at_app _ _ _ _ A4) as A5.
  pose proof (zlen_nonneg (idseg MapboxProto w)). pose proof (zlen_nonneg (tagseg MapboxProto w tags)). pose proof (zlen_nonneg (typeseg MapboxProto w)). pose proof (zlen_nonneg (geomseg MapboxProto w)).
  set (i0 := match id with Some z => wrap64 z | None => 0 end).
  destruct (run_geom 0 MapboxProto buf (lKeys l) vt e0 (or_introl eq_refl) Hb ltac:(lia) w _ (mkRF i0 t m 0) s A5) as (gp & Rg & G); [lia|]. cbn [rfID rfType rfProps rfGeomPos] in Rg. change (holds_cmds buf gp cmds) in G.
  destruct (holds_read buf gp cmds Hb3 Hc G) as (e & K).
  exists (mkRF i0 t m gp). cbn [rfID rfType rfProps]. split; [|split; [|split; [reflexivity|split; [|split; [|split; [exact Nm|exact Im]]]]]].
  - intros fuel Hf. unfold Feature. rewrite Hn. change (Z.of_nat (length pre)) with (zlen pre). rewrite (ReadVarint_at _ _ _ _ A). cbn [bind]. rewrite (at_len_wrap _ _ _ _ Hb3 A1). fold p0. rewrite (at_wrap _ _ _ _ Hb3 A1), Ev. fold e0. revert fuel Hf.
    change (run 0 MapboxProto buf (lKeys l) vt e0 4 p0 (mkRF 0 0 [] 0) (mkRF i0 t m gp)).
    apply (run_id 0 MapboxProto buf (lKeys l) vt e0 (or_introl eq_refl) w 3 _ _ _ _ A2); [lia|]. apply (run_tags 0 MapboxProto buf (lKeys l) vt e0 (or_introl eq_refl) Hb w tags 2 _ _ _ m _ A3); [lia|exact Hg|exact Em|discriminate|].
    apply (run_type 0 MapboxProto buf (lKeys l) vt e0 (or_introl eq_refl) w 1 _ _ _ _ A4); [lia|intros x X; injection X as <-; lia|]. exact Rg.
  - unfold i0. destruct id; [|reflexivity]. apply wrap64_id. unfold in_i64. lia.
  - unfold LoadGeometryRaw. cbn [rfGeomPos]. rewrite K. reflexivity.
  - unfold LoadGeometry, LoadGeometryRaw. cbn [rfGeomPos rfType]. rewrite K. reflexivity.
Qed.
Print Assumptions C162_tags.

(** ** Not vacuous: a square in a tile of one layer *)
Example C162_nonvacuous : let m := std_feature (Some 7) 3 (std_rings (0, 0) [[(0, 0); (10, 0); (10, 10); (0, 10)]]) in
  let buf := [26; 22; 10; 1; 97; 18; 17] ++ m in
  m = [8; 7; 24; 3; 34; 11; 9; 0; 0; 26; 20; 0; 0; 20; 19; 0; 15] /\
  exists t l, NewTile 400 0 buf = Ok t /\ mget [97] (tMap t) = Some l /\ has_feature buf l 0 m.
Proof.
  cbv zeta. split; [reflexivity|]. do 2 eexists. split; [vm_compute; reflexivity|]. split; [vm_compute; reflexivity|]. exists [26; 22; 10; 1; 97; 18], []. split; reflexivity.
Qed.
Example C162_tags_nonvacuous : std_tagged None [0; 1] 1 (std_points [(1, 2)]) = [18; 2; 0; 1; 24; 1; 34; 3; 9; 2; 4] /\ Nat.Even (length [0; 1]).
Proof. split; [reflexivity|exists 1%nat; reflexivity]. Qed.
