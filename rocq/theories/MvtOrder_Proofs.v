(** Written features read with an end up to four bytes too early. *)
From Coq Require Import ZArith List Lia Bool.
From Verif Require Import GoBase Pbf_Model Pbf_Proofs MvtGeom_Model MvtLayer_Model MvtLayer_Spec MvtLayer_Proofs MvtLayerRead_Proofs MvtTile_Proofs MvtOrder_Model.
Import ListNotations.
Open Scope Z_scope.

(** ** With the operand read after the call, the readers are those of MvtLayer_Model. *)
Lemma FeatureO_late fuel P buf l i : FeatureO false fuel P buf l i = Feature fuel P buf l i.
Proof. reflexivity. Qed.
Lemma read_featsO_late fuel extra P buf keys vals name ps : forall id gt gp,
  read_featsO false fuel extra P buf keys vals name ps id gt gp = read_feats fuel extra P buf keys vals name ps id gt gp.
Proof.
  induction ps as [|p ps IH]; intros id gt gp; cbn [read_featsO read_feats]; auto. unfold feat_end.
  destruct (ReadVarint buf p) as [[size pos]| |]; cbn [bind]; auto.
  destruct (feat_loop _ _ _ _ _ _ _ _ _) as [f| |]; cbn [bind]; auto.
  destruct (ReadPackedUInt32 _ _) as [[c e]| |]; cbn [bind]; auto. destruct (LoadGeometryCmds _ _); cbn [bind]; auto. rewrite IH. auto.
Qed.
Lemma read_loopO_late fuel chk extra P buf : forall pos acc, read_loopO false fuel chk extra P buf pos acc = read_loop fuel chk extra P buf pos acc.
Proof.
  induction fuel as [|fuel IH]; intros pos acc; cbn [read_loopO read_loop]; auto. destruct (pos <? zlen buf); auto.
  destruct (ReadTag buf pos) as [[[k v] p]| |]; cbn [bind]; auto. destruct ((k =? pLayers P) && (v =? wBytes)); auto.
  destruct (ReadVarint buf p) as [[size p1]| |]; cbn [bind]; auto.
  match goal with |- bind ?x _ = _ => destruct x as [s| |]; cbn [bind]; auto end. rewrite read_featsO_late.
  destruct (read_feats _ _ _ _ _ _ _ _ _ _ _); cbn [bind]; auto.
Qed.

(** ** The length of a length *)
Lemma leb_short f : forall v n, 0 <= v < 128 ^ Z.of_nat n -> (0 < n)%nat -> zlen (leb f v) <= Z.of_nat n.
Proof.
  induction f as [|f IH]; intros v n H Hn; cbn [leb].
  - rewrite zlen_cons, zlen_nil. lia.
  - destruct (Z.ltb_spec v 128); [rewrite zlen_cons, zlen_nil; lia|]. rewrite zlen_cons.
    destruct n as [|[|n]]; [lia|cbn in H; lia|]. rewrite Nat2Z.inj_succ, Z.pow_succ_r in H by lia.
    specialize (IH (v / 128) (S n)). assert (0 <= v / 128 < 128 ^ Z.of_nat (S n)).
    { split; [apply Z.div_pos; lia|]. apply Z.div_lt_upper_bound; lia. }
    specialize (IH H1 ltac:(lia)). lia.
Qed.
Lemma Encode_short v n : 0 <= v < 128 ^ Z.of_nat n -> (0 < n <= 9)%nat -> zlen (EncodeVarint v) <= Z.of_nat n.
Proof.
  intros H Hn. unfold EncodeVarint. rewrite u64_id; [apply leb_short; auto; lia|].
  unfold in_u64. assert (128 ^ Z.of_nat n <= 128 ^ 9) by (apply Z.pow_le_mono_r; lia). assert (128 ^ 9 < 2 ^ 64) by reflexivity. lia.
Qed.

(** ** One feature *)
Section FeatLoop.
  Variable extra : Z.
  Variable P : proto.
  Variable buf : bytes.
  Variable kt : list (list Z).
  Variable vt : list gval.
  Variable endpos : Z.
  Hypothesis HP : dialect P.
  Hypothesis Hb : zlen buf < 2 ^ 62.
  Hypothesis He : 0 <= extra <= 1.
  Notation run := (run extra P buf kt vt endpos).
  Ltac pf := match goal with |- context [?a =? ?b] => replace (a =? b) with false by (dial; reflexivity) end; cbn [andb bind].

  Lemma run2_id w N pos f r s : at_ buf pos (idseg P w ++ s) -> (idseg P w <> [] -> pos < endpos) ->
    run N (pos + zlen (idseg P w)) (mkRF (match wID w with Some z => wrap64 z | None => rfID f end) (rfType f) (rfProps f) (rfGeomPos f)) r ->
    run (S N) pos f r.
  Proof.
    unfold idseg. destruct (wID w) as [z|]; intros H Hp Hr.
    - specialize (Hp ltac:(discriminate)). intros n Hn. destruct n as [|n]; [lia|]. unfold WriteUInt64, WriteTag in *. rewrite zlen_app, zlen_cons, zlen_nil in *.
      pose proof (Encode_len z). pose proof (p_ranges P HP) as R. pose proof w_ranges as W.
      cbn [feat_loop]. destruct (Z.ltb_spec pos endpos); [|lia]. cbn [app] in H.
      assert (R1 : 0 <= pID P < 32) by lia. assert (W1 : 0 <= wVarint < 8) by lia.
      rewrite (ReadTag_tag _ _ _ _ _ R1 W1 H). cbn [bind]. apply at_cons in H. rewrite Z.eqb_refl. change (wVarint =? wVarint) with true. cbn [andb].
      rewrite (ReadUInt64_at _ _ _ _ H). cbn [bind]. rewrite wrap64_u64. pf. cbn [rfID rfType rfProps rfGeomPos]. pf. pf.
      replace (pos + 1 + zlen (EncodeVarint z)) with (pos + (1 + 0 + zlen (EncodeVarint z))) by lia. apply Hr. lia.
    - rewrite zlen_nil, Z.add_0_r in Hr. apply run_weaken. destruct f; exact Hr.
  Qed.

  Lemma run2_tags w tags N pos f r m s : at_ buf pos (tagseg P w tags ++ s) -> (tagseg P w tags <> [] -> pos < endpos) ->
    Forall in_u32 tags -> tag_props kt (map norm vt) tags (rfProps f) = Ok m -> (wProps w = [] -> m = rfProps f) ->
    run N (pos + zlen (tagseg P w tags)) (mkRF (rfID f) (rfType f) m (rfGeomPos f)) r ->
    run (S N) pos f r.
  Proof.
    unfold tagseg. destruct (wProps w) as [|kv props]; intros H Hp Hu Ht Hm Hr.
    - rewrite zlen_nil, Z.add_0_r in Hr. apply run_weaken. rewrite (Hm eq_refl) in Hr. destruct f; exact Hr.
    - specialize (Hp ltac:(discriminate)). intros n Hn. destruct n as [|n]; [lia|]. unfold WritePackedUInt32, WriteTag in *. rewrite !zlen_app, zlen_cons, zlen_nil in *.
      pose proof (Encode_len (zlen (packed tags))). pose proof (zlen_nonneg (packed tags)). pose proof (p_ranges P HP) as R. pose proof w_ranges as W.
      cbn [feat_loop]. destruct (Z.ltb_spec pos endpos); [|lia]. rewrite <- !app_assoc in H. cbn [app] in H.
      assert (R1 : 0 <= pTags P < 32) by lia. assert (W1 : 0 <= wBytes < 8) by lia.
      rewrite (ReadTag_tag _ _ _ _ _ R1 W1 H). cbn [bind]. apply at_cons in H. pf. rewrite Z.eqb_refl. change (wBytes =? wBytes) with true. cbn [andb].
      rewrite (ReadPacked_at buf (pos + 1) tags s) by (auto; lia). cbn [bind]. rewrite Ht. cbn [bind]. pf. cbn [rfID rfType rfProps rfGeomPos]. pf.
      match goal with |- feat_loop _ _ _ _ _ _ ?x _ _ = _ => replace x with (pos + (1 + 0 + (zlen (EncodeVarint (zlen (packed tags))) + zlen (packed tags)))) by lia end. apply Hr. lia.
  Qed.

  Lemma run2_type w N pos f r s : at_ buf pos (typeseg P w ++ s) -> (typeseg P w <> [] -> pos < endpos) ->
    (forall t, wType w = Some t -> 0 <= t < 128) ->
    run N (pos + zlen (typeseg P w)) (mkRF (rfID f) (match wType w with Some t => t | None => rfType f end) (rfProps f) (rfGeomPos f)) r ->
    run (S N) pos f r.
  Proof.
    unfold typeseg. destruct (wType w) as [t|]; intros H Hp Ht Hr.
    - specialize (Hp ltac:(discriminate)). intros n Hn. destruct n as [|n]; [lia|]. unfold WriteVarint, WriteTag in *. rewrite zlen_app, zlen_cons, zlen_nil in *.
      pose proof (Encode_len t). pose proof (p_ranges P HP) as R. pose proof w_ranges as W. specialize (Ht t eq_refl).
      cbn [feat_loop]. destruct (Z.ltb_spec pos endpos); [|lia]. cbn [app] in H.
      assert (R1 : 0 <= pType P < 32) by lia. assert (W1 : 0 <= wVarint < 8) by lia.
      rewrite (ReadTag_tag _ _ _ _ _ R1 W1 H). cbn [bind]. apply at_cons in H. pf. pf. rewrite Z.eqb_refl. change (wVarint =? wVarint) with true. cbn [andb].
      rewrite (Varint_at _ _ _ _ H). cbn [bind]. pf. cbn [rfID rfType rfProps rfGeomPos].
      assert (E1 : hd 0 (EncodeVarint t) = t) by (rewrite Encode_small by auto; reflexivity). rewrite E1.
      match goal with |- feat_loop _ _ _ _ _ _ ?x _ _ = _ => replace x with (pos + (1 + 0 + zlen (EncodeVarint t))) by lia end. apply Hr. lia.
    - rewrite zlen_nil, Z.add_0_r in Hr. apply run_weaken. destruct f; exact Hr.
  Qed.

  Lemma run2_geom w pos f s : at_ buf pos (geomseg P w ++ s) -> endpos <= pos + zlen (geomseg P w) -> (geomseg P w <> [] -> pos < endpos) ->
    run 1 pos f (mkRF (rfID f) (rfType f) (rfProps f) (match wCmds w with Some _ => pos + 1 | None => rfGeomPos f end)).
  Proof.
    unfold geomseg. destruct (wCmds w) as [cs|]; intros H Hp Hq.
    - specialize (Hq ltac:(discriminate)). unfold WritePackedUInt32, WriteTag in *. rewrite !zlen_app, zlen_cons, zlen_nil in *.
      pose proof (Encode_len (zlen (packed cs))). pose proof (zlen_nonneg (packed cs)). pose proof (p_ranges P HP) as R. pose proof w_ranges as W.
      rewrite <- !app_assoc in H. cbn [app] in H.
      assert (R1 : 0 <= pGeometry P < 32) by lia. assert (W1 : 0 <= wBytes < 8) by lia.
      pose proof H as Hc0. apply at_cons in Hc0.
      intros n Hn. destruct n as [|n]; [lia|]. cbn [feat_loop]. destruct (Z.ltb_spec pos endpos); [|lia].
      rewrite (ReadTag_tag _ _ _ _ _ R1 W1 H). cbn [bind]. pf. pf. pf. rewrite Z.eqb_refl. change (wBytes =? wBytes) with true. cbn [andb].
      pose proof (at_app _ _ _ _ Hc0) as Hc2. rewrite (ReadVarint_at _ _ _ _ Hc0). cbn [bind].
      destruct (at_pos _ _ _ Hc2) as [Q1 Q2]. rewrite zlen_app in Q2. pose proof (zlen_nonneg s).
      rewrite (wrap64_id (zlen (packed cs))) by (unfold in_i64; lia). rewrite wrap64_id by (unfold in_i64; lia).
      apply run_end; lia.
    - rewrite zlen_nil in Hp. apply run_weaken. destruct f; apply run_end; lia.
  Qed.

  (** What a feature loop gives on a written feature *)
  Definition read_as (w : wfeat) (tags : list Z) (pos : Z) (m : list (list Z * wval)) (f : rfeat) : rfeat :=
    mkRF (match wID w with Some z => wrap64 z | None => rfID f end) (match wType w with Some t => t | None => rfType f end) m
         (match wCmds w with Some _ => pos + zlen (idseg P w) + zlen (tagseg P w tags) + zlen (typeseg P w) + 1 | None => rfGeomPos f end).

  (** All the fields of one written feature, when the end is not before the start of any; a type
      that repeats the one at hand may be missed. *)
  Lemma feature_read2 w tags pos s f m : at_ buf pos (feature_bytes P w tags ++ s) -> endpos <= pos + zlen (feature_bytes P w tags) ->
    resolves kt vt (wProps w) tags -> tag_props kt (map norm vt) tags [] = Ok m -> (wProps w = [] -> m = []) ->
    rfProps f = [] -> (forall t, wType w = Some t -> 0 <= t < 128) ->
    (idseg P w <> [] -> pos < endpos) ->
    (tagseg P w tags <> [] -> pos + zlen (idseg P w) < endpos) ->
    (typeseg P w <> [] -> pos + zlen (idseg P w) + zlen (tagseg P w tags) < endpos \/ (wType w = Some (rfType f) /\ wCmds w = None)) ->
    (geomseg P w <> [] -> pos + zlen (idseg P w) + zlen (tagseg P w tags) + zlen (typeseg P w) < endpos) ->
    run 4 pos f (read_as w tags pos m f).
  Proof.
    intros H Ee Hr Em Hm Hf Ht S1 S2 S3 S4. unfold feature_bytes in *. rewrite !zlen_app in Ee. rewrite <- !app_assoc in H.
    pose proof (at_app _ _ _ _ H) as H1. pose proof (at_app _ _ _ _ H1) as H2. pose proof (at_app _ _ _ _ H2) as H3.
    set (i := match wID w with Some z => wrap64 z | None => rfID f end). set (t := match wType w with Some t => t | None => rfType f end).
    assert (Rg : run 1 (pos + zlen (idseg P w) + zlen (tagseg P w tags) + zlen (typeseg P w)) (mkRF i t m (rfGeomPos f)) (read_as w tags pos m f)).
    { pose proof (run2_geom w _ (mkRF i t m (rfGeomPos f)) s H3 ltac:(lia) S4) as X. exact X. }
    apply (run2_id w 3 pos f _ _ H S1). fold i. rewrite Hf.
    apply (run2_tags w tags 2 _ _ _ m _ H1 S2); [eapply resolves_u32; eauto|exact Em| |].
    { intros E. rewrite (Hm E). reflexivity. }
    cbn [rfID rfType rfProps rfGeomPos].
    assert (D : (typeseg P w <> [] -> pos + zlen (idseg P w) + zlen (tagseg P w tags) < endpos) \/
                (endpos <= pos + zlen (idseg P w) + zlen (tagseg P w tags) /\ wType w = Some (rfType f) /\ wCmds w = None)).
    { destruct (Z_lt_le_dec (pos + zlen (idseg P w) + zlen (tagseg P w tags)) endpos) as [L|L]; [left; auto|].
      destruct (typeseg P w) as [|b q] eqn:E; [left; congruence|]. destruct (S3 ltac:(discriminate)) as [X|X]; [left; auto|right; auto]. }
    destruct D as [D|(D1 & D2 & D3)].
    - apply (run2_type w 1 _ _ _ _ H2 D); [auto|]. cbn [rfID rfType rfProps rfGeomPos]. fold t. exact Rg.
    - apply run_weaken, run_weaken. unfold read_as. fold i. rewrite D2, D3. apply run_end. exact D1.
  Qed.
End FeatLoop.

(** ** The early end *)

(** A feature whose last field is long enough, compared with the length prefix of the feature *)
Definition long_end (w : wfeat) : Prop := forall cs, wCmds w = Some cs -> (3 <= length cs)%nat.

Lemma seg_lens P w tags : (wProps w <> [] -> (2 <= length tags)%nat) ->
  (idseg P w <> [] -> 2 <= zlen (idseg P w)) /\ zlen (idseg P w) <= 11 /\
  (tagseg P w tags <> [] -> 4 <= zlen (tagseg P w tags)) /\
  (typeseg P w <> [] -> 2 <= zlen (typeseg P w)) /\
  ((forall t, wType w = Some t -> 0 <= t < 128) -> zlen (typeseg P w) <= 2) /\
  (geomseg P w <> [] -> long_end w -> 5 <= zlen (geomseg P w)).
Proof.
  intros Ht. unfold idseg, tagseg, typeseg, geomseg, WriteUInt64, WriteVarint, WritePackedUInt32, WriteTag. repeat split.
  - destruct (wID w) as [z|]; [|congruence]. intros _. rewrite zlen_app, zlen_cons, zlen_nil. pose proof (Encode_len z). lia.
  - destruct (wID w) as [z|]; [|rewrite zlen_nil; lia]. rewrite zlen_app, zlen_cons, zlen_nil. pose proof (Encode_len z). lia.
  - destruct (wProps w) as [|kv ps]; [congruence|]. intros _. specialize (Ht ltac:(discriminate)). rewrite !zlen_app, zlen_cons, zlen_nil.
    pose proof (Encode_len (zlen (packed tags))). pose proof (packed_len tags). unfold zlen in *. lia.
  - destruct (wType w) as [t|]; [|congruence]. intros _. rewrite zlen_app, zlen_cons, zlen_nil. pose proof (Encode_len t). lia.
  - destruct (wType w) as [t|]; [|intros _; cbv; discriminate]. intros H. specialize (H t eq_refl). rewrite Encode_small by auto. cbv. discriminate.
  - unfold long_end. destruct (wCmds w) as [cs|]; [|congruence]. intros _ H. specialize (H cs eq_refl). rewrite !zlen_app, zlen_cons, zlen_nil.
    pose proof (Encode_len (zlen (packed cs))). pose proof (packed_len cs). unfold zlen in *. lia.
Qed.

Lemma resolves_len kt vt props tags : resolves kt vt props tags -> props <> [] -> (2 <= length tags)%nat.
Proof. intros H Hn. inversion H; subst; [congruence|]. cbn [length]. lia. Qed.

Lemma feature_early extra P buf kt vt w tags p s m early f : dialect P -> zlen buf < 2 ^ 28 -> 0 <= extra <= 1 ->
  at_ buf p (EncodeVarint (zlen (feature_bytes P w tags)) ++ feature_bytes P w tags ++ s) ->
  resolves kt vt (wProps w) tags -> tag_props kt (map norm vt) tags [] = Ok m -> (wProps w = [] -> m = []) ->
  rfProps f = [] -> (forall t, wType w = Some t -> 0 <= t < 128) -> long_end w ->
  (wCmds w = None -> forall t, wType w = Some t -> t = rfType f) ->
  let pos := p + zlen (EncodeVarint (zlen (feature_bytes P w tags))) in
  forall fuel, (4 <= fuel)%nat ->
  feat_loop fuel extra P buf kt (map norm vt) pos (feat_end early p pos (zlen (feature_bytes P w tags))) f = Ok (read_as P w tags pos m f).
Proof.
  intros HP Hb He Hp Hr Em Hm Hf Ht Hl Hx pos fuel Hfu.
  pose proof (at_app _ _ _ _ Hp) as Hp1. fold pos in Hp1. destruct (at_pos _ _ _ Hp) as [Q0 _]. destruct (at_pos _ _ _ Hp1) as [Q1 Q2]. rewrite zlen_app in Q2. pose proof (zlen_nonneg s) as Q3.
  set (n := zlen (EncodeVarint (zlen (feature_bytes P w tags)))) in *. set (len := zlen (feature_bytes P w tags)) in *.
  assert (N0 : 0 <= len) by apply zlen_nonneg.
  assert (N1 : 1 <= n) by apply Encode_len.
  assert (N2 : n <= 4) by (apply (Encode_short len 4); [change (128 ^ Z.of_nat 4) with (2 ^ 28)|]; lia).
  assert (N3 : len < 128 -> n = 1) by (intros; assert (n <= 1) by (apply (Encode_short len 1); [change (128 ^ Z.of_nat 1) with 128|]; lia); lia).
  destruct (seg_lens P w tags (resolves_len _ _ _ _ Hr)) as (L1 & L2 & L3 & L4 & L5 & L6). specialize (L5 Ht).
  assert (EL : len = zlen (idseg P w) + (zlen (tagseg P w tags) + (zlen (typeseg P w) + zlen (geomseg P w)))) by (unfold len, feature_bytes; rewrite !zlen_app; lia).
  pose proof (zlen_nonneg (idseg P w)) as Z1. pose proof (zlen_nonneg (tagseg P w tags)) as Z2. pose proof (zlen_nonneg (typeseg P w)) as Z3. pose proof (zlen_nonneg (geomseg P w)) as Z4.
  assert (EE : feat_end early p pos len = (if early then p else pos) + len) by (unfold feat_end; apply wrap64_id; unfold in_i64; destruct early; lia).
  rewrite EE.
  assert (B1 : pos - 4 <= (if early then p else pos) <= pos) by (destruct early; unfold pos; lia).
  assert (B2 : len < 128 -> pos - 1 <= (if early then p else pos)) by (intros; destruct early; unfold pos; lia).
  set (a := if early then p else pos) in *. clearbody a n.
  assert (G0 : geomseg P w = [] -> zlen (geomseg P w) = 0) by (intros ->; reflexivity).
  assert (T0 : tagseg P w tags = [] -> zlen (tagseg P w tags) = 0) by (intros ->; reflexivity).
  assert (Y0 : typeseg P w = [] -> zlen (typeseg P w) = 0) by (intros ->; reflexivity).
  assert (DG : geomseg P w = [] \/ geomseg P w <> []) by (destruct (geomseg P w); [left|right]; congruence).
  assert (DT : tagseg P w tags = [] \/ tagseg P w tags <> []) by (destruct (tagseg P w tags); [left|right]; congruence).
  assert (DY : typeseg P w = [] \/ typeseg P w <> []) by (destruct (typeseg P w); [left|right]; congruence).
  refine (feature_read2 extra P buf kt vt (a + len) HP _ He w tags pos s f m Hp1 _ Hr Em Hm Hf Ht _ _ _ _ fuel Hfu).
  - lia.
  - fold len. lia.
  - intros H. specialize (L1 H). destruct (Z_lt_le_dec len 128); [|lia]. specialize (B2 ltac:(lia)). lia.
  - intros H. specialize (L3 H). destruct (Z_lt_le_dec len 128); [|].
    + specialize (B2 ltac:(lia)). lia.
    + destruct DG as [DG|DG]; [specialize (G0 DG); lia|]. specialize (L6 DG Hl). lia.
  - intros H. specialize (L4 H). destruct DG as [DG|DG].
    + destruct (Z_lt_le_dec len 128); [left; specialize (B2 ltac:(lia)); lia|right].
      assert (wCmds w = None) as C by (unfold geomseg in DG; destruct (wCmds w); [discriminate|auto]). split; auto.
      unfold typeseg in H. destruct (wType w) as [t|] eqn:E; [|congruence]. f_equal. apply (Hx C t eq_refl).
    + specialize (L6 DG Hl). left. lia.
  - intros H. specialize (L6 H Hl). lia.
Qed.

Lemma feature_early_holds P buf w tags pos s : at_ buf pos (feature_bytes P w tags ++ s) ->
  forall cs, wCmds w = Some cs -> holds_cmds buf (pos + zlen (idseg P w) + zlen (tagseg P w tags) + zlen (typeseg P w) + 1) cs.
Proof.
  intros H cs E. unfold feature_bytes in H. rewrite <- !app_assoc in H. apply at_app, at_app, at_app in H.
  unfold geomseg in H. rewrite E in H. unfold WritePackedUInt32, WriteTag in H. rewrite <- !app_assoc in H. cbn [app] in H. apply at_cons in H. exists s. exact H.
Qed.
