(** The readers on written layers. *)
From Coq Require Import ZArith List Lia Bool.
From Verif Require Import GoBase Pbf_Model Pbf_Proofs MvtGeom_Model MvtLayer_Model MvtLayer_Spec MvtLayer_Proofs.
Import ListNotations.
Open Scope Z_scope.

(** ** Values *)
Definition norm (v : gval) : wval :=
  match v with
  | VFloat32 _ b => WFloat b
  | VFloat64 _ b => WDouble b
  | VInt _ z => WInt z
  | VUInt _ z => WUInt z
  | VBool _ b => WBool b
  | VString _ s => WString s
  | _ => WString []
  end.

Lemma entry_wire v v' : entry_for v v' -> wire_value v (norm v').
Proof.
  intros [->|H].
  - destruct v; cbn [wire_value norm]; auto; eexists; split; auto.
  - destruct v, v'; cbn [veqb] in H; try discriminate; cbn [wire_value norm]; apply andb_true_iff in H as [_ H].
    + unfold f_eqb in H. eexists. split; [reflexivity|]. change (32 - 1) with 31 in H.
      apply andb_true_iff in H as [_ H]. apply orb_true_iff in H as [H|H]; [left; lia|right]. lia.
    + unfold f_eqb in H. eexists. split; [reflexivity|]. change (64 - 1) with 63 in H.
      apply andb_true_iff in H as [_ H]. apply orb_true_iff in H as [H|H]; [left; lia|right]. lia.
    + apply Z.eqb_eq in H as ->. auto.
    + apply Z.eqb_eq in H as ->. auto.
    + apply Bool.eqb_prop in H as ->. auto.
    + apply bytes_eqb_eq in H as ->. auto.
    + auto.
Qed.

Lemma nth_skipn {A} n : forall (l : list A) i, nth_error (skipn n l) i = nth_error l (n + i).
Proof. induction n as [|n IH]; intros [|a l] i; cbn [skipn Nat.add nth_error]; auto. destruct i; auto. Qed.

Ltac dial := match goal with H : dialect _ |- _ => destruct H as [->| ->] end.

Lemma read_value_at P buf pos v s : dialect P -> zlen buf < 2 ^ 63 -> go_value v ->
  let m := WriteTag (fst (WriteValue v P)) wBytes ++ snd (WriteValue v P) in
  at_ buf pos (EncodeVarint (zlen m) ++ m ++ s) ->
  read_value P buf pos = Ok ([norm v], pos + zlen (EncodeVarint (zlen m)) + zlen m) /\
  at_ buf (pos + zlen (EncodeVarint (zlen m)) + zlen m) s.
Proof.
  intros HP Hb Hv m H. pose proof (at_app _ _ _ _ H) as H2. pose proof (at_app _ _ _ _ H2) as H3. split; auto.
  unfold read_value. rewrite (ReadVarint_at _ _ _ _ H). cbn [bind].
  set (p1 := pos + zlen (EncodeVarint (zlen m))) in *.
  set (t := fst (WriteValue v P)) in *. set (vals := snd (WriteValue v P)) in *.
  assert (Ht : 0 <= t < 32) by (subst t; dial; destruct v; cbn; lia).
  assert (Em : zlen m = 1 + zlen vals) by (unfold m, WriteTag; rewrite zlen_app, zlen_cons, zlen_nil; lia).
  unfold m in H2 at 1. unfold WriteTag in H2. rewrite <- app_assoc in H2. cbn [app] in H2.
  assert (Ew : 0 <= wBytes < 8) by (unfold wBytes; lia).
  rewrite (ReadTag_tag _ _ _ _ _ Ht Ew H2). cbn [bind]. apply at_cons in H2.
  replace (p1 + zlen m) with (p1 + 1 + zlen vals) by lia.
  assert (E : forall t' k, t = t' -> t' =? k = (t' =? k)) by auto. clear E.
  subst t vals. clear Em H H3 Ht Ew.
  destruct v as [ty b|ty b|ty z|ty z|ty b|ty str|ty i|]; cbn [WriteValue fst snd norm go_value] in *.
  - replace (pFloat P =? pString P) with false by (dial; reflexivity). rewrite Z.eqb_refl.
    pose proof (ReadLE_at buf _ 4 b _ H2) as E. change (256 ^ Z.of_nat 4) with (2 ^ 32) in E. rewrite le_bytes_len. change (Z.of_nat 4) with 4 in *.
    rewrite E by lia. reflexivity.
  - replace (pDouble P =? pString P) with false by (dial; reflexivity).
    replace (pDouble P =? pFloat P) with false by (dial; reflexivity). rewrite Z.eqb_refl.
    pose proof (ReadLE_at buf _ 8 b _ H2) as E. change (256 ^ Z.of_nat 8) with (2 ^ 64) in E. rewrite le_bytes_len. change (Z.of_nat 8) with 8 in *.
    rewrite E by lia. reflexivity.
  - replace (pInt P =? pString P) with false by (dial; reflexivity).
    replace (pInt P =? pFloat P) with false by (dial; reflexivity).
    replace (pInt P =? pDouble P) with false by (dial; reflexivity). rewrite Z.eqb_refl.
    unfold ReadInt64. rewrite (ReadVarint_at _ _ _ _ H2). cbn [bind]. rewrite wrap64_id by (unfold in_i64; lia). reflexivity.
  - replace (pUInt P =? pString P) with false by (dial; reflexivity).
    replace (pUInt P =? pFloat P) with false by (dial; reflexivity).
    replace (pUInt P =? pDouble P) with false by (dial; reflexivity).
    replace (pUInt P =? pInt P) with false by (dial; reflexivity). rewrite Z.eqb_refl.
    rewrite (ReadUInt64_at _ _ _ _ H2). cbn [bind]. rewrite u64_id by (unfold in_u64; lia). reflexivity.
  - replace (pBool P =? pString P) with false by (dial; reflexivity).
    replace (pBool P =? pFloat P) with false by (dial; reflexivity).
    replace (pBool P =? pDouble P) with false by (dial; reflexivity).
    replace (pBool P =? pInt P) with false by (dial; reflexivity).
    replace (pBool P =? pUInt P) with false by (dial; reflexivity).
    replace (pBool P =? pSInt P) with false by (dial; reflexivity). rewrite Z.eqb_refl.
    unfold ReadBool. pose proof (at_skipn _ _ _ H2) as Es. destruct (at_pos _ _ _ H2) as [Hp _].
    unfold nth_res. destruct (Z.ltb_spec (p1 + 1) 0); [lia|].
    assert (nth_error buf (Z.to_nat (p1 + 1)) = Some (if b then 1 else 0)) as ->.
    { rewrite <- (Nat.add_0_r (Z.to_nat (p1 + 1))), <- nth_skipn, Es. reflexivity. }
    cbn [bind]. destruct b; reflexivity.
  - rewrite Z.eqb_refl. destruct (Z.ltb_spec 0 (zlen str)).
    + rewrite <- app_assoc in H2. rewrite (proj1 (ReadString_at _ _ _ _ Hb H2)). cbn [bind]. rewrite zlen_app, Z.add_assoc. reflexivity.
    + assert (str = []) as -> by (destruct str; auto; rewrite zlen_cons in *; pose proof (zlen_nonneg str); lia).
      rewrite (proj1 (ReadString_at buf _ [] s Hb H2)). cbn [bind]. rewrite zlen_nil, Z.add_0_r. reflexivity.
  - rewrite Z.eqb_refl. rewrite (proj1 (ReadString_at buf _ [] s Hb H2)). cbn [bind]. rewrite zlen_nil, Z.add_0_r. reflexivity.
  - rewrite Z.eqb_refl. rewrite (proj1 (ReadString_at buf _ [] s Hb H2)). cbn [bind]. rewrite zlen_nil, Z.add_0_r. reflexivity.
Qed.

(** ** The layer loop *)

(** The tag at the head of a byte string; (100, 100) at the end of the buffer. *)
Definition starts (s : bytes) : Z * Z := match s with [] => (100, 100) | b :: _ => (Z.shiftr b 3, Z.land b 7) end.

(** [c] is the state after the tag at the head of [s] has been read. *)
Definition tagged (buf : bytes) (c : cur) (s : bytes) : Prop := exists p0, at_ buf p0 s /\ next_tag buf p0 = Ok c.

Lemma tagged_ok buf p s : at_ buf p s -> exists c, next_tag buf p = Ok c /\ tagged buf c s /\ cPos c >= p.
Proof.
  intros H. destruct s as [|b s].
  - eexists. split; [|split]; [unfold next_tag; rewrite (ReadTag_end _ _ H); reflexivity| |cbn [cPos]; lia].
    exists p. split; auto. unfold next_tag. rewrite (ReadTag_end _ _ H). reflexivity.
  - eexists. split; [|split]; [unfold next_tag; rewrite (ReadTag_at _ _ _ _ H); reflexivity| |cbn [cPos]; lia].
    exists p. split; auto. unfold next_tag. rewrite (ReadTag_at _ _ _ _ H). reflexivity.
Qed.
Lemma tagged_starts buf c s : tagged buf c s -> (cKey c, cVal c) = starts s.
Proof.
  intros (p & H & E). destruct s as [|b s]; unfold next_tag in E.
  - rewrite (ReadTag_end _ _ H) in E. injection E as <-. reflexivity.
  - rewrite (ReadTag_at _ _ _ _ H) in E. injection E as <-. reflexivity.
Qed.
Lemma tagged_rest buf c b s : tagged buf c (b :: s) -> at_ buf (cPos c) s.
Proof.
  intros (p & H & E). unfold next_tag in E. rewrite (ReadTag_at _ _ _ _ H) in E. injection E as <-. cbn [cPos]. apply at_cons in H. exact H.
Qed.
Lemma starts_tag t w s : 0 <= t < 32 -> 0 <= w < 8 -> starts (tag_byte t w :: s) = (t, w).
Proof. intros Ht Hw. unfold starts. destruct (tag_byte_dec t w Ht Hw) as [-> ->]. auto. Qed.
Lemma tag_cond (c : cur) t w s buf : tagged buf c s -> ((cKey c =? t) && (cVal c =? w) = true <-> starts s = (t, w)).
Proof. intros H. rewrite <- (tagged_starts _ _ _ H), andb_true_iff, !Z.eqb_eq. split; [intros [-> ->]; auto|intros E; injection E; auto]. Qed.
Lemma tag_cond_f (c : cur) t w s buf : tagged buf c s -> starts s <> (t, w) -> (cKey c =? t) && (cVal c =? w) = false.
Proof. intros H Hn. apply not_true_is_false. intros E. apply (tag_cond _ _ _ _ _ H) in E. auto. Qed.

Definition feat_field (P : proto) (b : bytes) : bytes := tag_byte (pFeatures P) wBytes :: EncodeVarint (zlen b) ++ b.

Lemma w_ranges : 0 <= wBytes < 8 /\ 0 <= wVarint < 8. Proof. unfold wBytes, wVarint. lia. Qed.
Lemma p_ranges P : dialect P ->
  0 <= pLayers P < 32 /\ 0 <= pVersion P < 32 /\ 0 <= pName P < 32 /\ 0 <= pFeatures P < 32 /\ 0 <= pKeys P < 32 /\ 0 <= pValues P < 32 /\
  0 <= pExtent P < 32 /\ 0 <= pID P < 32 /\ 0 <= pTags P < 32 /\ 0 <= pType P < 32 /\ 0 <= pGeometry P < 32.
Proof. intros H. dial; cbn; lia. Qed.

Lemma feats_loop_at P buf bodies : dialect P -> zlen buf < 2 ^ 63 -> forall c s fuel,
  tagged buf c (flat_map (feat_field P) bodies ++ s) -> starts s <> (pFeatures P, wBytes) -> (length bodies < fuel)%nat ->
  exists poss c', feats_loop fuel P buf c = Ok (poss, c') /\ tagged buf c' s /\
    Forall2 (fun p b => exists s', at_ buf p (EncodeVarint (zlen b) ++ b ++ s')) poss bodies.
Proof.
  intros HP Hb. induction bodies as [|b bodies IH]; intros c s fuel H Hs Hf.
  - cbn [flat_map app] in H. exists [], c. split; [|split; auto].
    destruct fuel; cbn [feats_loop]; rewrite (tag_cond_f _ _ _ _ _ H Hs); auto.
  - destruct fuel as [|fuel]; [cbn [length] in Hf; lia|]. cbn [flat_map] in H. unfold feat_field in H at 1. rewrite <- !app_assoc in H. cbn [app] in H.
    rewrite <- !app_assoc in H.
    pose proof (p_ranges P HP) as R. pose proof w_ranges as W.
    cbn [feats_loop]. rewrite (proj2 (tag_cond _ _ _ _ _ H)) by (apply starts_tag; lia).
    apply tagged_rest in H. pose proof (at_app _ _ _ _ H) as H2. rewrite (ReadVarint_at _ _ _ _ H). cbn [bind].
    rewrite (at_len_wrap _ _ _ _ Hb H2), (at_wrap _ _ _ _ Hb H2). pose proof (at_app _ _ _ _ H2) as H3.
    destruct (tagged_ok _ _ _ H3) as (c' & -> & T & _). cbn [bind].
    destruct (IH c' s fuel T Hs) as (poss & c'' & -> & T' & F); [cbn [length] in Hf; lia|]. cbn [bind].
    exists (cPos c :: poss), c''. split; auto. split; auto. constructor; auto. eexists. exact H.
Qed.

Lemma keys_loop_at P buf ks : dialect P -> zlen buf < 2 ^ 63 -> forall c s fuel,
  tagged buf c (flat_map (WriteString (pKeys P)) ks ++ s) -> starts s <> (pKeys P, wBytes) -> (length ks < fuel)%nat ->
  exists c', keys_loop fuel P buf c = Ok (ks, c') /\ tagged buf c' s.
Proof.
  intros HP Hb. induction ks as [|b ks IH]; intros c s fuel H Hs Hf.
  - cbn [flat_map app] in H. exists c. split; auto. destruct fuel; cbn [keys_loop]; rewrite (tag_cond_f _ _ _ _ _ H Hs); auto.
  - destruct fuel as [|fuel]; [cbn [length] in Hf; lia|]. cbn [flat_map] in H. unfold WriteString in H at 1. unfold WriteTag in H. rewrite <- !app_assoc in H. cbn [app] in H.
    rewrite <- ?app_assoc in H. pose proof (p_ranges P HP) as R. pose proof w_ranges as W.
    cbn [keys_loop]. rewrite (proj2 (tag_cond _ _ _ _ _ H)) by (apply starts_tag; lia).
    apply tagged_rest in H. destruct (ReadString_at _ _ _ _ Hb H) as [-> H3]. cbn [bind].
    destruct (tagged_ok _ _ _ H3) as (c' & -> & T & _). cbn [bind].
    destruct (IH c' s fuel T Hs) as (c'' & -> & T'); [cbn [length] in Hf; lia|]. cbn [bind]. exists c''. auto.
Qed.

Lemma values_loop_at chk P buf vs : dialect P -> zlen buf < 2 ^ 63 -> Forall go_value vs -> forall c s fuel,
  tagged buf c (flat_map (value_field P) vs ++ s) -> fst (starts s) <> pValues P -> (length vs < fuel)%nat ->
  exists c', values_loop chk fuel P buf c = Ok (map norm vs, c') /\ tagged buf c' s.
Proof.
  intros HP Hb. induction vs as [|v vs IH]; intros HV c s fuel H Hs Hf.
  - cbn [flat_map app] in H. exists c. split; auto. pose proof (tagged_starts _ _ _ H) as E.
    assert (cKey c =? pValues P = false) as Ek by (apply Z.eqb_neq; intros E'; apply Hs; rewrite <- E; exact E').
    destruct fuel; cbn [values_loop]; rewrite Ek; auto.
  - destruct fuel as [|fuel]; [cbn [length] in Hf; lia|]. inversion HV as [|? ? HV1 HV2]; subst.
    cbn [flat_map] in H. unfold value_field in H at 1. unfold WriteMessage in H. rewrite <- !app_assoc in H. unfold WriteTag in H at 1. cbn [app] in H.
    pose proof (p_ranges P HP) as R. pose proof w_ranges as W.
    cbn [values_loop]. pose proof (proj2 (tag_cond c (pValues P) wBytes _ _ H)) as E. rewrite starts_tag in E by lia. specialize (E eq_refl).
    apply andb_true_iff in E as [-> ->]. rewrite orb_true_r. cbn [andb].
    apply tagged_rest in H. rewrite app_assoc in H.
    set (m := WriteTag (fst (WriteValue v P)) wBytes ++ snd (WriteValue v P)) in *.
    assert (H' : at_ buf (cPos c) (EncodeVarint (zlen m) ++ m ++ flat_map (value_field P) vs ++ s)).
    { match type of H with at_ _ _ ?x => match goal with |- at_ _ _ ?y => replace y with x; [exact H|] end end.
      unfold m. rewrite <- !app_assoc. reflexivity. }
    destruct (read_value_at P buf (cPos c) v _ HP Hb HV1 H') as [-> H3]. cbn [bind].
    destruct (tagged_ok _ _ _ H3) as (c' & -> & T & _). cbn [bind].
    destruct (IH HV2 c' s fuel T Hs) as (c'' & -> & T'); [cbn [length] in Hf; lia|]. cbn [bind]. exists c''. auto.
Qed.

Lemma starts_fields {A} (f : A -> bytes) t w l s : 0 <= t < 32 -> 0 <= w < 8 -> (forall a, exists r, f a = tag_byte t w :: r) ->
  starts (flat_map f l ++ s) = (t, w) \/ starts (flat_map f l ++ s) = starts s.
Proof.
  intros Ht Hw Hf. destruct l as [|a l]; [right; auto|left]. cbn [flat_map]. destruct (Hf a) as (r & ->). rewrite <- app_assoc. cbn [app]. apply starts_tag; auto.
Qed.

Definition name_field (P : proto) (name : list Z) : bytes := match name with [] => [] | _ => WriteString (pName P) name end.
Definition name_list (name : list Z) : list (list Z) := match name with [] => [] | _ => [name] end.
Definition body_of (P : proto) (name : list Z) (bodies : list bytes) (ks : list (list Z)) (vs : list gval) (ext ver : Z) : bytes :=
  name_field P name ++ flat_map (feat_field P) bodies ++ flat_map (WriteString (pKeys P)) ks ++ flat_map (value_field P) vs ++
  WriteUInt64 (pExtent P) ext ++ WriteVarint (pVersion P) ver.

Lemma mkLR_eq s : mkLR (lrName s) (lrNames s) (lrFeats s) (lrKeys s) (lrVals s) (lrExtent s) (lrVersion s) = s.
Proof. destruct s; auto. Qed.

(** One round of the loop over a written body leaves the state after the tag following it. *)
Lemma layer_loop_at chk P buf pos name bodies ks vs ext ver rest fuel : dialect P -> zlen buf < 2 ^ 63 -> Forall go_value vs ->
  at_ buf pos (body_of P name bodies ks vs ext ver ++ rest) -> (length bodies + length ks + length vs < fuel)%nat ->
  exists c0 c poss, next_tag buf pos = Ok c0 /\ tagged buf c rest /\
    (forall endpos, cPos c0 < endpos -> layer_loop chk (S fuel) P buf endpos c0 layerr0 =
       layer_loop chk fuel P buf endpos c (mkLR name (name_list name) poss ks (map norm vs) (wrap64 ext) (wrap64 ver))) /\
    cPos c >= pos + zlen (body_of P name bodies ks vs ext ver) /\ cPos c0 < pos + zlen (body_of P name bodies ks vs ext ver) /\
    Forall2 (fun p b => exists s', at_ buf p (EncodeVarint (zlen b) ++ b ++ s')) poss bodies.
Proof.
  intros HP Hb HV H Hf. pose proof (p_ranges P HP) as R. pose proof w_ranges as W.
  set (e := pos + zlen (body_of P name bodies ks vs ext ver)). pose proof (at_app _ _ _ _ H) as Hend. fold e in Hend.
  unfold body_of in H. rewrite <- !app_assoc in H.
  set (s5 := WriteVarint (pVersion P) ver ++ rest) in *.
  set (s4 := WriteUInt64 (pExtent P) ext ++ s5) in *.
  set (s3 := flat_map (value_field P) vs ++ s4) in *.
  set (s2 := flat_map (WriteString (pKeys P)) ks ++ s3) in *.
  set (s1 := flat_map (feat_field P) bodies ++ s2) in *.
  assert (St5 : starts s5 = (pVersion P, wVarint)) by (apply starts_tag; lia).
  assert (St4 : starts s4 = (pExtent P, wVarint)) by (apply starts_tag; lia).
  assert (St3 : starts s3 = (pValues P, wBytes) \/ starts s3 = starts s4).
  { apply starts_fields; try lia. intros a. unfold value_field, WriteMessage, WriteTag. eexists. reflexivity. }
  assert (St2 : starts s2 = (pKeys P, wBytes) \/ starts s2 = starts s3).
  { apply starts_fields; try lia. intros a. unfold WriteString, WriteTag. eexists. reflexivity. }
  assert (St1 : starts s1 = (pFeatures P, wBytes) \/ starts s1 = starts s2).
  { apply starts_fields; try lia. intros a. unfold feat_field. eexists. reflexivity. }
  assert (N3 : fst (starts s4) <> pValues P) by (rewrite St4; dial; cbn; lia).
  assert (N2 : starts s3 <> (pKeys P, wBytes)) by (destruct St3 as [->| ->]; rewrite ?St4; dial; cbn; congruence).
  assert (N1 : starts s2 <> (pFeatures P, wBytes)) by (destruct St2 as [->| ->]; [|destruct St3 as [->| ->]]; rewrite ?St4; dial; cbn; congruence).
  assert (N0 : starts s1 <> (pName P, wBytes)) by (destruct St1 as [->| ->]; [|destruct St2 as [->| ->]; [|destruct St3 as [->| ->]]]; rewrite ?St4; dial; cbn; congruence).
  destruct (tagged_ok _ _ _ H) as (c0 & E0 & T0 & _).
  assert (Hpos0 : cPos c0 < e).
  { assert (L : exists b r, name_field P name ++ s1 = b :: r /\ zlen (name_field P name ++ s1) = zlen (body_of P name bodies ks vs ext ver) + zlen rest /\ 1 < zlen (body_of P name bodies ks vs ext ver)).
    { assert (E : name_field P name ++ s1 = body_of P name bodies ks vs ext ver ++ rest) by (unfold body_of, s1, s2, s3, s4, s5; rewrite <- !app_assoc; reflexivity).
      rewrite E, zlen_app. assert (1 < zlen (body_of P name bodies ks vs ext ver)).
      { unfold body_of. rewrite !zlen_app. unfold WriteUInt64 at 1. rewrite zlen_app. unfold WriteTag. rewrite zlen_cons, zlen_nil.
        pose proof (Encode_len ext). pose proof (zlen_nonneg (name_field P name)). pose proof (zlen_nonneg (flat_map (feat_field P) bodies)).
        pose proof (zlen_nonneg (flat_map (WriteString (pKeys P)) ks)). pose proof (zlen_nonneg (flat_map (value_field P) vs)). pose proof (zlen_nonneg (WriteVarint (pVersion P) ver)). lia. }
      destruct (body_of P name bodies ks vs ext ver ++ rest) as [|b r] eqn:E2.
      - apply app_eq_nil in E2 as [E2 _]. rewrite E2, zlen_nil in *. lia.
      - exists b, r. auto. }
    destruct L as (b & r & E & _ & L). rewrite E in T0. destruct T0 as (p & A & E'). unfold next_tag in E', E0. rewrite E in H.
    rewrite (ReadTag_at _ _ _ _ H) in E0. injection E0 as <-. cbn [cPos]. unfold e. lia. }
  (* name *)
  assert (Sname : exists c1, tagged buf c1 s1 /\
     (if (cKey c0 =? pName P) && (cVal c0 =? wBytes) then
        let! (n, p) := ReadString buf (cPos c0) in let! c := next_tag buf p in
        Ok (mkLR n (lrNames layerr0 ++ [n]) (lrFeats layerr0) (lrKeys layerr0) (lrVals layerr0) (lrExtent layerr0) (lrVersion layerr0), c)
      else Ok (layerr0, c0)) = Ok (mkLR name (name_list name) [] [] [] 0 0, c1)).
  { destruct name as [|a name].
    - cbn [name_field app] in T0. exists c0. split; auto. rewrite (tag_cond_f _ _ _ _ _ T0 N0). reflexivity.
    - cbn [name_field] in T0. unfold WriteString, WriteTag in T0. rewrite <- !app_assoc in T0. cbn [app] in T0.
      rewrite (proj2 (tag_cond _ _ _ _ _ T0)) by (apply starts_tag; lia).
      apply tagged_rest in T0. change (a :: name ++ s1) with ((a :: name) ++ s1) in T0. destruct (ReadString_at _ _ _ _ Hb T0) as [-> A1]. cbn [bind].
      destruct (tagged_ok _ _ _ A1) as (c1 & -> & T1 & _). cbn [bind]. exists c1. split; auto. }
  destruct Sname as (c1 & T1 & En).
  destruct (feats_loop_at P buf bodies HP Hb c1 s2 fuel T1 N1) as (poss & c2 & E2 & T2 & F); [lia|].
  destruct (keys_loop_at P buf ks HP Hb c2 s3 fuel T2 N2) as (c3 & E3 & T3); [lia|].
  destruct (values_loop_at chk P buf vs HP Hb HV c3 s4 fuel T3 N3) as (c4 & E4 & T4); [lia|].
  assert (C4 : (cKey c4 =? pExtent P) && (cVal c4 =? wVarint) = true) by (apply (tag_cond _ _ _ _ _ T4); auto).
  unfold s4, WriteUInt64, WriteTag in T4. rewrite <- app_assoc in T4. cbn [app] in T4. apply tagged_rest in T4.
  pose proof (ReadVarint_at _ _ _ _ T4) as E5. apply at_app in T4. destruct (tagged_ok _ _ _ T4) as (c5 & E6 & T5 & _).
  assert (C5 : (cKey c5 =? pVersion P) && (cVal c5 =? wVarint) = true) by (apply (tag_cond _ _ _ _ _ T5); auto).
  unfold s5, WriteVarint, WriteTag in T5. rewrite <- app_assoc in T5. cbn [app] in T5. apply tagged_rest in T5.
  pose proof (ReadVarint_at _ _ _ _ T5) as E7. apply at_app in T5. destruct (tagged_ok _ _ _ T5) as (c6 & E8 & T6 & P6).
  exists c0, c6, poss. split; auto. split; auto. split; [|split; [|split; auto]].
  - intros endpos He. cbn [layer_loop]. destruct (Z.ltb_spec (cPos c0) endpos); [|lia]. rewrite En. cbn [bind].
    rewrite E2. cbn [bind]. rewrite E3. cbn [bind]. rewrite E4. cbn [bind lrName lrNames lrFeats lrKeys lrVals lrExtent lrVersion app].
    rewrite C4, E5. cbn [bind]. rewrite E6. cbn [bind lrName lrNames lrFeats lrKeys lrVals lrExtent lrVersion].
    rewrite C5, E7. cbn [bind]. rewrite E8. cbn [bind]. reflexivity.
  - assert (Ee : e = cPos c5 + zlen (EncodeVarint ver)).
    { destruct (at_pos _ _ _ Hend) as [_ A]. destruct (at_pos _ _ _ T5) as [_ B]. lia. }
    fold e. lia.
Qed.

Lemma flat_map_len {A} (f : A -> bytes) l : (forall a, f a <> []) -> (length l <= length (flat_map f l))%nat.
Proof.
  intros Hf. induction l as [|a l IH]; cbn [flat_map length]; [lia|]. rewrite app_length. specialize (Hf a). destruct (f a); [congruence|]. cbn [length]. lia.
Qed.
Lemma body_len P name bodies ks vs ext ver :
  (length bodies + length ks + length vs + 2 <= length (body_of P name bodies ks vs ext ver))%nat.
Proof.
  unfold body_of. rewrite !app_length.
  pose proof (flat_map_len (feat_field P) bodies ltac:(discriminate)). pose proof (flat_map_len (WriteString (pKeys P)) ks ltac:(discriminate)).
  pose proof (flat_map_len (value_field P) vs ltac:(discriminate)). unfold WriteUInt64, WriteVarint, WriteTag. rewrite !app_length. cbn [length].
  pose proof (Encode_len ext). pose proof (Encode_len ver). unfold zlen in *. lia.
Qed.

(** The whole layer when the loop stops at the end of the body. *)
Lemma layer_loop_done chk P buf pos name bodies ks vs ext ver rest fuel : dialect P -> zlen buf < 2 ^ 63 -> Forall go_value vs ->
  let body := body_of P name bodies ks vs ext ver in
  at_ buf pos (body ++ rest) -> (length body <= fuel)%nat ->
  exists c0 poss, next_tag buf pos = Ok c0 /\
    layer_loop chk fuel P buf (pos + zlen body) c0 layerr0 = Ok (mkLR name (name_list name) poss ks (map norm vs) (wrap64 ext) (wrap64 ver)) /\
    Forall2 (fun p b => exists s', at_ buf p (EncodeVarint (zlen b) ++ b ++ s')) poss bodies.
Proof.
  intros HP Hb HV body H Hf. pose proof (body_len P name bodies ks vs ext ver) as L. fold body in L.
  destruct fuel as [|fuel]; [lia|].
  destruct (layer_loop_at chk P buf pos name bodies ks vs ext ver rest fuel HP Hb HV H) as (c0 & c & poss & E0 & T & EL & P1 & P2 & F); [lia|].
  fold body in P1, P2, EL. exists c0, poss. split; auto. split; auto. rewrite EL by auto.
  destruct fuel; cbn [layer_loop]; destruct (Z.ltb_spec (cPos c) (pos + zlen body)); auto; lia.
Qed.

(** ** Features *)

(** What a feature message holds *)
Record wfeat := mkWF { wID : option Z; wProps : list (list Z * gval); wType : option Z; wCmds : option (list Z) }.
Definition idseg (P : proto) (w : wfeat) : bytes := match wID w with Some z => WriteUInt64 (pID P) z | None => [] end.
Definition tagseg (P : proto) (w : wfeat) (tags : list Z) : bytes := match wProps w with [] => [] | _ => WritePackedUInt32 (pTags P) tags end.
Definition typeseg (P : proto) (w : wfeat) : bytes := match wType w with Some t => WriteVarint (pType P) t | None => [] end.
Definition geomseg (P : proto) (w : wfeat) : bytes := match wCmds w with Some c => WritePackedUInt32 (pGeometry P) c | None => [] end.
Definition feature_bytes (P : proto) (w : wfeat) (tags : list Z) : bytes := idseg P w ++ tagseg P w tags ++ typeseg P w ++ geomseg P w.

Definition holds_cmds (buf : bytes) (p : Z) (cs : list Z) : Prop :=
  exists s', at_ buf p (EncodeVarint (zlen (packed cs)) ++ packed cs ++ s').

Lemma mput_fresh {V} k (v : V) m : ~ In k (map fst m) -> mput k v m = m ++ [(k, v)].
Proof.
  induction m as [|[k' v'] m IH]; intros H; cbn [mput app]; auto. destruct (bytes_eqb k k') eqn:E.
  - apply bytes_eqb_eq in E as ->. exfalso. apply H. left. auto.
  - rewrite IH; auto. intros Hn. apply H. right. auto.
Qed.
Lemma tag_props_at kt vt props tags : resolves kt vt props tags -> forall m, NoDup (map fst m ++ map fst props) ->
  exists r, tag_props kt (map norm vt) tags m = Ok (m ++ r) /\ wire_props props r.
Proof.
  induction 1 as [|k v r i j tags v' Hk Hv En _ _ _ IH]; intros m Hn.
  - exists []. rewrite app_nil_r. split; auto. constructor.
  - cbn [tag_props]. rewrite Hk. rewrite nth_error_map, Hv. cbn [option_map]. cbn [map fst] in Hn.
    assert (Hf : ~ In k (map fst m)).
    { intros Hi. apply NoDup_remove_2 in Hn. apply Hn. apply in_app_iff. auto. }
    rewrite mput_fresh by auto. destruct (IH (m ++ [(k, norm v')])) as (r' & -> & W).
    { rewrite map_app. cbn [map fst]. rewrite <- app_assoc. exact Hn. }
    exists ((k, norm v') :: r'). rewrite <- app_assoc. split; auto. constructor; auto. cbn [fst snd]. split; auto. apply entry_wire. auto.
Qed.

Section FeatLoop.
  Variable extra : Z.
  Variable P : proto.
  Variable buf : bytes.
  Variable kt : list (list Z).
  Variable vt : list gval.
  Variable endpos : Z.
  Hypothesis HP : dialect P.
  Hypothesis Hb : zlen buf < 2 ^ 62.
  Hypothesis He : 0 <= extra <= 1.

  Definition run (N : nat) (pos : Z) (f r : rfeat) : Prop :=
    forall n, (N <= n)%nat -> feat_loop n extra P buf kt (map norm vt) pos endpos f = Ok r.

  Lemma run_end pos f : endpos <= pos -> run 0 pos f f.
  Proof. intros H n _. destruct n; cbn [feat_loop]; destruct (Z.ltb_spec pos endpos); auto; lia. Qed.
  Lemma run_weaken N pos f r : run N pos f r -> run (S N) pos f r.
  Proof. intros H n Hn. apply H. lia. Qed.

  Ltac pf := match goal with |- context [?a =? ?b] => replace (a =? b) with false by (dial; reflexivity) end; cbn [andb bind].

  Lemma run_id w N pos f r s : at_ buf pos (idseg P w ++ s) -> pos + zlen (idseg P w) <= endpos ->
    run N (pos + zlen (idseg P w)) (mkRF (match wID w with Some z => wrap64 z | None => rfID f end) (rfType f) (rfProps f) (rfGeomPos f)) r ->
    run (S N) pos f r.
  Proof.
    unfold idseg. destruct (wID w) as [z|]; intros H Hp Hr.
    - intros n Hn. destruct n as [|n]; [lia|]. unfold WriteUInt64, WriteTag in *. rewrite zlen_app, zlen_cons, zlen_nil in *.
      pose proof (Encode_len z). pose proof (p_ranges P HP) as R. pose proof w_ranges as W.
      cbn [feat_loop]. destruct (Z.ltb_spec pos endpos); [|lia]. cbn [app] in H.
      assert (R1 : 0 <= pID P < 32) by lia. assert (W1 : 0 <= wVarint < 8) by lia.
      rewrite (ReadTag_tag _ _ _ _ _ R1 W1 H). cbn [bind]. apply at_cons in H. rewrite Z.eqb_refl. change (wVarint =? wVarint) with true. cbn [andb].
      rewrite (ReadUInt64_at _ _ _ _ H). cbn [bind]. rewrite wrap64_u64. pf. cbn [rfID rfType rfProps rfGeomPos]. pf. pf.
      replace (pos + 1 + zlen (EncodeVarint z)) with (pos + (1 + 0 + zlen (EncodeVarint z))) by lia. apply Hr. lia.
    - rewrite zlen_nil, Z.add_0_r in Hr. apply run_weaken. destruct f; exact Hr.
  Qed.

  Lemma run_tags w tags N pos f r m s : at_ buf pos (tagseg P w tags ++ s) -> pos + zlen (tagseg P w tags) <= endpos ->
    Forall in_u32 tags -> tag_props kt (map norm vt) tags (rfProps f) = Ok m -> (wProps w = [] -> m = rfProps f) ->
    run N (pos + zlen (tagseg P w tags)) (mkRF (rfID f) (rfType f) m (rfGeomPos f)) r ->
    run (S N) pos f r.
  Proof.
    unfold tagseg. destruct (wProps w) as [|kv props]; intros H Hp Hu Ht Hm Hr.
    - rewrite zlen_nil, Z.add_0_r in Hr. apply run_weaken. rewrite (Hm eq_refl) in Hr. destruct f; exact Hr.
    - intros n Hn. destruct n as [|n]; [lia|]. unfold WritePackedUInt32, WriteTag in *. rewrite !zlen_app, zlen_cons, zlen_nil in *.
      pose proof (Encode_len (zlen (packed tags))). pose proof (zlen_nonneg (packed tags)). pose proof (p_ranges P HP) as R. pose proof w_ranges as W.
      cbn [feat_loop]. destruct (Z.ltb_spec pos endpos); [|lia]. rewrite <- !app_assoc in H. cbn [app] in H.
      assert (R1 : 0 <= pTags P < 32) by lia. assert (W1 : 0 <= wBytes < 8) by lia.
      rewrite (ReadTag_tag _ _ _ _ _ R1 W1 H). cbn [bind]. apply at_cons in H. pf. rewrite Z.eqb_refl. change (wBytes =? wBytes) with true. cbn [andb].
      rewrite (ReadPacked_at buf (pos + 1) tags s) by (auto; lia). cbn [bind]. rewrite Ht. cbn [bind]. pf. cbn [rfID rfType rfProps rfGeomPos]. pf.
      match goal with |- feat_loop _ _ _ _ _ _ ?x _ _ = _ => replace x with (pos + (1 + 0 + (zlen (EncodeVarint (zlen (packed tags))) + zlen (packed tags)))) by lia end. apply Hr. lia.
  Qed.

  Lemma run_type w N pos f r s : at_ buf pos (typeseg P w ++ s) -> pos + zlen (typeseg P w) <= endpos ->
    (forall t, wType w = Some t -> 0 <= t < 128) ->
    run N (pos + zlen (typeseg P w)) (mkRF (rfID f) (match wType w with Some t => t | None => rfType f end) (rfProps f) (rfGeomPos f)) r ->
    run (S N) pos f r.
  Proof.
    unfold typeseg. destruct (wType w) as [t|]; intros H Hp Ht Hr.
    - intros n Hn. destruct n as [|n]; [lia|]. unfold WriteVarint, WriteTag in *. rewrite zlen_app, zlen_cons, zlen_nil in *.
      pose proof (Encode_len t). pose proof (p_ranges P HP) as R. pose proof w_ranges as W. specialize (Ht t eq_refl).
      cbn [feat_loop]. destruct (Z.ltb_spec pos endpos); [|lia]. cbn [app] in H.
      assert (R1 : 0 <= pType P < 32) by lia. assert (W1 : 0 <= wVarint < 8) by lia.
      rewrite (ReadTag_tag _ _ _ _ _ R1 W1 H). cbn [bind]. apply at_cons in H. pf. pf. rewrite Z.eqb_refl. change (wVarint =? wVarint) with true. cbn [andb].
      rewrite (Varint_at _ _ _ _ H). cbn [bind]. pf. cbn [rfID rfType rfProps rfGeomPos].
      assert (E1 : hd 0 (EncodeVarint t) = t) by (rewrite Encode_small by auto; reflexivity). rewrite E1.
      match goal with |- feat_loop _ _ _ _ _ _ ?x _ _ = _ => replace x with (pos + (1 + 0 + zlen (EncodeVarint t))) by lia end. apply Hr. lia.
    - rewrite zlen_nil, Z.add_0_r in Hr. apply run_weaken. destruct f; exact Hr.
  Qed.

  Lemma run_geom w pos f s : at_ buf pos (geomseg P w ++ s) -> pos + zlen (geomseg P w) = endpos ->
    exists gp, run 1 pos f (mkRF (rfID f) (rfType f) (rfProps f) gp) /\
      match wCmds w with Some cs => holds_cmds buf gp cs | None => gp = rfGeomPos f end.
  Proof.
    unfold geomseg. destruct (wCmds w) as [cs|]; intros H Hp.
    - exists (pos + 1). unfold WritePackedUInt32, WriteTag in *. rewrite !zlen_app, zlen_cons, zlen_nil in *.
      pose proof (Encode_len (zlen (packed cs))). pose proof (zlen_nonneg (packed cs)). pose proof (p_ranges P HP) as R. pose proof w_ranges as W.
      rewrite <- !app_assoc in H. cbn [app] in H.
      assert (R1 : 0 <= pGeometry P < 32) by lia. assert (W1 : 0 <= wBytes < 8) by lia.
      pose proof H as Hc0. apply at_cons in Hc0. split; [|exists s; exact Hc0].
      intros n Hn. destruct n as [|n]; [lia|]. cbn [feat_loop]. destruct (Z.ltb_spec pos endpos); [|lia].
      rewrite (ReadTag_tag _ _ _ _ _ R1 W1 H). cbn [bind]. pf. pf. pf. rewrite Z.eqb_refl. change (wBytes =? wBytes) with true. cbn [andb].
      pose proof (at_app _ _ _ _ Hc0) as Hc2. rewrite (ReadVarint_at _ _ _ _ Hc0). cbn [bind].
      destruct (at_pos _ _ _ Hc2) as [Q1 Q2]. rewrite zlen_app in Q2. pose proof (zlen_nonneg s).
      rewrite (wrap64_id (zlen (packed cs))) by (unfold in_i64; lia). rewrite wrap64_id by (unfold in_i64; lia).
      apply run_end; lia.
    - exists (rfGeomPos f). rewrite zlen_nil in Hp. split; auto. apply run_weaken. destruct f; apply run_end; lia.
  Qed.

  (** All the fields of one written feature *)
  Lemma feature_read w tags pos s f : at_ buf pos (feature_bytes P w tags ++ s) -> endpos = pos + zlen (feature_bytes P w tags) ->
    resolves kt vt (wProps w) tags -> NoDup (map fst (wProps w)) -> rfProps f = [] -> (forall t, wType w = Some t -> 0 <= t < 128) ->
    exists m gp, wire_props (wProps w) m /\
      match wCmds w with Some cs => holds_cmds buf gp cs | None => gp = rfGeomPos f end /\
      run 4 pos f (mkRF (match wID w with Some z => wrap64 z | None => rfID f end) (match wType w with Some t => t | None => rfType f end) m gp).
  Proof.
    intros H Ee Hr Hn Hf Ht. unfold feature_bytes in *. rewrite !zlen_app in Ee. rewrite <- !app_assoc in H.
    pose proof (at_app _ _ _ _ H) as H1. pose proof (at_app _ _ _ _ H1) as H2. pose proof (at_app _ _ _ _ H2) as H3.
    pose proof (zlen_nonneg (idseg P w)). pose proof (zlen_nonneg (tagseg P w tags)). pose proof (zlen_nonneg (typeseg P w)). pose proof (zlen_nonneg (geomseg P w)).
    destruct (tag_props_at _ _ _ _ Hr [] Hn) as (m & Em & Wm). cbn [app] in Em.
    set (i := match wID w with Some z => wrap64 z | None => rfID f end). set (t := match wType w with Some t => t | None => rfType f end).
    destruct (run_geom w _ (mkRF i t m (rfGeomPos f)) s H3) as (gp & Rg & Hg); [lia|]. cbn [rfID rfType rfProps rfGeomPos] in *.
    exists m, gp. split; auto. split; auto.
    apply (run_id w 3 pos f _ _ H); [lia|]. fold i. rewrite Hf.
    apply (run_tags w tags 2 _ _ _ m _ H1); [lia|eapply resolves_u32; eauto|exact Em| |].
    { intros E. rewrite E in Wm. inversion Wm. reflexivity. }
    cbn [rfID rfType rfProps rfGeomPos].
    apply (run_type w 1 _ _ _ _ H2); [lia|auto|]. cbn [rfID rfType rfProps rfGeomPos]. fold t. exact Rg.
  Qed.
End FeatLoop.

Lemma holds_read buf p cs : zlen buf < 2 ^ 63 -> Forall in_u32 cs -> holds_cmds buf p cs -> exists e, ReadPackedUInt32 buf p = Ok (cs, e).
Proof. intros Hb Hc (s & H). eexists. apply (ReadPacked_at buf p cs s); auto. Qed.
