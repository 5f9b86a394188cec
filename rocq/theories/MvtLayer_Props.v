(** Layers and tiles as bytes (C18-C24). *)
From Coq Require Import ZArith List Lia Bool Permutation.
From Verif Require Import GoBase Pbf_Model Pbf_Proofs MvtGeom_Model MvtLayer_Model MvtLayer_Spec MvtLayer_Proofs MvtLayerRead_Proofs MvtTile_Proofs.
Import ListNotations.
Open Scope Z_scope.

(** ** C24 *)
Definition layer_tags (P : proto) : list Z :=
  [tag_byte (pName P) 2; tag_byte (pFeatures P) 2; tag_byte (pKeys P) 2; tag_byte (pValues P) 2; tag_byte (pExtent P) 0; tag_byte (pVersion P) 0].
Definition feature_tags (P : proto) : list Z :=
  [tag_byte (pID P) 0; tag_byte (pTags P) 2; tag_byte (pType P) 0; tag_byte (pGeometry P) 2].
Definition value_tags (P : proto) : list Z :=
  map (fun n => tag_byte n 2) [pString P; pFloat P; pDouble P; pInt P; pUInt P; pSInt P; pBool P].

Theorem C24_tags_distinct : forall p,
  NoDup (layer_tags (getProto p)) /\ NoDup (feature_tags (getProto p)) /\ NoDup (value_tags (getProto p)) /\
  NoDup [pName (getProto p); pFeatures (getProto p); pKeys (getProto p); pValues (getProto p); pExtent (getProto p); pVersion (getProto p)].
Proof.
  assert (D : forall l : list Z, (if list_eq_dec Z.eq_dec (nodup Z.eq_dec l) l then true else false) = true -> NoDup l).
  { intros l H. destruct (list_eq_dec _ _ _) as [E|]; [|discriminate]. rewrite <- E. apply NoDup_nodup. }
  intros p. destruct (getProto_dialect p) as [->| ->]; (split; [|split; [|split]]); apply D; vm_compute; reflexivity.
Qed.
Print Assumptions C24_tags_distinct.

Theorem C24_tag_decodes : forall p n w buf rest, In (n, w)
    [(pLayers (getProto p), 2); (pName (getProto p), 2); (pFeatures (getProto p), 2); (pKeys (getProto p), 2); (pValues (getProto p), 2);
     (pExtent (getProto p), 0); (pVersion (getProto p), 0); (pID (getProto p), 0); (pTags (getProto p), 2); (pType (getProto p), 0);
     (pGeometry (getProto p), 2); (pString (getProto p), 2); (pFloat (getProto p), 2); (pDouble (getProto p), 2); (pInt (getProto p), 2);
     (pUInt (getProto p), 2); (pSInt (getProto p), 2); (pBool (getProto p), 2)] ->
  WriteTag n w = [n * 8 + w] /\ 0 <= n * 8 + w < 128 /\
  ReadTag (buf ++ WriteTag n w ++ rest) (zlen buf) = Ok (n, w, zlen buf + 1).
Proof.
  intros p n w buf rest H.
  assert (R : 0 <= n < 16 /\ (w = 0 \/ w = 2)).
  { destruct (getProto_dialect p) as [E|E]; rewrite E in H; cbn in H; repeat (destruct H as [H|H]; [injection H as <- <-; lia|]); destruct H. }
  assert (E : tag_byte n w = n * 8 + w) by (rewrite tag_byte_eq by lia; lia).
  unfold WriteTag. rewrite E. split; auto. split; [lia|]. rewrite <- E. apply (ReadTag_tag _ _ n w rest); [lia|lia|].
  exists buf. auto.
Qed.
Print Assumptions C24_tag_decodes.

Theorem C24_unknown_dialect : forall p, p <> 1 -> getProto p = getProto 0.
Proof. intros p H. unfold getProto. destruct (p =? 0); auto. destruct (Z.eqb_spec p 1); auto. lia. Qed.
Print Assumptions C24_unknown_dialect.

(** The tables of mvt/proto.go, and where the dialects clash: field 2 of the top level in one is
    the features field of a layer in the other. *)
Example C24_nonvacuous : layer_tags MapboxProto = [10; 18; 26; 34; 40; 120] /\ layer_tags LKProto = [10; 18; 34; 42; 48; 120] /\
  tag_byte (pLayers MapboxProto) 2 = 26 /\ tag_byte (pLayers LKProto) 2 = 18 /\ feature_tags MapboxProto = [8; 18; 24; 34] /\ feature_tags LKProto = [8; 58; 48; 18].
Proof. repeat split. Qed.

(** ** C18 *)

(** Any history of property maps added to a layer *)
Fixpoint GetTags_all (P : proto) (s : layerw) (maps : list (list (list Z * gval))) : res (list (list Z) * layerw) :=
  match maps with
  | [] => Ok ([], s)
  | m :: r => let! (t, s) := GetTags P s m in let! (ts, s) := GetTags_all P s r in Ok (t :: ts, s)
  end.

Lemma entry_same v v' : entry_for v v' -> same_value v v'.
Proof.
  intros [->|H]; [left; auto|].
  destruct v, v'; cbn [veqb] in H; try discriminate; apply andb_true_iff in H as [Ht H]; apply Z.eqb_eq in Ht as <-.
  - unfold f_eqb in H. change (32 - 1) with 31 in H. apply andb_true_iff in H as [_ H]. apply orb_true_iff in H as [H|H].
    + apply Z.eqb_eq in H as <-. left; auto.
    + right. cbn. lia.
  - unfold f_eqb in H. change (64 - 1) with 63 in H. apply andb_true_iff in H as [_ H]. apply orb_true_iff in H as [H|H].
    + apply Z.eqb_eq in H as <-. left; auto.
    + right. cbn. lia.
  - apply Z.eqb_eq in H as <-. left; auto.
  - apply Z.eqb_eq in H as <-. left; auto.
  - apply Bool.eqb_prop in H as <-. left; auto.
  - apply bytes_eqb_eq in H as <-. left; auto.
  - apply Z.eqb_eq in H as <-. left; auto.
Qed.
Lemma resolves_refers kt vt m tags : resolves kt vt m tags -> refers kt vt m tags.
Proof.
  induction 1 as [|k v r i j tags v' H1 H2 H3 H4 H5 _ (idx & E & F)].
  - exists []. split; auto.
  - exists ((Z.to_nat i, Z.to_nat j) :: idx). split.
    + cbn [flat_map fst snd app]. unfold in_u32 in *. rewrite !Z2Nat.id by lia. rewrite <- E. reflexivity.
    + constructor; auto. cbn [fst snd]. split; auto. exists v'. split; auto. apply entry_same; auto.
Qed.

Definition props_total (maps : list (list (list Z * gval))) : Z := fold_right (fun m n => zlen m + n) 0 maps.
Lemma props_total_nonneg maps : 0 <= props_total maps.
Proof. induction maps as [|m r IH]; cbn [props_total fold_right]; [lia|]. unfold props_total in IH. pose proof (zlen_nonneg m). lia. Qed.

Lemma GetTags_all_inv P maps : forall s kt vt tagss s', dict_inv P s kt vt ->
  zlen kt + props_total maps <= 2 ^ 32 -> zlen vt + props_total maps <= 2 ^ 32 ->
  GetTags_all P s maps = Ok (tagss, s') ->
  exists k2 v2, dict_inv P s' (kt ++ k2) (vt ++ v2) /\ Forall2 (resolves (kt ++ k2) (vt ++ v2)) maps tagss /\
    (forall k, In k k2 -> exists m v, In m maps /\ In (k, v) m) /\ (forall v, In v v2 -> exists m k, In m maps /\ In (k, v) m).
Proof.
  induction maps as [|m maps IH]; intros s kt vt tagss s' HI Hk Hv E; cbn [GetTags_all] in E.
  - injection E as <- <-. exists [], []. rewrite !app_nil_r. split; auto. split; [constructor|]. split; intros ? [].
  - cbn [props_total fold_right] in Hk, Hv. change (fold_right _ 0 maps) with (props_total maps) in Hk, Hv. pose proof (props_total_nonneg maps).
    destruct (GetTags P s m) as [[t s1]| |] eqn:E1; cbn [bind] in E; try discriminate.
    destruct (GetTags_all P s1 maps) as [[ts s2]| |] eqn:E2; cbn [bind] in E; try discriminate. injection E as <- <-.
    destruct (GetTags_inv P m s kt vt t s1 HI ltac:(lia) ltac:(lia) E1) as (k1 & v1 & J1 & J2 & J3 & J4 & J5 & J6 & J7).
    destruct (IH s1 (kt ++ k1) (vt ++ v1) ts s2 J1) as (k2 & v2 & K1 & K2 & K3 & K4); auto; try (rewrite zlen_app; lia).
    exists (k1 ++ k2), (v1 ++ v2). rewrite <- !app_assoc in K1, K2. repeat rewrite <- app_assoc in K1. repeat rewrite <- app_assoc in K2. split; auto. split.
    + constructor; auto. rewrite !app_assoc. apply resolves_ext. auto.
    + split.
      * intros k Hi. apply in_app_iff in Hi as [Hi|Hi]; [|destruct (K3 k Hi) as (m' & v & X1 & X2); exists m', v; split; [right|]; auto].
        apply J6 in Hi. apply in_map_iff in Hi as ([k0 v] & <- & Hi). exists m, v. split; [left|]; auto.
      * intros v Hi. apply in_app_iff in Hi as [Hi|Hi]; [|destruct (K4 v Hi) as (m' & k & X1 & X2); exists m', k; split; [right|]; auto].
        apply J7 in Hi. apply in_map_iff in Hi as ([k v0] & <- & Hi). exists m, k. split; [left|]; auto.
Qed.

(** Every tag pair of every feature of a layer refers to its key and value in the final tables; the
    lists are the maps in whatever order they were iterated. *)
Theorem C18_dictionary : forall p maps tagss s,
  GetTags_all (getProto p) layerw0 maps = Ok (tagss, s) -> props_total maps <= 2 ^ 32 ->
  exists kt vt,
    lwKeys s = flat_map (WriteString (pKeys (getProto p))) kt /\
    lwValues s = flat_map (fun v => WriteMessage (pValues (getProto p)) (WriteTag (fst (WriteValue v (getProto p))) 2 ++ snd (WriteValue v (getProto p)))) vt /\
    NoDup kt /\
    (forall k, In k kt -> exists m v, In m maps /\ In (k, v) m) /\
    (forall v, In v vt -> exists m k, In m maps /\ In (k, v) m) /\
    Forall2 (refers kt vt) maps tagss.
Proof.
  intros p maps tagss s E Ht.
  destruct (GetTags_all_inv (getProto p) maps layerw0 [] [] tagss s) as (kt & vt & (I1 & I2 & I3 & I4 & I5) & J2 & J3 & J4); auto.
  { repeat split; auto. constructor. }
  exists kt, vt. cbn [app] in *. split; auto. split; auto. split; auto. split; auto. split; auto.
  clear - J2. induction J2; constructor; auto. apply resolves_refers. auto.
Qed.
Print Assumptions C18_dictionary.

(** No value is stored twice: no entry equals an earlier one. *)
Definition fresh_values (s : layerw) : Prop := ForallOrdPairs (fun a b => veqb (fst b) (fst a) = false) (lwValuesMap s).
Lemma fop_snoc {A} (R : A -> A -> Prop) l a : ForallOrdPairs R l -> Forall (fun x => R x a) l -> ForallOrdPairs R (l ++ [a]).
Proof.
  induction 1 as [|x l H1 H2 IH]; intros H; cbn [app]; [repeat constructor|]. inversion H; subst. constructor; auto.
  apply Forall_app. split; auto.
Qed.
Lemma assoc_none_all {V} (eqb : gval -> gval -> bool) k (l : list (gval * V)) : assoc eqb k l = None -> Forall (fun x => eqb k (fst x) = false) l.
Proof. induction l as [|[a x] l IH]; cbn [assoc]; intros H; constructor; destruct (eqb k a) eqn:E; auto; discriminate. Qed.
Lemma GetTags_fresh P m : forall s tags s', fresh_values s -> GetTags P s m = Ok (tags, s') -> fresh_values s'.
Proof.
  induction m as [|[k v] m IH]; intros s tags s' H E; cbn [GetTags] in E; [injection E as <- <-; auto|].
  destruct (match assoc bytes_eqb k (lwKeysMap s) with Some t => (t, s) | None => AddKey P s k end) as [kt s1] eqn:E1.
  assert (H1 : fresh_values s1) by (destruct (assoc bytes_eqb k (lwKeysMap s)); [injection E1 as <- <-; auto|]; unfold AddKey in E1; injection E1 as <- <-; exact H).
  destruct (match v with VUnhash => Panic | _ => match assoc veqb v (lwValuesMap s1) with Some t => Ok (t, s1) | None => Ok (AddValue P s1 v) end end) as [[vt s2]| |] eqn:E2; cbn [bind] in E; try discriminate.
  destruct (GetTags P s2 m) as [[ts s3]| |] eqn:E3; cbn [bind] in E; try discriminate. injection E as <- <-. apply (IH s2 ts); auto.
  assert (X : match assoc veqb v (lwValuesMap s1) with Some t => Ok (t, s1) | None => Ok (AddValue P s1 v) end = Ok (vt, s2)) by (destruct v; auto; discriminate).
  destruct (assoc veqb v (lwValuesMap s1)) as [t|] eqn:E4; [injection X as <- <-; auto|].
  unfold AddValue in X. destruct (WriteValue v P). injection X as <- <-. unfold fresh_values. cbn [lwValuesMap]. apply fop_snoc; auto.
  apply assoc_none_all in E4. exact E4.
Qed.
Theorem C18_values_stored_once : forall p maps tagss s, GetTags_all (getProto p) layerw0 maps = Ok (tagss, s) ->
  forall i j a b, (i < j)%nat -> nth_error (map fst (lwValuesMap s)) i = Some a -> nth_error (map fst (lwValuesMap s)) j = Some b -> veqb b a = false.
Proof.
  intros p maps tagss s E.
  assert (F : fresh_values s).
  { assert (G : forall maps s0 tagss s, fresh_values s0 -> GetTags_all (getProto p) s0 maps = Ok (tagss, s) -> fresh_values s).
    { clear. induction maps as [|m maps IH]; intros s0 tagss s H E; cbn [GetTags_all] in E; [injection E as <- <-; auto|].
      destruct (GetTags (getProto p) s0 m) as [[t s1]| |] eqn:E1; cbn [bind] in E; try discriminate.
      destruct (GetTags_all (getProto p) s1 maps) as [[ts s2]| |] eqn:E2; cbn [bind] in E; try discriminate. injection E as <- <-.
      eapply IH; [|exact E2]. eapply GetTags_fresh; eauto. }
    eapply G; [|exact E]. constructor. }
  clear E. unfold fresh_values in F. induction F as [|x l H1 H2 IH]; intros i j a b Hij Hi Hj.
  - destruct i; discriminate.
  - destruct j as [|j]; [lia|]. cbn [map nth_error] in Hj. destruct i as [|i].
    + cbn in Hi. injection Hi as <-. rewrite nth_error_map in Hj. destruct (nth_error l j) eqn:Ej; [|discriminate]. cbn in Hj. injection Hj as <-.
      apply nth_error_In in Ej. rewrite Forall_forall in H1. auto.
    + cbn [map nth_error] in Hi. apply (IH i j); auto. lia.
Qed.
Print Assumptions C18_values_stored_once.

(** Adding a map fails exactly when it holds a value that cannot be a map key. *)
Theorem C18_fails_iff : forall p s m, GetTags (getProto p) s m = Panic <-> exists k, In (k, VUnhash) m.
Proof.
  intros p s m. split.
  - intros E. destruct (existsb (fun kv => match snd kv with VUnhash => true | _ => false end) m) eqn:X.
    + apply existsb_exists in X as ([k v] & Hi & Hv). cbn in Hv. destruct v; try discriminate. eauto.
    + destruct (GetTags_total (getProto p) m s) as (r & s1 & Er).
      { intros k Hi. assert (existsb (fun kv => match snd kv with VUnhash => true | _ => false end) m = true) by (apply existsb_exists; exists (k, VUnhash); auto). congruence. }
      congruence.
  - intros (k & Hk). eapply GetTags_panic; eauto.
Qed.
Print Assumptions C18_fails_iff.

Example C18_nonvacuous :
  GetTags_all MapboxProto layerw0 [[([97], VInt 0 1); ([98], VBool 0 true)]; [([98], VInt 0 1); ([99], VInt 0 1)]] =
  Ok ([[0; 0; 1; 1]; [1; 0; 2; 0]],
      mkLW [([97], 0); ([98], 1); ([99], 2)] [(VInt 0 1, 0); (VBool 0 true, 1)] []
           [26; 1; 97; 26; 1; 98; 26; 1; 99] [34; 2; 34; 1; 34; 2; 58; 1]).
Proof. reflexivity. Qed.
