(** Tables written by other programs, repeated layer names (C20, C82-C84). *)
From Coq Require Import ZArith List Lia Bool.
From Verif Require Import GoBase Pbf_Model Pbf_Proofs MvtGeom_Model MvtLayer_Model MvtLayer_Spec MvtLayer_Proofs MvtLayerRead_Proofs MvtTile_Proofs MvtLayer_Props MvtTile_Props.
Import ListNotations.
Open Scope Z_scope.

(** ** Maps *)
Lemma mput_keys {V} k (v : V) m : forall x, In x (map fst (mput k v m)) <-> x = k \/ In x (map fst m).
Proof.
  induction m as [|[a w] m IH]; intros x; cbn [mput map fst In]; [intuition congruence|].
  destruct (bytes_eqb k a) eqn:E; cbn [map fst In]; [apply bytes_eqb_eq in E as ->; intuition congruence|]. rewrite IH. intuition congruence.
Qed.
Lemma mput_NoDup {V} k (v : V) m : NoDup (map fst m) -> NoDup (map fst (mput k v m)).
Proof.
  induction m as [|[a w] m IH]; intros H; cbn [mput map fst]; [apply NoDup_cons; [intros []|apply NoDup_nil]|].
  cbn [map fst] in H. inversion H as [|? ? H1 H2]; subst. destruct (bytes_eqb k a) eqn:E; cbn [map fst].
  - apply bytes_eqb_eq in E as ->. apply NoDup_cons; auto.
  - apply NoDup_cons; auto. rewrite mput_keys. intros [->|H3]; [rewrite bytes_eqb_refl in E; discriminate|auto].
Qed.
Lemma mget_in {V} (m : list (list Z * V)) k v : NoDup (map fst m) -> (mget k m = Some v <-> In (k, v) m).
Proof.
  unfold mget. induction m as [|[a w] m IH]; intros H; cbn [assoc In map fst] in *; [split; [discriminate|intros []]|].
  inversion H as [|? ? H1 H2]; subst. destruct (bytes_eqb k a) eqn:E.
  - apply bytes_eqb_eq in E as ->. split; [intros X; injection X as ->; auto|]. intros [X|X]; [injection X as ->; auto|].
    exfalso. apply H1. apply in_map_iff. exists (a, v). auto.
  - rewrite IH by auto. split; auto. intros [X|X]; auto. injection X as -> ->. rewrite bytes_eqb_refl in E. discriminate.
Qed.

Lemma Forall2_in_l {A B} {R : A -> B -> Prop} {l l' a} : Forall2 R l l' -> In a l -> exists b, In b l' /\ R a b.
Proof. induction 1 as [|x y l l' H _ IH]; [intros []|]. intros [->|Hi]; [eauto using in_eq|]. destruct (IH Hi) as (b & Hb & Hr). exists b. split; auto. right; auto. Qed.
Lemma Forall2_in_r {A B} {R : A -> B -> Prop} {l l' b} : Forall2 R l l' -> In b l' -> exists a, In a l /\ R a b.
Proof. induction 1 as [|x y l l' H _ IH]; [intros []|]. intros [->|Hi]; [eauto using in_eq|]. destruct (IH Hi) as (a & Ha & Hr). exists a. split; auto. right; auto. Qed.

(** ** C20: the properties ReadTile returns are the written ones with "layer" set to the layer's name *)
Theorem C20_properties : forall (Pt : Type) (S : source Pt) os i f o,
  read_out S os -> go_feature f -> nth_error (sFeats S) i = Some f -> nth_error os i = Some o ->
  NoDup (map fst (ofProps o)) /\
  (forall w, In (str_layer, w) (ofProps o) <-> w = WString (cName (sCfg S))) /\
  (forall k v, k <> str_layer -> In (k, v) (fProps f) -> exists w, In (k, w) (ofProps o) /\ wire_value v w) /\
  (forall k w, k <> str_layer -> In (k, w) (ofProps o) -> exists v, In (k, v) (fProps f) /\ wire_value v w).
Proof.
  intros Pt S os i f o (_ & H) ((G & _) & _) Hi Ho. destruct (H i f o Hi Ho) as (_ & (m & Hm & E) & _).
  assert (Em : map fst m = map fst (fProps f)).
  { clear - Hm. induction Hm as [|kv kw p m (E & _) _ IH]; auto. cbn [map]. rewrite E, IH. auto. }
  assert (Nm : NoDup (map fst m)) by (rewrite Em; auto).
  assert (N : NoDup (map fst (ofProps o))) by (rewrite E; apply mput_NoDup; auto).
  assert (I : forall k w, In (k, w) (ofProps o) <-> (if bytes_eqb k str_layer then w = WString (cName (sCfg S)) else In (k, w) m)).
  { intros k w. rewrite <- mget_in by auto. rewrite E, mget_mput. destruct (bytes_eqb k str_layer); [|apply mget_in; auto].
    split; [intros X; injection X; auto|intros ->; auto]. }
  assert (Q : forall k, k <> str_layer -> bytes_eqb k str_layer = false).
  { intros k Hk. destruct (bytes_eqb k str_layer) eqn:X; auto. apply bytes_eqb_eq in X. contradiction. }
  split; [exact N|]. split; [|split].
  - intros w. rewrite I, bytes_eqb_refl. tauto.
  - intros k v Hk Hv. clear - Hm Hv I Q Hk. destruct (Forall2_in_l Hm Hv) as (kw & Hw & E1 & E2). exists (snd kw). rewrite I, Q by auto.
    cbn [fst snd] in *. rewrite <- E1, <- surjective_pairing. auto.
  - intros k w Hk Hw. rewrite I, Q in Hw by auto. destruct (Forall2_in_r Hm Hw) as (kv & Hv & E1 & E2). exists (snd kv).
    cbn [fst snd] in *. rewrite E1, <- surjective_pairing. auto.
Qed.
Print Assumptions C20_properties.

(** A property called "layer" is overwritten. *)
Example C20_properties_nonvacuous :
  match WriteLayer (fun p : Z * Z => p) pt_eqb [mkFeat IDNil [(str_layer, VInt 0 5); ([107], VBool 1 true)] (Some (XPoint (1, 2)))] (mkConfig [114] 0 0 0) with
  | Ok bs => match ReadTile 200 0 bs with
             | Ok [o] => ofProps o = [(str_layer, WString [114]); ([107], WBool true)] | _ => False end
  | _ => False end.
Proof. vm_compute. reflexivity. Qed.

(** ** C82: values of other programs *)

(** A value message with the signed field (tag 6): the varint is returned as an unsigned number, not zig-zag decoded. *)
Theorem C82_signed_value : forall pt buf pos n z s, at_ buf pos (EncodeVarint n ++ tag_byte 6 0 :: EncodeVarint z ++ s) -> 0 <= z < 2 ^ 64 ->
  read_value (getProto pt) buf pos = Ok ([WUInt z], pos + zlen (EncodeVarint n) + 1 + zlen (EncodeVarint z)).
Proof.
  intros pt buf pos n z s H Hz. unfold read_value. rewrite (ReadVarint_at _ _ _ _ H). cbn [bind]. apply at_app in H.
  assert (E : ReadTag buf (pos + zlen (EncodeVarint n)) = Ok (6, 0, pos + zlen (EncodeVarint n) + 1)) by (refine (ReadTag_tag _ _ _ _ _ _ _ H); lia).
  rewrite E. cbn [bind]. apply at_cons in H. pose proof (getProto_dialect pt) as HP.
  replace (6 =? pString (getProto pt)) with false by (destruct HP as [-> | ->]; reflexivity).
  replace (6 =? pFloat (getProto pt)) with false by (destruct HP as [-> | ->]; reflexivity).
  replace (6 =? pDouble (getProto pt)) with false by (destruct HP as [-> | ->]; reflexivity).
  replace (6 =? pInt (getProto pt)) with false by (destruct HP as [-> | ->]; reflexivity).
  replace (6 =? pUInt (getProto pt)) with false by (destruct HP as [-> | ->]; reflexivity).
  replace (6 =? pSInt (getProto pt)) with true by (destruct HP as [-> | ->]; reflexivity).
  rewrite (ReadUInt64_at _ _ _ _ H). cbn [bind]. unfold u64. rewrite Z.mod_small by lia. reflexivity.
Qed.
Print Assumptions C82_signed_value.

(** So -1, which the specification writes as the varint 1, is read as 1. *)
Theorem C82_signed_value_refuted : exists buf, buf = WriteMessage 4 (WriteTag 6 0 ++ EncodeVarint (2 * 1 - 1)) /\
  read_value MapboxProto buf 1 = Ok ([WUInt 1], 4).
Proof. eexists. split; [reflexivity|]. vm_compute. reflexivity. Qed.
Print Assumptions C82_signed_value_refuted.

(** A value message that starts with any other field adds no entry to the table, so every later value
    index of the layer is off by one; reading continues right after the field's tag. *)
Theorem C82_unknown_value_skipped : forall pt buf pos n k w s, at_ buf pos (EncodeVarint n ++ tag_byte k w :: s) ->
  0 <= k < 32 -> ~ 1 <= k <= 7 -> 0 <= w < 8 ->
  read_value (getProto pt) buf pos = Ok ([], pos + zlen (EncodeVarint n) + 1).
Proof.
  intros pt buf pos n k w s H Hk Hk' Hw. unfold read_value. rewrite (ReadVarint_at _ _ _ _ H). cbn [bind]. apply at_app in H.
  rewrite (ReadTag_tag _ _ _ _ _ Hk Hw H). cbn [bind].
  assert (E : pString (getProto pt) = 1 /\ pFloat (getProto pt) = 2 /\ pDouble (getProto pt) = 3 /\ pInt (getProto pt) = 4 /\ pUInt (getProto pt) = 5 /\ pSInt (getProto pt) = 6 /\ pBool (getProto pt) = 7)
    by (destruct (getProto_dialect pt) as [-> | ->]; repeat split).
  destruct E as (-> & -> & -> & -> & -> & -> & ->).
  repeat (match goal with |- context [k =? ?a] => destruct (Z.eqb_spec k a); [lia|] end). reflexivity.
Qed.
Print Assumptions C82_unknown_value_skipped.

Example C82_nonvacuous : at_ [4; 64; 1; 0; 0] 0 (EncodeVarint 4 ++ tag_byte 8 0 :: [1; 0; 0]) /\ at_ [2; 48; 1] 0 (EncodeVarint 2 ++ tag_byte 6 0 :: EncodeVarint 1 ++ []).
Proof. split; exists []; split; reflexivity. Qed.

(** ** C83: tags of other programs *)

(** The key and value a pair of tags stands for: an index outside the table stands for the empty string. *)
Definition tag_pair (keys : list (list Z)) (vals : list wval) (kt vt : Z) : list Z * wval :=
  (nth (Z.to_nat kt) keys [], nth (Z.to_nat vt) vals (WString [])).
Fixpoint tag_pairs (keys : list (list Z)) (vals : list wval) (tags : list Z) : list (list Z * wval) :=
  match tags with kt :: vt :: r => tag_pair keys vals kt vt :: tag_pairs keys vals r | _ => [] end.

Lemma nth_error_nth' {A} (l : list A) n d : match nth_error l n with Some x => x | None => d end = nth n l d.
Proof. revert n. induction l as [|a l IH]; intros [|n]; cbn; auto. Qed.

Lemma two_ind {A} (P : list A -> Prop) : P [] -> (forall a, P [a]) -> (forall a b l, P l -> P (a :: b :: l)) -> forall l, P l.
Proof.
  intros H0 H1 H2 l. assert (P l /\ forall a, P (a :: l)) as [? _]; auto.
  induction l as [|a l (I1 & I2)]; split; auto.
Qed.

Lemma tag_props_fold keys vals tags : forall m,
  tag_props keys vals tags m = if Nat.even (length tags) then Ok (fold_left (fun m kv => mput (fst kv) (snd kv) m) (tag_pairs keys vals tags) m) else Panic.
Proof.
  induction tags as [|a|kt vt tags IH] using two_ind; intros m; auto.
  cbn [tag_props tag_pairs length Nat.even fold_left fst snd tag_pair]. rewrite !nth_error_nth'. apply IH.
Qed.

(** An odd number of tags makes the read fail; otherwise the property of a key is the one of the last pair with this
    key, and there are no other properties. *)
Theorem C83_tags : forall keys vals tags,
  (tag_props keys vals tags [] = Panic <-> Nat.Odd (length tags)) /\
  (Nat.Even (length tags) -> exists m, tag_props keys vals tags [] = Ok m /\ NoDup (map fst m) /\
     forall k v, In (k, v) m <-> exists before after, tag_pairs keys vals tags = before ++ (k, v) :: after /\ ~ In k (map fst after)).
Proof.
  intros keys vals tags. rewrite tag_props_fold. split.
  - rewrite <- Nat.odd_spec, <- Nat.negb_even. destruct (Nat.even (length tags)); cbn; split; congruence.
  - intros He. apply Nat.even_spec in He as ->. eexists. split; [reflexivity|].
    generalize (tag_pairs keys vals tags). clear. intros l.
    assert (G : forall l m : list (list Z * wval), NoDup (map fst m) -> NoDup (map fst (fold_left (fun m kv => mput (fst kv) (snd kv) m) l m)) /\
      forall k v, In (k, v) (fold_left (fun m kv => mput (fst kv) (snd kv) m) l m) <->
        (exists before after, l = before ++ (k, v) :: after /\ ~ In k (map fst after)) \/ (~ In k (map fst l) /\ In (k, v) m)).
    { clear. induction l as [|[a w] l IH]; intros m Hm; cbn [fold_left fst snd].
      - split; auto. intros k v. split; [right; split; auto|]. intros [(b & c & E & _)|(_ & H)]; auto. destruct b; discriminate.
      - pose proof (mput_NoDup a w m Hm) as N. destruct (IH _ N) as (I1 & I2). split; auto. intros k v. rewrite I2.
        rewrite <- (mget_in _ k v N), mget_mput. cbn [map fst In]. split.
        + intros [(b & c & -> & H)|(H1 & H2)]; [left; exists ((a, w) :: b), c; auto|]. destruct (bytes_eqb k a) eqn:E.
          * apply bytes_eqb_eq in E as ->. injection H2 as ->. left. exists [], l. auto.
          * right. rewrite mget_in in H2 by auto. split; auto. intros [->|H3]; auto. rewrite bytes_eqb_refl in E. discriminate.
        + intros [([|x b] & c & E & H)|(H1 & H2)].
          * cbn [app] in E. injection E as E1 E2 E3; subst. right. split; auto. rewrite bytes_eqb_refl. auto.
          * cbn [app] in E. injection E as E1 E2; subst. left. exists b, c. auto.
          * right. split; [tauto|]. destruct (bytes_eqb k a) eqn:E; [apply bytes_eqb_eq in E as ->; tauto|]. rewrite mget_in; auto. }
    destruct (G l [] (NoDup_nil _)) as (G1 & G2). split; auto. intros k v. rewrite G2. cbn [In]. tauto.
Qed.
Print Assumptions C83_tags.

Example C83_nonvacuous : tag_props [[97]; [98]] [WInt 1; WInt 2] [0; 0; 0; 1; 1; 9; 7; 0] [] = Ok [([97], WInt 2); ([98], WString []); ([], WInt 1)].
Proof. reflexivity. Qed.

(** ** C84: layers with the same name *)
Lemma put_all_last ls : forall m l before after, ls = before ++ l :: after -> ~ In (lName l) (map lName after) -> mget (lName l) (put_all ls m) = Some l.
Proof.
  induction ls as [|a ls IH]; intros m l [|x before] after E H; try discriminate; cbn [app] in E; injection E as -> E; cbn [put_all].
  - subst after. rewrite put_all_other by auto. rewrite mget_mput, bytes_eqb_refl. reflexivity.
  - subst ls. eapply IH; eauto.
Qed.

(** NewTile keeps the last of the layers with one name; TileNames still lists every one. *)
Theorem C84_last_layer_of_a_name : forall (Pt : Type) pt (Ss : list (source Pt)) bss,
  Forall2 (written pt) Ss bss -> zlen (concat bss) < 2 ^ 62 ->
  exists t, (forall fuel, (length (concat bss) < fuel)%nat -> NewTile fuel pt (concat bss) = Ok t) /\
    tNames t = filter (fun n => negb (bytes_eqb n [])) (map (fun S => cName (sCfg S)) Ss) /\
    NoDup (map fst (tMap t)) /\ (forall n, In n (map fst (tMap t)) <-> In n (map (fun S => cName (sCfg S)) Ss)) /\
    forall before S after, Ss = before ++ S :: after -> ~ In (cName (sCfg S)) (map (fun S => cName (sCfg S)) after) ->
      exists l, mget (cName (sCfg S)) (tMap t) = Some l /\ layer_holds pt S (concat bss) l.
Proof.
  intros Pt pt Ss bss HW Hb. pose proof (getProto_dialect pt) as HP. destruct (written_all pt Ss bss HW) as (wss & D & L).
  set (Ls := map (fun x => src_layer (fst x) (snd x)) (combine Ss wss)) in *. set (buf := concat bss) in *.
  assert (A0 : at_ buf 0 (concat bss)) by (exists []; auto).
  destruct (tile_loop_at (getProto pt) buf HP Hb Ls bss L 0 (mkTileV [] []) (Datatypes.S (length buf)) A0 ltac:(unfold buf; lia)) as (ls & E & F).
  assert (HL : Forall2 (fun S l => layer_holds pt S buf l) Ss ls).
  { clear - HW D L F Hb. unfold Ls in *. clearbody buf. clear Ls. revert wss bss HW D L ls F. induction Ss as [|S Ss IH]; intros wss bss HW D L ls F.
    - inversion D; subst. cbn in *. inversion F; subst. constructor.
    - inversion D as [|? ws ? wss' D1 D2]; subst. inversion HW as [|? bs ? bss' W1 W2]; subst. cbn [combine map fst snd] in *.
      inversion F as [|? l ? ls' F1 F2]; subst. inversion L; subst. destruct W1 as (_ & _ & G1 & G2 & _). constructor.
      + eapply from_holds; eauto.
      + eapply IH; eauto. }
  assert (HN : map lName ls = map (fun S => cName (sCfg S)) Ss).
  { clear - HL. induction HL as [|S l Ss ls (H & _) _ IH]; auto. cbn [map]. rewrite H, IH. auto. }
  exists (mkTileV (flat_map (fun L => name_list (wlName L)) Ls) (put_all ls [])). split; [|cbn [tNames tMap]; split; [apply named_layers; apply (Forall2_len _ _ _ D)|]].
  - intros fuel Hf. unfold NewTile.
    destruct (tile_loop_at (getProto pt) buf HP Hb Ls bss L 0 (mkTileV [] []) fuel A0 Hf) as (ls' & E' & _).
    rewrite E'. cbn [tNames tMap app] in *. f_equal. apply (tile_loop_det _ _ _ _ _ _ _ _ E' E).
  - assert (K : forall ls m, NoDup (map fst m) -> NoDup (map fst (put_all ls m)) /\ forall n, In n (map fst (put_all ls m)) <-> In n (map lName ls) \/ In n (map fst m)).
    { clear. induction ls as [|l ls IH]; intros m Hm; cbn [put_all map In]; [split; auto; intros; tauto|].
      destruct (IH (mput (lName l) l m) (mput_NoDup _ _ _ Hm)) as (I1 & I2). split; auto. intros n. rewrite I2, mput_keys. intuition congruence. }
    destruct (K ls [] (NoDup_nil _)) as (K1 & K2). split; auto. split. { intros n. rewrite K2, HN. cbn [map In]. tauto. }
    intros before S after ES Hno. subst Ss.
    apply Forall2_app_inv_l in HL as (lb & la & Hb1 & Ha1 & ->). inversion Ha1 as [|? l ? la' Hl Ha2]; subst. exists l. split; auto.
    pose proof Hl as (El & _). rewrite <- El. eapply put_all_last; [reflexivity|]. rewrite El.
    replace (map lName la') with (map (fun S => cName (sCfg S)) after); auto.
    clear - Ha2. induction Ha2 as [|S l Ss ls (H & _) _ IH]; auto. cbn [map]. rewrite H, IH. auto.
Qed.
Print Assumptions C84_last_layer_of_a_name.

Definition ex_same : list (source (Z * Z)) := [ex_src 0; mkSrc (fun p => p) pt_eqb [] (mkConfig [114] 512 1 0)].
Definition ex_same_bytes : list bytes := [ex_bytes 0; [26; 8; 10; 1; 114; 40; 128; 4; 120; 1]].
Example C84_nonvacuous : Forall2 (written 0) ex_same ex_same_bytes /\
  match NewTile 400 0 (concat ex_same_bytes) with
  | Ok t => tNames t = [[114]; [114]] /\ map lExtent (map snd (tMap t)) = [512]
  | _ => False end.
Proof.
  split; [|vm_compute; split; reflexivity].
  unfold ex_same, ex_same_bytes. pose proof (C19_nonvacuous 0 (or_introl eq_refl)) as [HX _]. refine (Forall2_cons _ _ HX _). constructor; [|constructor].
  split; [vm_compute; reflexivity|]. split; auto. split; [apply Forall_nil|]. split; [split; cbn; lia|cbn; lia].
Qed.
