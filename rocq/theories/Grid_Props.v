(** UTF grids (C98) and the JSON form of layer types (C99). *)
From Coq Require Import String ZArith Reals List Lia Bool.
From Verif Require Import GoBase Json Mbtiles_Model Meta_Model Grid_Model.
Import ListNotations.
Open Scope Z_scope.

(** ** Maps *)

(** The value of the last entry with the key *)
Definition latest_of {V} (k : gstr) (l : list (gstr * V)) : option V := option_map snd (find (fun e => seqb k (fst e)) (rev l)).
(** The value of a key in a map, whose keys are all different *)
Definition value_of {V} (k : gstr) (m : list (gstr * V)) : option V := option_map snd (find (fun e => seqb k (fst e)) m).

Lemma jput_get k v m k' : value_of k' (jput k v m) = if seqb k' k then Some v else value_of k' m.
Proof.
  unfold value_of. induction m as [|[a b] m IH]; cbn [jput find fst snd].
  - destruct (seqb k' k); reflexivity.
  - destruct (seqb_spec k a) as [->|N]; cbn [find fst snd].
    + destruct (seqb k' a); reflexivity.
    + destruct (seqb_spec k' a) as [->|N']; [destruct (seqb_spec a k); [congruence|reflexivity]|exact IH].
Qed.
Lemma jput_keys k v m x : In x (map fst (jput k v m)) <-> x = k \/ In x (map fst m).
Proof.
  induction m as [|[a b] m IH]; cbn [jput map fst In]; [intuition|]. destruct (seqb_spec k a) as [->|N]; cbn [map fst In]; [|rewrite IH]; intuition.
Qed.
Lemma jput_nodup k v m : NoDup (map fst m) -> NoDup (map fst (jput k v m)).
Proof.
  induction m as [|[a b] m IH]; intros H; cbn [jput map fst]; [repeat constructor; intros []|]. cbn [map fst] in H. inversion H; subst.
  destruct (seqb_spec k a) as [->|N]; cbn [map fst]; constructor; auto. rewrite jput_keys. intros [E|E]; [congruence|auto].
Qed.
Lemma jput_ne k v m : jput k v m <> [].
Proof. destruct m as [|[a b] m]; cbn [jput]; [discriminate|]. destruct (seqb k a); discriminate. Qed.

Lemma find_app {A} (f : A -> bool) l l' : find f (l ++ l') = match find f l with Some a => Some a | None => find f l' end.
Proof. induction l as [|a l IH]; cbn [app find]; auto. destruct (f a); auto. Qed.
Lemma latest_cons {V} k (e : gstr * V) l : latest_of k (e :: l) = match latest_of k l with Some v => Some v | None => if seqb k (fst e) then Some (snd e) else None end.
Proof. unfold latest_of. cbn [rev]. rewrite find_app. destruct (find _ (rev l)); auto. cbn [find]. destruct (seqb k (fst e)); reflexivity. Qed.

Lemma jmap_gen l : forall m k, NoDup (map fst m) ->
  NoDup (map fst (fold_left (fun m e => jput (fst e) (snd e) m) l m)) /\
  value_of k (fold_left (fun m e => jput (fst e) (snd e) m) l m) = match latest_of k l with Some v => Some v | None => value_of k m end.
Proof.
  induction l as [|e l IH]; intros m k H; cbn [fold_left]; [split; auto|].
  destruct (IH (jput (fst e) (snd e) m) k (jput_nodup _ _ _ H)) as [A C]. split; auto. rewrite C, latest_cons. destruct (latest_of k l); auto.
  rewrite jput_get. destruct (seqb k (fst e)); auto.
Qed.
Lemma jmap_spec l k : NoDup (map fst (jmap l)) /\ value_of k (jmap l) = latest_of k l.
Proof. destruct (jmap_gen l [] k ltac:(constructor)) as [A C]. split; auto. unfold jmap. rewrite C. destruct (latest_of k l); reflexivity. Qed.

(** ** C98 *)

(** Opening: grids are found exactly when the five names exist and grid_utfgrid has a row whose compression is recognised; the only failure
    is a row that is not recognised. *)
Theorem C98_open : forall order db,
  (forall f, NewDBGrid order db = Val (Some f) <-> gTables db = true /\ exists d, gSample db = Some d /\ detectTileFormat order (blob d) = Val f) /\
  (NewDBGrid order db = Val None <-> gTables db = false \/ gSample db = None) /\
  (NewDBGrid order db = Err <-> gTables db = true /\ exists d, gSample db = Some d /\ detectTileFormat order (blob d) = Err) /\
  NewDBGrid order db <> Crash.
Proof.
  intros order db. unfold NewDBGrid. destruct (gTables db); [destruct (gSample db) as [d|]|].
  - destruct (detectTileFormat order (blob d)) as [f| |] eqn:E; cbn [obind].
    + split; [|split; [|split]]; try discriminate.
      * intros f'. split; [intros H; injection H as ->; eauto|]. intros (_ & d' & H & K). injection H as <-. congruence.
      * split; [discriminate|]. intros [H|H]; discriminate.
      * split; [discriminate|]. intros (_ & d' & H & K). injection H as <-. congruence.
    + split; [|split; [|split]]; try discriminate.
      * intros f'. split; [discriminate|]. intros (_ & d' & H & K). injection H as <-. congruence.
      * split; [discriminate|]. intros [H|H]; discriminate.
      * split; eauto.
    + exfalso. unfold detectTileFormat in E. destruct (match_patterns order (blob d)); [discriminate|]. destruct (Nat.ltb _ _); [discriminate|]. destruct (_ && _); discriminate.
  - split; [|split; [|split]]; try discriminate; [intros f|intuition|]; split; try discriminate; intros (_ & d & H & _); discriminate.
  - split; [|split; [|split]]; try discriminate; [intros f|intuition|]; split; try discriminate; intros (H & _); discriminate.
Qed.
Print Assumptions C98_open.

Section Codecs.
  Context (unzlib ungzip : gstr -> option gstr) (zlib gzip : gstr -> gstr) (unmarshal decode : gstr -> option json) (encode : list (gstr * json) -> gstr).
  Notation read := (ReadGrid unzlib ungzip zlib gzip unmarshal decode encode).

  Lemma key_rows_spec rows : forall m, NoDup (map fst m) ->
    match key_rows unmarshal rows m with
    | Val m' => (forall r, In r rows -> fst r <> None) /\ NoDup (map fst m') /\ (m' = [] <-> m = [] /\ rows = []) /\
        forall k, value_of k m' = match latest_of k (map (fun r => (blob (fst r), snd r)) rows) with Some v => Some (key_value unmarshal v) | None => value_of k m end
    | Err => In None (map fst rows)
    | Crash => False
    end.
  Proof.
    induction rows as [|[[k|] v] rows IH]; intros m H; cbn [key_rows].
    - split; [intros r []|]. split; auto. split; [tauto|]. reflexivity.
    - specialize (IH (jput k (key_value unmarshal v) m) (jput_nodup _ _ _ H)). destruct (key_rows unmarshal rows _) as [m'| |]; auto.
      + destruct IH as (I1 & I2 & I3 & I4). split; [intros r [<-|Hr]; [discriminate|auto]|]. split; auto. split.
        * rewrite I3. split; [intros [E _]; exfalso; exact (jput_ne _ _ _ E)|intros [_ E]; discriminate].
        * intros k'. rewrite I4. cbn [map fst snd blob]. rewrite latest_cons. destruct (latest_of k' _); auto. cbn [fst snd]. rewrite jput_get. destruct (seqb k' k); reflexivity.
      + right. exact IH.
    - left. reflexivity.
  Qed.

  (** Without grids, beyond the integers SQLite stores, where there is no grid, and where there are no keys *)
  Theorem C98_simple_reads : forall comp db z x y,
    read None db z x y = Err /\
    (forall c, bindable x && bindable y = false -> read (Some c) db z x y = Err) /\
    (forall c, bindable x && bindable y = true -> gGrid db z x y = None -> read (Some c) db z x y = Val None) /\
    (forall c d, bindable x && bindable y = true -> gGrid db z x y = Some d -> gKeys db z x y = [] -> read (Some c) db z x y = Val d) /\
    (comp = None -> read comp db z x y = Err).
  Proof.
    intros comp db z x y. split; [reflexivity|]. split; [intros c H; unfold ReadGrid; rewrite H; reflexivity|].
    split; [intros c H G; unfold ReadGrid; rewrite H, G; reflexivity|]. split; [intros c d H G K; unfold ReadGrid; rewrite H, G, K; reflexivity|]. intros ->. reflexivity.
  Qed.

  (** The data of a key: the stored object, null for a stored null, and an empty object for anything else *)
  Definition key_doc (v : option gstr) : json :=
    match unmarshal (match v with Some b => b | None => [] end) with
    | Some (JObj l) => JObj l
    | Some JNull => JNull
    | None | Some (JBool _) | Some (JNum _) | Some (JStr _) | Some (JArr _) => JObj []
    end.
  Lemma key_doc_ok v : key_value unmarshal v = key_doc v.
  Proof. unfold key_value, key_doc, blob. destruct (unmarshal _) as [[]|]; reflexivity. Qed.
  (** With keys: the decompressed grid with its "data" replaced by the keys of the position, every other member unchanged *)
  Theorem C98_keys_joined : forall c db z x y d s l, bindable x && bindable y = true ->
    gGrid db z x y = Some d -> gKeys db z x y <> [] -> ~ In None (map fst (gKeys db z x y)) ->
    (if c =? ZLIB then unzlib (blob d) else ungzip (blob d)) = Some s -> decode s = Some (JObj l) ->
    exists m keydata, read (Some c) db z x y = Val (Some ((if c =? ZLIB then zlib else gzip) (encode m))) /\ NoDup (map fst m) /\
      (forall k, k <> B "data" -> value_of k m = latest_of k l) /\
      value_of (B "data") m = Some (JObj keydata) /\ NoDup (map fst keydata) /\
      forall k, value_of k keydata = option_map key_doc (latest_of k (map (fun r => (blob (fst r), snd r)) (gKeys db z x y))).
  Proof.
    intros c db z x y d s l Hb G K N E D. unfold ReadGrid. rewrite Hb, G. cbn [negb].
    pose proof (key_rows_spec (gKeys db z x y) [] ltac:(constructor)) as S. destruct (key_rows unmarshal (gKeys db z x y) []) as [kd| |]; [|contradiction|contradiction].
    destruct S as (_ & S2 & S3 & S4). cbn [obind]. destruct kd as [|e kd]; [exfalso; apply K; apply S3; auto|]. rewrite E, D. cbv zeta.
    exists (jput (B "data") (JObj (e :: kd)) (jmap l)), (e :: kd). split; [destruct (c =? ZLIB); reflexivity|]. split; [apply jput_nodup, (jmap_spec l [])|]. split.
    - intros k Hk. rewrite jput_get. destruct (seqb_spec k (B "data")); [contradiction|]. apply jmap_spec.
    - split; [rewrite jput_get, seqb_refl; reflexivity|]. split; [exact S2|]. intros k. rewrite S4. destruct (latest_of k _) as [v|]; cbn [option_map]; [rewrite key_doc_ok|]; reflexivity.
  Qed.

  (** The call panics exactly for a grid with keys that decompresses to something other than a JSON object. *)
  Theorem C98_panics_iff : forall comp db z x y,
    read comp db z x y = Crash <->
    exists c d s, comp = Some c /\ bindable x && bindable y = true /\ gGrid db z x y = Some d /\ gKeys db z x y <> [] /\ ~ In None (map fst (gKeys db z x y)) /\
      (if c =? ZLIB then unzlib (blob d) else ungzip (blob d)) = Some s /\ (forall l, decode s <> Some (JObj l)).
  Proof.
    intros comp db z x y. unfold ReadGrid. destruct comp as [c|]; [|split; [discriminate|intros (c & d & s & H & _); discriminate]].
    destruct (bindable x && bindable y); cbn [negb]; [|split; [discriminate|intros (c' & d & s & _ & H & _); discriminate]].
    destruct (gGrid db z x y) as [d|]; [|split; [discriminate|intros (c' & d & s & _ & _ & H & _); discriminate]].
    pose proof (key_rows_spec (gKeys db z x y) [] ltac:(constructor)) as S. destruct (key_rows unmarshal (gKeys db z x y) []) as [kd| |]; cbn [obind]; [| |contradiction].
    - destruct S as (S1 & _ & S3 & _). assert (NN : ~ In None (map fst (gKeys db z x y))) by (intros K; apply in_map_iff in K as (r & Er & Hr); exact (S1 r Hr Er)).
      destruct kd as [|e kd]; [split; [discriminate|intros (c' & d' & s & _ & _ & _ & K & _); exfalso; apply K; apply S3; auto]|].
      assert (KN : gKeys db z x y <> []) by (intros K; assert (e :: kd = []) by (apply S3; auto); discriminate).
      destruct (if c =? ZLIB then unzlib (blob d) else ungzip (blob d)) as [s|] eqn:E.
      + destruct (decode s) as [j|] eqn:D.
        * destruct j; try (split; [intros _; exists c, d, s; split; [reflexivity|]; split; [reflexivity|]; split; [reflexivity|]; split; [exact KN|]; split; [exact NN|]; split; [exact E|]; intros l0; congruence|auto]).
          split; [discriminate|]. intros (c' & d' & s' & H1 & _ & H2 & _ & _ & H3 & H4). injection H1 as <-. injection H2 as <-. rewrite E in H3. injection H3 as <-. exfalso. exact (H4 _ D).
        * split; auto. intros _. exists c, d, s. split; [reflexivity|]. split; [reflexivity|]. split; [reflexivity|]. split; [exact KN|]. split; [exact NN|]. split; [exact E|]. intros l0. congruence.
      + split; [discriminate|]. intros (c' & d' & s' & H1 & _ & H2 & _ & _ & H3 & _). injection H1 as <-. injection H2 as <-. congruence.
    - split; [discriminate|]. intros (c' & d' & s' & _ & _ & _ & _ & N & _). contradiction.
  Qed.
End Codecs.
Print Assumptions C98_simple_reads.
Print Assumptions C98_keys_joined.
Print Assumptions C98_panics_iff.

(** So an honest codec does not protect the caller: with a key present, a stored grid of "null" panics. *)
Theorem C98_null_grid_refuted : forall zlib gzip unmarshal encode (ungzip : gstr -> option gstr) (decode : gstr -> option json) packed,
  ungzip packed = Some (B "null") -> decode (B "null") = Some JNull ->
  ReadGrid ungzip ungzip zlib gzip unmarshal decode encode (Some GZIP)
    (mkGrid true (Some (Some packed)) (fun _ _ _ => Some (Some packed)) (fun _ _ _ => [(Some (B "1"), Some (B "{}"))])) 0 0 0 = Crash.
Proof.
  intros. apply C98_panics_iff. exists GZIP, (Some packed), (B "null"). repeat (split; [first [reflexivity | discriminate | (intros [K|[]]; discriminate) | assumption]|]).
  intros l. congruence.
Qed.
Print Assumptions C98_null_grid_refuted.

Example C98_nonvacuous :
  let decode s := if seqb s (B "null") then Some JNull else Some (JObj [(B "grid", JStr s); (B "data", JNull)]) in
  let db := mkGrid true (Some (Some [31; 139])) (fun _ _ _ => Some (Some (B "x"))) (fun _ _ _ => [(Some (B "1"), None); (Some (B "1"), Some (B "{}"))]) in
  NewDBGrid patterns db = Val (Some GZIP) /\
  ReadGrid Some Some (fun s => s) (fun s => s) (fun s => if seqb s [] then None else Some (JObj [])) decode (fun m => concat (map fst m)) (Some GZIP) db 0 0 0 = Val (Some (B "griddata")).
Proof. vm_compute. auto. Qed.

(** ** C99 *)

(** A layer type that can be addressed round trips; decoding accepts the two names and nothing else, agreeing with the metadata table. *)
Theorem C99_round_trip : forall t,
  (forall j, encode_layer_type true t = Val j -> LayerTypeUnmarshalJSON j = Val t /\ j = JStr (layerTypeToString t)) /\
  (encode_layer_type true t = Crash <-> ~ 0 <= t <= 1) /\
  (0 <= t <= 1 -> exists j, encode_layer_type true t = Val j).
Proof.
  intros t. unfold encode_layer_type, LayerTypeMarshalJSON, LayerTypeString, layerTypeStrings.
  destruct (Z.ltb_spec t 0); [cbn [obind]; split; [discriminate|split; [split; [lia|auto]|lia]]|].
  destruct (Z.le_gt_cases t 1) as [H1|H1].
  - assert (t = 0 \/ t = 1) as [->| ->] by lia; (split; [intros j E; injection E as <-; split; reflexivity|]); (split; [split; [discriminate|lia]|intros _; eexists; reflexivity]).
  - assert (exists n, Z.to_nat t = S (S n)) as (n & ->) by (exists (Z.to_nat (t - 2)); lia). cbn [nth_error].
    assert (nth_error (@nil gstr) n = None) as -> by (destruct n; reflexivity). cbn [obind]. split; [discriminate|]. split; [split; [lia|auto]|lia].
Qed.
Print Assumptions C99_round_trip.

Theorem C99_accepts : forall j, 
  (forall t, LayerTypeUnmarshalJSON j = Val t <-> (j = JStr (B "baselayer") /\ t = 0) \/ (j = JStr (B "overlay") /\ t = 1)) /\
  (forall s t, LayerTypeUnmarshalJSON (JStr s) = Val t -> stringToLayerType s = t) /\
  LayerTypeUnmarshalJSON j <> Crash.
Proof.
  intros j. split; [|split].
  - intros t. destruct j as [|b|r|s|l|l]; cbn [LayerTypeUnmarshalJSON]; try (split; [discriminate|intros [[E _]|[E _]]; discriminate]).
    unfold layerTypeStrings. cbn [index_of]. destruct (seqb_spec (B "baselayer") s) as [<-|N1].
    + split; [intros E; injection E as <-; left; auto|]. intros [[_ ->]|[E _]]; [reflexivity|discriminate].
    + destruct (seqb_spec (B "overlay") s) as [<-|N2].
      * split; [intros E; injection E as <-; right; auto|]. intros [[E _]|[_ ->]]; [discriminate|reflexivity].
      * split; [discriminate|]. intros [[E _]|[E _]]; injection E as ->; congruence.
  - intros s t. unfold stringToLayerType. cbn [LayerTypeUnmarshalJSON]. destruct (index_of s layerTypeStrings 0); [intros E; injection E as <-; reflexivity|discriminate].
  - destruct j; cbn [LayerTypeUnmarshalJSON]; try discriminate; destruct (index_of _ _ _); discriminate.
Qed.
Print Assumptions C99_accepts.

(** A layer type in a Metadata passed by value is written as a number, which does not decode. *)
Theorem C99_by_value_refuted : forall t, exists j, encode_layer_type false t = Val j /\ LayerTypeUnmarshalJSON j = Err.
Proof. intros t. eexists. split; reflexivity. Qed.
Print Assumptions C99_by_value_refuted.

Example C99_nonvacuous : encode_layer_type true 1 = Val (JStr (B "overlay")) /\ LayerTypeUnmarshalJSON (JStr (B "Overlay")) = Err.
Proof. split; reflexivity. Qed.
