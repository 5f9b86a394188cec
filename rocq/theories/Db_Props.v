(** The life of a tileset file (C113). *)
From Coq Require Import String ZArith List Lia Bool Permutation.
From Verif Require Import GoBase Json Mbtiles_Model Mbtiles_Props Meta_Model Grid_Model Db_Model.
From Verif Require Meta_Props.
Import ListNotations.
Open Scope Z_scope.

Lemma dset_same d name f : the_file (dset d name f) name = f.
Proof. unfold the_file, dset. rewrite seqb_refl. reflexivity. Qed.
Lemma dset_other d name f n : n <> name -> dset d name f n = d n.
Proof. intros N. unfold dset. destruct (seqb_spec n name); [contradiction|reflexivity]. Qed.

(** ** Creating *)
(** Nothing in the file that the new tables would clash with *)
Definition free (f : file) : Prop := fTiles f = None /\ fIndex f = false /\ fMeta f = None.
(** A file that has one of the tables is refused and keeps its tiles and metadata; otherwise the file is given both tables,
    and the call returns even when writing the metadata fails. *)
Theorem C113_create : forall mtime ev d name format md,
  let r := CreateDB mtime ev d name format md in
  let f := the_file d name in
  let f' := the_file (snd r) name in
  let db := mkDB format (RoundSecond (mtime name)) None in
  snd r name = Some f' /\ (forall n, n <> name -> snd r n = d n) /\ fGrid f' = fGrid f /\
  (~ free f -> fst r = Fails_ /\ fMeta f' = fMeta f /\ (forall t, fTiles f = Some t -> fTiles f' = Some t) /\ (fTiles f = None -> fTiles f' = Some [])) /\
  (free f -> fTiles f' = Some [] /\ fIndex f' = true /\
    match md with
    | None => fst r = Returns db /\ fMeta f' = Some []
    | Some rows =>
        let '(e, table) := UpdateMetadata ev [] rows in
        fMeta f' = Some table /\ (fst r = Returns db <-> e = RetNil \/ e = RetErr) /\ (fst r = Panics_ <-> e = Panicked) /\ fst r <> Fails_
    end).
Proof.
  intros mtime ev d name format md. cbv zeta. unfold CreateDB, free. set (f := the_file d name).
  assert (O : forall g n, n <> name -> dset d name g n = d n) by (intros; apply dset_other; auto).
  assert (T : forall g, dset d name g name = Some (the_file (dset d name g) name)) by (intros g; rewrite dset_same; unfold dset; rewrite seqb_refl; reflexivity).
  destruct (fTiles f) as [t|] eqn:E1.
  { cbn [fst snd]. rewrite dset_same. split; [rewrite T, dset_same; reflexivity|]. split; [apply O|]. split; [reflexivity|]. split; [|intros (A & _); discriminate].
    intros _. split; [reflexivity|]. split; [reflexivity|]. split; [intros t' <-; exact E1|discriminate]. }
  destruct (fIndex f) eqn:E2.
  { cbn [fst snd]. rewrite dset_same. cbn [fMeta fGrid fTiles]. split; [rewrite T, dset_same; reflexivity|]. split; [apply O|]. split; [reflexivity|]. split; [|intros (_ & A & _); discriminate].
    intros _. repeat split; discriminate. }
  destruct (fMeta f) as [m|] eqn:E3.
  { cbn [fst snd]. rewrite dset_same. cbn [fMeta fGrid fTiles]. split; [rewrite T, dset_same; reflexivity|]. split; [apply O|]. split; [reflexivity|]. split; [|intros (_ & _ & A); discriminate].
    intros _. repeat split; discriminate. }
  destruct md as [rows|].
  - destruct (UpdateMetadata ev [] rows) as [e table]. cbn [fst snd]. rewrite dset_same. cbn [fMeta fGrid fTiles fIndex]. split; [rewrite T, dset_same; reflexivity|]. split; [apply O|]. split; [reflexivity|]. split; [intros H; exfalso; apply H; auto|]. intros _.
    split; [reflexivity|]. split; [reflexivity|]. split; [reflexivity|]. destruct e; (split; [split; intros H; auto; try discriminate; destruct H; discriminate|]); split; try (split; intros H; auto; discriminate); discriminate.
  - cbn [fst snd]. rewrite dset_same. cbn [fMeta fGrid fTiles fIndex]. split; [rewrite T, dset_same; reflexivity|]. split; [apply O|]. split; [reflexivity|]. split; [intros H; exfalso; apply H; auto|]. intros _. auto.
Qed.
Print Assumptions C113_create.

(** ** Sessions *)
Inductive call := CStore (s : store) | CUpdate (ev : nat -> event) (rows : option (list (gstr * gstr))).
Definition do_call (name : gstr) (d : disk) (c : call) : disk :=
  match c with
  | CStore s => snd (Store d name (sZ s) (sX s) (sY s) (sData s))
  | CUpdate ev rows => snd (Update ev d name rows)
  end.
Definition session (d : disk) (name : gstr) (cs : list call) : disk := fold_left (do_call name) cs d.
(** The tiles and the metadata that calls are about *)
Definition stores (cs : list call) : list store := flat_map (fun c => match c with CStore s => [s] | _ => [] end) cs.
Definition no_updates (cs : list call) : Prop := forall ev rows, ~ In (CUpdate ev rows) cs.

Lemma run_snoc h s : run (h ++ [s]) = step (run h) s.
Proof. unfold run. rewrite fold_left_app. reflexivity. Qed.
Lemma stores_app a b : stores (a ++ b) = stores a ++ stores b.
Proof. unfold stores. apply flat_map_app. Qed.
Lemma session_tiles d name cs : fTiles (the_file d name) = Some [] -> fTiles (the_file (session d name cs) name) = Some (run (stores cs)).
Proof.
  intros H. induction cs as [|c cs IH] using rev_ind; [exact H|]. unfold session in *. rewrite fold_left_app, stores_app. cbn [fold_left]. set (d' := fold_left (do_call name) cs d) in *. destruct c as [s|ev rows]; cbn [do_call stores flat_map app].
  - unfold Store. rewrite IH. rewrite run_snoc. unfold step. destruct (StoreTile (run (stores cs)) (sZ s) (sX s) (sY s) (sData s)); cbn [snd]; rewrite dset_same; auto.
  - rewrite app_nil_r. unfold Update. destruct (fMeta (the_file d' name)) as [old|]; [|cbn [snd]; rewrite dset_same; exact IH]. destruct (UpdateMetadata ev old rows) as [e table]. cbn [snd]. rewrite dset_same. exact IH.
Qed.
Lemma session_others d name cs n : n <> name -> session d name cs n = d n.
Proof.
  intros N. induction cs as [|c cs IH] using rev_ind; [reflexivity|]. unfold session in *. rewrite fold_left_app. cbn [fold_left]. set (d' := fold_left (do_call name) cs d) in *. rewrite <- IH. destruct c as [s|ev rows]; cbn [do_call].
  - unfold Store. destruct (fTiles (the_file d' name)) as [t|]; [destruct (StoreTile t _ _ _ _)|]; cbn [snd]; apply dset_other; auto.
  - unfold Update. destruct (fMeta (the_file d' name)) as [old|]; [destruct (UpdateMetadata ev old rows)|]; cbn [snd]; apply dset_other; auto.
Qed.
Lemma session_grid d name cs : fGrid (the_file (session d name cs) name) = fGrid (the_file d name).
Proof.
  induction cs as [|c cs IH] using rev_ind; [reflexivity|]. unfold session in *. rewrite fold_left_app. cbn [fold_left]. set (d' := fold_left (do_call name) cs d) in *. rewrite <- IH. destruct c as [s|ev rows]; cbn [do_call].
  - unfold Store. destruct (fTiles (the_file d' name)) as [t|]; [destruct (StoreTile t _ _ _ _)|]; cbn [snd]; rewrite dset_same; reflexivity.
  - unfold Update. destruct (fMeta (the_file d' name)) as [old|]; [destruct (UpdateMetadata ev old rows)|]; cbn [snd]; rewrite dset_same; reflexivity.
Qed.
Lemma session_exists d name cs : d name <> None -> session d name cs name = Some (the_file (session d name cs) name).
Proof.
  intros N. unfold the_file. destruct (session d name cs name) eqn:E; [reflexivity|]. exfalso. revert E. induction cs as [|c cs IH] using rev_ind; [exact N|]. unfold session in *. rewrite fold_left_app. cbn [fold_left].
  set (d' := fold_left (do_call name) cs d) in *. assert (K : forall g, dset d' name g name <> None) by (intros g; unfold dset; rewrite seqb_refl; discriminate). destruct c as [s|ev rows]; cbn [do_call].
  - unfold Store. destruct (fTiles (the_file d' name)) as [t|]; [destruct (StoreTile t _ _ _ _)|]; cbn [snd]; apply K.
  - unfold Update. destruct (fMeta (the_file d' name)) as [old|]; [destruct (UpdateMetadata ev old rows)|]; cbn [snd]; apply K.
Qed.
Lemma session_meta d name cs : no_updates cs -> fMeta (the_file (session d name cs) name) = fMeta (the_file d name).
Proof.
  intros H. induction cs as [|c cs IH] using rev_ind; [reflexivity|]. unfold session in *. rewrite fold_left_app. cbn [fold_left]. set (d' := fold_left (do_call name) cs d) in *. rewrite <- IH; [|intros ev rows Hin; apply (H ev rows); apply in_or_app; auto].
  destruct c as [s|ev rows]; cbn [do_call]; [|exfalso; apply (H ev rows); apply in_or_app; right; left; reflexivity].
  unfold Store. destruct (fTiles (the_file d' name)) as [t|]; [destruct (StoreTile t _ _ _ _)|]; cbn [snd]; rewrite dset_same; reflexivity.
Qed.
Lemma session_has_meta d name cs : fMeta (the_file d name) <> None -> fMeta (the_file (session d name cs) name) <> None.
Proof.
  intros H. induction cs as [|c cs IH] using rev_ind; [exact H|]. unfold session in *. rewrite fold_left_app. cbn [fold_left]. set (d' := fold_left (do_call name) cs d) in *. destruct c as [s|ev rows]; cbn [do_call].
  - unfold Store. destruct (fTiles (the_file d' name)) as [t|]; [destruct (StoreTile t _ _ _ _)|]; cbn [snd]; rewrite dset_same; exact IH.
  - unfold Update. destruct (fMeta (the_file d' name)) as [old|]; [destruct (UpdateMetadata ev old rows)|]; cbn [snd]; rewrite dset_same; [discriminate|contradiction].
Qed.

(** The tiles the file holds after a session: the last data stored for coordinates that can be bound *)
Definition holds (cs : list call) (z x y : Z) (data : option gstr) : Prop :=
  x < 2 ^ 63 /\ y < 2 ^ 63 /\ (exists s, In s (stores cs) /\ store_key s = (z, x, y)) /\ latest (rev (stores cs)) z x y = data.
Lemma find_in {A} (f : A -> bool) l x : In x l -> f x = true -> (forall y, In y l -> f y = true -> y = x) -> find f l = Some x.
Proof.
  intros H F U. induction l as [|a l IH]; [destruct H|]. cbn [find]. destruct (f a) eqn:E; [f_equal; apply U; auto with datatypes|]. destruct H as [->|H]; [congruence|]. apply IH; auto. intros y Hy. apply U. right. exact Hy.
Qed.
Lemma nodup_key l r r' : NoDup (map row_key l) -> In r l -> In r' l -> row_key r = row_key r' -> r = r'.
Proof.
  intros N H H' E. induction l as [|a l IH]; [destruct H|]. cbn [map] in N. inversion N as [|? ? N1 N2]; subst. destruct H as [->|H], H' as [->|H']; auto; exfalso; apply N1; [rewrite E|rewrite <- E]; apply in_map; auto.
Qed.
Lemma held cs r : In r (run (stores cs)) <-> holds cs (rZ r) (rX r) (rY r) (rData r).
Proof.
  destruct (C64_rows (stores cs)) as [N K]. split.
  - intros H. destruct (proj1 (K (row_key r)) (in_map row_key _ _ H)) as (s & H1 & H2 & H3 & H4). assert (E : sX s = rX r /\ sY s = rY r) by (unfold store_key, row_key in H2; inversion H2; auto). destruct E as [E1 E2]. rewrite E1 in H3. rewrite E2 in H4.
    split; [exact H3|]. split; [exact H4|]. split; [exists s; auto|]. destruct (C64_map (stores cs) (rZ r) (rX r) (rY r)) as [M _]. specialize (M H3 H4). unfold ReadTile in M.
    assert (Hb : bindable (rX r) && bindable (rY r) = true) by (unfold bindable; apply andb_true_intro; split; apply Z.ltb_lt; auto). rewrite Hb in M.
    rewrite (find_in _ _ r) in M; [injection M as M; auto|exact H|apply same_key_spec; reflexivity|]. intros r' H' E. apply same_key_spec in E. eapply nodup_key; eauto.
  - intros (H1 & H2 & (s & H3 & H4) & H5). assert (In (rZ r, rX r, rY r) (map row_key (run (stores cs)))) as Hin.
    { apply K. exists s. unfold store_key in H4 |- *. inversion H4; subst. repeat split; auto; congruence. }
    apply in_map_iff in Hin. destruct Hin as (r' & E & Hr). assert (r' = r); [|subst; exact Hr].
    destruct (C64_map (stores cs) (rZ r) (rX r) (rY r)) as [M _]. specialize (M H1 H2). unfold ReadTile in M.
    assert (Hb : bindable (rX r) && bindable (rY r) = true) by (unfold bindable; apply andb_true_intro; split; apply Z.ltb_lt; auto). rewrite Hb in M.
    rewrite (find_in _ _ r') in M; [|exact Hr|apply same_key_spec; exact E|intros r'' H' E'; apply same_key_spec in E'; eapply nodup_key; eauto; congruence]. injection M as M. destruct r as [a1 a2 a3 a4], r' as [b1 b2 b3 b4]. unfold row_key in E. cbn [rZ rX rY rData] in *. inversion E; subst. congruence.
Qed.

Section Life.
Variable mtime : gstr -> Z.
Variable pick : list row -> option row.
Variable order : list (Z * list gstr).
(** LIMIT 1 returns some row, if there is one *)
Hypothesis pick_some : forall t r, pick t = Some r -> In r t.
Hypothesis pick_none : forall t, pick t = None -> t = [].
Hypothesis order_ok : Permutation order patterns.
Variables (ev0 : nat -> event) (d : disk) (name : gstr) (format : Z) (md : option (option (list (gstr * gstr)))) (h : DB) (cs : list call).
(** A new file, made and used *)
Hypothesis new : d name = None.
Let made := CreateDB mtime ev0 d name format md.
Hypothesis returned : fst made = Returns h.
Let d' := session (snd made) name cs.

Lemma made_free : free (the_file d name).
Proof. unfold the_file. rewrite new. repeat split. Qed.
Lemma made_tiles : fTiles (the_file d' name) = Some (run (stores cs)).
Proof. apply session_tiles. pose proof (C113_create mtime ev0 d name format md) as H. cbv zeta in H. destruct H as (_ & _ & _ & _ & H). apply H, made_free. Qed.

(** Tiles: what was stored last, whatever else happened; through the first handle or after reopening *)
Theorem C113_tiles : (forall z x y, x < 2 ^ 63 -> y < 2 ^ 63 -> Read d' name z x y = Val (latest (rev (stores cs)) z x y)) /\
  (forall z x y, 2 ^ 63 <= x \/ 2 ^ 63 <= y -> Read d' name z x y = Err) /\ forall n, n <> name -> d' n = d n.
Proof.
  split; [|split].
  - intros z x y Hx Hy. unfold Read. rewrite made_tiles. apply C64_map; auto.
  - intros z x y H. unfold Read. rewrite made_tiles. apply C64_map; auto.
  - intros n N. unfold d'. rewrite session_others by exact N. pose proof (C113_create mtime ev0 d name format md) as H. cbv zeta in H. apply H. exact N.
Qed.
Definition opened_as (g : Z) : Z := if g =? GZIP then PBF else g.
(** The handle that made the file has the format that was given; reopening takes the format of some tile in the file, and
    fails without tiles; there are no grids. *)
Theorem C113_reopen :
  h = mkDB format (RoundSecond (mtime name)) None /\
  ((forall z x y data, ~ holds cs z x y data) -> OpenDB mtime pick order d' name = Err) /\
  (forall g, (exists z x y data, holds cs z x y data) -> (forall z x y data, holds cs z x y data -> detectTileFormat patterns (blob data) = Val g) ->
     OpenDB mtime pick order d' name = Val (mkDB (opened_as g) (RoundSecond (mtime name)) None)) /\
  (forall h', OpenDB mtime pick order d' name = Val h' ->
     exists z x y data g, holds cs z x y data /\ detectTileFormat patterns (blob data) = Val g /\ h' = mkDB (opened_as g) (RoundSecond (mtime name)) None).
Proof.
  pose proof (C113_create mtime ev0 d name format md) as C. cbv zeta in C. fold made in C. destruct C as (C0 & _ & Cg & _ & C). specialize (C made_free). destruct C as (_ & _ & C).
  assert (Hh : h = mkDB format (RoundSecond (mtime name)) None).
  { destruct md as [rows|]; [|destruct C as [C _]; rewrite returned in C; injection C as C; exact C]. destruct (UpdateMetadata ev0 [] rows) as [e table]. destruct C as (_ & C1 & C2 & C3). rewrite returned in *.
    unfold made, CreateDB in returned. unfold the_file in returned. rewrite new in returned. cbn [empty_file fTiles fIndex fMeta] in returned. destruct (UpdateMetadata ev0 [] rows) as [e' t']. destruct e'; cbn [fst] in returned; congruence. }
  assert (G : fGrid (the_file d' name) = no_grid).
  { unfold d'. rewrite session_grid, Cg. unfold the_file. rewrite new. reflexivity. }
  assert (E : d' name = Some (the_file d' name)). { apply session_exists. rewrite C0. discriminate. }
  assert (O : OpenDB mtime pick order d' name = obind (NewDB order (pick (run (stores cs)))) (fun f => Val (mkDB f (RoundSecond (mtime name)) None))).
  { unfold OpenDB. rewrite E, made_tiles, G. reflexivity. }
  assert (D : forall r, NewDB order (Some r) = obind (detectTileFormat patterns (blob (rData r))) (fun f => Val (opened_as f))).
  { intros r. unfold NewDB. rewrite (proj2 (proj2 (C68_detects order (match rData r with Some x => x | None => [] end) order_ok))). reflexivity. }
  split; [exact Hh|]. split; [|split].
  - intros H. rewrite O. destruct (pick (run (stores cs))) as [r|] eqn:P; [|reflexivity]. exfalso. apply pick_some in P. apply held in P. apply H in P. exact P.
  - intros g (z & x & y & data & H1) H2. rewrite O. destruct (pick (run (stores cs))) as [r|] eqn:P.
    + apply pick_some in P. apply held in P. rewrite D, (H2 _ _ _ _ P). reflexivity.
    + apply pick_none in P. exfalso. assert (K : In (mkRow z x y data) (run (stores cs))) by (apply held; exact H1). rewrite P in K. destruct K.
  - intros h' H. rewrite O in H. destruct (pick (run (stores cs))) as [r|] eqn:P; [|discriminate]. apply pick_some in P. apply held in P. rewrite D in H. destruct (detectTileFormat patterns (blob (rData r))) as [g| |] eqn:Eg; cbn [obind] in H; try discriminate. injection H as <-. eauto 10.
Qed.

(** Metadata: what the last update stored, read back *)
Section Metadata.
Context {L : Type} (enc : L -> gstr) (decj : gstr -> option (option L)) (table_order : list (gstr * gstr) -> list (gstr * gstr)).
Hypothesis table_ok : forall rows, Permutation (table_order rows) rows.
Definition rows_of (m : Metadata L) (rows : list (gstr * gstr)) : Prop := exists l, ToMap enc m = Val l /\ Permutation rows l.
Definition zooms_held (a b : Z) : Prop :=
  (exists x y data, holds cs a x y data) /\ (exists x y data, holds cs b x y data) /\ forall z x y data, holds cs z x y data -> a <= z <= b.
Lemma read_back m rows : Meta_Props.md_ok m -> Meta_Props.json_ok enc decj m -> rows_of m rows -> fMeta (the_file d' name) = Some rows ->
  (mMaxZoom m <> 0 -> Meta decj table_order d' name = Val (Meta_Props.stored m)) /\
  (mMaxZoom m = 0 -> ((forall z x y data, ~ holds cs z x y data) -> Meta decj table_order d' name = Err) /\
                     (forall a b, zooms_held a b -> Meta decj table_order d' name = Val (set_zooms (Meta_Props.stored m) a b))).
Proof.
  intros W J (l & T & P) F. destruct (Meta_Props.C66_round_trip enc decj m W J) as (l' & T' & K). rewrite T in T'. injection T' as <-.
  unfold Meta. rewrite F, made_tiles. destruct (K [] (table_order rows) (run (stores cs)) (Permutation_trans (table_ok rows) P)) as (_ & K1 & K2). split; [exact K1|]. intros Z. destruct (K2 Z) as [K3 K4]. split.
  - intros H. apply K3. destruct (run (stores cs)) as [|r t] eqn:E; [reflexivity|]. exfalso. eapply H, held. rewrite E. left. reflexivity.
  - intros a b ((x1 & y1 & d1 & H1) & (x2 & y2 & d2 & H2) & H3). apply K4. split; [|split].
    + exists (mkRow a x1 y1 d1). split; [apply held; exact H1|reflexivity].
    + exists (mkRow b x2 y2 d2). split; [apply held; exact H2|reflexivity].
    + intros r Hr. apply held in Hr. eapply H3. exact Hr.
Qed.
Theorem C113_metadata : forall m rows, Meta_Props.md_ok m -> Meta_Props.json_ok enc decj m -> rows_of m rows ->
  (md = Some (Some rows) /\ (forall k, ev0 k = Done) /\ no_updates cs) \/ (exists pre ev post, cs = pre ++ CUpdate ev (Some rows) :: post /\ (forall k, ev k = Done) /\ no_updates post) ->
  (mMaxZoom m <> 0 -> Meta decj table_order d' name = Val (Meta_Props.stored m)) /\
  (mMaxZoom m = 0 -> ((forall z x y data, ~ holds cs z x y data) -> Meta decj table_order d' name = Err) /\
                     (forall a b, zooms_held a b -> Meta decj table_order d' name = Val (set_zooms (Meta_Props.stored m) a b))).
Proof.
  intros m rows W J R H. apply (read_back m rows W J R).
  pose proof (C113_create mtime ev0 d name format md) as C. cbv zeta in C. fold made in C. destruct C as (_ & _ & _ & _ & C). specialize (C made_free). destruct C as (_ & _ & C).
  assert (UP : forall ev old, (forall k, ev k = Done) -> UpdateMetadata ev old (Some rows) = (RetNil, rows)).
  { intros ev old Hev. destruct (C65_outcomes ev old (Some rows)) as [_ K]. cbv zeta in K. destruct (K (Hev 0%nat)) as [K1 _]. apply K1; auto. intros k _. apply Hev. }
  destruct H as [(-> & Hev & N)|(pre & ev & post & Ecs & Hev & N)].
  - rewrite (UP _ _ Hev) in C. destruct C as [C _]. unfold d'. rewrite session_meta by exact N. exact C.
  - unfold d', session. rewrite Ecs, fold_left_app. cbn [fold_left do_call]. fold (session (snd made) name pre). fold (session (snd (Update ev (session (snd made) name pre) name (Some rows))) name post).
    rewrite session_meta by exact N. assert (HM : fMeta (the_file (session (snd made) name pre) name) <> None).
    { apply session_has_meta. destruct md as [r0|]; [destruct (UpdateMetadata ev0 [] r0)|]; destruct C as [C1 C2]; [rewrite C1; discriminate|rewrite C2; discriminate]. }
    unfold Update. destruct (fMeta (the_file (session (snd made) name pre) name)) as [old|]; [|contradiction]. rewrite (UP _ _ Hev). cbn [snd]. rewrite dset_same. reflexivity.
Qed.
End Metadata.
End Life.
Print Assumptions C113_tiles.
Print Assumptions C113_reopen.
Print Assumptions C113_metadata.

(** The format that is given is not what reopening finds: it is nowhere stored unless in the metadata, and not looked up there. *)
Theorem C113_format_refuted : exists cs, OpenDB (fun _ => 0) (fun t => hd_error t) patterns (session (snd (CreateDB (fun _ => 0) (fun _ => Done) (fun _ => None) (B "t.mbtiles") PNG None)) (B "t.mbtiles") cs) (B "t.mbtiles")
     = Val (mkDB JPG 0 None) /\
  exists cs', OpenDB (fun _ => 0) (fun t => hd_error t) patterns (session (snd (CreateDB (fun _ => 0) (fun _ => Done) (fun _ => None) (B "t.mbtiles") PBF None)) (B "t.mbtiles") cs') (B "t.mbtiles") = Err /\ stores cs' <> [].
Proof.
  exists [CStore (mkStore 0 0 0 (Some [255; 216; 255]))]. split; [vm_compute; reflexivity|]. exists [CStore (mkStore 0 0 0 (Some [26; 0]))]. split; [vm_compute; reflexivity|discriminate].
Qed.
Print Assumptions C113_format_refuted.
(** Time stamps are the modification time to the second, half seconds up *)
Theorem C113_timestamp : forall t, RoundSecond t mod 1000000000 = 0 /\ t - 500000000 < RoundSecond t <= t + 500000000.
Proof.
  intros t. unfold RoundSecond. cbv zeta. pose proof (Z.mod_pos_bound t 1000000000 ltac:(lia)) as B. pose proof (Z.div_mod t 1000000000 ltac:(lia)) as E.
  destruct (Z.ltb_spec (t mod 1000000000 + t mod 1000000000) 1000000000); (split; [|lia]).
  - replace (t - t mod 1000000000) with (t / 1000000000 * 1000000000) by lia. apply Z.mod_mul. lia.
  - replace (t + 1000000000 - t mod 1000000000) with ((t / 1000000000 + 1) * 1000000000) by lia. apply Z.mod_mul. lia.
Qed.
Print Assumptions C113_timestamp.
(** What the accessors say of a reopened database *)
Theorem C113_accessors : forall f t g,
  let h := mkDB f t g in
  TileFormat h = f /\ TileFormatString h = FormatString f /\ ContentTypeOf h = ContentType f /\ TimeStamp h = t /\
  (HasUTFGrid h = true <-> g <> None) /\ (forall c, g = Some c -> UTFGridCompression h = c) /\ (g = None -> UTFGridCompression h = UNKNOWN).
Proof. intros f t g. cbv zeta. repeat split; destruct g; cbn; intros; try congruence. Qed.
(** Names without a file and files without the tables *)
Theorem C113_missing : forall d name,
  (d name = None -> forall mtime pick order, OpenDB mtime pick order d name = Err) /\
  (fTiles (the_file d name) = None ->
     (forall mtime pick order, OpenDB mtime pick order d name = Err) /\ (forall z x y, Read d name z x y = Err) /\ forall z x y data, fst (Store d name z x y data) = false) /\
  (fMeta (the_file d name) = None ->
     (forall L (decj : gstr -> option (option L)) to, Meta decj to d name = Err) /\ forall ev rows, fst (Update ev d name rows) = RetErr) /\
  (forall n z x y data, the_file (snd (Store d name z x y data)) n = the_file d n \/ n = name /\ fTiles (the_file d name) <> None /\ fst (Store d name z x y data) = true) /\
  (forall ev rows, fMeta (the_file d name) = None -> forall n, the_file (snd (Update ev d name rows)) n = the_file d n) /\
  (forall L (decj : gstr -> option (option L)) to rows, fMeta (the_file d name) = Some rows -> fTiles (the_file d name) = None ->
     forall m, Meta decj to d name = Val m <-> set_rows decj md0 (to rows) = Val m /\ mMaxZoom m <> 0).
Proof.
  intros d name. split; [intros E mtime pick order; unfold OpenDB; rewrite E; reflexivity|]. split; [|split; [|split; [|split]]].
  - intros T. split; [|split].
    + intros. unfold OpenDB. unfold the_file in T. destruct (d name); [rewrite T|]; reflexivity.
    + intros. unfold Read. rewrite T. reflexivity.
    + intros. unfold Store. cbv zeta. rewrite T. reflexivity.
  - intros M. split; [intros; unfold Meta; rewrite M; reflexivity|]. intros. unfold Update. cbv zeta. rewrite M. reflexivity.
  - intros n z x y data. destruct (seqb_spec n name) as [->|N].
    + unfold Store. cbv zeta. destruct (fTiles (the_file d name)) as [t|] eqn:T; [|left; apply dset_same]. destruct (StoreTile t z x y data); cbn [fst snd]; [right; split; [reflexivity|split; [discriminate|reflexivity]]|left; apply dset_same|left; apply dset_same].
    + left. unfold the_file. unfold Store. cbv zeta. destruct (fTiles (the_file d name)) as [t|]; [destruct (StoreTile t z x y data)|]; cbn [snd]; rewrite dset_other by exact N; reflexivity.
  - intros ev rows M n. unfold Update. cbv zeta. rewrite M. cbn [snd]. destruct (seqb_spec n name) as [->|N]; [apply dset_same|]. unfold the_file. rewrite dset_other by exact N. reflexivity.
  - intros L decj to rows M T m. unfold Meta. rewrite M, T. destruct (set_rows decj md0 (to rows)) as [m'| |]; cbn [obind]; [|split; [discriminate|intros [K _]; discriminate]..].
    destruct (Z.eqb_spec (mMaxZoom m') 0) as [E|E]; split.
    + discriminate.
    + intros [K N]. injection K as <-. contradiction.
    + intros K. injection K as <-. auto.
    + intros [K _]. exact K.
Qed.
Print Assumptions C113_missing.
(** A store says whether it happened, and opening any file reads format, time and grids off it. *)
Theorem C113_answers : forall d name,
  (forall z x y data, fTiles (the_file d name) <> None -> fst (Store d name z x y data) = true <-> x < 2 ^ 63 /\ y < 2 ^ 63) /\
  (forall mtime pick order h, OpenDB mtime pick order d name = Val h <->
     exists f t, d name = Some f /\ fTiles f = Some t /\ NewDB order (pick t) = Val (TileFormat h) /\ NewDBGrid order (fGrid f) = Val (hGrid h) /\ TimeStamp h = RoundSecond (mtime name)).
Proof.
  intros d name. split.
  - intros z x y data T. unfold Store. cbv zeta. destruct (fTiles (the_file d name)) as [t|]; [|contradiction]. unfold StoreTile, bindable. destruct (Z.ltb_spec x (2 ^ 63)), (Z.ltb_spec y (2 ^ 63)); cbn [andb fst]; split; intros K; try discriminate; try reflexivity; lia.
  - intros mtime pick order h. unfold OpenDB, TileFormat, TimeStamp. destruct (d name) as [f|]; [|split; [discriminate|intros (f & t & K & _); discriminate]].
    destruct (fTiles f) as [t|] eqn:T; [|split; [discriminate|intros (f' & t & K & K2 & _); injection K as <-; congruence]]. split.
    + intros K. destruct (NewDB order (pick t)) as [a| |] eqn:E1; cbn [obind] in K; try discriminate. destruct (NewDBGrid order (fGrid f)) as [b| |] eqn:E2; cbn [obind] in K; try discriminate. injection K as <-. exists f, t. repeat split; auto.
    + intros (f' & t' & K & K2 & K3 & K4 & K5). injection K as <-. rewrite T in K2. injection K2 as <-. rewrite K3, K4. cbn [obind]. destruct h; cbn in *; subst; reflexivity.
Qed.
Print Assumptions C113_answers.
Example C113_nonvacuous :
  let made := CreateDB (fun _ => 1500000000) (fun _ => Done) (fun _ => None) (B "t.mbtiles") PBF (Some (Some [(B "name", B "n"); (B "maxzoom", B "3")])) in
  let cs := [CStore (mkStore 1 0 1 (Some [31; 139; 1])); CUpdate (fun _ => Done) (Some [(B "name", B "m")]); CStore (mkStore 3 4 5 (Some [31; 139; 2])); CStore (mkStore 1 0 1 (Some [31; 139]))] in
  let d' := session (snd made) (B "t.mbtiles") cs in
  fst made = Returns (mkDB PBF 2000000000 None) /\ OpenDB (fun _ => 1500000000) (fun t => hd_error (rev t)) patterns d' (B "t.mbtiles") = Val (mkDB PBF 2000000000 None) /\
  Read d' (B "t.mbtiles") 1 0 1 = Val (Some [31; 139]) /\ fMeta (the_file d' (B "t.mbtiles")) = Some [(B "name", B "m")] /\
  (exists z x y data, holds cs z x y data) /\ fst (CreateDB (fun _ => 0) (fun _ => Done) d' (B "t.mbtiles") PBF None) = Fails_ /\ d' (B "u") = None /\
  fTiles (the_file d' (B "t.mbtiles")) <> None /\ fTiles (the_file d' (B "u")) = None /\ fMeta (the_file d' (B "u")) = None /\
  OpenDB (fun _ => 0) (fun t => hd_error t) patterns (fun _ => Some (mkFile (Some [mkRow 0 0 0 (Some [255; 216; 255])]) true None (mkGrid true (Some (Some [31; 139])) (fun _ _ _ => None) (fun _ _ _ => [])))) (B "g") = Val (mkDB JPG 0 (Some GZIP)).
Proof.
  cbv zeta. split; [vm_compute; reflexivity|]. split; [vm_compute; reflexivity|]. split; [vm_compute; reflexivity|]. split; [vm_compute; reflexivity|]. split; [|split; [vm_compute; reflexivity|split; [vm_compute; reflexivity|split; [vm_compute; discriminate|split; [vm_compute; reflexivity|split; vm_compute; reflexivity]]]]]. exists 3, 4, 5, (Some [31; 139; 2]). unfold holds. split; [lia|]. split; [lia|]. split; [|reflexivity].
  exists (mkStore 3 4 5 (Some [31; 139; 2])). split; [cbn; auto|reflexivity].
Qed.
