(** mvt/clip.go: ClipFeature level by level in binary64; lemmas for C135. *)
From Coq Require Import ZArith Reals Lia Lra Bool List Permutation.
From Flocq Require Import Core BinarySingleNaN.
From Verif Require Import GoBase Num MvtGeom_Model Tileid_Model Tileid_Proofs TileR_Model TileR_Proofs TileF64_Model TileF64_Proofs F64 ColorF64_Proofs Clip_Model Clip_Spec Clip_Proofs Clip_Props
  Tile64_Model Tile64_Proofs Tile64_Props Parity_Proofs ClipTile64_Model ClipTile64_Proofs ClipTile64_Props ClipFeature64_Model.
From Verif Require ClipFeature_Proofs.
Import ListNotations.
Open Scope R_scope.

(** ** Tiles *)
Lemma maps_agree t : on_map t <-> ClipFeature_Proofs.on_map t.
Proof. unfold on_map, ClipFeature_Proofs.on_map. tauto. Qed.
Lemma children_map t c : on_map t -> (tZ t <= 61)%Z -> In c (Children t) -> on_map c /\ tZ c = (tZ t + 1)%Z /\ Parent c = t.
Proof. intros H Hz Hc. apply maps_agree in H. rewrite maps_agree. apply ClipFeature_Proofs.Children_on_map; auto. Qed.
Lemma children_NoDup t : on_map t -> (tZ t <= 61)%Z -> NoDup (Children t).
Proof.
  intros M Hz. destruct t as [x y z]. destruct M as (H1 & H2 & H3). cbn [tX tY tZ] in *. assert (K : (2 ^ z <= 2 ^ 61)%Z) by (apply Z.pow_le_mono_r; lia). change (2 ^ 61)%Z with 2305843009213693952%Z in K.
  rewrite Children_eq by lia. repeat constructor; cbn [In]; intros H; repeat (destruct H as [H|H]; [injection H; lia|]); destruct H.
Qed.

(** ** The map *)
Lemma put64_absent m k g : ~ In k (map fst m) -> put64 m k g = m ++ [(k, g)].
Proof.
  induction m as [|[k' g'] m IH]; cbn [put64 map fst In app]; auto. intros H. destruct (tile_eqb k k') eqn:E; [apply tile_eqb_eq in E; subst; tauto|]. rewrite IH; tauto.
Qed.
Lemma puts64_absent ch : forall m, NoDup (map fst ch) -> (forall k, In k (map fst ch) -> ~ In k (map fst m)) ->
  fold_left (fun m (e : TileID * @cgeom f64) => put64 m (fst e) (snd e)) ch m = m ++ ch.
Proof.
  induction ch as [|[k g] ch IH]; intros m HN HD; cbn [fold_left fst snd]; [rewrite app_nil_r; auto|]. cbn [map fst] in HN. inversion HN as [|? ? N1 N2]; subst.
  rewrite put64_absent by (apply HD; left; auto). rewrite IH; auto.
  - rewrite <- app_assoc. reflexivity.
  - intros k' Hk'. rewrite map_app, in_app_iff. cbn [map fst In]. intros [K|[K|[]]]; [apply (HD k'); [right|]; auto|subst; auto].
Qed.
Lemma In_del64 m k e : In e (del64 m k) <-> In e m /\ fst e <> k.
Proof.
  unfold del64. rewrite filter_In, negb_true_iff. split; intros [H1 H2]; split; auto.
  - intros E. assert (tile_eqb k (fst e) = true) by (apply tile_eqb_eq; auto). congruence.
  - destruct (tile_eqb k (fst e)) eqn:E; auto. apply tile_eqb_eq in E. congruence.
Qed.
Lemma last64_zoom (ch : list (TileID * @cgeom f64)) z : z <> 0%Z -> (forall e, In e ch -> tZ (fst e) = z) -> ch <> [] -> forall l,
  fold_left (fun l (e : TileID * @cgeom f64) => if (tZ (fst e) =? 0)%Z then l else tZ (fst e)) ch l = z.
Proof.
  intros Hz. induction ch as [|e ch IH]; [congruence|]. intros H _ l. cbn [fold_left]. rewrite (H e) by (left; auto). destruct (Z.eqb_spec z 0); [congruence|].
  destruct ch as [|e2 ch]; [reflexivity|]. apply IH; [|discriminate]. intros; apply H; right; auto.
Qed.

(** ** One level *)
(** A polygon with rings, none of them empty, in a tile of the map *)
Definition fits64 (k : TileID) (g : @cgeom f64) : Prop := on_map k /\ exists rings, g = CPolygon rings /\ rings <> [] /\ forall r, In r rings -> r <> [].
Lemma fits64_map k g : fits64 k g -> on_map k.
Proof. intros H. apply H. Qed.
Lemma fits64_make k g : fits64 k g -> makefeature g = Ok g.
Proof. intros (_ & rings & -> & N & R). destruct rings as [|[|p r] rs]; [congruence|destruct (R []); [left|]; auto|]. reflexivity. Qed.
Lemma down_ok lm (G : good_libm lm) eps k g : fits64 k g -> (tZ k <= 43)%Z -> exists ch, ClipDown64 lm eps k g = Ok ch /\ NoDup (map fst ch) /\ forall c gc, In (c, gc) ch -> In c (Children k) /\ fits64 c gc.
Proof.
  intros (M & rings & -> & N & R) Hz. destruct (near_square64 lm eps k (CPolygon rings)) eqn:NS.
  - exists (map (fun c => (c, CPolygon [tile_square64 lm c])) (Children k)). split.
    { unfold ClipDown64. destruct rings as [|[|p r] rs]; [congruence|destruct (R []); [left|]; auto|]. rewrite NS. reflexivity. }
    split; [rewrite map_map, map_id; apply children_NoDup; auto; lia|]. intros c gc H. apply in_map_iff in H. destruct H as (c' & E & Hc). injection E as -> <-. split; auto.
    split; [eapply children_map; eauto; lia|]. eexists. split; [reflexivity|]. split; [discriminate|]. intros r [<-|[]]. discriminate.
  - destruct (down_entries lm eps k rings G M Hz N R NS) as (l & E & A & B & C). exists l. split; auto. split; auto. intros c gc H. pose proof (A c gc H) as Hc. split; auto. split; [eapply children_map; eauto; lia|].
    destruct (C c Hc) as (w & e & s & n & mid & out & _ & _ & _ & N' & I). apply I in H. destruct H as [-> H]. exists out. auto.
Qed.

(** Any kind of geometry that ClipDownTile and makefeature keep *)
Section Run.
Context (lm : libm) (eps : f64) (zb : Z) (Hzb : (zb <= 43)%Z) (fits : TileID -> @cgeom f64 -> Prop) (fits_map : forall k g, fits k g -> on_map k) (fits_make : forall k g, fits k g -> makefeature g = Ok g)
  (fits_down : forall k g, fits k g -> (tZ k <= zb)%Z -> exists ch, ClipDown64 lm eps k g = Ok ch /\ NoDup (map fst ch) /\ forall c gc, In (c, gc) ch -> In c (Children k) /\ fits c gc).
Lemma make64_all (ch : list (TileID * @cgeom f64)) : (forall e, In e ch -> fits (fst e) (snd e)) ->
  map_res (fun e : TileID * @cgeom f64 => let! g := makefeature (snd e) in Ok (fst e, g)) ch = Ok ch.
Proof.
  induction ch as [|[k g] ch IH]; intros H; cbn [map_res fst snd]; auto. rewrite (fits_make k g) by apply (H (k, g) (or_introl eq_refl)).
  cbn [bind]. rewrite IH by (intros; apply H; right; auto). reflexivity.
Qed.
Lemma visit64_spec keep cz : (0 <= cz <= zb)%Z -> forall todo m last,
  (forall k gk, In (k, gk) todo -> 0 <= tZ k <= 62)%Z ->
  (forall k gk, In (k, gk) todo -> tZ k = cz -> fits k gk) ->
  NoDup (map fst todo) -> NoDup (map fst m) ->
  (forall k gk c, In (k, gk) todo -> tZ k = cz -> In c (Children k) -> ~ In c (map fst m)) ->
  exists m' last', visit64 lm eps keep cz todo m last = Ok (m', last') /\ NoDup (map fst m') /\
    (forall e, In e m' <-> (In e m /\ (keep = true \/ ~ (In (fst e) (map fst todo) /\ tZ (fst e) = cz))) \/
       exists k gk ch, In (k, gk) todo /\ tZ k = cz /\ ClipDown64 lm eps k gk = Ok ch /\ In e ch) /\
    ((last' = last /\ forall k gk ch, In (k, gk) todo -> tZ k = cz -> ClipDown64 lm eps k gk = Ok ch -> ch = []) \/
     (last' = (cz + 1)%Z /\ exists k gk ch e, In (k, gk) todo /\ tZ k = cz /\ ClipDown64 lm eps k gk = Ok ch /\ In e ch)).
Proof.
  intros Hcz todo. induction todo as [|[k gk] todo IH]; intros m last HZ HF HN1 HN2 HD.
  { exists m, last. cbn [visit64]. split; auto. split; auto. split; [|left; split; [auto|intros k gk ch []]].
    intros e. cbn [map In]. split; [intros H; left; tauto|intros [H|(k & gk & ch & [] & _)]; tauto]. }
  cbn [visit64]. cbn [map fst] in HN1. inversion HN1 as [|? ? Nk N1]; subst.
  assert (Hk := HZ k gk (or_introl eq_refl)). assert (K63 : (62 < 2 ^ 63)%Z) by reflexivity. rewrite wrap64_id by (unfold in_i64; lia).
  assert (HZ' : forall k gk, In (k, gk) todo -> (0 <= tZ k <= 62)%Z) by (intros; eapply HZ; right; eauto).
  assert (HF' : forall k gk, In (k, gk) todo -> tZ k = cz -> fits k gk) by (intros; apply HF; [right|]; auto).
  destruct (Z.eqb_spec (tZ k) cz) as [Ek|Ek].
  - assert (Fk := HF k gk (or_introl eq_refl) Ek). destruct (fits_down k gk Fk ltac:(lia)) as (ch & E & Nch & HC). rewrite E. cbn [bind].
    rewrite make64_all by (intros [c gc] Hc; eapply HC; exact Hc). cbn [bind].
    assert (Cc : forall c, In c (map fst ch) -> In c (Children k)).
    { intros c Hc. apply in_map_iff in Hc. destruct Hc as ([c' gc] & <- & Hc). apply (HC c' gc Hc). }
    assert (Cz : forall c, In c (Children k) -> tZ c = (cz + 1)%Z /\ Parent c = k).
    { intros c Hc. destruct (children_map k c (fits_map _ _ Fk) ltac:(lia) Hc) as (_ & Z1 & P1). split; auto. lia. }
    assert (HD' : forall c, In c (map fst ch) -> ~ In c (map fst m)) by (intros c Hc; apply (HD k gk c (or_introl eq_refl) Ek); auto).
    rewrite (puts64_absent ch m Nch HD').
    assert (Hzz : forall e, In e ch -> tZ (fst e) = (cz + 1)%Z) by (intros e He; apply Cz, Cc, in_map; auto).
    assert (HL : fold_left (fun l (e : TileID * @cgeom f64) => if (tZ (fst e) =? 0)%Z then l else tZ (fst e)) ch last = if match ch with [] => true | _ => false end then last else (cz + 1)%Z).
    { destruct ch as [|e0 ch0]; [reflexivity|]. apply last64_zoom; auto; [lia|discriminate]. }
    rewrite HL. set (last1 := if match ch with [] => true | _ => false end then last else (cz + 1)%Z).
    set (m2 := if keep then m ++ ch else del64 (m ++ ch) k).
    assert (I2 : forall e, In e m2 <-> (In e m /\ (keep = true \/ fst e <> k)) \/ In e ch).
    { intros e. unfold m2. assert (In e ch -> fst e <> k) by (intros He Ee; destruct (Cz (fst e)) as [Z1 _]; [apply Cc, in_map; auto|]; rewrite Ee in Z1; lia).
      destruct keep; [rewrite in_app_iff; tauto|]. rewrite In_del64, in_app_iff. assert (false <> true) by discriminate. tauto. }
    assert (N2 : NoDup (map fst m2)).
    { assert (NoDup (map fst (m ++ ch))).
      { rewrite map_app. apply ClipFeature_Proofs.NoDup_join; auto. intros c Hc1 Hc2. apply (HD' c); auto. }
      unfold m2. destruct keep; auto. apply ClipFeature_Proofs.filter_fst_NoDup. auto. }
    destruct (IH m2 last1 HZ' HF' N1 N2) as (m' & last' & Ev & Nm & Im & L).
    { intros k' gk' c Hin Ez Hc Hm. apply in_map_iff in Hm. destruct Hm as (e & <- & He). apply I2 in He. destruct He as [[He _]|He].
      - apply (HD k' gk' (fst e)); [right| | |apply in_map]; auto.
      - assert (F' := HF' k' gk' Hin Ez). destruct (children_map k' (fst e) (fits_map _ _ F') ltac:(lia) Hc) as (_ & _ & P').
        destruct (Cz (fst e)) as [_ P]; [apply Cc, in_map; auto|]. apply Nk. apply in_map_iff. exists (k', gk'). split; auto. cbn [fst]. congruence. }
    exists m', last'. split; auto. split; auto. split.
    + intros e. rewrite Im, I2. clear Im I2 Ev L. cbn [map fst In]. split.
      * intros [[[[H1 H2]|H1] H3]|(k' & gk' & ch' & H1 & H2)].
        -- left. split; auto. destruct H2 as [H2|H2]; auto. destruct H3 as [H3|H3]; auto. right. intros [[K|K] Kz]; [congruence|tauto].
        -- right. exists k, gk, ch. auto.
        -- right. exists k', gk', ch'. tauto.
      * intros [[H1 H2]|(k' & gk' & ch' & [H1|H1] & H2 & H3 & H4)].
        -- left. split; [left; split; auto|].
           ++ destruct H2 as [H2|H2]; auto. right. intros K. apply H2. split; [left; auto|]. congruence.
           ++ destruct H2 as [H2|H2]; auto. right. intros [K1 K2]. apply H2. auto.
        -- injection H1 as <- <-. rewrite E in H3. injection H3 as <-. left. split; [auto|]. right. intros [_ K]. destruct (Cz (fst e)) as [Z1 _]; [apply Cc, in_map; auto|]. lia.
        -- right. exists k', gk', ch'. auto.
    + destruct L as [[-> L]|[-> (k' & gk' & ch' & e & H1 & H2)]]; [|right; split; auto; exists k', gk', ch', e; split; [right|]; auto].
      unfold last1. destruct ch as [|e0 ch0].
      * left. split; auto. intros k' gk' ch' [H1|H1] H2 H3; [injection H1 as <- <-; congruence|eauto].
      * right. split; auto. exists k, gk, (e0 :: ch0), e0. split; [left; auto|]. split; auto. split; auto. left. auto.
  - destruct (IH m last HZ' HF' N1 HN2) as (m' & last' & Ev & Nm & Im & L); [intros; apply (HD k0 gk0); [right| |]; auto|].
    exists m', last'. split; auto. split; auto. split.
    + intros e. rewrite Im. clear Im. cbn [map fst In]. split.
      * intros [[H1 H2]|(k' & gk' & ch' & H1 & H2)].
        -- left. split; auto. destruct H2 as [H2|H2]; auto. right. intros [[K|K] Kz]; [congruence|tauto].
        -- right. exists k', gk', ch'. tauto.
      * intros [[H1 H2]|(k' & gk' & ch' & [H1|H1] & H2 & H3)].
        -- left. split; auto. destruct H2 as [H2|H2]; auto. right. intros [K1 K2]. apply H2. auto.
        -- congruence.
        -- right. exists k', gk', ch'. tauto.
    + destruct L as [[-> L]|[-> (k' & gk' & ch' & e & H1 & H2)]]; [|right; split; auto; exists k', gk', ch', e; split; [right|]; auto].
      left. split; auto. intros k' gk' ch' [H1|H1] H2 H3; [congruence|eauto].
Qed.

(** ** The entries reached from a tile *)
(** [reach64 t g n c gc]: after n steps of ClipDownTile from the geometry g in the tile t, the tile c holds gc *)
Inductive reach64 (t : TileID) (g : @cgeom f64) : nat -> TileID -> @cgeom f64 -> Prop :=
| R6_here : reach64 t g 0 t g
| R6_down n k gk ch c gc : reach64 t g n k gk -> ClipDown64 lm eps k gk = Ok ch -> In (c, gc) ch -> reach64 t g (S n) c gc.

Section Reach.
Context (t : TileID) (g : @cgeom f64) (Hf : fits t g).
Lemma reach64_keeps n c gc : reach64 t g n c gc -> (tZ t + Z.of_nat n <= zb + 1)%Z -> fits c gc /\ (tZ c = tZ t + Z.of_nat n)%Z.
Proof.
  intros H. induction H as [|n k gk ch c gc H IH E Hc]; intros Hz; [split; auto; lia|].
  destruct (IH ltac:(lia)) as [Fk Hl]. destruct (fits_down k gk Fk ltac:(lia)) as (ch' & E' & _ & HF). rewrite E in E'. injection E' as <-.
  destruct (HF c gc Hc) as [Hi Fc]. split; auto. destruct (children_map k c (fits_map _ _ Fk) ltac:(lia) Hi) as (_ & -> & _). lia.
Qed.
Lemma reach64_same n : forall c g1 g2, (tZ t + Z.of_nat n <= zb + 1)%Z -> reach64 t g n c g1 -> reach64 t g n c g2 -> g1 = g2.
Proof.
  induction n as [|n IH]; intros c g1 g2 Hz H1 H2.
  - inversion H1; inversion H2; congruence.
  - inversion H1 as [|n1 k1 gk1 ch1 c1 gc1 R1 E1 I1]; subst. inversion H2 as [|n2 k2 gk2 ch2 c2 gc2 R2 E2 I2]; subst.
    destruct (reach64_keeps n k1 gk1 R1 ltac:(lia)) as [F1 L1]. destruct (reach64_keeps n k2 gk2 R2 ltac:(lia)) as [F2 L2].
    destruct (fits_down k1 gk1 F1 ltac:(lia)) as (x1 & X1 & N1 & Q1). rewrite E1 in X1. injection X1 as <-.
    destruct (fits_down k2 gk2 F2 ltac:(lia)) as (x2 & X2 & N2 & Q2). rewrite E2 in X2. injection X2 as <-.
    destruct (children_map k1 c (fits_map _ _ F1) ltac:(lia) (proj1 (Q1 _ _ I1))) as (_ & _ & P1).
    destruct (children_map k2 c (fits_map _ _ F2) ltac:(lia) (proj1 (Q2 _ _ I2))) as (_ & _ & P2).
    subst k1 k2. assert (gk1 = gk2) by (apply (IH (Parent c)); auto; lia). subst gk2. rewrite E1 in E2. injection E2 as <-. eapply ClipFeature_Proofs.NoDup_key; eauto.
Qed.
Lemma reach64_up n : (exists c gc, reach64 t g (S n) c gc) -> exists c gc, reach64 t g n c gc.
Proof. intros (c & gc & H). inversion H; subst. eauto. Qed.
End Reach.

Section Levels.
Context (order : list (TileID * @cgeom f64) -> list (TileID * @cgeom f64)) (Hord : forall m, Permutation (order m) m).
Context (t : TileID) (g : @cgeom f64) (Hf : fits t g) (keep : bool).
Definition holds64 (n : nat) (m : list (TileID * @cgeom f64)) : Prop :=
  NoDup (map fst m) /\ forall c gc, In (c, gc) m <-> if keep then exists j, (j <= n)%nat /\ reach64 t g j c gc else reach64 t g n c gc.
Lemma level64 n m : (tZ t + Z.of_nat n <= zb)%Z -> holds64 n m ->
  exists m' last, visit64 lm eps keep (tZ t + Z.of_nat n) (order m) m 0 = Ok (m', last) /\ holds64 (S n) m' /\
    ((last = 0%Z /\ forall c gc, ~ reach64 t g (S n) c gc) \/ (last = (tZ t + Z.of_nat (S n))%Z /\ exists c gc, reach64 t g (S n) c gc)).
Proof.
  intros Hz [HN HI]. assert (H0 : (0 <= tZ t)%Z) by apply (fits_map _ _ Hf).
  assert (Hm : forall k gk, In (k, gk) m -> exists j, (j <= n)%nat /\ reach64 t g j k gk).
  { intros k gk H. apply HI in H. destruct keep; auto. exists n. auto. }
  assert (Hm' : forall k gk, reach64 t g n k gk -> In (k, gk) m) by (intros k gk H; apply HI; destruct keep; eauto).
  assert (Hn : forall k gk, In (k, gk) m -> tZ k = (tZ t + Z.of_nat n)%Z -> reach64 t g n k gk).
  { intros k gk H Hk. destruct (Hm k gk H) as (j & Hj & R). destruct (reach64_keeps t g Hf j k gk R ltac:(lia)) as [_ L]. assert (j = n) by lia. subst. auto. }
  assert (Ho : forall e, In e (order m) <-> In e m) by (intros e; split; apply Permutation_in; [|apply Permutation_sym]; auto).
  assert (Hk : forall k, In k (map fst (order m)) <-> In k (map fst m)) by (intros k; split; apply Permutation_in, Permutation_map; [|apply Permutation_sym]; auto).
  destruct (visit64_spec keep (tZ t + Z.of_nat n) ltac:(lia) (order m) m 0) as (m' & last' & E & N' & I' & L1).
  - intros k gk H. apply Ho, Hm in H. destruct H as (j & Hj & R). destruct (reach64_keeps t g Hf j k gk R ltac:(lia)) as [_ L]. lia.
  - intros k gk H Hk'. apply Ho in H. apply (reach64_keeps t g Hf n k gk); auto. lia.
  - apply (Permutation_NoDup (l := map fst m)); auto. apply Permutation_map, Permutation_sym. auto.
  - auto.
  - intros k gk c H Hk' Hc Hm2. apply Ho in H. destruct (reach64_keeps t g Hf n k gk (Hn k gk H Hk') ltac:(lia)) as [Fk0 _]. pose proof (fits_map _ _ Fk0) as Fk. destruct (children_map k c Fk ltac:(lia) Hc) as (_ & Z1 & _).
    apply in_map_iff in Hm2. destruct Hm2 as ([c' gc] & <- & Hm2). cbn [fst] in *. destruct (Hm c' gc Hm2) as (j & Hj & R). destruct (reach64_keeps t g Hf j c' gc R ltac:(lia)) as [_ L]. lia.
  - exists m', last'. split; auto.
    assert (A : forall c gc, (exists k gk ch, In (k, gk) (order m) /\ tZ k = (tZ t + Z.of_nat n)%Z /\ ClipDown64 lm eps k gk = Ok ch /\ In (c, gc) ch) <-> reach64 t g (S n) c gc).
    { intros c gc. split.
      - intros (k & gk & ch & H1 & H2 & H3 & H4). apply Ho in H1. econstructor; eauto.
      - intros H. inversion H as [|n1 k gk ch c1 gc1 R1 E1 I1]; subst. exists k, gk, ch. split; [apply Ho; auto|]. split; auto. apply (reach64_keeps t g Hf n k gk); auto. lia. }
    split.
    + split; auto. intros c gc. rewrite I'. cbn [fst]. clear E N' I' L1. rewrite A. clear A. destruct keep.
      * split.
        -- intros [[H _]|H]; [|exists (S n); auto]. destruct (Hm c gc H) as (j & Hj & R). exists j. auto.
        -- intros (j & Hj & R). destruct (Nat.eq_dec j (S n)) as [->|]; auto. left. split; auto. apply HI. exists j. split; auto. lia.
      * split; [|auto]. intros [[H [K|K]]|H]; [discriminate| |auto]. exfalso. apply K. rewrite Hk. split; [apply (in_map fst) in H; exact H|].
        apply HI in H. apply (reach64_keeps t g Hf n c gc); auto. lia.
    + destruct L1 as [[-> L]|[-> (k & gk & ch & [c gc] & H1 & H2 & H3 & H4)]].
      * left. split; auto. intros c gc R. apply A in R. destruct R as (k & gk & ch & H1 & H2 & H3 & H4). rewrite (L k gk ch H1 H2 H3) in H4. destruct H4.
      * right. split; [lia|]. exists c, gc. apply A. exists k, gk, ch. auto.
Qed.
Lemma holds64_start : holds64 0 [(t, g)].
Proof using lm eps t g keep.
  clear fits_down fits_make fits_map Hf fits Hzb zb.
  split; [repeat constructor; intros []|]. intros c gc. cbn [In]. assert (A : reach64 t g 0 c gc <-> (t, g) = (c, gc)).
  { split; [intros H; inversion H; congruence|intros E; injection E as <- <-; constructor]. }
  destruct keep; [split|rewrite A; tauto].
  - intros [E|[]]. exists 0%nat. split; auto. apply A. auto.
  - intros (j & Hj & R). assert (j = 0)%nat by lia. subst. left. apply A. auto.
Qed.
End Levels.
(** Once every entry is gone the loop over the levels never ends. *)
Lemma levels64_empty order : (forall m, Permutation (order m) m) -> forall fuel endzoom, (0 < endzoom)%Z -> levels64 lm eps order fuel false 0 endzoom [] = NoFuel.
Proof.
  intros Hord fuel endzoom He. induction fuel as [|fuel IH]; cbn [levels64]; destruct (Z.leb_spec endzoom 0); try lia; auto.
  rewrite (Permutation_nil (Permutation_sym (Hord []))). cbn [visit64 bind fst snd]. exact IH.
Qed.
(** Either the levels end with the entries reached, or no fuel is enough. *)
Lemma levels64_any order (Hord : forall m, Permutation (order m) m) t g (Hf : fits t g) d : forall n m, (tZ t + Z.of_nat (n + d) <= zb + 1)%Z -> holds64 t g false n m -> (exists c gc, reach64 t g n c gc) ->
  (exists m', (forall fuel, (d <= fuel)%nat -> levels64 lm eps order fuel false (tZ t + Z.of_nat n) (tZ t + Z.of_nat (n + d)) m = Ok m') /\ holds64 t g false (n + d) m' /\ exists c gc, reach64 t g (n + d) c gc) \/
  ((forall fuel, levels64 lm eps order fuel false (tZ t + Z.of_nat n) (tZ t + Z.of_nat (n + d)) m = NoFuel) /\ forall c gc, ~ reach64 t g (n + d) c gc).
Proof.
  assert (H0 : (0 <= tZ t)%Z) by apply (fits_map _ _ Hf). assert (K63 : (62 < 2 ^ 63)%Z) by reflexivity.
  induction d as [|d IH]; intros n m Hz Hm HR.
  - left. rewrite Nat.add_0_r. exists m. split; auto. intros fuel _. destruct fuel; cbn [levels64]; rewrite Z.leb_refl; reflexivity.
  - replace (n + S d)%nat with (S n + d)%nat in * by lia. destruct (level64 order Hord t g Hf false n m ltac:(lia) Hm) as (m1 & last & E1 & Hm1 & L).
    assert (C : forall fuel, levels64 lm eps order (S fuel) false (tZ t + Z.of_nat n) (tZ t + Z.of_nat (S n + d)) m = levels64 lm eps order fuel false (wrap64 last) (tZ t + Z.of_nat (S n + d)) m1).
    { intros fuel. cbn [levels64]. destruct (Z.leb_spec (tZ t + Z.of_nat (S n + d)) (tZ t + Z.of_nat n)); [lia|]. rewrite E1. reflexivity. }
    assert (C0 : levels64 lm eps order 0 false (tZ t + Z.of_nat n) (tZ t + Z.of_nat (S n + d)) m = NoFuel) by (cbn [levels64]; destruct (Z.leb_spec (tZ t + Z.of_nat (S n + d)) (tZ t + Z.of_nat n)); [lia|reflexivity]).
    destruct L as [[-> L]|[-> R1]].
    + right. split.
      * assert (m1 = []) as ->. { destruct m1 as [|[c gc] m1]; auto. exfalso. apply (L c gc). apply Hm1. left. auto. }
        intros [|fuel]; auto. rewrite C. apply levels64_empty; auto. lia.
      * assert (P : forall e c gc, ~ reach64 t g (S n + e) c gc); [|auto]. induction e as [|e IHe]; intros c gc R; [rewrite Nat.add_0_r in R; eapply L; eauto|].
        rewrite Nat.add_succ_r in R. destruct (reach64_up t g (S n + e)) as (c' & gc' & R'); [eauto|]. eapply IHe; eauto.
    + rewrite wrap64_id in C by (unfold in_i64; lia). destruct (IH (S n) m1 Hz Hm1 R1) as [(m' & E & H & R)|[E H]].
      * left. exists m'. split; [|auto]. intros [|fuel] Hfu; [lia|]. rewrite C. apply E. lia.
      * right. split; auto. intros [|fuel]; auto. rewrite C. apply E.
Qed.
End Run.

(** ** Polygons *)
Definition reach64_fits lm (G : good_libm lm) eps := reach64_keeps lm eps 43 (Z.le_refl 43) fits64 fits64_map fits64_make (down_ok lm G eps).
Definition reach64_fun lm (G : good_libm lm) eps := reach64_same lm eps 43 (Z.le_refl 43) fits64 fits64_map fits64_make (down_ok lm G eps).
Definition levels64_cases lm (G : good_libm lm) eps := levels64_any lm eps 43 (Z.le_refl 43) fits64 fits64_map fits64_make (down_ok lm G eps).
