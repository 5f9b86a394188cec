(** C144: ClipFeature in binary64 for every kind of geometry: what it returns, keeping the levels, and zooming out. *)
From Coq Require Import ZArith Reals Lia Lra Bool List Permutation.
From Flocq Require Import Core BinarySingleNaN.
From Verif Require Import GoBase Num MvtGeom_Model Tileid_Model Tileid_Proofs TileR_Model TileR_Proofs TileF64_Model TileF64_Proofs F64 ColorF64_Proofs Clip_Model Clip_Spec Clip_Proofs Clip_Props
  Tile64_Model Tile64_Proofs Tile64_Props Clip64_Proofs Clip64_Props Parity_Proofs ClipTile64_Model ClipTile64_Proofs ClipTile64_Props ClipFeature64_Model ClipFeature64_Proofs ClipFeature64_Props ClipLine64_Proofs ClipLine64_Props.
From Verif Require ClipFeature_Proofs ClipFeature_Props.
Import ListNotations.
Open Scope R_scope.

(** ** Specification *)
(** Every line and every ring has a point, and a polygon has a ring. *)
Definition filled {A} (ls : list (list A)) : Prop := forall l, In l ls -> l <> [].
Definition drawable (g : @cgeom f64) : Prop :=
  match g with
  | CLine l => l <> []
  | CMultiLine _ | CNone => True
  | CPolygon rs => rs <> [] /\ filled rs
  | CMultiPolygon ps => forall rs, In rs ps -> filled rs
  end.
(** The tile n zooms above *)
Definition above (t : TileID) (n : Z) : TileID := mkTile (tX t / 2 ^ n) (tY t / 2 ^ n) (tZ t - n).

(** ** Clipping is total *)
Definition whole (g : @cgeom f64) : Prop := g = CPolygon [] \/ drawable g.
Lemma lint_filled eps rs mid : LintPolygon F64Num eps rs = Ok mid -> filled mid.
Proof.
  revert mid. unfold LintPolygon. induction rs as [|r rs IH]; intros mid E; cbn [map_res] in E; [injection E as <-; intros l []|].
  destruct (LintRing F64Num eps r) as [r'| |] eqn:L; try discriminate. cbn [bind] in E. destruct (map_res (LintRing F64Num eps) rs) as [o| |]; try discriminate. cbn [bind] in E. injection E as <-.
  intros l [<-|H]; [|eapply IH; eauto]. unfold LintRing in L. destruct r as [|f r]; [discriminate|]. destruct (DeltaFirstLast _ _ _ _); injection L as <-; [discriminate|]. intros K. apply app_eq_nil in K. destruct K. discriminate.
Qed.
Lemma polys_total eps ps k1 k2 axis : (forall rs, In rs ps -> filled rs) -> exists mid out, LintMultiPolygon F64Num eps ps = Ok mid /\ clipMultiPolygon F64Num mid k1 k2 axis true = Ok out /\ forall rs, In rs out -> rs <> [] /\ filled rs.
Proof.
  induction ps as [|p ps IH]; intros H; [exists [], []; split; [reflexivity|]; split; [reflexivity|intros rs []]|].
  destruct IH as (mid & out & E1 & E2 & E3); [intros; apply H; right; auto|]. destruct (clip_any F64Num eps p k1 k2 axis (H p (or_introl eq_refl))) as (o & E & HO).
  unfold clip in E. destruct (LintPolygon F64Num eps p) as [pm| |] eqn:L; try discriminate. cbn [bind] in E. destruct (clipLines F64Num pm k1 k2 axis true) as [o'| |] eqn:C; try discriminate. cbn [bind] in E. injection E as ->.
  exists (pm :: mid), (match o with [] => out | _ => o :: out end). unfold LintMultiPolygon in *. cbn [map_res]. rewrite L. cbn [bind]. rewrite E1. split; [reflexivity|]. cbn [clipMultiPolygon]. rewrite C. cbn [bind]. rewrite E2. split; [reflexivity|].
  destruct o as [|r o]; auto. intros rs [<-|K]; auto. split; [discriminate|exact HO].
Qed.
Lemma line_total (l : list (f64 * f64)) k1 k2 axis : l <> [] -> exists ps, clipLine F64Num l k1 k2 axis false = Ok ps.
Proof. intros H. destruct l as [|p r]; [congruence|]. unfold clipLine. destruct (clip_loop _ _ _ _ _ _ _ _ _) as [[d c] z]. eexists. reflexivity. Qed.
Lemma clip_total eps g k1 k2 axis : whole g -> exists g', clip F64Num eps g k1 k2 axis = Ok g' /\ whole g'.
Proof.
  intros [->|H]; [exists (CPolygon []); split; [reflexivity|left; auto]|]. destruct g as [l|ls|rs|ps|]; cbn [drawable] in H.
  - destruct (line_total l k1 k2 axis H) as (o & E). unfold clip. rewrite E. cbn [bind]. eexists. split; [reflexivity|]. right. pose proof (pieces_filled F64Num l k1 k2 axis o E) as NE.
    destruct o as [|x [|y o]]; cbn [drawable]; auto. apply NE. left. auto.
  - exists CNone. split; [reflexivity|right; exact I].
  - destruct H as [_ H]. destruct (clip_any F64Num eps rs k1 k2 axis H) as (o & E & HO). exists (CPolygon o). split; auto. destruct o as [|r o]; [left; auto|]. right. split; [discriminate|exact HO].
  - destruct (polys_total eps ps k1 k2 axis H) as (mid & out & E1 & E2 & E3). unfold clip. rewrite E1. cbn [bind]. rewrite E2. cbn [bind]. eexists. split; [reflexivity|]. right.
    destruct out as [|m [|m2 out]]; cbn [drawable].
    + intros rs [].
    + apply E3. left. auto.
    + intros rs K. apply E3. auto.
  - exists CNone. split; [reflexivity|right; exact I].
Qed.

(** ** One level *)
Definition fits_any (k : TileID) (g : @cgeom f64) : Prop := on_map k /\ drawable g.
Lemma fits_any_map k g : fits_any k g -> on_map k.
Proof. intros H. apply H. Qed.
Lemma fits_any_make k g : fits_any k g -> makefeature g = Ok g.
Proof. intros [_ H]. destruct g as [l|ls|rs|ps|]; try reflexivity. destruct H as [H1 H2]. destruct rs as [|[|p r] rs]; [congruence|destruct (H2 []); [left|]; auto|]. reflexivity. Qed.
Lemma fits_any_down m (G : good_libm m) eps k g : fits_any k g -> (tZ k <= 43)%Z ->
  exists ch, ClipDown64 m eps k g = Ok ch /\ NoDup (map fst ch) /\ forall c gc, In (c, gc) ch -> In c (Children k) /\ fits_any c gc.
Proof.
  intros [M H] Hz.
  assert (X : match g with CPolygon _ => False | _ => True end -> exists ch, ClipDown64 m eps k g = Ok ch /\ NoDup (map fst ch) /\ forall c gc, In (c, gc) ch -> In c (Children k) /\ fits_any c gc).
  { intros HP. destruct (down_any m eps k g G M Hz HP) as (ch & E & A & ND & C).
    { intros c w e s n _ _. destruct (clip_total eps g w e false (or_intror H)) as (g1 & E1 & W1). destruct (clip_total eps g1 s n true W1) as (g2 & E2 & W2). eauto. }
    exists ch. split; auto. split; auto. intros c gc HI. pose proof (A c gc HI) as Hc. split; auto. split; [eapply children_map; eauto; lia|].
    destruct (C c Hc) as (w & e & s & n & g1 & g2 & _ & E1 & E2 & J). apply J in HI. destruct HI as [-> HE]. destruct (clip_total eps g w e false (or_intror H)) as (g1' & E1' & W1). rewrite E1 in E1'. injection E1' as <-.
    destruct (clip_total eps g1 s n true W1) as (g2' & E2' & W2). rewrite E2 in E2'. injection E2' as <-. destruct W2 as [->|W2]; [discriminate HE|exact W2]. }
  destruct g as [l|ls|rs|ps|]; try (apply X; exact I). clear X. destruct H as [H1 H2].
  destruct (down_ok m G eps k (CPolygon rs)) as (ch & E & ND & HF); [split; [auto|]; exists rs; auto|auto|]. exists ch. split; auto. split; auto. intros c gc HI. destruct (HF c gc HI) as [A (B & rings & -> & C & D)]. split; auto. split; auto. split; auto.
Qed.

Section Any.
Context (m : libm) (G : good_libm m) (eps : f64) (order : list (TileID * @cgeom f64) -> list (TileID * @cgeom f64)) (Hord : forall mp, Permutation (order mp) mp).
Context (t : TileID) (g : @cgeom f64) (Hf : fits_any t g).
Lemma reach_down n d : (exists c gc, reach64 m eps t g (n + d) c gc) -> exists c gc, reach64 m eps t g n c gc.
Proof. induction d as [|d IH]; [rewrite Nat.add_0_r; auto|]. rewrite Nat.add_succ_r. intros H. apply IH, reach64_up, H. Qed.
Lemma levels_keep d : forall n mp, (tZ t + Z.of_nat (n + d) <= 44)%Z -> holds64 m eps t g true n mp -> (exists c gc, reach64 m eps t g (n + d) c gc) ->
  exists mp', (forall fuel, (d <= fuel)%nat -> levels64 m eps order fuel true (tZ t + Z.of_nat n) (tZ t + Z.of_nat (n + d)) mp = Ok mp') /\ holds64 m eps t g true (n + d) mp'.
Proof.
  assert (H0 : (0 <= tZ t)%Z) by apply Hf. assert (K63 : (62 < 2 ^ 63)%Z) by reflexivity.
  induction d as [|d IH]; intros n mp Hz Hm HR.
  - rewrite Nat.add_0_r in *. exists mp. split; auto. intros fuel _. destruct fuel; cbn [levels64]; rewrite Z.leb_refl; reflexivity.
  - replace (n + S d)%nat with (S n + d)%nat in * by lia. destruct (level64 m eps 43 (Z.le_refl 43) fits_any fits_any_map fits_any_make (fits_any_down m G eps) order Hord t g Hf true n mp ltac:(lia) Hm) as (m1 & last & E1 & Hm1 & L).
    destruct L as [[_ L]|[-> _]]; [exfalso; destruct (reach_down (S n) d HR) as (c & gc & R); eapply L; eauto|].
    destruct (IH (S n) m1 Hz Hm1 HR) as (mp' & E & H). exists mp'. split; auto. intros [|fuel] Hfu; [lia|]. cbn [levels64]. destruct (Z.leb_spec (tZ t + Z.of_nat (S n + d)) (tZ t + Z.of_nat n)); [lia|].
    rewrite E1. cbn [bind fst snd]. rewrite wrap64_id by (unfold in_i64; lia). apply E. lia.
Qed.
End Any.
Lemma feature_levels m eps order fuel bb g endzoom keep z t : GetFirstZoom64 m bb = (z, t) -> (z < endzoom)%Z -> tZ t = z ->
  ClipFeature64 m eps order fuel bb g endzoom keep = levels64 m eps order fuel keep (tZ t + Z.of_nat 0) (tZ t + Z.of_nat (0 + Z.to_nat (endzoom - z))) [(t, g)].
Proof. intros EZ He HT. unfold ClipFeature64. rewrite EZ. destruct (Z.leb_spec endzoom z); [lia|]. f_equal; cbn [Nat.add]; lia. Qed.
Lemma any_below m eps t g : good_libm m -> fits_any t g -> forall n c gc, (tZ t + Z.of_nat n <= 44)%Z -> reach64 m eps t g n c gc -> below t (Z.of_nat n) c.
Proof.
  intros G Hf. assert (Z0 : (0 <= tZ t)%Z) by apply Hf. assert (K63 : (62 < 2 ^ 63)%Z) by reflexivity. induction n as [|n IH]; intros c gc Hz R.
  - inversion R; subst. unfold below. change (2 ^ Z.of_nat 0)%Z with 1%Z. rewrite !Z.div_1_r. lia.
  - inversion R as [|n1 k gk ch c1 gc1 R1 E1 I1]; subst. destruct (IH k gk ltac:(lia) R1) as (B1 & B2 & B3). destruct (reach64_keeps m eps 43 (Z.le_refl 43) fits_any fits_any_map fits_any_make (fits_any_down m G eps) t g Hf n k gk R1 ltac:(lia)) as [Fk Zk].
    destruct (fits_any_down m G eps k gk Fk ltac:(lia)) as (ch' & E' & _ & HF). rewrite E1 in E'. injection E' as <-. destruct (children_map k c (proj1 Fk) ltac:(lia) (proj1 (HF c gc I1))) as (OC & ZC & PC).
    rewrite Parent_eq in PC by lia. unfold below. rewrite Nat2Z.inj_succ, Z.pow_succ_r by lia. rewrite <- PC in B1, B2, B3. cbn [tX tY tZ] in *. rewrite <- !Z.div_div by (try apply Z.pow_pos_nonneg; lia). split; [lia|auto].
Qed.

(** ** Theorems *)
(** ClipFeature does not panic: it returns entries in tiles of the zoom asked for under the first tile, or it never returns. *)
Theorem C144_total : forall m eps order bb g endzoom z t, good_libm m -> (forall mp, Permutation (order mp) mp) -> in_world64 bb -> drawable g -> GetFirstZoom64 m bb = (z, t) -> (z < endzoom <= 30)%Z ->
  (exists mp, (forall fuel, (endzoom - z <= Z.of_nat fuel)%Z -> ClipFeature64 m eps order fuel bb g endzoom false = Ok mp) /\ mp <> [] /\ NoDup (map fst mp) /\
     forall c gc, In (c, gc) mp -> on_map c /\ below t (endzoom - z) c /\ drawable gc) \/
  (forall fuel, ClipFeature64 m eps order fuel bb g endzoom false = NoFuel).
Proof.
  intros m eps order bb g endzoom z t G Hord HW Hg EZ He. destruct (C135_first_zoom m bb z t G HW EZ) as [(-> & _)|(Hz & Zt & Ot & _)]; [lia|]. assert (Hf : fits_any t g) by (split; auto).
  pose proof (fun fuel => feature_levels m eps order fuel bb g endzoom false z t EZ ltac:(lia) Zt) as CF. set (d := Z.to_nat (endzoom - z)) in *. assert (Ed : Z.of_nat d = (endzoom - z)%Z) by (unfold d; lia).
  destruct (levels64_any m eps 43 (Z.le_refl 43) fits_any fits_any_map fits_any_make (fits_any_down m G eps) order Hord t g Hf d 0 [(t, g)] ltac:(lia) (holds64_start m eps t g false)) as [(mp & E & (N & I) & Hex)|[E NR]].
  - exists t, g. constructor.
  - left. exists mp. split; [intros fuel Hfu; rewrite CF; apply E; lia|]. cbn [Nat.add] in *. split; [intros ->; destruct Hex as (c & gc & R); apply I in R; destruct R|]. split; auto.
    intros c gc H. apply I in H. destruct (reach64_keeps m eps 43 (Z.le_refl 43) fits_any fits_any_map fits_any_make (fits_any_down m G eps) t g Hf d c gc H ltac:(lia)) as [[Oc Dc] _]. split; auto. split; auto. rewrite <- Ed. eapply any_below; eauto. lia.
  - right. intros fuel. rewrite CF. apply E.
Qed.
Print Assumptions C144_total.

(** Keeping the levels: the first tile with the feature whole, and the entries of every zoom down to the one asked for. *)
Theorem C144_keep : forall m eps order fuel bb g endzoom z t mp, good_libm m -> (forall mp, Permutation (order mp) mp) -> in_world64 bb -> drawable g -> GetFirstZoom64 m bb = (z, t) -> (z < endzoom <= 30)%Z ->
  (endzoom - z <= Z.of_nat fuel)%Z -> ClipFeature64 m eps order fuel bb g endzoom false = Ok mp ->
  exists all, ClipFeature64 m eps order fuel bb g endzoom true = Ok all /\ NoDup (map fst all) /\
    forall e, In e all <-> e = (t, g) \/ exists j mj, (z < j <= endzoom)%Z /\ ClipFeature64 m eps order fuel bb g j false = Ok mj /\ In e mj.
Proof.
  intros m eps order fuel bb g endzoom z t mp G Hord HW Hg EZ He Hfu HE. destruct (C135_first_zoom m bb z t G HW EZ) as [(-> & _)|(Hz & Zt & Ot & _)]; [lia|]. assert (Hf : fits_any t g) by (split; auto).
  set (d := Z.to_nat (endzoom - z)). assert (Ed : Z.of_nat d = (endzoom - z)%Z) by (unfold d; lia).
  assert (LV : forall j, (j <= d)%nat -> (exists mj, levels64 m eps order fuel false (tZ t + Z.of_nat 0) (tZ t + Z.of_nat (0 + j)) [(t, g)] = Ok mj /\ (forall c gc, In (c, gc) mj <-> reach64 m eps t g j c gc) /\ exists c gc, reach64 m eps t g j c gc) \/
    (levels64 m eps order fuel false (tZ t + Z.of_nat 0) (tZ t + Z.of_nat (0 + j)) [(t, g)] = NoFuel)).
  { intros j Hj. destruct (levels64_any m eps 43 (Z.le_refl 43) fits_any fits_any_map fits_any_make (fits_any_down m G eps) order Hord t g Hf j 0 [(t, g)] ltac:(lia) (holds64_start m eps t g false)) as [(mj & E & (N & I) & Hex)|[E NR]].
    - exists t, g. constructor.
    - left. exists mj. split; [apply E; lia|]. cbn [Nat.add] in *. auto.
    - right. apply E. }
  rewrite (feature_levels m eps order fuel bb g endzoom false z t EZ ltac:(lia) Zt) in HE. fold d in HE. destruct (LV d (le_n d)) as [(md & Ed1 & Id & Hex)|K]; [|rewrite HE in K; discriminate].
  destruct (levels_keep m G eps order Hord t g Hf d 0 [(t, g)] ltac:(lia) (holds64_start m eps t g true) Hex) as (all & EA & NA & IA). cbn [Nat.add] in IA. exists all. split; [|split; auto].
  { rewrite (feature_levels m eps order fuel bb g endzoom true z t EZ ltac:(lia) Zt). fold d. apply EA. lia. }
  intros [c gc]. rewrite IA. split.
  - intros (j & Hj & R). destruct j as [|j]; [inversion R; subst; auto|]. right. destruct (LV (S j) Hj) as [(mj & E & I & _)|K].
    + exists (z + Z.of_nat (S j))%Z, mj. split; [lia|]. split; [|apply I; auto]. rewrite (feature_levels m eps order fuel bb g (z + Z.of_nat (S j)) false z t EZ ltac:(lia) Zt). replace (Z.to_nat (z + Z.of_nat (S j) - z)) with (S j) by lia. exact E.
    + exfalso. destruct (levels64_any m eps 43 (Z.le_refl 43) fits_any fits_any_map fits_any_make (fits_any_down m G eps) order Hord t g Hf (S j) 0 [(t, g)] ltac:(lia) (holds64_start m eps t g false)) as [(mj & E & _)|[_ NR]].
      * exists t, g. constructor.
      * rewrite (E fuel ltac:(lia)) in K. discriminate.
      * eapply NR; eauto.
  - intros [E|(j & mj & Hj & E & I)]; [injection E as -> ->; exists 0%nat; split; [lia|constructor]|].
    rewrite (feature_levels m eps order fuel bb g j false z t EZ ltac:(lia) Zt) in E. destruct (LV (Z.to_nat (j - z)) ltac:(lia)) as [(mj' & E' & I' & _)|K]; [|rewrite E in K; discriminate].
    rewrite E in E'. injection E' as <-. apply I' in I. exists (Z.to_nat (j - z)). split; [lia|auto].
Qed.
Print Assumptions C144_keep.

(** A feature that fits a tile of the zoom asked for or of a deeper one is not clipped: the map holds it under its first tile and under the ancestor of that tile at the zoom. *)
Lemma up64_spec m (G : good_libm m) d : forall fuel t, on_map t -> (Z.of_nat d <= tZ t <= 31)%Z -> (d <= fuel)%nat -> up64 m fuel t (tZ t - Z.of_nat d) = Ok (above t (Z.of_nat d)).
Proof.
  assert (K63 : (62 < 2 ^ 63)%Z) by reflexivity. induction d as [|d IH]; intros fuel t M Hz Hfu.
  - assert (E : above t (Z.of_nat 0) = t) by (destruct t as [x y k]; unfold above; cbn [tX tY tZ]; change (2 ^ Z.of_nat 0)%Z with 1%Z; rewrite !Z.div_1_r; f_equal; lia). rewrite E.
    destruct fuel; cbn [up64]; rewrite wrap64_id by (unfold in_i64; lia); replace (tZ t =? tZ t - Z.of_nat 0)%Z with true by (symmetry; apply Z.eqb_eq; lia); reflexivity.
  - destruct fuel as [|fuel]; [lia|]. cbn [up64]. rewrite wrap64_id by (unfold in_i64; lia). destruct (Z.eqb_spec (tZ t) (tZ t - Z.of_nat (S d))); [lia|]. rewrite C118_parent by (auto; lia).
    set (p := mkTile (tX t / 2) (tY t / 2) (tZ t - 1)). assert (OP : on_map p).
    { destruct M as (M1 & M2 & M3). assert (EP : (2 ^ tZ t = 2 * 2 ^ (tZ t - 1))%Z) by (replace (tZ t) with (Z.succ (tZ t - 1)) at 1 by lia; rewrite Z.pow_succ_r by lia; reflexivity). unfold on_map, p. cbn [tX tY tZ]. rewrite EP in M2, M3. split; [lia|]. split; (split; [apply Z.div_pos; lia|apply Z.div_lt_upper_bound; lia]). }
    replace (tZ t - Z.of_nat (S d))%Z with (tZ p - Z.of_nat d)%Z by (cbn [p tZ]; lia). rewrite IH; auto; [|cbn [p tZ]; lia|lia]. f_equal. unfold above, p. cbn [tX tY tZ].
    rewrite Nat2Z.inj_succ, Z.pow_succ_r by lia. rewrite !Z.div_div by (try apply Z.pow_pos_nonneg; lia). f_equal. lia.
Qed.
Theorem C144_small : forall m eps order fuel bb g endzoom keep z t, good_libm m -> in_world64 bb -> drawable g -> GetFirstZoom64 m bb = (z, t) -> (0 <= endzoom <= z)%Z -> (z - endzoom <= Z.of_nat fuel)%Z ->
  exists mp, ClipFeature64 m eps order fuel bb g endzoom keep = Ok mp /\ NoDup (map fst mp) /\ forall e, In e mp <-> e = (t, g) \/ e = (above t (z - endzoom), g).
Proof.
  intros m eps order fuel bb g endzoom keep z t G HW Hg EZ He Hfu.
  assert (HT : tZ t = z /\ on_map t /\ (z <= 30)%Z).
  { destruct (C135_first_zoom m bb z t G HW EZ) as [(-> & -> & _)|(Hz & Zt & Ot & _)]; [|split; [auto|split; [auto|lia]]]. split; [reflexivity|]. split; [|lia]. unfold on_map. cbn [tX tY tZ]. lia. }
  destruct HT as (HT & M & Hz). unfold ClipFeature64. rewrite EZ. destruct (Z.leb_spec endzoom z); [|lia].
  pose proof (up64_spec m G (Z.to_nat (z - endzoom)) fuel t M ltac:(lia) ltac:(lia)) as U. rewrite Z2Nat.id in U by lia. replace (tZ t - (z - endzoom))%Z with endzoom in U by lia. rewrite U. cbn [bind].
  rewrite (fits_any_make t g (conj M Hg)). cbn [bind put64]. set (a := above t (z - endzoom)). eexists. split; [reflexivity|]. destruct (tile_eqb a t) eqn:E.
  - apply tile_eqb_eq in E. rewrite E. split; [apply NoDup_cons; [intros []|apply NoDup_nil]|]. intros e. cbn [In]. split; [intros [<-|[]]; auto|intros [->| ->]; auto].
  - split; [apply NoDup_cons; [|apply NoDup_cons; [intros []|apply NoDup_nil]]|].
    + intros [K|[]]. cbn [fst] in K. assert (tile_eqb a t = true) by (apply tile_eqb_eq; auto). congruence.
    + intros e. cbn [In]. split; [intros [<-|[<-|[]]]; auto|intros [->| ->]; auto].
Qed.
Print Assumptions C144_small.

(** That ancestor holds the box of the feature, unless the first zoom was the last one tried. *)
Lemma above_holds t n : on_map t -> (0 <= n <= tZ t)%Z -> eW (Bounds (above t n)) <= eW (Bounds t) /\ eE (Bounds t) <= eE (Bounds (above t n)) /\ eS (Bounds (above t n)) <= eS (Bounds t) /\ eN (Bounds t) <= eN (Bounds (above t n)).
Proof.
  intros M Hn. pose proof M as (Z0 & HX & HY).
  assert (EP : (2 ^ tZ t = 2 ^ n * 2 ^ (tZ t - n))%Z) by (rewrite <- Z.pow_add_r by lia; f_equal; lia). assert (P1 : (0 < 2 ^ n)%Z) by (apply Z.pow_pos_nonneg; lia). assert (P2 : (0 < 2 ^ (tZ t - n))%Z) by (apply Z.pow_pos_nonneg; lia).
  assert (OA : on_map (above t n)). { unfold on_map, above. cbn [tX tY tZ]. rewrite EP in HX, HY. split; [lia|]. split; (split; [apply Z.div_pos; lia|apply Z.div_lt_upper_bound; lia]). }
  destruct (Bounds_exact _ M) as (-> & -> & -> & ->). destruct (Bounds_exact _ OA) as (-> & -> & -> & ->). cbn [above tX tY tZ].
  assert (Q1 : 0 < IZR (2 ^ n)) by (apply IZR_lt; auto). assert (Q2 : 0 < IZR (2 ^ (tZ t - n))) by (apply IZR_lt; auto). assert (EQ : IZR (2 ^ tZ t) = IZR (2 ^ n) * IZR (2 ^ (tZ t - n))) by (rewrite EP; apply mult_IZR).
  assert (L : forall x, IZR (x / 2 ^ n) / IZR (2 ^ (tZ t - n)) <= IZR x / IZR (2 ^ tZ t)).
  { intros x. rewrite EQ. apply (Rmult_le_reg_r (IZR (2 ^ n) * IZR (2 ^ (tZ t - n)))); [nra|]. replace (IZR (x / 2 ^ n) / IZR (2 ^ (tZ t - n)) * (IZR (2 ^ n) * IZR (2 ^ (tZ t - n)))) with (IZR (x / 2 ^ n) * IZR (2 ^ n)) by (field; lra).
    replace (IZR x / (IZR (2 ^ n) * IZR (2 ^ (tZ t - n))) * (IZR (2 ^ n) * IZR (2 ^ (tZ t - n)))) with (IZR x) by (field; split; lra). rewrite <- mult_IZR. apply IZR_le. pose proof (Z.mul_div_le x _ P1). lia. }
  assert (RR : forall x, (IZR x + 1) / IZR (2 ^ tZ t) <= (IZR (x / 2 ^ n) + 1) / IZR (2 ^ (tZ t - n))).
  { intros x. rewrite EQ. apply (Rmult_le_reg_r (IZR (2 ^ n) * IZR (2 ^ (tZ t - n)))); [nra|]. replace ((IZR (x / 2 ^ n) + 1) / IZR (2 ^ (tZ t - n)) * (IZR (2 ^ n) * IZR (2 ^ (tZ t - n)))) with ((IZR (x / 2 ^ n) + 1) * IZR (2 ^ n)) by (field; lra).
    replace ((IZR x + 1) / (IZR (2 ^ n) * IZR (2 ^ (tZ t - n))) * (IZR (2 ^ n) * IZR (2 ^ (tZ t - n)))) with (IZR x + 1) by (field; split; lra). rewrite <- !plus_IZR, <- mult_IZR. apply IZR_le. pose proof (Z.mul_succ_div_gt x _ P1). lia. }
  pose proof PI_range as PR. assert (GM : forall u v, u <= v -> 180 / PI * gd u <= 180 / PI * gd v) by (intros u v H; apply Rmult_le_compat_l; [apply Rlt_le, Rdiv_lt_0_compat; lra|apply (proj1 (gd_le u v)); exact H]).
  pose proof (L (tX t)) as L1. pose proof (L (tY t)) as L2. pose proof (RR (tX t)) as R1. pose proof (RR (tY t)) as R2. rewrite !plus_IZR.
  assert (H2 : forall a b : R, 2 * a / b = 2 * (a / b)) by (intros; unfold Rdiv; ring). split; [lra|]. split; [lra|]. split; apply GM; rewrite !H2; apply Rmult_le_compat_l; lra.
Qed.

Theorem C144_small_holds : forall m bb endzoom z t, good_libm m -> in_world64 bb -> GetFirstZoom64 m bb = (z, t) -> (0 <= endzoom <= z)%Z -> z <> 30%Z ->
  let a := above t (z - endzoom) in on_map a /\ tZ a = endzoom /\
  eW (Bounds a) - 3 / 10 ^ 9 <= B2R (e6W bb) /\ B2R (e6E bb) <= eE (Bounds a) /\ eS (Bounds a) - 3 / 10 ^ 9 <= B2R (e6S bb) /\ B2R (e6N bb) <= eN (Bounds a) + 3 / 10 ^ 9.
Proof.
  intros m bb endzoom z t G HW EZ He Hn. destruct (C135_first_zoom m bb z t G HW EZ) as [(K & _)|(Hz & Zt & Ot & _ & _ & B1 & B2 & B3 & B4)]; [lia|]. intros a. pose proof Ot as (Z0 & HX & HY).
  assert (EP : (2 ^ tZ t = 2 ^ (z - endzoom) * 2 ^ (tZ t - (z - endzoom)))%Z) by (rewrite <- Z.pow_add_r by lia; f_equal; lia). assert (P1 : (0 < 2 ^ (z - endzoom))%Z) by (apply Z.pow_pos_nonneg; lia).
  split; [|split; [unfold a, above; cbn [tZ]; lia|]]. { unfold a, on_map, above. cbn [tX tY tZ]. rewrite EP in HX, HY. split; [lia|]. split; (split; [apply Z.div_pos; lia|apply Z.div_lt_upper_bound; lia]). }
  destruct (above_holds t (z - endzoom) Ot ltac:(lia)) as (A1 & A2 & A3 & A4). fold a in A1, A2, A3, A4. lra.
Qed.
Print Assumptions C144_small_holds.

(** A feature whose points all coincide goes to the tile 0/0 of the zoom, wherever it is: from the eastern hemisphere, to a tile that does not hold it. *)
Theorem C144_point_refuted : forall m eps order fuel lng lat endzoom keep, good_libm m -> in_world64 (mkExt64 lng lng lat lat) -> (1 <= endzoom <= 30)%Z -> (30 <= Z.of_nat fuel)%Z ->
  let l := CLine [(lng, lat); (lng, lat)] in
  exists mp, ClipFeature64 m eps order fuel (mkExt64 lng lng lat lat) l endzoom keep = Ok mp /\ In (mkTile 0 0 endzoom, l) mp /\ (forall e, In e mp -> tX (fst e) = 0%Z /\ tY (fst e) = 0%Z) /\
    (0 < B2R lng -> ~ inside 0 (mkTile 0 0 endzoom) (val (lng, lat))).
Proof.
  intros m eps order fuel lng lat endzoom keep G HW He Hfu l. destruct (GetFirstZoom64 m (mkExt64 lng lng lat lat)) as [z t] eqn:EZ.
  assert (K : z = 30%Z /\ t = mkTile 0 0 30). { destruct (C135_first_zoom m _ z t G HW EZ) as [(A & B & _)|(_ & _ & _ & _ & N & _)]; [auto|]. exfalso. apply N. exists (Tile64 m lng lat (z + 1)). unfold share64. cbn [e6W e6E e6N e6S]. auto. }
  destruct K as [-> ->]. destruct (C144_small m eps order fuel _ l endzoom keep 30 _ G HW ltac:(discriminate) EZ ltac:(lia) ltac:(lia)) as (mp & E & _ & I).
  assert (EA : above (mkTile 0 0 30) (30 - endzoom) = mkTile 0 0 endzoom) by (unfold above; cbn [tX tY tZ]; rewrite Z.div_0_l by (apply Z.pow_nonzero; lia); f_equal; lia). rewrite EA in I.
  exists mp. split; auto. split; [apply I; auto|]. split; [intros e H; apply I in H; destruct H as [->| ->]; auto|].
  intros Hp ((_ & K) & _). unfold val in K. cbn [fst snd] in K. assert (M : on_map (mkTile 0 0 endzoom)) by (unfold on_map; cbn [tX tY tZ]; pose proof (Z.pow_pos_nonneg 2 endzoom); lia).
  destruct (Bounds_exact _ M) as (_ & EE & _). cbn [tX tZ] in EE. rewrite EE in K. assert (2 <= IZR (2 ^ endzoom)) by (apply IZR_le; change 2%Z with (2 ^ 1)%Z at 1; apply Z.pow_le_mono_r; lia).
  assert (IZR (0 + 1) / IZR (2 ^ endzoom) <= / 2) by (change (IZR (0 + 1)) with 1; unfold Rdiv; rewrite Rmult_1_l; apply Rinv_le_contravar; lra). lra.
Qed.
Print Assumptions C144_point_refuted.

(** The whole square kept at zoom 0 and cut at zoom 1, and a point of the eastern hemisphere. *)
Example C144_nonvacuous : good_libm exact_libm /\ in_world64 plate_box /\ drawable (CPolygon [plate]) /\ GetFirstZoom64 exact_libm plate_box = (0%Z, mkTile 0 0 0) /\
  (exists mp, (forall fuel, (1 <= Z.of_nat fuel)%Z -> ClipFeature64 exact_libm power7_64 (fun mp => mp) fuel plate_box (CPolygon [plate]) 1 false = Ok mp) /\ mp <> []) /\
  in_world64 (mkExt64 (fint 20) (fint 20) (fint 20) (fint 20)) /\ 0 < B2R (fint 20) /\ above (mkTile 5 2 3) 2 = mkTile 1 0 1.
Proof.
  destruct C135_nonvacuous as (A1 & _ & A3 & _ & A5 & _ & _ & _ & _ & _ & _ & mp & rs & A6 & A7 & _). split; [exact A1|]. split; [exact A3|]. split; [split; [discriminate|]; intros l [<-|[]]; discriminate|]. split; [exact A5|].
  split; [exists mp; split; [exact A6|intros K; rewrite K in A7; destruct A7]|]. pose proof (fint_f 20 ltac:(lia)) as [F1 F2]. pose proof ClipFeature_Props.max_lat_45 as ML.
  split; [unfold in_world64; cbn [e6W e6E e6N e6S]; rewrite F2; split; [auto|]; lra|]. split; [rewrite F2; lra|reflexivity].
Qed.
