(** Property C146: a line clipped to a tile, written to the tile and read from it, in binary64. *)
From Coq Require Import ZArith List Lia Bool Reals Lra Permutation.
From Flocq Require Import Core BinarySingleNaN.
From Verif Require Import GoBase Num Tileid_Model TileR_Model TileR_Proofs TileF64_Model TileF64_Proofs F64 ColorF64_Model ColorF64_Proofs Tile64_Model Tile64_Proofs Tile64_Props
  MvtProj_Proofs MvtProj64_Model MvtProj64_Proofs MvtProj64_Props Pbf_Model MvtGeom_Model MvtLayer_Model MvtLayer_Spec Clip_Model Clip_Spec Clip_Proofs Clip64_Proofs Clip64_Props ClipTile64_Model ClipTile64_Proofs ClipTile64_Props
  ClipFeature64_Model ClipFeature64_Proofs ClipFeature64_Props ClipLine64_Proofs ClipLine64_Props
  Pbf_Proofs MvtGeo_Model Decode64_Model MvtAgain64_Model MvtTile_Props MvtLayer_Props MvtGeo64_Model MvtGeo64_Proofs MvtGeo64_Props MvtRead64_Model MvtRead64_Props TileLine64_Proofs.
From Verif Require MvtGeo_Props.
Import ListNotations.
Open Scope R_scope.

(** ** Specification *)
(** The geometry of a clipped feature, as the writer takes it *)
Definition geo_of (g : @cgeom f64) : geometry lnglat64 :=
  match g with CLine l => XLineString l | CMultiLine ls => XMultiLineString ls | CPolygon rs => XPolygon rs | CMultiPolygon ps => XMultiPolygon ps | CNone => XOther end.
Definition lines_read (g : geometry lnglat64) : list (list lnglat64) := match g with XLineString l => [l] | XMultiLineString ls => ls | _ => [] end.
(** Half a unit of the grid, in degrees at the equator, and half a millimetre *)
Definition unit_off (t : TileID) (e : Z) : R := 180 / IZR (e * 2 ^ tZ t) + 5 / 10 ^ 9.
(** The set [x] is the part of the line [l] in the tile, up to [d]. *)
Definition part_seen (d : R) (t : TileID) (l : list (R * R)) (x : R * R -> Prop) : Prop :=
  (forall p, x p -> exists q, on_line l q /\ inside (- (2 * tiny)) t q /\ within d p q) /\
  (forall q, on_line l q -> inside tiny t q -> exists p, x p /\ within d p q).
(** Latitudes to 85 degrees north and south *)
Definition midlat (p : lnglat64) : Prop := Rabs (B2R (snd p)) <= 85.

(** ** Lemmas *)
Definition near_in (t : TileID) (p : lnglat64) : Prop := fin p /\ Rabs (B2R (snd p)) <= 85 + / 1000 /\ inside (- tiny) t (val p).
Definition both_near (d : R) (x y : R * R -> Prop) : Prop := (forall p, x p -> exists q, y q /\ within d p q) /\ (forall q, y q -> exists p, x p /\ within d p q).
Lemma drawn_near eb t e gr l l' : fine t e -> (2 <= e)%Z -> gridding eb t e gr -> Forall (near_in t) l -> drawn64 t e gr l l' -> both_near (180 / IZR (e * 2 ^ tZ t) + 4 / 10 ^ 9) (on_line (map val l')) (on_line (map val l)).
Proof.
  intros F H2 (_ & HG) HL (gs & SQ & AT). set (d := 180 / IZR (e * 2 ^ tZ t)).
  assert (A1 : Forall2 (within (27 / 10 ^ 13)) (map val l') (map (place t e) gs)). { clear SQ. induction AT as [|g p gs l' A _ IH]; cbn [map]; constructor; auto. apply (at_place t e g p A). }
  assert (A2 : Forall2 (within (d + 39 / 10 ^ 10)) (map (place t e) (map gr l)) (map val l)). { clear - F H2 HG HL. induction HL as [|p l (P1 & P2 & P3) _ IH]; cbn [map]; constructor; auto. apply (snap t e F eb p (gr p)); auto. apply HG, in_placed; auto. }
  pose proof (line_squeezed (place t e) _ _ SQ) as SL. assert (DD : d + 4 / 10 ^ 9 >= 27 / 10 ^ 13 + (d + 39 / 10 ^ 10)) by lra. split.
  - intros p Hp. destruct (on_line_within _ _ _ p A1 Hp) as (q & Hq & W). apply SL in Hq. destruct (on_line_within _ _ _ q A2 Hq) as (r & Hr & W'). exists r. split; auto. eapply within_mono; [|eapply within_trans; [exact W|exact W']]. lra.
  - intros r Hr. destruct (on_line_within _ _ _ r (F2_sym _ _ _ A2) Hr) as (q & Hq & W). apply SL in Hq. destruct (on_line_within _ _ _ q (F2_sym _ _ _ A1) Hq) as (p & Hp & W'). exists p. split; auto. apply within_sym. eapply within_mono; [|eapply within_trans; [exact W|exact W']]. lra.
Qed.
Lemma lines_near d ls ls' : Forall2 (fun l l' => both_near d (on_line (map val l')) (on_line (map val l))) ls ls' -> both_near d (on_lines (map (map val) ls')) (on_lines (map (map val) ls)).
Proof.
  intros H. split.
  - intros p (x & Hx & Hp). apply in_map_iff in Hx. destruct Hx as (l' & <- & Hl). induction H as [|l l0 ls ls' (A & _) _ IH]; [destruct Hl|]. destruct Hl as [->|Hl].
    + destruct (A p Hp) as (q & Hq & W). exists q. split; auto. exists (map val l). split; [left|]; auto.
    + destruct (IH Hl) as (q & (y & Iy & Hq) & W). exists q. split; auto. exists y. split; [right|]; auto.
  - intros q (x & Hx & Hq). apply in_map_iff in Hx. destruct Hx as (l & <- & Hl). induction H as [|l0 l' ls ls' (_ & A) _ IH]; [destruct Hl|]. destruct Hl as [->|Hl].
    + destruct (A q Hq) as (p & Hp & W). exists p. split; auto. exists (map val l'). split; [left|]; auto.
    + destruct (IH Hl) as (p & (y & Iy & Hp) & W). exists p. split; auto. exists y. split; [right|]; auto.
Qed.
Definition is_lines (g : @cgeom f64) (ls : list (list lnglat64)) : Prop := (exists l, g = CLine l /\ ls = [l]) \/ g = CMultiLine ls.
Lemma seen_near eb t e gr g ls g' : fine t e -> (2 <= e)%Z -> gridding eb t e gr -> is_lines g ls -> Forall (Forall (near_in t)) ls -> faithful64 t e gr (geo_of g) g' ->
  both_near (180 / IZR (e * 2 ^ tZ t) + 4 / 10 ^ 9) (on_lines (map (map val) (lines_read g'))) (on_lines (map (map val) ls)).
Proof.
  intros F H2 HG HI HL HF. apply lines_near. assert (D : forall l l', Forall (near_in t) l -> drawn64 t e gr l l' -> both_near (180 / IZR (e * 2 ^ tZ t) + 4 / 10 ^ 9) (on_line (map val l')) (on_line (map val l))) by (intros; eapply drawn_near; eauto).
  destruct HI as [(l & -> & ->)| ->].
  - inversion HL; subst. cbn [geo_of faithful64] in HF. destruct g'; try contradiction. cbn [lines_read]. constructor; [|constructor]. apply D; auto.
  - cbn [geo_of faithful64] in HF. destruct ls as [|l [|l2 ls]]; [destruct g'; contradiction| |].
    + inversion HL; subst. destruct g'; try contradiction. cbn [lines_read]. constructor; [|constructor]. apply D; auto.
    + destruct g' as [a1|a2|a3|a4|ls'|a6|]; try contradiction. cbn [lines_read]. clear - D HF HL. induction HF; inversion HL; subst; constructor; auto.
Qed.

(** Writing one feature without properties *)
Lemma one_written m cfg id g cmds : geom_cmds (SinglePoint64 m (cursor64_of m cfg)) peq64 g = Ok (Some cmds) ->
  exists bs, WriteLayer64 m [mkFeat (IDInt id) [] (Some g)] cfg = Ok bs /\ (zlen bs <= 10 * zlen cmds + zlen (gName cfg) + 200)%Z.
Proof.
  intros E. unfold WriteLayer64, WriteLayer. cbn [fold_res]. unfold AddFeature. cbn [fID fProps fGeom bind]. rewrite E. cbn [bind]. eexists. split; [reflexivity|].
  unfold Flush, layer_body, layerw0. cbn [lwFeatures lwKeys lwValues app]. unfold WriteUInt64, WriteVarint, WritePackedUInt32, WriteTag. pose proof (packed_len cmds) as PL.
  assert (NL : (zlen (match cName (cfg_of cfg) with [] => [] | _ :: _ => WriteString (pName (getProto (cProto (cfg_of cfg)))) (cName (cfg_of cfg)) end) <= 11 + zlen (gName cfg))%Z).
  { destruct cfg as [t0 nm e0 v0 b0 p0]. cbn [cfg_of cName gName]. destruct nm as [|c nm]; [unfold zlen; cbn [length]; lia|]. unfold WriteString, WriteTag. pose proof (EncodeVarint_len (zlen (c :: nm))). rewrite !zlen_app. change (zlen [_]) with 1%Z. lia. }
  set (nb := match cName (cfg_of cfg) with [] => [] | _ :: _ => _ end) in *. cbn [app].
  assert (ZC : forall (a : Z) l, zlen (a :: l) = (1 + zlen l)%Z) by (intros; unfold zlen; cbn [length]; lia).
  repeat rewrite ?ZC, ?zlen_app. change (zlen (@nil Z)) with 0%Z.
  repeat match goal with |- context [zlen (EncodeVarint ?v)] => let H := fresh in pose proof (EncodeVarint_len v) as H; let x := fresh in set (x := zlen (EncodeVarint v)) in *; clearbody x end.
  lia.
Qed.

Lemma single_out {A B} (P : A -> B -> Prop) a bs : Forall2 P [a] bs -> exists b, bs = [b] /\ P a b.
Proof. intros H. inversion H as [|? b ? bs' H1 H2]; subst. inversion H2; subst. eauto. Qed.
(** One feature written alone and read with its tile *)
Lemma one_read m mExp t e eb name ver pt id g : good_proj m mExp -> fine t e -> (zlen name <= 2 ^ 32)%Z -> (- 2 ^ 63 <= ver < 2 ^ 63)%Z -> (- 2 ^ 63 <= id < 2 ^ 63)%Z -> drawable64 eb t e g ->
  exists bs, WriteLayer64 m [mkFeat (IDInt id) [] (Some g)] (mkCfg t name e ver eb pt) = Ok bs /\ forall fuel, (length bs + 4 < fuel)%nat ->
  exists gf, ReadTile64 m mExp fuel pt bs t = OValue [gf] /\ g6ID gf = id /\ exists gr, gridding eb t e gr /\ faithful64 t e gr g (g6Geom gf).
Proof.
  intros G F HN HV HI HD. pose proof F as (M & He & HX). set (cfg := mkCfg t name e ver eb pt).
  assert (XE : g6_extent (mkGS64 [mkFeat (IDInt id) [] (Some g)] cfg) = e) by (unfold g6_extent; cbn [g6Cfg gExtent cfg]; destruct (Z.eqb_spec e 0); lia).
  assert (CU : cursor64_of m cfg = NewCursorExtent64 m t e eb) by (unfold cursor64_of, cfg, cfg_of, cfgExtent; cbn [gTile gExtent gExtentBool gName gVersion gProto MvtLayer_Model.cExtent]; destruct (Z.eqb_spec e 0); [lia|reflexivity]).
  destruct (geometry_seen eb t e m mExp G M He HX g HD) as (cmds & gd & C1 & _). pose proof (words_len _ _ _ _ C1) as WL.
  destruct (one_written m cfg id g cmds) as (bs & E & L); [rewrite CU; exact C1|]. exists bs. split; [exact E|]. intros fuel Hf.
  set (S := mkGS64 [mkFeat (IDInt id) [] (Some g)] cfg) in *.
  assert (W : geo_written64 m pt S bs).
  { split; [exact E|]. split; [reflexivity|]. split; [constructor; [|constructor]; split; [split; cbn [fProps map]; [constructor|intros k v []]|cbn [fID]; lia]|]. cbn [S g6Cfg cfg gExtent gVersion gTile g6Feats fold_right fProps]. split; [lia|]. split; [lia|]. split; [rewrite XE; exact F|]. unfold zlen. cbn [length]. lia. }
  assert (D : all_drawable64 S) by (constructor; [|constructor]; exists g; split; [reflexivity|]; rewrite XE; exact HD).
  assert (B : (zlen (concat [bs]) < 2 ^ 62)%Z). { cbn [concat]. rewrite app_nil_r. destruct HD as (HW & _). cbn [cfg gName] in L. unfold zlen in *. lia. }
  assert (FW : Forall2 (geo_written64 m pt) [S] [bs]) by (constructor; [exact W|constructor]). assert (FD : Forall all_drawable64 [S]) by (constructor; [exact D|constructor]). assert (FT : Forall (fun S => gTile (g6Cfg S) = t) [S]) by (constructor; [reflexivity|constructor]).
  assert (NE : exists S', In S' [S] /\ g6Feats S' <> []) by (exists S; split; [left; reflexivity|discriminate]). assert (Hf' : (length (concat [bs]) + 4 < fuel)%nat) by (cbn [concat]; rewrite app_nil_r; exact Hf).
  destruct (C145_read_tile m mExp pt t [S] [bs] G FW B FD FT NE fuel Hf') as (gss & R & O).
  destruct (single_out _ _ _ O) as (gs & -> & O1 & gr & O2 & O3). cbn [concat] in R. rewrite app_nil_r in R. cbn [S g6Feats length] in O1. destruct gs as [|gf [|gf2 gs]]; try discriminate O1.
  exists gf. split; [exact R|]. destruct (O3 0%nat _ g gf eq_refl eq_refl eq_refl) as (I & _ & Fa). split; [exact I|]. exists gr. rewrite XE in O2, Fa. split; [exact O2|exact Fa].
Qed.
Lemma part_of t l (x y : R * R -> Prop) d : (forall p, y p -> inside (- tiny) t p /\ exists q, on_line l q /\ within tiny p q) -> (forall q, on_line l q -> inside tiny t q -> exists p, y p /\ within tiny p q) ->
  both_near d x y -> part_seen (d + tiny) t l x.
Proof.
  intros A B (C & D). split.
  - intros p Hp. destruct (C p Hp) as (q & Hq & W). destruct (A q Hq) as (I & r & Hr & W'). exists r. split; auto. split; [|eapply within_trans; eauto]. destruct W' as [W1 W2]. apply ab in W1, W2. unfold inside in *. lra.
  - intros q Hq I. destruct (B q Hq I) as (p & Hp & W). destruct (D p Hp) as (r & Hr & W'). exists r. split; auto. rewrite Rplus_comm, (Rplus_comm tiny). eapply within_trans; eauto.
Qed.
Lemma near_all t l ls : Forall midlat l -> Forall (Forall fin) ls -> (forall p, on_lines (map (map val) ls) p -> inside (- tiny) t p /\ exists q, on_line (map val l) q /\ within tiny p q) -> Forall (Forall (near_in t)) ls.
Proof.
  intros HL HF A. rewrite Forall_forall in HF. apply Forall_forall. intros y Hy. specialize (HF y Hy). rewrite Forall_forall in HF. apply Forall_forall. intros p Hp. split; [apply HF, Hp|].
  destruct (A (val p)) as (I & q & Hq & W). { exists (map val y). split; [apply in_map, Hy|]. apply on_line_vertex, in_map, Hp. }
  split; [|exact I]. assert (Q : -85 <= coord true q <= 85). { apply (on_line_conv true (-85) 85 (map val l)); auto. intros v Hv. apply in_map_iff in Hv. destruct Hv as (u & <- & Hu). rewrite Forall_forall in HL. specialize (HL u Hu). unfold midlat in HL. apply ab in HL. unfold coord, val. cbn [snd]. lra. }
  destruct W as [_ W]. unfold coord in Q. unfold val in W. cbn [snd] in W. apply ab in W. apply ab. unfold tiny in W. lra.
Qed.
Lemma is_lines_of g : lines64 g <> [] -> is_lines g (lines64 g).
Proof. destruct g; cbn [lines64]; intros H; try congruence; [left; eauto|right; reflexivity]. Qed.
Lemma lines_fit eb t e g : fine t e -> (2 <= e)%Z -> lines64 g <> [] -> Forall (fun y => y <> []) (lines64 g) -> Forall (Forall (near_in t)) (lines64 g) -> (Z.of_nat (words (geo_of g)) <= 2 ^ 21)%Z -> drawable64 eb t e (geo_of g).
Proof.
  intros F H2 NE NL NI HW. split; [exact HW|].
  assert (K : Forall (line_fits64 t e) (lines64 g)). { apply Forall_forall. intros y Hy. rewrite Forall_forall in NL, NI. split; [apply NL, Hy|]. eapply Forall_impl; [|apply NI, Hy]. intros p (P1 & P2 & P3). apply in_placed; auto. }
  destruct g; cbn [lines64 geo_of] in *; try congruence; [inversion K; assumption|split; assumption].
Qed.

(** ** Theorems *)
(** A line that runs one way in longitude, clipped to a tile, written and read again *)
Theorem C146_tile : forall m mExp eps t e eb name ver pt id l, good_proj m mExp -> fine t e -> (2 <= e)%Z -> (zlen name <= 2 ^ 32)%Z -> (- 2 ^ 63 <= ver < 2 ^ 63)%Z -> (- 2 ^ 63 <= id < 2 ^ 63)%Z ->
  l <> [] -> Forall (inb 255) l -> Forall midlat l -> one_way (map val l) ->
  exists g, ClipTile64 m eps t (CLine l) = Ok g /\
    ((lines64 g = [] /\ forall q, on_line (map val l) q -> ~ inside tiny t q) \/
     ((Z.of_nat (words (geo_of g)) <= 2 ^ 21)%Z -> exists bs, WriteLayer64 m [mkFeat (IDInt id) [] (Some (geo_of g))] (mkCfg t name e ver eb pt) = Ok bs /\ forall fuel, (length bs + 4 < fuel)%nat ->
      exists gf, ReadTile64 m mExp fuel pt bs t = OValue [gf] /\ g6ID gf = id /\ part_seen (unit_off t e) t (map val l) (on_lines (map (map val) (lines_read (g6Geom gf)))))).
Proof.
  intros m mExp eps t e eb name ver pt id l G F H2 HN HV HI Hl HB HM H1. pose proof F as (M & He & HX).
  assert (Z40 : (tZ t <= 40)%Z). { destruct M as (Z0 & _). destruct (Z.le_gt_cases (tZ t) 40) as [K|K]; [exact K|]. assert (2 ^ 40 <= 2 ^ tZ t)%Z by (apply Z.pow_le_mono_r; lia). nia. }
  destruct (C143_tile m eps t l (proj1 G) M Z40 Hl HB H1) as (g & E & FF & A & B). exists g. split; [exact E|]. destruct (lines64 g) as [|y0 ys] eqn:EL.
  - left. split; [reflexivity|]. intros q Hq I. destruct (B q Hq I) as (p & (x & [] & _) & _).
  - right. intros HW. assert (NL : Forall (fun y => y <> []) (y0 :: ys)) by (eapply Forall_impl; [|exact FF]; intros y H; apply H). assert (NF : Forall (Forall fin) (y0 :: ys)) by (eapply Forall_impl; [|exact FF]; intros y H; apply H).
    pose proof (near_all t l _ HM NF A) as NI. rewrite <- EL in *. assert (LN : lines64 g <> []) by (rewrite EL; discriminate).
    destruct (one_read m mExp t e eb name ver pt id (geo_of g) G F HN HV HI (lines_fit eb t e g F H2 LN NL NI HW)) as (bs & EW & R). exists bs. split; [exact EW|]. intros fuel Hf. destruct (R fuel Hf) as (gf & R1 & R2 & gr & R3 & R4). exists gf. split; [exact R1|]. split; [exact R2|].
    pose proof (part_of t (map val l) _ _ _ A B (seen_near eb t e gr g _ _ F H2 R3 (is_lines_of g LN) NI R4)) as [P1 P2].
    assert (U : 180 / IZR (e * 2 ^ tZ t) + 4 / 10 ^ 9 + tiny <= unit_off t e) by (unfold unit_off, tiny; lra). split.
    + intros p Hp. destruct (P1 p Hp) as (q & Hq & I & W). exists q. split; auto. split; auto. eapply within_mono; eauto.
    + intros q Hq I. destruct (P2 q Hq I) as (p & Hp & W). exists p. split; auto. eapply within_mono; eauto.
Qed.
Print Assumptions C146_tile.

(** A segment clipped down to the tiles of a zoom, each written and read again *)
Theorem C146_feature : forall m mExp eps order fuel bb l endzoom z t mp c y e eb name ver pt id, good_proj m mExp -> (forall mp, Permutation (order mp) mp) -> in_world64 bb -> (1 <= length l <= 2)%nat -> Forall (inb 254) l -> Forall midlat l ->
  GetFirstZoom64 m bb = (z, t) -> (z < endzoom <= 30)%Z -> (endzoom - z <= Z.of_nat fuel)%Z -> ClipFeature64 m eps order fuel bb (CLine l) endzoom false = Ok mp -> In (c, CLine y) mp ->
  (2 <= e < 2 ^ 29)%Z -> (e * 2 ^ endzoom <= 2 ^ 36)%Z -> (zlen name <= 2 ^ 32)%Z -> (- 2 ^ 63 <= ver < 2 ^ 63)%Z -> (- 2 ^ 63 <= id < 2 ^ 63)%Z ->
  exists bs, WriteLayer64 m [mkFeat (IDInt id) [] (Some (XLineString y))] (mkCfg c name e ver eb pt) = Ok bs /\ forall fuel', (length bs + 4 < fuel')%nat ->
  exists gf l', ReadTile64 m mExp fuel' pt bs c = OValue [gf] /\ g6ID gf = id /\ g6Geom gf = XLineString l' /\ (1 <= length l' <= 2)%nat /\ part_seen (unit_off c e) c (map val l) (on_line (map val l')).
Proof.
  intros m mExp eps order fuel bb l endzoom z t mp c y e eb name ver pt id G Hord HW HL HB HM EZ He Hfu EC Hy H2 HX HN HV HI.
  destruct (C143_feature m eps order bb l endzoom z t (proj1 G) Hord HW HL HB EZ He) as [(mp' & E & _ & ND & A & B)|(E & _)]; [|rewrite E in EC; discriminate].
  rewrite (E fuel Hfu) in EC. injection EC as ->. destruct (A c (CLine y) Hy) as (OC & BC & [K|(y' & K & L & FF & S)]); [discriminate|]. injection K as <-.
  assert (ZC : tZ c = endzoom). { destruct BC as (ZC & _). destruct (C135_first_zoom m bb z t (proj1 G) HW EZ) as [(-> & _)|(_ & Zt & _)]; lia. }
  assert (F : fine c e) by (split; [exact OC|split; [lia|rewrite ZC; exact HX]]).
  assert (A' : forall p, on_lines (map (map val) [y]) p -> inside (- tiny) c p /\ exists q, on_line (map val l) q /\ within tiny p q) by (intros p (x & [<-|[]] & Hp); apply S, Hp).
  assert (B' : forall q, on_line (map val l) q -> inside tiny c q -> exists p, on_lines (map (map val) [y]) p /\ within tiny p q).
  { intros q Hq I. destruct (B c q BC Hq I) as (y' & p & Hin & Hp & W). assert (y' = y) as ->. { assert (UN : forall (mp : list (TileID * @cgeom f64)) k a b, NoDup (map fst mp) -> In (k, a) mp -> In (k, b) mp -> a = b). { clear. induction mp as [|(k0, v) mp IH]; intros k a b ND Ha Hb; [destruct Ha|]. cbn [map fst] in ND. inversion ND; subst. destruct Ha as [Ha|Ha], Hb as [Hb|Hb]; [congruence| | |eapply IH; eauto]; exfalso; [injection Ha as -> ->; apply (in_map fst) in Hb|injection Hb as -> ->; apply (in_map fst) in Ha]; auto. }
      assert (CLine y' = CLine y) by (eapply UN; eauto). congruence. }
    exists p. split; auto. exists (map val y). split; [left; reflexivity|exact Hp]. }
  pose proof (near_all c l [y] HM ltac:(constructor; [exact FF|constructor]) A') as NI. assert (NE : y <> []) by (intros ->; cbn [length] in L; lia).
  assert (D : drawable64 eb c e (geo_of (CLine y))) by (apply lines_fit; auto; try lia; cbn [lines64 geo_of words]; [discriminate|constructor; auto|lia]).
  destruct (one_read m mExp c e eb name ver pt id _ G F HN HV HI D) as (bs & EW & R). exists bs. split; [exact EW|]. intros fuel' Hf. destruct (R fuel' Hf) as (gf & R1 & R2 & gr & R3 & R4).
  pose proof (part_of c (map val l) _ _ _ A' B' (seen_near eb c e gr (CLine y) [y] _ F ltac:(lia) R3 ltac:(left; eauto) NI R4)) as [P1 P2].
  pose proof R4 as R5. cbn [geo_of faithful64] in R5. destruct (g6Geom gf) as [a1|l'|a3|a4|a5|a6|] eqn:EG; try contradiction. exists gf, l'. split; [exact R1|]. split; [exact R2|]. split; [exact EG|]. split.
  { destruct R5 as (gs & SQ & AT). clear - SQ AT L. assert (Q : (1 <= length gs <= 2)%nat). { destruct y as [|a [|b [|d y]]]; cbn [length] in L; try lia; cbn [map] in SQ; inversion SQ as [|? |? ? ? Q|? ? ? ? ? Q]; subst; cbn [length]; try lia; inversion Q; subst; cbn [length]; lia. }
    assert (length gs = length l') by (clear - AT; induction AT; cbn [length]; lia). lia. }
  cbn [lines_read] in P1, P2. assert (U : 180 / IZR (e * 2 ^ tZ c) + 4 / 10 ^ 9 + tiny <= unit_off c e) by (unfold unit_off, tiny; lra). split.
  - intros p Hp. destruct (P1 p) as (q & Hq & I & W); [exists (map val l'); split; [left; reflexivity|exact Hp]|]. exists q. split; auto. split; auto. eapply within_mono; eauto.
  - intros q Hq I. destruct (P2 q Hq I) as (p & (x & [<-|[]] & Hp) & W). exists p. split; auto. eapply within_mono; eauto.
Qed.
Print Assumptions C146_feature.

(** A segment that has a point well inside a tile is clipped to it, written and read *)
Example C146_nonvacuous : let t := mkTile 0 0 1 in good_proj exact_libm exact_exp /\ fine t 4096 /\ Forall (inb 254) west /\ Forall midlat west /\ one_way (map val west) /\ on_line (map val west) (-90, 10) /\ inside 5 t (-90, 10) /\
  exists y bs gf, ClipTile64 exact_libm power7_64 t (CLine west) = Ok (CLine y) /\ WriteLayer64 exact_libm [mkFeat (IDInt 7) [] (Some (XLineString y))] (mkCfg t [97%Z] 4096 2 true 0) = Ok bs /\
    ReadTile64 exact_libm exact_exp (length bs + 5) 0 bs t = OValue [gf] /\ g6ID gf = 7%Z.
Proof.
  intros t. destruct C143_nonvacuous as (_ & M & OW & IB & ON & IN & _). pose proof (proj1 C120_nonvacuous) as G. fold t in M, IN.
  assert (F : fine t 4096) by (split; [exact M|split; [lia|discriminate]]).
  assert (ML : Forall midlat west). { unfold west, midlat. repeat (apply Forall_cons; [|]); try apply Forall_nil; cbn [snd]; [destruct (small_val 10 ltac:(lia)) as [_ ->]|destruct (small_val 20 ltac:(lia)) as [_ ->]]; apply ab; lra. }
  assert (IB' : Forall (inb 255) west) by (eapply Forall_impl; [|exact IB]; intros a; apply inb_mono; lra).
  split; [exact G|]. split; [exact F|]. split; [exact IB|]. split; [exact ML|]. split; [exact OW|]. split; [exact ON|]. split; [exact IN|].
  assert (Z1 : (tZ t <= 40)%Z) by (cbn [t tZ]; lia). assert (Z2 : (tZ t <= 44)%Z) by (cbn [t tZ]; lia).
  assert (LW : (1 <= length west <= 2)%nat) by (unfold west; cbn [length]; lia).
  destruct (seg_cuts power7_64 t _ _ _ _ west 255 (edges64 exact_libm t (proj1 G) M Z2) M Z1 LW IB' ltac:(lra)) as (g1 & g2 & E1 & E2 & C).
  assert (EC : exists y, g2 = CLine y /\ (1 <= length y <= 2)%nat).
  { destruct C as [(_ & C)|(_ & [(_ & (_ & C))|(y & -> & L & _)])]; [|destruct (C (-90, 10) ON) as (p & [] & _)|eauto]; [exfalso; apply (C (-90, 10) ON)|]; unfold inside, in_strip in *; lra. }
  destruct EC as (y & -> & L). assert (ET : ClipTile64 exact_libm power7_64 t (CLine west) = Ok (CLine y)) by (unfold ClipTile64, ClipTileB; rewrite E1; cbn [bind]; rewrite E2; reflexivity).
  assert (NW : west <> []) by discriminate. assert (NL : (zlen [97%Z] <= 2 ^ 32)%Z) by (unfold zlen; cbn [length]; lia).
  destruct (C146_tile exact_libm exact_exp power7_64 t 4096 true [97%Z] 2 0 7 west G F ltac:(lia) NL ltac:(lia) ltac:(lia) NW IB' ML OW) as (g & EG & R). rewrite ET in EG. assert (g = CLine y) as -> by (injection EG; auto).
  destruct R as [(K & _)|R]; [discriminate K|]. destruct R as (bs & EW & R); [cbn [geo_of words]; lia|]. destruct (R (length bs + 5)%nat ltac:(lia)) as (gf & R1 & R2 & _). exists y, bs, gf. split; [exact ET|]. split; [exact EW|]. split; [exact R1|exact R2].
Qed.
