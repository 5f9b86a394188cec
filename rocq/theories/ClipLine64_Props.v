(** C143: clipping lines to tiles in binary64 arithmetic, with the bounds the code computes. *)
From Coq Require Import ZArith Reals Lia Lra Bool List Permutation Sorted.
From Flocq Require Import Core BinarySingleNaN.
From Verif Require Import GoBase Num MvtGeom_Model Tileid_Model Tileid_Proofs TileR_Model TileR_Proofs TileF64_Model TileF64_Proofs F64 ColorF64_Proofs Clip_Model Clip_Spec Clip_Proofs Clip_Props
  Tile64_Model Tile64_Proofs Tile64_Props Clip64_Proofs Clip64_Props Parity_Proofs ClipTile64_Model ClipTile64_Proofs ClipTile64_Props ClipFeature64_Model ClipFeature64_Proofs ClipFeature64_Props ClipLine64_Proofs.
From Verif Require ClipFeature_Proofs ClipFeature_Props.
Import ListNotations.
Open Scope R_scope.

(** ** Specification *)
(** A hundredth of a millimetre, in degrees *)
Definition tiny : R := / 10 ^ 10.
(** The set [x] is the part of the line [l] in the tile, up to [tiny]. *)
Definition part_in (t : TileID) (l : list (R * R)) (x : R * R -> Prop) : Prop :=
  (forall p, x p -> inside (- tiny) t p /\ exists q, on_line l q /\ within tiny p q) /\
  (forall q, on_line l q -> inside tiny t q -> exists p, x p /\ within tiny p q).
(** The longitudes never decrease along the line, or never increase. *)
Definition one_way (l : list (R * R)) : Prop := StronglySorted Rle (map fst l) \/ StronglySorted Rge (map fst l).
Definition in_strip (t : TileID) (p : R * R) : Prop := eW (Bounds t) <= fst p <= eE (Bounds t).

(** ** Lemmas *)
Lemma p41 : / 2 ^ 41 = 1 / 2199023255552.
Proof. lra. Qed.
(** What two cuts of a line whose first cut leaves at most one piece come to *)
Definition near_part (d : R) (t : TileID) (l : list (R * R)) (x : R * R -> Prop) : Prop :=
  (forall p, x p -> inside (- (2 / 10 ^ 11)) t p /\ exists q, on_line l q /\ within d p q) /\
  (forall q, on_line l q -> inside (2 / 10 ^ 11) t q -> exists p, x p /\ within d p q).
Lemma first_cut eps t w e s n l M : near_edges t w e s n -> on_map t -> (tZ t <= 40)%Z -> l <> [] -> Forall (inb M) l -> M <= 255 ->
  (forall ps, clipLine RNum (map val l) (B2R w) (B2R e) false false = Ok ps -> (length ps <= 1)%nat) ->
  exists g, clip F64Num eps (CLine l) w e false = Ok g /\
    ((g = CMultiLine [] /\ forall q, on_line (map val l) q -> ~ in_strip t q) \/
     (exists x, g = CLine x /\ x <> [] /\ ((length l <= 2)%nat -> (length x <= 2)%nat) /\ Forall (inb (M + / 2 ^ 41)) x /\ cut_ok (/ 2 ^ 41) false (eW (Bounds t)) (eE (Bounds t)) (map val l) (map val x))).
Proof.
  intros ((Fw & Fe & Fs & Fn) & Ew & Ee & Es & En) HM Hz Hl HB M255 H1. destruct (tile_height t HM Hz) as [T1 T2].
  destruct (one_cut eps l w e false M Hl HB ltac:(lra) Fw Fe ltac:(lra) H1) as (g & E & H). rewrite Ew, Ee in H. exists g. split; [exact E|]. exact H.
Qed.
Lemma second_cut t (s n : f64) l x (y : R * R -> Prop) : cut_ok (/ 2 ^ 41) false (eW (Bounds t)) (eE (Bounds t)) l x ->
  Rabs (B2R s - eS (Bounds t)) <= / 10 ^ 11 -> Rabs (B2R n - eN (Bounds t)) <= / 10 ^ 11 ->
  (forall p, y p -> in_band true (B2R s) (B2R n) p /\ exists q, on_line x q /\ in_band true (B2R s) (B2R n) q /\ within (/ 2 ^ 41) p q) ->
  (forall q, on_line x q -> in_band true (B2R s) (B2R n) q -> exists p, y p /\ within (/ 2 ^ 41) p q) -> near_part (/ 2 ^ 40) t l y.
Proof.
  intros [A1 A2] Es En B1 B2. apply ab in Es, En. assert (D : / 2 ^ 40 = / 2 ^ 41 + / 2 ^ 41) by lra. split.
  - intros p Hp. destruct (B1 p Hp) as (I1 & q & Hq & I2 & W). destruct (A1 q Hq) as (I3 & q0 & Hq0 & I4 & W0). split.
    + unfold in_band, inside in *. destruct W as [W1 W2]. apply ab in W1, W2. lra.
    + exists q0. split; auto. rewrite D. eapply within_trans; eauto.
  - intros q Hq Hi. unfold inside in Hi. destruct (A2 q Hq) as (p & Hp & W); [unfold in_band; lra|]. pose proof W as [W1 W2]. apply ab in W1, W2.
    destruct (B2 p Hp) as (p' & Hp' & W'); [unfold in_band; lra|]. exists p'. split; auto. rewrite D. eapply within_trans; eauto.
Qed.
Lemma near_part_tiny d t l x : d <= tiny -> near_part d t l x -> part_in t l x.
Proof.
  unfold tiny. intros Hd [A B]. split.
  - intros p Hp. destruct (A p Hp) as (I & q & Hq & W). split; [unfold inside, tiny in *; lra|]. exists q. split; auto. eapply within_mono; eauto.
  - intros q Hq I. destruct (B q Hq) as (p & Hp & W); [unfold inside, tiny in *; lra|]. exists p. split; auto. eapply within_mono; eauto.
Qed.

(** ** One tile *)
(** Clipping a line that runs one way in longitude to a tile leaves its part in the tile. *)
Theorem C143_tile : forall m eps t l, good_libm m -> on_map t -> (tZ t <= 40)%Z -> l <> [] -> Forall (inb 255) l -> one_way (map val l) ->
  exists g, ClipTile64 m eps t (CLine l) = Ok g /\ Forall (fun y => y <> [] /\ Forall fin y) (lines64 g) /\ part_in t (map val l) (on_lines (map (map val) (lines64 g))).
Proof.
  intros m eps t l G M Hz Hl HB H1. pose proof (edges64 m t G M ltac:(lia)) as HE. cbv zeta in HE. pose proof HE as ((Fw & Fe & Fs & Fn) & Ew & Ee & Es & En). destruct (tile_height t M Hz) as [T1 T2].
  unfold ClipTile64, ClipTileB. set (b := Bounds64 m t) in *.
  destruct (first_cut eps t _ _ _ _ l 255 HE M Hz Hl HB ltac:(lra)) as (g & E & C).
  { intros ps. apply mono_pieces; auto. lra. }
  rewrite E. cbn [bind]. destruct C as [(-> & C)|(x & -> & Nx & _ & Bx & C)].
  - cbn [clip bind makefeature]. eexists. split; [reflexivity|]. split; [constructor|]. split; [intros p (a & [] & _)|]. intros q Hq Hi. exfalso. apply (C q Hq). unfold inside, in_strip, tiny in *. lra.
  - pose proof p41 as P41. assert (HU : Forall (upto 8) x) by (eapply Forall_impl; [|exact Bx]; intros p; apply inb_upto; change (bpow radix2 8) with 256; lra).
    pose proof En as En'. pose proof Es as Es'. apply ab in En', Es'.
    destruct (C121_line 8 x (e6S b) (e6N b) true ltac:(lia) Nx HU Fs Fn ltac:(lra)) as (ps & Ep & HF & HS & HC).
    assert (B41 : bpow radix2 (8 - 49) = / 2 ^ 41). { change (8 - 49)%Z with (- (41))%Z. rewrite (bpm 41 2199023255552) by (lia || reflexivity). lra. } rewrite B41 in HS, HC.
    unfold clip. rewrite Ep. cbn [bind].
    assert (L : exists g, makefeature match ps with [x] => CLine x | _ => CMultiLine ps end = Ok g /\ lines64 g = ps).
    { destruct ps as [|y [|y2 ys]]; eexists; (split; [reflexivity|]); reflexivity. }
    destruct L as (g & -> & Lg). exists g. split; auto. rewrite Lg. split; [|apply (near_part_tiny (/ 2 ^ 40)); [unfold tiny; lra|]; apply (second_cut t (e6S b) (e6N b) (map val l) (map val x)); auto].
    destruct (C121_same_pieces 8 x (e6S b) (e6N b) true ltac:(lia) Nx HU Fs Fn) as (ps0 & ps1 & E0 & E1 & H0). rewrite Ep in E0. injection E0 as <-.
    destruct (clipLine_line (map val x) (B2R (e6S b)) (B2R (e6N b)) true) as (ps2 & E2 & NE & _); [lra|destruct x; [congruence|discriminate]|]. rewrite E1 in E2. injection E2 as <-.
    clear - HF NE H0. induction H0 as [|a a' ps ps1 H _ IH]; [constructor|]. inversion HF; subst. inversion NE; subst. constructor; [|auto]. split; [|assumption]. intros ->. inversion H; subst. congruence.
Qed.
Print Assumptions C143_tile.

(** ** Segments, one zoom down *)
Lemma seg_cuts eps t w e s n l M : near_edges t w e s n -> on_map t -> (tZ t <= 40)%Z -> (1 <= length l <= 2)%nat -> Forall (inb M) l -> M <= 255 ->
  exists g1 g2, clip F64Num eps (CLine l) w e false = Ok g1 /\ clip F64Num eps g1 s n true = Ok g2 /\
    ((g2 = CNone /\ forall q, on_line (map val l) q -> ~ in_strip t q) \/
     ((exists q, on_line (map val l) q /\ in_strip t q) /\
      ((g2 = CMultiLine [] /\ near_part (/ 2 ^ 40) t (map val l) (fun _ => False)) \/
       exists y, g2 = CLine y /\ (1 <= length y <= 2)%nat /\ Forall (inb (M + / 2 ^ 40)) y /\ near_part (/ 2 ^ 40) t (map val l) (on_line (map val y))))).
Proof.
  intros HE HM Hz Hl HB M255. pose proof HE as ((Fw & Fe & Fs & Fn) & Ew & Ee & Es & En). destruct (tile_height t HM Hz) as [T1 T2]. pose proof p41 as P41.
  assert (Nl : l <> []) by (intros ->; cbn [length] in Hl; lia).
  destruct (first_cut eps t w e s n l M HE HM Hz Nl HB M255) as (g1 & E1 & C1); [apply seg_one; auto; lra|]. exists g1.
  destruct C1 as [(-> & C1)|(x & -> & Nx & Lx & Bx & C1)].
  - exists CNone. split; auto.
  - assert (L2 : (1 <= length x <= 2)%nat) by (destruct x; [congruence|]; specialize (Lx ltac:(lia)); cbn [length] in *; lia).
    pose proof En as En'. pose proof Es as Es'. apply ab in En', Es'.
    destruct (one_cut eps x s n true (M + / 2 ^ 41) Nx Bx ltac:(lra) Fs Fn ltac:(lra) ltac:(apply seg_one; auto; lra)) as (g2 & E2 & C2). exists g2. split; auto. split; auto. right. split.
    { destruct x as [|v x]; [congruence|]. destruct (proj1 C1 (val v)) as (_ & q & Hq & I & _); [apply (on_line_vertex (map val (v :: x))); left; auto|]. exists q. auto. }
    destruct C2 as [(-> & C2)|(y & -> & Ny & Ly & By & C2)].
    + left. split; auto. apply (second_cut t s n (map val l) (map val x)); auto; [intros p []|]. intros q Hq Hb. destruct (C2 q Hq Hb).
    + right. exists y. split; auto. split; [destruct y; [congruence|]; specialize (Ly ltac:(lia)); cbn [length] in *; lia|]. split.
      * eapply Forall_impl; [|exact By]. intros a. apply inb_mono. lra.
      * apply (second_cut t s n (map val l) (map val x)); auto; apply C2.
Qed.
Lemma none_cuts eps (w e s n : f64) : clip F64Num eps CNone w e false = Ok CNone /\ clip F64Num eps CNone s n true = Ok CNone.
Proof. split; reflexivity. Qed.
Lemma down_any m eps t g : good_libm m -> on_map t -> (tZ t <= 43)%Z -> match g with CPolygon _ => False | _ => True end ->
  (forall c w e s n, In c (Children t) -> near_edges c w e s n -> exists g1 g2, clip F64Num eps g w e false = Ok g1 /\ clip F64Num eps g1 s n true = Ok g2) ->
  exists l, ClipDown64 m eps t g = Ok l /\ (forall c gc, In (c, gc) l -> In c (Children t)) /\ NoDup (map fst l) /\
  forall c, In c (Children t) -> exists w e s n g1 g2, near_edges c w e s n /\ clip F64Num eps g w e false = Ok g1 /\ clip F64Num eps g1 s n true = Ok g2 /\
    forall gc, In (c, gc) l <-> gc = g2 /\ IsEmpty g2 = false.
Proof.
  intros G M Hz HP HT. pose proof (children_NoDup t M ltac:(lia)) as ND. destruct t as [x y z]. cbn [tZ] in Hz. pose proof M as (Z0 & HX & HY). cbn [tX tY tZ] in *.
  assert (P : (2 ^ z <= 2 ^ 43)%Z) by (apply Z.pow_le_mono_r; lia). change (2 ^ 43)%Z with 8796093022208%Z in P.
  assert (EZ : (2 ^ (z + 1) = 2 * 2 ^ z)%Z) by (rewrite Z.pow_add_r by lia; lia).
  pose proof (edges64 m (mkTile x y z) G M ltac:(cbn [tZ]; lia)) as HB. cbv zeta in HB. set (b := Bounds64 m (mkTile x y z)) in *.
  set (c0 := mkTile (2 * x) (2 * y) (z + 1)) in *. set (c1 := mkTile (2 * x + 1) (2 * y) (z + 1)). set (c2 := mkTile (2 * x + 1) (2 * y + 1) (z + 1)). set (c3 := mkTile (2 * x) (2 * y + 1) (z + 1)).
  assert (M0 : on_map c0) by (unfold on_map, c0; cbn [tX tY tZ]; lia).
  pose proof (edges64 m c0 G M0 ltac:(cbn [tZ c0]; lia)) as HC. cbv zeta in HC. set (cb := Bounds64 m c0) in *.
  destruct (child_edges x y z) as (EW & EE & EN & ES). fold c0 c1 c3 in EW, EE, EN, ES.
  destruct HB as ((b1 & b2 & b3 & b4) & b5 & b6 & b7 & b8). destruct HC as ((k1 & k2 & k3 & k4) & k5 & k6 & k7 & k8). rewrite EW in b5. rewrite EE in b6. rewrite EN in b8. rewrite ES in b7.
  assert (CH : Children (mkTile x y z) = [c0; c1; c2; c3]) by (apply Children_eq; lia). rewrite CH in *.
  assert (N0 : near_edges c0 (e6W b) (e6E cb) (e6S cb) (e6N b)) by (unfold near_edges; auto 12).
  assert (N1 : near_edges c1 (e6E cb) (e6E b) (e6S cb) (e6N b)) by (unfold near_edges; auto 12).
  assert (N2 : near_edges c2 (e6E cb) (e6E b) (e6S b) (e6S cb)) by (unfold near_edges; auto 12).
  assert (N3 : near_edges c3 (e6W b) (e6E cb) (e6S b) (e6S cb)) by (unfold near_edges; auto 12).
  destruct (HT c0 _ _ _ _ ltac:(cbn [In]; auto) N0) as (l & lu & El & Elu). destruct (HT c1 _ _ _ _ ltac:(cbn [In]; auto) N1) as (r & ru & Er & Eru).
  destruct (HT c2 _ _ _ _ ltac:(cbn [In]; auto) N2) as (r' & rd & Er' & Erd). rewrite Er in Er'. injection Er' as <-.
  destruct (HT c3 _ _ _ _ ltac:(cbn [In]; auto) N3) as (l' & ld & El' & Eld). rewrite El in El'. injection El' as <-.
  set (L := [(c0, lu); (c1, ru); (c2, rd); (c3, ld)]). exists (filter (fun e => negb (IsEmpty (snd e))) L).
  split. { unfold ClipDown64. assert (NS : near_square64 m eps (mkTile x y z) g = false) by (destruct g; try reflexivity; destruct HP). rewrite NS, CH. cbv zeta. fold b cb.
    rewrite El, Er. cbn [bind]. rewrite Eld, Elu, Erd, Eru. destruct g; try reflexivity. destruct HP. }
  split. { intros c gc H. apply filter_In in H. destruct H as [H _]. apply (in_map fst) in H. exact H. }
  change [c0; c1; c2; c3] with (map fst L) in ND.
  split. { apply ClipFeature_Proofs.filter_fst_NoDup. exact ND. }
  assert (IN : forall c g2, In (c, g2) L -> forall gc, In (c, gc) (filter (fun e => negb (IsEmpty (snd e))) L) <-> gc = g2 /\ IsEmpty g2 = false).
  { intros c g2 Hin gc. rewrite filter_In. cbn [snd]. rewrite negb_true_iff. split; [intros [H1 H2]; assert (gc = g2) by (eapply ClipFeature_Proofs.NoDup_key; eauto); subst; auto|]. intros [-> H]. auto. }
  intros c Hc. cbn [In] in Hc. destruct Hc as [<-|[<-|[<-|[<-|[]]]]].
  - exists (e6W b), (e6E cb), (e6S cb), (e6N b), l, lu. split; [exact N0|]. split; [auto|]. split; [auto|]. apply IN. unfold L. cbn [In]. auto.
  - exists (e6E cb), (e6E b), (e6S cb), (e6N b), r, ru. split; [exact N1|]. split; [auto|]. split; [auto|]. apply IN. unfold L. cbn [In]. auto.
  - exists (e6E cb), (e6E b), (e6S b), (e6S cb), r, rd. split; [exact N2|]. split; [auto|]. split; [auto|]. apply IN. unfold L. cbn [In]. auto.
  - exists (e6W b), (e6E cb), (e6S b), (e6S cb), l, ld. split; [exact N3|]. split; [auto|]. split; [auto|]. apply IN. unfold L. cbn [In]. auto 6.
Qed.
Lemma seg_down m eps t l M : good_libm m -> on_map t -> (tZ t <= 39)%Z -> (1 <= length l <= 2)%nat -> Forall (inb M) l -> M <= 255 ->
  exists ents, ClipDown64 m eps t (CLine l) = Ok ents /\ (forall c gc, In (c, gc) ents -> In c (Children t)) /\ NoDup (map fst ents) /\ forall c, In c (Children t) ->
    (((forall gc, In (c, gc) ents <-> gc = CNone) /\ forall q, on_line (map val l) q -> ~ in_strip c q) \/
     ((exists q, on_line (map val l) q /\ in_strip c q) /\
      (((forall gc, ~ In (c, gc) ents) /\ near_part (/ 2 ^ 40) c (map val l) (fun _ => False)) \/
       exists y, (forall gc, In (c, gc) ents <-> gc = CLine y) /\ (1 <= length y <= 2)%nat /\ Forall (inb (M + / 2 ^ 40)) y /\ near_part (/ 2 ^ 40) c (map val l) (on_line (map val y))))).
Proof.
  intros G HM Hz Hl HB M255.
  assert (OC : forall c, In c (Children t) -> on_map c /\ (tZ c <= 40)%Z) by (intros c Hc; destruct (children_map t c HM ltac:(lia) Hc) as (A & B & _); split; [auto|lia]).
  destruct (down_any m eps t (CLine l) G HM ltac:(lia) I) as (ents & E & A & ND & C).
  { intros c w e s n Hc HE. destruct (OC c Hc) as [OCc Zc]. destruct (seg_cuts eps c w e s n l M HE OCc Zc Hl HB M255) as (g1 & g2 & E1 & E2 & _). eauto. }
  exists ents. split; auto. split; auto. split; auto. intros c Hc. destruct (C c Hc) as (w & e & s & n & g1 & g2 & HE & E1 & E2 & I). destruct (OC c Hc) as [OCc Zc].
  destruct (seg_cuts eps c w e s n l M HE OCc Zc Hl HB M255) as (g1' & g2' & E1' & E2' & K). rewrite E1 in E1'. injection E1' as <-. rewrite E2 in E2'. injection E2' as <-.
  destruct K as [(-> & K)|(Q & [(-> & K)|(y & -> & Y1 & Y2 & K)])].
  - left. split; auto. intros gc. rewrite I. cbn [IsEmpty]. tauto.
  - right. split; auto. left. split; auto. intros gc H. apply I in H. cbn [IsEmpty] in H. destruct H. discriminate.
  - right. split; auto. right. exists y. split; [|auto]. intros gc. rewrite I. destruct y; [cbn [length] in Y1; lia|]. cbn [IsEmpty]. tauto.
Qed.
(** A segment (or a single point) one zoom down: every child has its part of the segment, or none when the segment stays clear of
    it; but a child whose strip of longitudes has no point of the segment has an entry without geometry. *)
Theorem C143_down : forall m eps t l, good_libm m -> on_map t -> (tZ t <= 39)%Z -> (1 <= length l <= 2)%nat -> Forall (inb 255) l ->
  exists ents, ClipDown64 m eps t (CLine l) = Ok ents /\ (forall c gc, In (c, gc) ents -> In c (Children t)) /\ NoDup (map fst ents) /\ forall c, In c (Children t) ->
    (In (c, CNone) ents <-> forall q, on_line (map val l) q -> ~ in_strip c q) /\
    forall gc, In (c, gc) ents \/ (gc = CMultiLine [] /\ forall gc', ~ In (c, gc') ents) ->
      (gc = CNone \/ gc = CMultiLine [] \/ exists y, gc = CLine y /\ (1 <= length y <= 2)%nat) /\ part_in c (map val l) (on_lines (map (map val) (lines64 gc))).
Proof.
  intros m eps t l G HM Hz Hl HB. destruct (seg_down m eps t l 255 G HM Hz Hl HB ltac:(lra)) as (ents & E & A & ND & C). exists ents. split; auto. split; auto. split; auto. intros c Hc.
  assert (T40 : / 2 ^ 40 <= tiny) by (unfold tiny; lra).
  assert (PF : forall t l (x y : R * R -> Prop), (forall p, x p <-> y p) -> part_in t l x -> part_in t l y).
  { intros t' l' x y H [X1 X2]. split; [intros p Hp; apply X1, H; auto|]. intros q Hq Hi. destruct (X2 q Hq Hi) as (p & Hp & W). exists p. split; [apply H|]; auto. }
  assert (E0 : part_in c (map val l) (fun _ => False) -> part_in c (map val l) (on_lines [])) by (apply PF; intros p; split; [tauto|intros (a & [] & _)]).
  destruct (C c Hc) as [(I & K)|((q0 & Q1 & Q2) & [(I & K)|(y & I & Y1 & Y2 & K)])].
  - assert (P0 : part_in c (map val l) (fun _ => False)). { split; [tauto|]. intros q Hq Hi. exfalso. apply (K q Hq). unfold inside, in_strip, tiny in *. lra. }
    split; [split; auto; intros _; apply I; auto|]. intros gc [H|[-> H]]; [|exfalso; apply (H CNone), I; auto]. apply I in H. subst gc. split; [auto|]. cbn [lines64 map]. auto.
  - split; [split; [intros H; destruct (I _ H)|intros H; destruct (H q0 Q1 Q2)]|]. intros gc [H|[-> H]]; [destruct (I _ H)|]. split; [auto|]. cbn [lines64 map]. apply E0. eapply near_part_tiny; eauto.
  - split; [split; [intros H; apply I in H; discriminate|intros H; destruct (H q0 Q1 Q2)]|]. intros gc [H|[-> H]]; [|exfalso; apply (H (CLine y)), I; auto]. apply I in H. subst gc. split; [right; right; eauto|].
    cbn [lines64 map]. apply (PF _ _ (on_line (map val y))); [|eapply near_part_tiny; eauto]. intros p. unfold on_lines. split; [intros H; exists (map val y); split; [left|]; auto|intros (a & [<-|[]] & H); auto].
Qed.
Print Assumptions C143_down.

(** ** Down to a zoom *)
Definition fits_seg (k : TileID) (g : @cgeom f64) : Prop :=
  on_map k /\ (g = CNone \/ exists l, g = CLine l /\ (1 <= length l <= 2)%nat /\ Forall (inb (254 + IZR (tZ k) * / 2 ^ 40)) l).
Lemma fits_seg_map k g : fits_seg k g -> on_map k.
Proof. intros H. apply H. Qed.
Lemma fits_seg_make k g : fits_seg k g -> makefeature g = Ok g.
Proof. intros (_ & [->|(l & -> & _)]); reflexivity. Qed.
Lemma none_down m eps t : good_libm m -> on_map t -> (tZ t <= 43)%Z -> exists ents, ClipDown64 m eps t CNone = Ok ents /\ (forall c gc, In (c, gc) ents -> In c (Children t)) /\ NoDup (map fst ents) /\
  forall c, In c (Children t) -> forall gc, In (c, gc) ents <-> gc = CNone.
Proof.
  intros G M Hz. destruct (down_any m eps t CNone G M Hz I) as (ents & E & A & ND & C); [intros; exists CNone, CNone; apply none_cuts|].
  exists ents. split; auto. split; auto. split; auto. intros c Hc gc. destruct (C c Hc) as (w & e & s & n & g1 & g2 & _ & E1 & E2 & K). cbn [clip] in E1. injection E1 as <-. cbn [clip] in E2. injection E2 as <-. rewrite K. cbn [IsEmpty]. tauto.
Qed.
Lemma seg_bound k : (0 <= tZ k <= 40)%Z -> 254 + IZR (tZ k) * / 2 ^ 40 <= 255.
Proof. intros H. assert (IZR (tZ k) <= 40) by (apply IZR_le; lia). assert (0 <= IZR (tZ k)) by (apply IZR_le; lia). assert (0 < / 2 ^ 40 <= / 100) by lra. nra. Qed.
Lemma seg_fits_down m (G : good_libm m) eps k g : fits_seg k g -> (tZ k <= 39)%Z ->
  exists ch, ClipDown64 m eps k g = Ok ch /\ NoDup (map fst ch) /\ forall c gc, In (c, gc) ch -> In c (Children k) /\ fits_seg c gc.
Proof.
  intros (M & Hg) Hz. assert (Z0 : (0 <= tZ k)%Z) by apply M. assert (OC : forall c, In c (Children k) -> on_map c /\ tZ c = (tZ k + 1)%Z) by (intros c Hc; destruct (children_map k c M ltac:(lia) Hc) as (A & B & _); auto).
  destruct Hg as [->|(l & -> & L1 & L2)].
  - destruct (none_down m eps k G M ltac:(lia)) as (ch & E & A & ND & C). exists ch. split; auto. split; auto. intros c gc H. pose proof (A c gc H) as Hc. split; auto. split; [apply OC; auto|]. left. apply (C c Hc gc). auto.
  - destruct (seg_down m eps k l _ G M ltac:(lia) L1 L2 (seg_bound k ltac:(lia))) as (ch & E & A & ND & C). exists ch. split; auto. split; auto. intros c gc H. pose proof (A c gc H) as Hc. split; auto. destruct (OC c Hc) as [O1 O2]. split; auto.
    destruct (C c Hc) as [(I & _)|(_ & [(I & _)|(y & I & Y1 & Y2 & _)])]; [left; apply I; auto|destruct (I _ H)|]. right. exists y. split; [apply I; auto|]. split; auto. rewrite O2, plus_IZR.
    replace (254 + (IZR (tZ k) + 1) * / 2 ^ 40) with (254 + IZR (tZ k) * / 2 ^ 40 + / 2 ^ 40) by ring. auto.
Qed.
Lemma z39 : (39 <= 43)%Z.
Proof. lia. Qed.
Section Seg.
Context (m : libm) (G : good_libm m) (eps : f64) (t : TileID) (l : list (f64 * f64)) (M : on_map t) (HL : (1 <= length l <= 2)%nat) (HB : Forall (inb 254) l).
Lemma seg_start : fits_seg t (CLine l).
Proof.
  split; auto. right. exists l. split; auto. split; auto. eapply Forall_impl; [|exact HB]. intros a. apply inb_mono. assert (0 <= IZR (tZ t)) by (apply IZR_le; apply M). assert (0 < / 2 ^ 40) by lra. nra.
Qed.
Definition keeps := reach64_keeps m eps 39 z39 fits_seg fits_seg_map fits_seg_make (seg_fits_down m G eps).
Definition same := reach64_same m eps 39 z39 fits_seg fits_seg_map fits_seg_make (seg_fits_down m G eps).
Lemma seg_below n c gc : (tZ t + Z.of_nat n <= 40)%Z -> reach64 m eps t (CLine l) n c gc -> below t (Z.of_nat n) c.
Proof.
  assert (Z0 : (0 <= tZ t)%Z) by apply M. assert (K63 : (62 < 2 ^ 63)%Z) by reflexivity. revert c gc. induction n as [|n IH]; intros c gc Hz R.
  - inversion R; subst. unfold below. change (2 ^ Z.of_nat 0)%Z with 1%Z. rewrite !Z.div_1_r. lia.
  - inversion R as [|n1 k gk ch c1 gc1 R1 E1 I1]; subst. destruct (IH k gk ltac:(lia) R1) as (B1 & B2 & B3). destruct (keeps t _ seg_start n k gk R1 ltac:(lia)) as [Fk Zk].
    destruct (seg_fits_down m G eps k gk Fk ltac:(lia)) as (ch' & E' & _ & HF). rewrite E1 in E'. injection E' as <-. destruct (children_map k c (proj1 Fk) ltac:(lia) (proj1 (HF c gc I1))) as (OC & ZC & PC).
    rewrite Parent_eq in PC by lia. unfold below. rewrite Nat2Z.inj_succ, Z.pow_succ_r by lia. rewrite <- PC in B1, B2, B3. cbn [tX tY tZ] in *. rewrite <- !Z.div_div by (try apply Z.pow_pos_nonneg; lia). split; [lia|auto].
Qed.
Lemma seg_sound n : forall c y, (tZ t + Z.of_nat n <= 40)%Z -> reach64 m eps t (CLine l) n c (CLine y) ->
  forall p, on_line (map val y) p -> ((0 < n)%nat -> inside (- (2 / 10 ^ 11)) c p) /\ exists q, on_line (map val l) q /\ within (INR n * / 2 ^ 40) p q.
Proof.
  assert (Z0 : (0 <= tZ t)%Z) by apply M. induction n as [|n IH]; intros c y Hz R p Hp.
  - inversion R; subst. split; [lia|]. exists p. split; auto. cbn [INR]. rewrite Rmult_0_l. split; unfold Rminus; rewrite Rplus_opp_r, Rabs_R0; lra.
  - inversion R as [|n1 k gk ch c1 gc1 R1 E1 I1]; subst. destruct (keeps t _ seg_start n k gk R1 ltac:(lia)) as [(OK & Fk) Zk]. destruct Fk as [->|(lk & -> & L1 & L2)].
    + destruct (none_down m eps k G OK ltac:(lia)) as (ch' & E' & A & _ & C). rewrite E1 in E'. injection E' as <-. apply (C c (A _ _ I1)) in I1. discriminate.
    + destruct (seg_down m eps k lk _ G OK ltac:(lia) L1 L2 (seg_bound k ltac:(lia))) as (ch' & E' & A & _ & C). rewrite E1 in E'. injection E' as <-.
      destruct (C c (A _ _ I1)) as [(I & _)|(_ & [(I & _)|(y' & I & _ & _ & [S1 _])])]; [apply I in I1; discriminate|destruct (I _ I1)|]. apply I in I1. injection I1 as ->.
      destruct (S1 p Hp) as (J & q & Hq & W). split; auto. destruct (IH k lk ltac:(lia) R1 q Hq) as (_ & q' & Hq' & W'). exists q'. split; auto. rewrite S_INR.
      replace ((INR n + 1) * / 2 ^ 40) with (/ 2 ^ 40 + INR n * / 2 ^ 40) by ring. eapply within_trans; eauto.
Qed.
Lemma seg_complete n : forall c q, (tZ t + Z.of_nat n <= 40)%Z -> below t (Z.of_nat n) c -> on_line (map val l) q -> inside (2 / 10 ^ 11 + INR n * / 2 ^ 40) c q ->
  exists y, reach64 m eps t (CLine l) n c (CLine y) /\ exists p, on_line (map val y) p /\ within (INR n * / 2 ^ 40) p q.
Proof.
  assert (Z0 : (0 <= tZ t)%Z) by apply M. induction n as [|n IH]; intros c q Hz HBl Hq Hi.
  - destruct HBl as (B1 & B2 & B3). change (2 ^ Z.of_nat 0)%Z with 1%Z in *. rewrite Z.div_1_r in B2, B3.
    assert (c = t) as -> by (destruct c as [x y z], t as [x0 y0 z0]; cbn [tX tY tZ] in *; f_equal; lia). exists l. split; [constructor|]. exists q. split; auto. cbn [INR]. rewrite Rmult_0_l. split; unfold Rminus; rewrite Rplus_opp_r, Rabs_R0; lra.
  - rewrite Nat2Z.inj_succ in *. unfold Z.succ in *. destruct (below_parent t (Z.of_nat n) c M ltac:(lia) ltac:(lia) HBl) as (BP & OP & Hc). assert (ZP : tZ (Parent c) = (tZ t + Z.of_nat n)%Z) by apply BP. rewrite S_INR in *. pose proof (pos_INR n) as N0.
    assert (HiP : inside (2 / 10 ^ 11 + INR n * / 2 ^ 40) (Parent c) q).
    { destruct (ClipFeature_Proofs.child_inside (Parent c) c (proj1 (maps_agree _) OP) ltac:(lia) Hc) as (C1 & C2 & C3 & C4). unfold inside in *. lra. }
    destruct (IH (Parent c) q ltac:(lia) BP Hq HiP) as (y & R & p & Hp & W). destruct (keeps t _ seg_start n _ _ R ltac:(lia)) as [(_ & Fk) _]. destruct Fk as [K|(lk & K & L1 & L2)]; [discriminate|]. injection K as <-.
    destruct (seg_down m eps (Parent c) y _ G OP ltac:(lia) L1 L2 (seg_bound (Parent c) ltac:(lia))) as (ch & E & A & _ & C).
    assert (Hp' : inside (2 / 10 ^ 11) c p). { destruct W as [W1 W2]. apply ab in W1, W2. unfold inside in *. lra. }
    destruct (C c Hc) as [(_ & K)|(_ & [(_ & [_ K])|(y' & I & _ & _ & [_ S2])])].
    + exfalso. apply (K p Hp). unfold inside, in_strip in *. lra.
    + destruct (K p Hp Hp') as (p' & [] & _).
    + destruct (S2 p Hp Hp') as (p' & Hp'' & W'). exists y'. split; [eapply R6_down; [exact R|exact E|apply I; auto]|]. exists p'. split; auto.
      replace ((INR n + 1) * / 2 ^ 40) with (/ 2 ^ 40 + INR n * / 2 ^ 40) by ring. eapply within_trans; eauto.
Qed.
End Seg.

(** Clipping a segment down to a zoom either ends, or never ends.  If it ends, the entries are tiles of the zoom asked for under the
    first tile; they have no geometry, or a segment along the one given and in the tile; and no point well inside a tile is lost.
    If it never ends, the segment has no point well inside such a tile. *)
Theorem C143_feature : forall m eps order bb l endzoom z t, good_libm m -> (forall mp, Permutation (order mp) mp) -> in_world64 bb -> (1 <= length l <= 2)%nat -> Forall (inb 254) l ->
  GetFirstZoom64 m bb = (z, t) -> (z < endzoom <= 30)%Z ->
  (exists mp, (forall fuel, (endzoom - z <= Z.of_nat fuel)%Z -> ClipFeature64 m eps order fuel bb (CLine l) endzoom false = Ok mp) /\ mp <> [] /\ NoDup (map fst mp) /\
     (forall c gc, In (c, gc) mp -> on_map c /\ below t (endzoom - z) c /\
        (gc = CNone \/ exists y, gc = CLine y /\ (1 <= length y <= 2)%nat /\ Forall fin y /\ forall p, on_line (map val y) p -> inside (- tiny) c p /\ exists q, on_line (map val l) q /\ within tiny p q)) /\
     (forall c q, below t (endzoom - z) c -> on_line (map val l) q -> inside tiny c q -> exists y p, In (c, CLine y) mp /\ on_line (map val y) p /\ within tiny p q)) \/
  ((forall fuel, ClipFeature64 m eps order fuel bb (CLine l) endzoom false = NoFuel) /\
     forall c q, below t (endzoom - z) c -> on_line (map val l) q -> ~ inside tiny c q).
Proof.
  intros m eps order bb l endzoom z t G Hord HW HL HB EZ He.
  destruct (C135_first_zoom m bb z t G HW EZ) as [(-> & _)|(Hz & Zt & Ot & _)]; [lia|]. pose proof (seg_start t l Ot HL HB) as Hf.
  set (d := Z.to_nat (endzoom - z)). assert (Ed : Z.of_nat d = (endzoom - z)%Z) by (unfold d; lia).
  assert (CF : forall fuel, ClipFeature64 m eps order fuel bb (CLine l) endzoom false = levels64 m eps order fuel false (tZ t + Z.of_nat 0) (tZ t + Z.of_nat (0 + d)) [(t, CLine l)]).
  { intros fuel. unfold ClipFeature64. rewrite EZ. destruct (Z.leb_spec endzoom z); [lia|]. f_equal; cbn [Nat.add]; lia. }
  assert (DT : 0 <= INR d * / 2 ^ 40 /\ 2 / 10 ^ 11 + INR d * / 2 ^ 40 <= tiny).
  { assert (INR d <= 30) by (rewrite INR_IZR_INZ; apply IZR_le; lia). pose proof (pos_INR d). unfold tiny. assert (0 < / 2 ^ 40 <= 1 / 10 ^ 12) by lra. split; [nra|]. assert (INR d * / 2 ^ 40 <= 30 * (1 / 10 ^ 12)) by nra. lra. }
  assert (HM : forall c q, below t (endzoom - z) c -> on_line (map val l) q -> inside tiny c q -> exists y, reach64 m eps t (CLine l) d c (CLine y) /\ exists p, on_line (map val y) p /\ within tiny p q).
  { intros c q Hb Hq Hi. rewrite <- Ed in Hb. destruct (seg_complete m G eps t l Ot HL HB d c q ltac:(lia) Hb Hq) as (y & R & p & Hp & W); [eapply inside_mono; [|exact Hi]; lra|].
    exists y. split; auto. exists p. split; auto. eapply within_mono; [|exact W]. lra. }
  destruct (levels64_any m eps 39 z39 fits_seg fits_seg_map fits_seg_make (seg_fits_down m G eps) order Hord t (CLine l) Hf d 0 [(t, CLine l)] ltac:(lia) (holds64_start m eps t (CLine l) false)) as [(mp & E & (N & I) & Hex)|[E NR]].
  - exists t, (CLine l). constructor.
  - left. exists mp. split; [intros fuel Hfu; rewrite CF; apply E; lia|]. cbn [Nat.add] in *. split; [intros ->; destruct Hex as (c & gc & R); apply I in R; destruct R|]. split; auto. split.
    + intros c gc H. apply I in H. destruct (keeps m G eps t _ Hf d c gc H ltac:(lia)) as [(Oc & Fc) _]. split; auto. split; [rewrite <- Ed; eapply seg_below; eauto; lia|].
      destruct Fc as [->|(y & -> & Y1 & Y2)]; [auto|]. right. exists y. split; auto. split; auto. split; [eapply Forall_impl; [|exact Y2]; intros a Ha; apply Ha|]. intros p Hp. destruct (seg_sound m G eps t l Ot HL HB d c y ltac:(lia) H p Hp) as (J & q & Hq & W).
      split; [eapply inside_mono; [|apply J; lia]; unfold tiny; lra|]. exists q. split; auto. eapply within_mono; [|exact W]. lra.
    + intros c q Hb Hq Hi. destruct (HM c q Hb Hq Hi) as (y & R & p & Hp & W). exists y, p. split; auto. apply I. auto.
  - right. split; [intros fuel; rewrite CF; apply E|]. intros c q Hb Hq Hi. destruct (HM c q Hb Hq Hi) as (y & R & _). destruct (NR c (CLine y) R).
Qed.
Print Assumptions C143_feature.

(** ** What goes wrong *)
(** A line that turns back into the strip of the tile is lost whole. *)
Definition back : list (f64 * f64) := [(fint (-10), fint 10); (fint 10, fint 10); (fint (-10), fint 20)].
Lemma small_val n : (Z.abs n <= 1000)%Z -> is_finite (fint n) = true /\ B2R (fint n) = IZR n.
Proof. intros H. apply f_int. lia. Qed.
Lemma pt_val a b : (Z.abs a <= 180)%Z -> (Z.abs b <= 180)%Z -> inb 254 (fint a, fint b) /\ val (fint a, fint b) = (IZR a, IZR b).
Proof.
  intros Ha Hb. destruct (small_val a ltac:(lia)) as [A1 A2]. destruct (small_val b ltac:(lia)) as [B1 B2]. unfold inb, fin, val. cbn [fst snd]. rewrite A2, B2. split; auto. split; auto.
  split; rewrite <- abs_IZR; apply IZR_le; lia.
Qed.
Definition is_multi (g : res (@cgeom f64)) : bool := match g with Ok (CMultiLine _) => true | _ => false end.
Lemma is_multi_true g : is_multi g = true -> exists ls, g = Ok (CMultiLine ls).
Proof. destruct g as [[| | | |]| |]; try discriminate. eauto. Qed.
Theorem C143_back_refuted : forall m eps, good_libm m -> Forall (inb 255) back /\ ClipTile64 m eps (mkTile 0 0 1) (CLine back) = Ok CNone /\
  exists q, on_line (map val back) q /\ inside 5 (mkTile 0 0 1) q.
Proof.
  intros m eps G. split; [|split].
  - unfold back. repeat (apply Forall_cons; [eapply inb_mono; [|apply pt_val; lia]; lra|]). apply Forall_nil.
  - unfold ClipTile64, ClipTileB, Bounds64, Ul64. cbv zeta. cbn [e6W e6E e6N e6S fst snd tX tY tZ].
    assert (E : exists ls, clip F64Num eps (CLine back) (ul_lon 0 1) (ul_lon (0 + 1) 1) false = Ok (CMultiLine ls)) by (apply is_multi_true; vm_compute; reflexivity).
    destruct E as (ls & ->). reflexivity.
  - exists (-10, 10). split.
    + apply (on_line_vertex (map val back)). left. apply pt_val; lia.
    + assert (M : on_map (mkTile 0 0 1)) by (unfold on_map; cbn [tX tY tZ]; lia). destruct (Bounds_exact _ M) as (BW & BE & BN & BS). cbn [tX tY tZ] in *. pose proof PI_range as PR.
      assert (N2 : IZR (2 ^ 1) = 2) by reflexivity. rewrite N2 in *. cbn [Z.add] in *. unfold inside. rewrite BW, BE, BN, BS. cbn [fst snd].
      replace (PI * (1 - 2 * IZR 0 / 2)) with PI by (cbn [IZR]; field). replace (PI * (1 - 2 * (IZR 0 + 1) / 2)) with 0 by (cbn [IZR]; field).
      assert (G0 : gd 0 = 0) by (unfold gd; rewrite sinh_0; apply atan_0). rewrite G0. cbn [IZR]. pose proof gd_quarter as GQ.
      assert (180 / PI * gd (PI / 4) <= 180 / PI * gd PI) by (apply Rmult_le_compat_l; [apply Rlt_le, Rdiv_lt_0_compat; lra|apply (proj1 (gd_le _ _)); lra]). lra.
Qed.
Print Assumptions C143_back_refuted.

(** A segment in the west makes features without geometry in the east. *)
Definition west : list (f64 * f64) := [(fint (-90), fint 10); (fint (-80), fint 20)].
Theorem C143_ghost_refuted : forall m eps, good_libm m ->
  exists ents, ClipDown64 m eps (mkTile 0 0 0) (CLine west) = Ok ents /\ In (mkTile 1 0 1, CNone) ents /\ In (mkTile 1 1 1, CNone) ents.
Proof.
  intros m eps G. assert (M : on_map (mkTile 0 0 0)) by (unfold on_map; cbn [tX tY tZ]; lia). assert (HB : Forall (inb 255) west) by (unfold west; repeat (apply Forall_cons; [eapply inb_mono; [|apply pt_val; lia]; lra|]); apply Forall_nil).
  destruct (C143_down m eps (mkTile 0 0 0) west G M ltac:(cbn [tZ]; lia) ltac:(cbn [length west]; lia) HB) as (ents & E & _ & _ & C). exists ents. split; auto.
  assert (Q : forall y, (0 <= y < 2)%Z -> forall q, on_line (map val west) q -> ~ in_strip (mkTile 1 y 1) q).
  { intros y Hy q Hq. assert (L : -90 <= coord false q <= -80). { apply (on_line_conv false _ _ (map val west)); auto. intros v Hv. cbn [map west In] in Hv. destruct (pt_val (-90) 10 ltac:(lia) ltac:(lia)) as [_ V1]. destruct (pt_val (-80) 20 ltac:(lia) ltac:(lia)) as [_ V2]. rewrite V1, V2 in Hv. destruct Hv as [<-|[<-|[]]]; cbn [coord fst]; lra. }
    assert (M1 : on_map (mkTile 1 y 1)) by (unfold on_map; cbn [tX tY tZ]; change (2 ^ 1)%Z with 2%Z; lia). destruct (Bounds_exact _ M1) as (BW & _). cbn [tX tY tZ] in BW. change (IZR (2 ^ 1)) with 2 in BW. unfold in_strip. cbn [coord] in L. rewrite BW. lra. }
  rewrite Children_eq in C by lia. change (2 * 0)%Z with 0%Z in C. change (0 + 1)%Z with 1%Z in C. split.
  - apply (C (mkTile 1 0 1)); [cbn [In]; auto|]. apply Q. lia.
  - apply (C (mkTile 1 1 1)); [cbn [In]; auto|]. apply Q. lia.
Qed.
Print Assumptions C143_ghost_refuted.

(** The same segment runs one way, is inside the map and has a point well inside the tile 0/0/1. *)
Example C143_nonvacuous : good_libm exact_libm /\ on_map (mkTile 0 0 1) /\ one_way (map val west) /\ Forall (inb 254) west /\ on_line (map val west) (-90, 10) /\ inside 5 (mkTile 0 0 1) (-90, 10) /\
  in_world64 (mkExt64 (fint (-90)) (fint (-80)) (fint 20) (fint 10)).
Proof.
  destruct (pt_val (-90) 10 ltac:(lia) ltac:(lia)) as [I1 V1]. destruct (pt_val (-80) 20 ltac:(lia) ltac:(lia)) as [I2 V2].
  assert (M : on_map (mkTile 0 0 1)) by (unfold on_map; cbn [tX tY tZ]; lia). pose proof PI_range as PR. pose proof gd_quarter as GQ.
  assert (GP : 30 < 180 / PI * gd PI). { apply Rlt_le_trans with (180 / PI * gd (PI / 4)); auto. apply Rmult_le_compat_l; [apply Rlt_le, Rdiv_lt_0_compat; lra|apply (proj1 (gd_le _ _)); lra]. }
  split; [apply C118_nonvacuous|]. split; auto. split; [left; unfold west; cbn [map]; rewrite V1, V2; cbn [map fst]; repeat constructor; lra|]. split; [unfold west; apply Forall_cons; [exact I1|]; apply Forall_cons; [exact I2|apply Forall_nil]|].
  split; [apply (on_line_vertex (map val west)); left; exact V1|]. split.
  - destruct (Bounds_exact _ M) as (BW & BE & BN & BS). cbn [tX tY tZ] in *. assert (N2 : IZR (2 ^ 1) = 2) by reflexivity. rewrite N2 in *. cbn [Z.add] in *. unfold inside. rewrite BW, BE, BN, BS. cbn [fst snd].
    replace (PI * (1 - 2 * IZR 0 / 2)) with PI by (cbn [IZR]; field). replace (PI * (1 - 2 * (IZR 0 + 1) / 2)) with 0 by (cbn [IZR]; field).
    assert (G0 : gd 0 = 0) by (unfold gd; rewrite sinh_0; apply atan_0). rewrite G0. cbn [IZR]. lra.
  - unfold in_world64. cbn [e6W e6E e6S e6N]. destruct (small_val (-90) ltac:(lia)) as [A1 ->]. destruct (small_val (-80) ltac:(lia)) as [A2 ->]. destruct (small_val 10 ltac:(lia)) as [A3 ->]. destruct (small_val 20 ltac:(lia)) as [A4 ->].
    change ClipFeature_Props.max_lat with (180 / PI * gd PI). split; [auto|]. lra.
Qed.
