(** C135: clipping a polygon down to a zoom in binary64 arithmetic. *)
From Coq Require Import ZArith Reals Lia Lra Bool List Permutation.
From Flocq Require Import Core BinarySingleNaN.
From Verif Require Import GoBase Num MvtGeom_Model Tileid_Model Tileid_Proofs TileR_Model TileR_Proofs TileF64_Model TileF64_Proofs F64 ColorF64_Proofs Clip_Model Clip_Spec Clip_Proofs Clip_Props
  Tile64_Model Tile64_Proofs Tile64_Props Clip64_Props Parity_Proofs ClipPoly64_Props ClipTile64_Model ClipTile64_Proofs ClipTile64_Props ClipFeature64_Model ClipFeature64_Proofs.
From Verif Require ClipFeature_Proofs ClipFeature_Props.
Import ListNotations.
Open Scope R_scope.

(** ** Specification *)
(** A finite box inside the map, with 3e-9 degrees to spare on the east, north and south *)
Definition in_world64 (b : Ext64) : Prop :=
  (is_finite (e6W b) = true /\ is_finite (e6E b) = true /\ is_finite (e6S b) = true /\ is_finite (e6N b) = true) /\
  -180 <= B2R (e6W b) /\ B2R (e6W b) <= B2R (e6E b) /\ B2R (e6E b) <= 180 - 3 / 10 ^ 9 /\
  - ClipFeature_Props.max_lat + 3 / 10 ^ 9 <= B2R (e6S b) /\ B2R (e6S b) <= B2R (e6N b) /\ B2R (e6N b) <= ClipFeature_Props.max_lat - 3 / 10 ^ 9.
(** The four corners of the box are located in the tile *)
Definition share64 (m : libm) (b : Ext64) (z : Z) (t : TileID) : Prop :=
  Tile64 m (e6E b) (e6N b) z = t /\ Tile64 m (e6E b) (e6S b) z = t /\ Tile64 m (e6W b) (e6N b) z = t /\ Tile64 m (e6W b) (e6S b) z = t.
(** c is n zooms below t *)
Definition below (t : TileID) (n : Z) (c : TileID) : Prop := (tZ c = tZ t + n /\ tX c / 2 ^ n = tX t /\ tY c / 2 ^ n = tY t)%Z.
(** Polygons that were taken for whole tiles containing the point do contain it. *)
Definition honest (m : libm) (eps : f64) (t : TileID) (rings : list (list (f64 * f64))) (n : Z) (p : rpt) : Prop :=
  forall j k rs, (Z.of_nat j < n)%Z -> reach64 m eps t (CPolygon rings) j k (CPolygon rs) -> near_square64 m eps k (CPolygon rs) = true -> inside 0 k p -> even_odd (map (map val) rs) p = true.
(** Rings with at least one vertex, and finite coordinates between -254 and 254 *)
Definition coords254 (rings : list (list (f64 * f64))) : Prop := forall r, In r rings -> r <> [] /\ Forall (inb 254) r.

(** ** Lemmas *)
Lemma inside_mono d d' t p : d' <= d -> inside d t p -> inside d' t p.
Proof. unfold inside. intros. lra. Qed.
Lemma below_parent t n c : on_map t -> (0 <= n)%Z -> (tZ t + (n + 1) <= 44)%Z -> below t (n + 1) c -> below t n (Parent c) /\ on_map (Parent c) /\ In c (Children (Parent c)).
Proof.
  intros (O3 & O1 & O2) Hn Hz (B1 & B2 & B3). assert (K63 : (62 < 2 ^ 63)%Z) by reflexivity.
  assert (BP : below t n (Parent c)).
  { rewrite Parent_eq by lia. unfold below. cbn [tX tY tZ]. rewrite Z.pow_add_r, Z.pow_1_r in B2, B3 by lia. rewrite !Z.div_div by (try apply Z.pow_pos_nonneg; lia). rewrite (Z.mul_comm 2). repeat split; auto. lia. }
  assert (OP : on_map (Parent c)).
  { destruct BP as (P1 & P2 & P3). unfold on_map. rewrite P1. rewrite Z.pow_add_r by lia. assert (P : (0 < 2 ^ n)%Z) by (apply Z.pow_pos_nonneg; lia).
    rewrite <- P2 in O1. rewrite <- P3 in O2. split; [lia|]. split.
    - pose proof (Z.div_mod (tX (Parent c)) (2 ^ n) ltac:(lia)). pose proof (Z.mod_pos_bound (tX (Parent c)) (2 ^ n) P). nia.
    - pose proof (Z.div_mod (tY (Parent c)) (2 ^ n) ltac:(lia)). pose proof (Z.mod_pos_bound (tY (Parent c)) (2 ^ n) P). nia. }
  split; auto. split; auto. apply ClipFeature_Props.parent_child; [apply maps_agree; auto|]. lia.
Qed.

(** The square of a tile, in binary64 *)
Lemma square64_facts m t d p : good_libm m -> on_map t -> (tZ t <= 44)%Z -> 1 / 10 ^ 10 <= d -> inside d t p ->
  Forall (inb 254) (tile_square64 m t) /\ even_odd (map (map val) [tile_square64 m t]) p = true /\ clear_by (d - 1 / 10 ^ 10) (map (map val) [tile_square64 m t]) p.
Proof.
  intros G M Hz Hd Hp. pose proof (edges64 m t G M Hz) as HE. cbv zeta in HE. destruct HE as ((Fw & Fe & Fs & Fn) & Ew & Ee & Es & En). apply ab in Es, En.
  assert (RW : -180 <= eW (Bounds t) /\ eE (Bounds t) <= 180 /\ -90 < eS (Bounds t) /\ eN (Bounds t) < 90).
  { destruct (Bounds_exact t M) as (A & B & _ & _). destruct M as (M0 & M1 & M2). pose proof (ul_lon_range (tX t) (tZ t) M0 ltac:(lia)). pose proof (ul_lon_range (tX t + 1) (tZ t) M0 ltac:(lia)).
    destruct (Bounds_eq t) as (_ & _ & C & D). rewrite A, B, C, D. pose proof (edge_lat_range (IZR (tY t)) (pow2 (tZ t))). pose proof (edge_lat_range (IZR (tY t) + 1) (pow2 (tZ t))). lra. }
  unfold inside in Hp. unfold tile_square64. cbv zeta. set (b := Bounds64 m t) in *. split; [|split].
  - repeat apply Forall_cons; try apply Forall_nil; unfold inb, fin; cbn [fst snd]; (split; [auto|]); split; apply ab; lra.
  - cbn [map]. unfold val. cbn [fst snd]. apply square_inside; lra.
  - cbn [map]. unfold val. cbn [fst snd]. intros r q [<-|[]] Hq [W1 W2]. cbn [on_ring app on_line] in Hq. apply ab in W1, W2.
    repeat (destruct Hq as [Hq|Hq]; [destruct Hq as (u & Hu & A & B); cbn [fst snd] in *; nra|]). subst q. cbn [fst snd] in *. lra.
Qed.
Lemma reach_member m eps t rings D p n : good_libm m -> tol_ok eps -> on_map t -> rings <> [] -> coords254 rings -> (tZ t + Z.of_nat n <= 44)%Z ->
  margin + 46 / 10 ^ 8 * INR n <= D -> clear_by D (map (map val) rings) p -> honest m eps t rings (Z.of_nat n) p -> forall c, below t (Z.of_nat n) c -> inside D c p ->
  (exists rs, reach64 m eps t (CPolygon rings) n c (CPolygon rs) /\ even_odd (map (map val) rs) p = even_odd (map (map val) rings) p /\
     (forall r, In r rs -> r <> [] /\ Forall (inb (254 + INR n / 10 ^ 11)) r) /\ clear_by (D - 46 / 10 ^ 8 * INR n) (map (map val) rs) p) \/
  ((forall gc, ~ reach64 m eps t (CPolygon rings) n c gc) /\ even_odd (map (map val) rings) p = false).
Proof.
  intros G HT M HR HC. assert (Hf : fits64 t (CPolygon rings)) by (split; auto; exists rings; split; [auto|]; split; [auto|]; intros r Hr; apply (HC r Hr)).
  assert (Z0 : (0 <= tZ t)%Z) by apply M. unfold margin.
  induction n as [|n IH]; intros Hz HD HP HH c HB Hp.
  - left. exists rings. cbn [INR]. destruct HB as (B1 & B2 & B3). change (2 ^ Z.of_nat 0)%Z with 1%Z in *. rewrite Z.div_1_r in B2, B3.
    assert (c = t) as -> by (destruct c as [x y z], t as [x0 y0 z0]; cbn [tX tY tZ] in *; f_equal; lia). split; [constructor|]. split; auto. split.
    + intros r Hr. destruct (HC r Hr) as [A B]. split; auto. eapply Forall_impl; [|exact B]. intros a. apply inb_mono. lra.
    + replace (D - 46 / 10 ^ 8 * 0) with D by ring. auto.
  - rewrite Nat2Z.inj_succ in *. unfold Z.succ in *. destruct (below_parent t (Z.of_nat n) c M ltac:(lia) ltac:(lia) HB) as (BP & OP & Hc).
    assert (ZP : tZ (Parent c) = (tZ t + Z.of_nat n)%Z) by apply BP. rewrite S_INR in *. pose proof (pos_INR n) as N0.
    assert (NB : INR n <= 44) by (rewrite INR_IZR_INZ; apply IZR_le; lia).
    destruct (children_map (Parent c) c OP ltac:(lia) Hc) as (OC & ZC & _).
    assert (HpP : inside D (Parent c) p).
    { destruct (ClipFeature_Proofs.child_inside (Parent c) c (proj1 (maps_agree _) OP) ltac:(lia) Hc) as (C1 & C2 & C3 & C4). unfold inside in *. lra. }
    destruct (IH ltac:(lia) ltac:(lra) HP (fun j k rs Hj => HH j k rs ltac:(lia)) (Parent c) BP HpP) as [(rs & R & Ev & Hrs & Cl)|(HN & Ev)].
    + destruct (reach64_fits m G eps t _ Hf n _ _ R ltac:(lia)) as [(_ & rs' & E & Ne & Nr) _]. injection E as <-.
      destruct (near_square64 m eps (Parent c) (CPolygon rs)) eqn:NS.
      * left. exists [tile_square64 m c]. destruct (square64_facts m c D p G OC ltac:(lia) ltac:(lra) Hp) as (S1 & S2 & S3). split; [|split; [|split]].
        -- eapply (R6_down m eps t _ n (Parent c) _ (map (fun c => (c, CPolygon [tile_square64 m c])) (Children (Parent c)))); [exact R| |apply in_map_iff; exists c; split; [reflexivity|exact Hc]]. unfold ClipDown64. destruct rs as [|[|q r] l]; [congruence|destruct (Nr []); [left|]; auto|]. rewrite NS. reflexivity.
        -- rewrite S2. rewrite <- Ev. symmetry. apply (HH n (Parent c) rs); auto; [lia|]. eapply inside_mono; [|exact HpP]. lra.
        -- intros r [<-|[]]. split; [discriminate|]. eapply Forall_impl; [|exact S1]. intros a. apply inb_mono. lra.
        -- intros r q Hr Hq W. apply (S3 r q Hr Hq). eapply within_mono; [|exact W]. lra.
      * destruct (down_entries m eps (Parent c) rs G OP ltac:(lia) Ne Nr NS) as (l & E & A & B & C). destruct (C c Hc) as (w & e & s & n' & mid & out & NE & E1 & E2 & N & I).
        destruct (tile_cut eps c _ _ _ _ rs (254 + INR n / 10 ^ 11) (D - 46 / 10 ^ 8 * INR n) HT NE Hrs ltac:(lra) ltac:(lra)) as (mid' & out' & F1 & F2 & F3 & P).
        { exists p. eapply inside_mono; [|exact Hp]. lra. }
        rewrite E1 in F1. injection F1 as <-. rewrite E2 in F2. injection F2 as <-. destruct (P p) as [P1 P2]; [eapply inside_mono; [|exact Hp]; lra|auto|]. destruct out as [|f o].
        -- right. split; [|rewrite <- Ev, <- P1; reflexivity]. intros gc K. inversion K as [|n1 k gk ch c1 gc1 R1 X1 I1]; subst.
           destruct (reach64_fits m G eps t _ Hf n k gk R1 ltac:(lia)) as [Fk Zk]. destruct (down_ok m G eps k gk Fk ltac:(lia)) as (ch' & X2 & _ & HF). rewrite X1 in X2. injection X2 as <-.
           destruct (children_map k c (proj1 Fk) ltac:(lia) (proj1 (HF c gc I1))) as (_ & _ & PP). subst k.
           assert (gk = CPolygon rs) by (eapply (reach64_fun m G eps t _ Hf n (Parent c)); eauto; lia). subst gk. rewrite E in X1. injection X1 as <-. apply I in I1. tauto.
        -- left. exists (f :: o). split; [|split; [congruence|split]].
           ++ eapply R6_down; [exact R|exact E|]. apply I. split; [auto|discriminate].
           ++ intros r Hr. destruct (F3 r Hr) as [X Y]. split; auto. eapply Forall_impl; [|exact Y]. intros a. apply inb_mono. lra.
           ++ intros r q Hr Hq W. apply (P2 r q Hr Hq). eapply within_mono; [|exact W]. lra.
    + right. split; auto. intros gc K. inversion K as [|n1 k gk ch c1 gc1 R1 X1 I1]; subst.
      destruct (reach64_fits m G eps t _ Hf n k gk R1 ltac:(lia)) as [Fk Zk]. destruct (down_ok m G eps k gk Fk ltac:(lia)) as (ch' & X2 & _ & HF). rewrite X1 in X2. injection X2 as <-.
      destruct (children_map k c (proj1 Fk) ltac:(lia) (proj1 (HF c gc I1))) as (_ & _ & PP). subst k. eapply HN; eauto.
Qed.

(** ** The first zoom *)
Lemma row_spec m lat z : good_libm m -> is_finite lat = true -> (0 <= z <= 44)%Z -> - ClipFeature_Props.max_lat + 3 / 10 ^ 9 <= B2R lat <= ClipFeature_Props.max_lat - 3 / 10 ^ 9 ->
  let y := tile_row m lat z in (0 <= y < 2 ^ z)%Z /\ forall x, (0 <= x < 2 ^ z)%Z -> eS (Bounds (mkTile x y z)) - 3 / 10 ^ 9 <= B2R lat <= eN (Bounds (mkTile x y z)) + 3 / 10 ^ 9.
Proof.
  intros G F Hz HB y. pose proof PI_range as PR. change (ClipFeature_Props.max_lat) with (180 / PI * gd PI) in HB.
  pose proof (gd_bound PI) as GP. assert (B90 : 180 / PI * gd PI < 90). { apply Rmult_lt_reg_l with (PI / 180); [lra|]. replace (PI / 180 * (180 / PI * gd PI)) with (gd PI) by (field; lra). lra. }
  destruct (lat_gd (B2R lat) ltac:(lra)) as (u & E). rewrite E in HB.
  assert (Q : - (180 / PI * gd PI) = 180 / PI * gd (- PI)) by (rewrite gd_odd; ring). rewrite Q in HB.
  pose proof (gd_inner (- PI) u (3 / 10 ^ 9) ltac:(lra) ltac:(lra)) as I1. pose proof (gd_inner u PI (3 / 10 ^ 9) ltac:(lra) ltac:(lra)) as I2.
  destruct (row_near m G lat u z F E ltac:(apply ab; lra) Hz) as (v & V1 & V2). fold y in V1. unfold e12 in V2. apply ab in V2.
  assert (NP : 1 <= IZR (2 ^ z)) by (apply IZR_le; pose proof (pz z ltac:(lia)); lia). set (n := IZR (2 ^ z)) in *.
  set (k := (1 - u / PI) / 2) in *. assert (EK : u = PI * (1 - 2 * k)) by (unfold k; field; lra).
  assert (K1 : 8333 / 10 ^ 15 <= k <= 1 - 8333 / 10 ^ 15). { assert (P2 : PI * (2 * (8333 / 10 ^ 15)) <= 3 / 10 ^ 9 * (PI / 180)) by lra. split; apply Rmult_le_reg_l with (2 * PI); try lra. }
  assert (KN : 8333 / 10 ^ 15 * n <= k * n <= n - 8333 / 10 ^ 15 * n) by nra.
  assert (HY : (0 <= y < 2 ^ z)%Z). { rewrite V1. split; [apply Zfloor_lub; cbn [IZR]; lra|]. apply lt_IZR. eapply Rle_lt_trans; [apply Zfloor_lb|]. fold n. lra. }
  split; auto. intros x Hx. assert (MM : on_map (mkTile x y z)) by (unfold on_map; cbn [tX tY tZ]; lia). destruct (Bounds_exact _ MM) as (_ & _ & BN & BS). cbn [tX tY tZ] in BN, BS. fold n in BN, BS.
  rewrite BN, BS, E. pose proof (Zfloor_lb v) as L1. pose proof (Zfloor_ub v) as L2. rewrite <- V1 in L1, L2.
  assert (S180 : 0 < 180 / PI) by (apply Rdiv_lt_0_compat; lra).
  assert (GG : forall a b, a <= b + 7 / 10 ^ 12 * (2 * PI) -> 180 / PI * gd a <= 180 / PI * gd b + 3 / 10 ^ 9).
  { intros a b H. destruct (Rle_dec a b) as [L|L]; [apply (proj1 (gd_le a b)) in L; apply (Rmult_le_compat_l (180 / PI)) in L; lra|]. pose proof (gd_up a b) as U. assert (gd b <= gd a) by (apply (proj1 (gd_le b a)); lra). rewrite !Rabs_pos_eq in U by lra.
    assert (180 / PI * (gd a - gd b) <= 180 / PI * (7 / 10 ^ 12 * (2 * PI))) by (apply Rmult_le_compat_l; lra). replace (180 / PI * (7 / 10 ^ 12 * (2 * PI))) with (360 * (7 / 10 ^ 12)) in H1 by (field; lra). lra. }
  split.
  - assert (180 / PI * gd (PI * (1 - 2 * (IZR y + 1) / n)) <= 180 / PI * gd u + 3 / 10 ^ 9); [|lra]. apply GG. rewrite EK.
    assert (k <= (IZR y + 1) / n + 7 / 10 ^ 12). { apply Rmult_le_reg_r with n; [lra|]. replace (((IZR y + 1) / n + 7 / 10 ^ 12) * n) with (IZR y + 1 + 7 / 10 ^ 12 * n) by (field; lra). lra. }
    replace (2 * (IZR y + 1) / n) with (2 * ((IZR y + 1) / n)) by (field; lra). nra.
  - apply GG. rewrite EK. assert (IZR y / n - 7 / 10 ^ 12 <= k). { apply Rmult_le_reg_r with n; [lra|]. replace ((IZR y / n - 7 / 10 ^ 12) * n) with (IZR y - 7 / 10 ^ 12 * n) by (field; lra). lra. }
    replace (2 * IZR y / n) with (2 * (IZR y / n)) by (field; lra). nra.
Qed.
Lemma col_spec lng z : is_finite lng = true -> (0 <= z <= 44)%Z -> -180 <= B2R lng <= 180 - 3 / 10 ^ 9 ->
  let x := tile_col lng z in (0 <= x < 2 ^ z)%Z /\ forall y, (0 <= y < 2 ^ z)%Z -> eW (Bounds (mkTile x y z)) - 3 / 10 ^ 9 <= B2R lng <= eE (Bounds (mkTile x y z)).
Proof.
  intros F Hz HL x. pose proof (pz z ltac:(lia)) as P. assert (NP : 1 <= IZR (2 ^ z)) by (apply IZR_le; lia).
  assert (X0 : (0 <= x)%Z). { apply col_ge; auto; [lia|]. unfold Rdiv. rewrite Rmult_0_l. lra. }
  assert (X1 : (x < 2 ^ z)%Z). { apply col_lt; auto; [lia|]. unfold Rdiv. rewrite Rinv_r by lra. lra. }
  split; [lia|]. intros y Hy. assert (MM : on_map (mkTile x y z)) by (unfold on_map; cbn [tX tY tZ]; lia). destruct (Bounds_exact _ MM) as (BW & BE & _). cbn [tX tY tZ] in BW, BE. rewrite BW, BE.
  split.
  - apply Rnot_lt_le. intros K. assert ((tile_col lng z < x)%Z); [|unfold x in *; lia]. apply col_lt; auto; [lia|]. lra.
  - apply Rnot_lt_le. intros K. assert ((x + 1 <= tile_col lng z)%Z); [|unfold x in *; lia]. apply col_ge; auto; [lia|]. lra.
Qed.
Lemma locate64 m lng lat z : good_libm m -> is_finite lng = true -> is_finite lat = true -> (0 <= z <= 44)%Z -> -180 <= B2R lng <= 180 - 3 / 10 ^ 9 ->
  - ClipFeature_Props.max_lat + 3 / 10 ^ 9 <= B2R lat <= ClipFeature_Props.max_lat - 3 / 10 ^ 9 -> let t := Tile64 m lng lat z in
  on_map t /\ tZ t = z /\ eW (Bounds t) - 3 / 10 ^ 9 <= B2R lng <= eE (Bounds t) /\ eS (Bounds t) - 3 / 10 ^ 9 <= B2R lat <= eN (Bounds t) + 3 / 10 ^ 9.
Proof.
  intros G F1 F2 Hz H1 H2 t. assert (ET : t = mkTile (tile_col lng z) (tile_row m lat z) z) by (unfold t, Tile64; rewrite u64_id by (unfold in_u64; lia); reflexivity).
  destruct (col_spec lng z F1 Hz H1) as [C1 C2]. destruct (row_spec m lat z G F2 Hz H2) as [R1 R2]. rewrite ET. cbn [tZ]. split; [unfold on_map; cbn [tX tY tZ]; lia|]. split; auto.
Qed.
Lemma loop64 m b n : forall i z t, first_zoom_loop64 m n i b = (z, t) ->
  (z = 30%Z /\ t = mkTile 0 0 30 /\ forall j, (i <= j < i + Z.of_nat n)%Z -> exists t', share64 m b j t') \/
  ((i - 1 <= z < i + Z.of_nat n - 1)%Z /\ t = Tile64 m (e6E b) (e6N b) z /\ (forall j, (i <= j <= z)%Z -> exists t', share64 m b j t') /\ ~ exists t', share64 m b (z + 1) t').
Proof.
  induction n as [|n IH]; intros i z t; cbn [first_zoom_loop64].
  - intros E. injection E as <- <-. left. split; auto. split; auto. intros j Hj. lia.
  - assert (S : forallb (fun c => tile_eqb (Tile64 m (fst c) (snd c) i) (Tile64 m (e6E b) (e6N b) i)) (corners64 b) = true <-> exists t', share64 m b i t').
    { rewrite forallb_forall. unfold corners64, share64. split.
      - intros H. exists (Tile64 m (e6E b) (e6N b) i). split; auto. split; [|split]; apply tile_eqb_eq.
        + apply (H (e6E b, e6S b)). right. left. auto.
        + apply (H (e6W b, e6N b)). right. right. left. auto.
        + apply (H (e6W b, e6S b)). right. right. right. left. auto.
      - intros (t' & A & B & C & D) c Hc. apply tile_eqb_eq. cbn [In] in Hc. destruct Hc as [<-|[<-|[<-|[<-|[]]]]]; cbn [fst snd]; congruence. }
    destruct (forallb _ _) eqn:E; intros H.
    + assert (Si : exists t', share64 m b i t') by (apply S; auto). destruct (IH (i + 1)%Z z t H) as [(A & B & C)|(A & B & C & D)].
      * left. split; auto. split; auto. intros j Hj. destruct (Z.eq_dec j i) as [->|]; auto. apply C. lia.
      * right. split; [lia|]. split; auto. split; auto. intros j Hj. destruct (Z.eq_dec j i) as [->|]; auto. apply C. lia.
    + injection H as <- <-. right. split; [lia|]. split; auto. split; [intros j Hj; lia|]. replace (i - 1 + 1)%Z with i by lia. intros K. apply S in K. discriminate.
Qed.
(** The tile of the first zoom holds the box up to 3e-9 degrees and no deeper tile has all corners. *)
Theorem C135_first_zoom : forall m b z t, good_libm m -> in_world64 b -> GetFirstZoom64 m b = (z, t) ->
  (z = 30%Z /\ t = mkTile 0 0 30 /\ forall j, (0 <= j < 30)%Z -> exists t', share64 m b j t') \/
  ((0 <= z <= 28)%Z /\ tZ t = z /\ on_map t /\ share64 m b z t /\ (~ exists t', share64 m b (z + 1) t') /\
   eW (Bounds t) - 3 / 10 ^ 9 <= B2R (e6W b) /\ B2R (e6E b) <= eE (Bounds t) /\ eS (Bounds t) - 3 / 10 ^ 9 <= B2R (e6S b) /\ B2R (e6N b) <= eN (Bounds t) + 3 / 10 ^ 9).
Proof.
  intros m b z t G ((F1 & F2 & F3 & F4) & W1 & W2 & W3 & W4 & W5 & W6) H. unfold GetFirstZoom64 in H.
  destruct (loop64 m b _ 0 z t H) as [(A & B & C)|(A & B & C & D)]; [left; auto|]. right.
  assert (L : forall j, (0 <= j <= 44)%Z -> let t1 := Tile64 m (e6E b) (e6N b) j in let t2 := Tile64 m (e6W b) (e6S b) j in on_map t1 /\ tZ t1 = j /\ on_map t2 /\ tZ t2 = j) .
  { intros j Hj t1 t2. destruct (locate64 m (e6E b) (e6N b) j G F2 F4 Hj ltac:(lra) ltac:(lra)) as (X1 & X2 & _). destruct (locate64 m (e6W b) (e6S b) j G F1 F3 Hj ltac:(lra) ltac:(lra)) as (Y1 & Y2 & _). auto. }
  assert (Z0 : (0 <= z)%Z).
  { destruct (Z.eq_dec z (-1)) as [->|]; [|lia]. exfalso. apply D. exists (mkTile 0 0 0). change (-1 + 1)%Z with 0%Z.
    assert (Q : forall lng lat, is_finite lng = true -> is_finite lat = true -> -180 <= B2R lng <= 180 - 3 / 10 ^ 9 -> - ClipFeature_Props.max_lat + 3 / 10 ^ 9 <= B2R lat <= ClipFeature_Props.max_lat - 3 / 10 ^ 9 -> Tile64 m lng lat 0 = mkTile 0 0 0).
    { intros lng lat Fa Fb Ha Hb. destruct (locate64 m lng lat 0 G Fa Fb ltac:(lia) Ha Hb) as ((O1 & O2 & O3) & Z1 & _). destruct (Tile64 m lng lat 0) as [x y k]. cbn [tX tY tZ] in *. subst k. change (2 ^ 0)%Z with 1%Z in *. f_equal; lia. }
    unfold share64. rewrite !Q by (auto; lra). auto. }
  destruct (C z ltac:(lia)) as (t' & S1 & S2 & S3 & S4). assert (t' = t) as -> by congruence.
  destruct (locate64 m (e6E b) (e6N b) z G F2 F4 ltac:(lia) ltac:(lra) ltac:(lra)) as (X1 & X2 & X3 & X4). destruct (locate64 m (e6W b) (e6S b) z G F1 F3 ltac:(lia) ltac:(lra) ltac:(lra)) as (_ & _ & Y3 & Y4).
  rewrite S1 in X1, X2, X3, X4. rewrite S4 in Y3, Y4. split; [lia|]. split; auto. split; auto. split; [repeat split; auto|]. split; auto. lra.
Qed.
Print Assumptions C135_first_zoom.

Lemma reach64_below m eps t g n : good_libm m -> fits64 t g -> (tZ t + Z.of_nat n <= 44)%Z -> forall c gc, reach64 m eps t g n c gc -> below t (Z.of_nat n) c.
Proof.
  intros G Hf. assert (Z0 : (0 <= tZ t)%Z) by apply Hf. assert (K63 : (62 < 2 ^ 63)%Z) by reflexivity. induction n as [|n IH]; intros Hz c gc R.
  - inversion R; subst. unfold below. change (2 ^ Z.of_nat 0)%Z with 1%Z. rewrite !Z.div_1_r. lia.
  - inversion R as [|n1 k gk ch c1 gc1 R1 E1 I1]; subst. destruct (IH ltac:(lia) k gk R1) as (B1 & B2 & B3). destruct (reach64_fits m G eps t g Hf n k gk R1 ltac:(lia)) as [Fk Zk].
    destruct (down_ok m G eps k gk Fk ltac:(lia)) as (ch' & E' & _ & HF). rewrite E1 in E'. injection E' as <-. destruct (children_map k c (proj1 Fk) ltac:(lia) (proj1 (HF c gc I1))) as (OC & ZC & PC).
    rewrite Parent_eq in PC by lia. unfold below. rewrite Nat2Z.inj_succ, Z.pow_succ_r by lia. rewrite <- PC in B1, B2, B3. cbn [tX tY tZ] in *. rewrite <- !Z.div_div by (try apply Z.pow_pos_nonneg; lia). split; [lia|auto].
Qed.

(** The clipping of a polygon either ends, with polygons in tiles of the zoom asked for under the first tile; or it never
    ends.  If it ends, then at every point well inside such a tile and away from the outline, the polygon of the tile is right,
    and there is no polygon only if the point was outside.  If it never ends, all such points were outside. *)
Theorem C135_result : forall m eps order bb rings endzoom z t D, good_libm m -> tol_ok eps -> (forall mp, Permutation (order mp) mp) -> in_world64 bb -> rings <> [] -> coords254 rings ->
  GetFirstZoom64 m bb = (z, t) -> (z < endzoom <= 30)%Z -> margin + 46 / 10 ^ 8 * IZR (endzoom - z) <= D ->
  let sure c p := below t (endzoom - z) c /\ inside D c p /\ clear_by D (map (map val) rings) p /\ honest m eps t rings (endzoom - z) p in
  (exists mp, (forall fuel, (endzoom - z <= Z.of_nat fuel)%Z -> ClipFeature64 m eps order fuel bb (CPolygon rings) endzoom false = Ok mp) /\
     mp <> [] /\ NoDup (map fst mp) /\
     (forall c gc, In (c, gc) mp -> on_map c /\ below t (endzoom - z) c /\ exists rs, gc = CPolygon rs /\ rs <> [] /\ forall r, In r rs -> r <> []) /\
     forall c p, sure c p ->
       (exists rs, In (c, CPolygon rs) mp /\ even_odd (map (map val) rs) p = even_odd (map (map val) rings) p) \/
       ((forall gc, ~ In (c, gc) mp) /\ even_odd (map (map val) rings) p = false)) \/
  ((forall fuel, ClipFeature64 m eps order fuel bb (CPolygon rings) endzoom false = NoFuel) /\
     forall c p, sure c p -> even_odd (map (map val) rings) p = false).
Proof.
  intros m eps order bb rings endzoom z t D G HT Hord HW HR HC EZ He HD sure.
  destruct (C135_first_zoom m bb z t G HW EZ) as [(-> & _)|(Hz & Zt & Ot & _)]; [lia|].
  assert (Hf : fits64 t (CPolygon rings)) by (split; auto; exists rings; split; [auto|]; split; [auto|]; intros r Hr; apply (HC r Hr)).
  set (d := Z.to_nat (endzoom - z)). assert (Ed : Z.of_nat d = (endzoom - z)%Z) by (unfold d; lia).
  assert (CF : forall fuel, ClipFeature64 m eps order fuel bb (CPolygon rings) endzoom false = levels64 m eps order fuel false (tZ t + Z.of_nat 0) (tZ t + Z.of_nat (0 + d)) [(t, CPolygon rings)]).
  { intros fuel. unfold ClipFeature64. rewrite EZ. destruct (Z.leb_spec endzoom z); [lia|]. f_equal; cbn [Nat.add]; lia. }
  assert (HM : forall c p, sure c p ->
    (exists rs, reach64 m eps t (CPolygon rings) d c (CPolygon rs) /\ even_odd (map (map val) rs) p = even_odd (map (map val) rings) p) \/
    ((forall gc, ~ reach64 m eps t (CPolygon rings) d c gc) /\ even_odd (map (map val) rings) p = false)).
  { intros c p (S1 & S2 & S3 & S4). rewrite <- Ed in S1, S4. destruct (reach_member m eps t rings D p d G HT Ot HR HC ltac:(lia)) with (c := c) as [(rs & A & B & _)|A]; auto.
    - rewrite INR_IZR_INZ, Ed. exact HD.
    - left. exists rs. auto. }
  destruct (levels64_cases m G eps order Hord t (CPolygon rings) Hf d 0 [(t, CPolygon rings)] ltac:(lia) (holds64_start m eps t (CPolygon rings) false)) as [(mp & E & (N & I) & Hex)|[E NR]].
  - exists t, (CPolygon rings). constructor.
  - left. exists mp. split; [intros fuel Hfu; rewrite CF; apply E; lia|]. cbn [Nat.add] in *. split; [intros ->; destruct Hex as (c & gc & R); apply I in R; destruct R|]. split; auto. split.
    + intros c gc H. apply I in H. destruct (reach64_fits m G eps t _ Hf d c gc H ltac:(lia)) as [(Oc & rs & X) _]. split; auto. split; [rewrite <- Ed; eapply reach64_below; eauto; lia|eauto].
    + intros c p S. destruct (HM c p S) as [(rs & A & B)|[A B]]; [left; exists rs; split; auto; apply I; auto|]. right. split; auto. intros gc H. apply (A gc). apply I. auto.
  - right. split; [intros fuel; rewrite CF; apply E|]. intros c p S. destruct (HM c p S) as [(rs & A & B)|[A B]]; auto. destruct (NR c (CPolygon rs) A).
Qed.
Print Assumptions C135_result.

(** A thin polygon just west of the meridian of Greenwich, from 1 to 24 degrees north: adding 180 to its longitudes rounds to
    180, so it is located in a tile east of the meridian. The cut to that tile leaves nothing, and the loop never ends. *)
Definition thin1 : f64 := @B754_finite 53 1024 true 4503599627370496 (-112) eq_refl.
Definition thin2 : f64 := @B754_finite 53 1024 true 4503599627370496 (-111) eq_refl.
Definition thin : list (f64 * f64) := [(thin1, fint 1); (thin1, fint 24); (thin2, fint 24); (thin2, fint 1); (thin1, fint 1)].
Definition thin_box : Ext64 := mkExt64 thin2 thin1 (fint 24) (fint 1).
Lemma thin_vals : B2R thin1 = - / 1152921504606846976 /\ B2R thin2 = - / 576460752303423488.
Proof.
  unfold thin1, thin2, B2R, F2R. cbn [Fnum Fexp cond_Zopp Z.opp]. change (bpow radix2 (-112)) with (bpow radix2 (- (112))). change (bpow radix2 (-111)) with (bpow radix2 (- (111))).
  rewrite (bpm 112 5192296858534827628530496329220096) by (lia || reflexivity). rewrite (bpm 111 2596148429267413814265248164610048) by (lia || reflexivity). lra.
Qed.
Lemma thin_col1 z : tile_col thin1 z = tile_col (fint 0) z.
Proof. unfold tile_col. replace (fadd thin1 c180) with (fadd (fint 0) c180); [reflexivity|]. apply B2SF_inj. vm_compute. reflexivity. Qed.
Lemma thin_col2 z : tile_col thin2 z = tile_col (fint 0) z.
Proof. unfold tile_col. replace (fadd thin2 c180) with (fadd (fint 0) c180); [reflexivity|]. apply B2SF_inj. vm_compute. reflexivity. Qed.
Lemma zero_col z : (1 <= z <= 44)%Z -> tile_col (fint 0) z = (2 ^ (z - 1))%Z.
Proof.
  intros Hz. assert (E : (2 ^ z = 2 * 2 ^ (z - 1))%Z) by (replace z with (1 + (z - 1))%Z at 1 by lia; rewrite Z.pow_add_r by lia; reflexivity). pose proof (pz (z - 1) ltac:(lia)) as P.
  rewrite (col_dyadic (fint 0) (2 ^ (z - 1)) z z); try lia; [apply Z.div_mul; lia|]. rewrite E. replace (360 * 2 ^ (z - 1) - 180 * (2 * 2 ^ (z - 1)))%Z with 0%Z by lia.
  destruct (small_int 0 ltac:(lia)) as [A B]. split; auto. rewrite B. rewrite dy_eq by lia. unfold Rdiv. rewrite Rmult_0_l. reflexivity.
Qed.
Lemma gd_quarter : 30 < 180 / PI * gd (PI / 4).
Proof.
  pose proof PI_range as P. assert (T : PI / 6 < gd (PI / 4)).
  { unfold gd. rewrite <- (atan_tan (PI / 6)) by lra. apply atan_increasing. rewrite tan_PI6.
    assert (S : 17 / 10 < sqrt 3) by (rewrite <- (sqrt_Rsqr (17 / 10)) by lra; apply sqrt_lt_1; unfold Rsqr; lra).
    assert (1 / sqrt 3 < 6 / 10). { apply Rmult_lt_reg_r with (sqrt 3); [lra|]. unfold Rdiv. rewrite Rmult_assoc, Rinv_l by lra. lra. }
    unfold sinh. pose proof (exp_ineq1 (PI / 4) ltac:(lra)) as E1. assert (E2 : exp (- (PI / 4)) < 100 / 178). { rewrite exp_Ropp. replace (100 / 178) with (/ (178 / 100)) by lra. apply Rinv_lt_contravar; [apply Rmult_lt_0_compat; lra|lra]. } lra. }
  replace 30 with (180 / PI * (PI / 6)) by (field; lra). apply Rmult_lt_compat_l; [apply Rdiv_lt_0_compat; lra|auto].
Qed.
Lemma gd_eighth : 185 / 100 < 180 / PI * gd (PI / 8) <= 45 / 2.
Proof.
  pose proof PI_range as P. assert (G0 : gd 0 = 0) by (unfold gd; rewrite sinh_0; apply atan_0). assert (GP : 0 < gd (PI / 8)) by (rewrite <- G0; apply gd_increasing; lra). split.
  - pose proof (gd_low (PI / 8) 0 ltac:(apply ab; lra) ltac:(apply ab; lra)) as L. rewrite G0, !Rminus_0_r, !Rabs_pos_eq in L by lra.
    apply Rlt_le_trans with (180 / PI * (10 / 121 * (PI / 8))); [|apply Rmult_le_compat_l; [apply Rlt_le, Rdiv_lt_0_compat; lra|lra]]. replace (180 / PI * (10 / 121 * (PI / 8))) with (180 * 10 / (121 * 8)) by (field; lra). lra.
  - pose proof (gd_up (PI / 8) 0) as L. rewrite G0, !Rminus_0_r, !Rabs_pos_eq in L by lra.
    replace (45 / 2) with (180 / PI * (PI / 8)) by (field; lra). apply Rmult_le_compat_l; [apply Rlt_le, Rdiv_lt_0_compat; lra|lra].
Qed.
(** Rows of latitudes between two edges *)
Lemma row_at m lat y z : good_libm m -> is_finite lat = true -> (0 <= z <= 4)%Z -> (0 <= y < 2 ^ z)%Z ->
  180 / PI * gd (PI * (1 - 2 * (IZR y + 1) / IZR (2 ^ z))) + 3 / 10 ^ 9 <= B2R lat <= 180 / PI * gd (PI * (1 - 2 * IZR y / IZR (2 ^ z))) - 3 / 10 ^ 9 -> tile_row m lat z = y.
Proof.
  intros G F Hz Hy H. assert (P : (0 < 2 ^ z)%Z) by (apply pz; lia). assert (M : on_map (mkTile 0 y z)) by (unfold on_map; cbn [tX tY tZ]; lia).
  destruct (Bounds_exact _ M) as (BW & BE & BN & BS). cbn [tX tY tZ] in *. rewrite Z.add_0_l in BE.
  assert (N2 : IZR (2 ^ z) <= 16) by (apply IZR_le, (p43 z 4); lia). assert (N1 : 1 <= IZR (2 ^ z)) by (apply IZR_le; lia).
  assert (W1 : eW (Bounds (mkTile 0 y z)) = -180) by (rewrite BW; unfold Rdiv; rewrite Rmult_0_l; lra).
  assert (W2 : -160 <= eE (Bounds (mkTile 0 y z))). { rewrite BE. assert (/ 16 <= / IZR (2 ^ z)) by (apply Rinv_le_contravar; lra). unfold Rdiv. lra. }
  pose proof (fint_f (-179) ltac:(lia)) as [L1 L2]. pose proof (C118_locate m (mkTile 0 y z) (fint (-179)) lat G M ltac:(cbn [tZ]; lia) L1 F ltac:(rewrite L2; lra) ltac:(rewrite BN, BS; exact H)) as E.
  unfold Tile64 in E. injection E as _ E _. exact E.
Qed.
Lemma thin_rows m : good_libm m -> tile_row m (fint 1) 0 = 0%Z /\ tile_row m (fint 24) 0 = 0%Z /\ tile_row m (fint 1) 1 = 0%Z /\ tile_row m (fint 24) 1 = 0%Z /\ tile_row m (fint 1) 2 = 1%Z /\ tile_row m (fint 24) 2 = 1%Z /\
  tile_row m (fint 1) 3 = 3%Z /\ tile_row m (fint 24) 3 = 3%Z /\ tile_row m (fint 1) 4 = 7%Z /\ tile_row m (fint 24) 4 = 6%Z.
Proof.
  intros G. pose proof PI_range as P. pose proof gd_quarter as GQ. pose proof gd_eighth as GE. pose proof (fint_f 1 ltac:(lia)) as [A1 A2]. pose proof (fint_f 24 ltac:(lia)) as [B1 B2].
  assert (S180 : 0 < 180 / PI) by (apply Rdiv_lt_0_compat; lra). assert (G0 : 180 / PI * gd 0 = 0) by (unfold gd; rewrite sinh_0, atan_0; ring).
  assert (GM : forall a b, a <= b -> 180 / PI * gd a <= 180 / PI * gd b) by (intros a b H; apply Rmult_le_compat_l; [lra|apply (proj1 (gd_le a b)); auto]).
  pose proof (GM (PI / 4) (PI / 2) ltac:(lra)) as G1. pose proof (GM (PI / 2) PI ltac:(lra)) as G2. pose proof (GM (- PI) 0 ltac:(lra)) as G3. assert (GN : 180 / PI * gd (- PI) = - (180 / PI * gd PI)) by (rewrite gd_odd; ring).
  repeat match goal with |- _ /\ _ => split end; (apply row_at; [assumption|assumption|lia|vm_compute; split; congruence|]); rewrite ?A2, ?B2.
  all: match goal with |- context [IZR (2 ^ ?z)] => let v := eval compute in (2 ^ z)%Z in change (2 ^ z)%Z with v end.
  all: repeat match goal with |- context [gd (PI * ?e)] =>
    first [replace (PI * e) with (- PI) by field | replace (PI * e) with 0 by field | replace (PI * e) with PI by field | replace (PI * e) with (PI / 2) by field | replace (PI * e) with (PI / 4) by field | replace (PI * e) with (PI / 8) by field] end; lra.
Qed.
Lemma thin_first m : good_libm m -> GetFirstZoom64 m thin_box = (3%Z, mkTile 4 3 3).
Proof.
  intros G. destruct (thin_rows m G) as (r0 & s0 & r1 & s1 & r2 & s2 & r3 & s3 & r4 & s4).
  assert (C0 : tile_col (fint 0) 0 = 0%Z). { destruct (small_int 0 ltac:(lia)) as [A B]. pose proof (col_spec (fint 0) 0 A ltac:(lia) ltac:(rewrite B; lra)) as [H _]. change (2 ^ 0)%Z with 1%Z in H. lia. }
  unfold GetFirstZoom64. change 30%nat with (S (S (S (S (S 25))))). cbn [first_zoom_loop64]. unfold corners64, thin_box. cbn [e6W e6E e6N e6S forallb fst snd]. unfold Tile64.
  rewrite !thin_col1, !thin_col2.
  change (0 + 1)%Z with 1%Z. change (1 + 1)%Z with 2%Z. change (2 + 1)%Z with 3%Z. change (3 + 1)%Z with 4%Z. change (4 - 1)%Z with 3%Z.
  rewrite C0, !(zero_col 1), !(zero_col 2), !(zero_col 3), !(zero_col 4) by lia. rewrite r0, s0, r1, s1, r2, s2, r3, s3, r4, s4. reflexivity.
Qed.
Definition sf_empty (g : res (@cgeom f64)) : bool := match g with Ok (CPolygon []) => true | _ => false end.
Lemma sf_empty_inj g : sf_empty g = true -> g = Ok (CPolygon []).
Proof. destruct g as [[| |[|x l]| |]| |]; try discriminate. reflexivity. Qed.
Lemma thin_down m : ClipDown64 m power7_64 (mkTile 4 3 3) (CPolygon [thin]) = Ok [].
Proof.
  unfold ClipDown64, thin. cbv iota. fold thin.
  assert (NS : near_square64 m power7_64 (mkTile 4 3 3) (CPolygon [thin]) = false).
  { unfold near_square64, thin. cbv iota. apply andb_false_iff. right. unfold DeltaBounds64. rewrite (andb_comm (Bltb (Babs (fsub (e6W _) (e6W _))) _)).
    replace (Bltb (Babs (fsub (e6E (ring_box64 (thin1, fint 1) [(thin1, fint 24); (thin2, fint 24); (thin2, fint 1); (thin1, fint 1)])) (e6E (Bounds64 m (mkTile 4 3 3))))) power7_64) with false; [reflexivity|].
    vm_compute. reflexivity. }
  rewrite NS. rewrite Children_eq by lia. cbv zeta. change (2 * 4)%Z with 8%Z. change (2 * 3)%Z with 6%Z. change (3 + 1)%Z with 4%Z. change (8 + 1)%Z with 9%Z. change (6 + 1)%Z with 7%Z.
  unfold Bounds64, Ul64. cbv zeta. cbn [e6W e6E e6N e6S fst snd tX tY tZ].
  rewrite (sf_empty_inj (clip F64Num power7_64 (CPolygon [thin]) (ul_lon 4 3) (ul_lon (8 + 1) 4) false)) by (vm_compute; reflexivity).
  rewrite (sf_empty_inj (clip F64Num power7_64 (CPolygon [thin]) (ul_lon (8 + 1) 4) (ul_lon (4 + 1) 3) false)) by (vm_compute; reflexivity).
  reflexivity.
Qed.
Theorem C135_hang_refuted : forall m order, good_libm m -> (forall mp, Permutation (order mp) mp) ->
  in_world64 thin_box /\ coords254 [thin] /\ Forall (fun p => B2R (e6W thin_box) <= B2R (fst p) <= B2R (e6E thin_box) /\ B2R (e6S thin_box) <= B2R (snd p) <= B2R (e6N thin_box)) thin /\
  forall fuel, ClipFeature64 m power7_64 order fuel thin_box (CPolygon [thin]) 4 false = NoFuel.
Proof.
  intros m order G Hord. destruct thin_vals as [T1 T2]. pose proof (fint_f 1 ltac:(lia)) as [A1 A2]. pose proof (fint_f 24 ltac:(lia)) as [B1 B2]. pose proof ClipFeature_Props.max_lat_45 as ML.
  split; [|split; [|split]].
  - unfold in_world64, thin_box. cbn [e6W e6E e6N e6S]. rewrite T1, T2, A2, B2. split; [auto|]. lra.
  - intros r [<-|[]]. split; [discriminate|]. unfold thin. repeat apply Forall_cons; try apply Forall_nil; unfold inb, fin; cbn [fst snd]; rewrite ?T1, ?T2, ?A2, ?B2; (split; [auto|]); split; apply ab; lra.
  - unfold thin, thin_box. cbn [e6W e6E e6N e6S]. repeat apply Forall_cons; try apply Forall_nil; cbn [fst snd]; rewrite ?T1, ?T2, ?A2, ?B2; lra.
  - intros fuel. unfold ClipFeature64. rewrite (thin_first m G). destruct (Z.leb_spec 4 3); [lia|]. destruct fuel as [|fuel]; [reflexivity|]. cbn [levels64]. destruct (Z.leb_spec 4 3); [lia|].
    rewrite (Permutation_length_1_inv (Permutation_sym (Hord [(mkTile 4 3 3, CPolygon [thin])]))). cbn [visit64 tZ]. change (wrap64 3 =? 3)%Z with true. cbv iota. rewrite thin_down. cbn [bind map_res fold_left].
    change (del64 [(mkTile 4 3 3, CPolygon [thin])] (mkTile 4 3 3)) with (@nil (TileID * @cgeom f64)). cbn [visit64 bind fst snd]. apply levels64_empty; auto; lia.
Qed.
Print Assumptions C135_hang_refuted.

(** The square from -20 to 20 around the origin, the point (12, 12) and the tile 1/0 of zoom 1 *)
Definition plate : list (f64 * f64) := [(fint (-20), fint (-20)); (fint 20, fint (-20)); (fint 20, fint 20); (fint (-20), fint 20); (fint (-20), fint (-20))].
Definition plate_box : Ext64 := mkExt64 (fint (-20)) (fint 20) (fint 20) (fint (-20)).
Example C135_nonvacuous : good_libm exact_libm /\ tol_ok power7_64 /\ in_world64 plate_box /\ coords254 [plate] /\ GetFirstZoom64 exact_libm plate_box = (0%Z, mkTile 0 0 0) /\
  below (mkTile 0 0 0) 1 (mkTile 1 0 1) /\ inside (/ 1000000) (mkTile 1 0 1) (12, 12) /\ clear_by (/ 1000000) (map (map val) [plate]) (12, 12) /\
  honest exact_libm power7_64 (mkTile 0 0 0) [plate] 1 (12, 12) /\ margin + 46 / 10 ^ 8 * IZR (1 - 0) <= / 1000000 /\ even_odd (map (map val) [plate]) (12, 12) = true /\
  exists mp rs, (forall fuel, (1 <= Z.of_nat fuel)%Z -> ClipFeature64 exact_libm power7_64 (fun mp => mp) fuel plate_box (CPolygon [plate]) 1 false = Ok mp) /\
    In (mkTile 1 0 1, CPolygon rs) mp /\ even_odd (map (map val) rs) (12, 12) = true.
Proof.
  pose proof (fint_f 20 ltac:(lia)) as [A1 A2]. pose proof (fint_f (-20) ltac:(lia)) as [B1 B2]. pose proof ClipFeature_Props.max_lat_45 as ML. pose proof (proj1 C118_nonvacuous) as G.
  assert (EV : map val plate = [(-20, -20); (20, -20); (20, 20); (-20, 20); (-20, -20)]) by (unfold plate, val; cbn [map fst snd]; rewrite A2, B2; reflexivity).
  assert (H3 : in_world64 plate_box) by (unfold in_world64, plate_box; cbn [e6W e6E e6N e6S]; rewrite A2, B2; split; [auto|]; lra).
  assert (H4 : coords254 [plate]). { intros r [<-|[]]. split; [discriminate|]. unfold plate. repeat apply Forall_cons; try apply Forall_nil; unfold inb, fin; cbn [fst snd]; rewrite ?A2, ?B2; (split; [auto|]); split; apply ab; lra. }
  assert (H5 : GetFirstZoom64 exact_libm plate_box = (0%Z, mkTile 0 0 0)).
  { destruct (GetFirstZoom64 exact_libm plate_box) as [z t] eqn:E. 
    assert (C1 : (1 <= tile_col (fint 20) 1)%Z) by (apply col_ge; [lia|change (2 ^ 1)%Z with 2%Z; lia|auto|change (IZR (2 ^ 1)) with 2; rewrite A2; lra]).
    assert (C2 : (tile_col (fint (-20)) 1 < 1)%Z) by (apply col_lt; [lia|change (2 ^ 1)%Z with 2%Z; lia|auto|change (IZR (2 ^ 1)) with 2; rewrite B2; lra]).
    assert (N1 : ~ exists t', share64 exact_libm plate_box 1 t'). { intros (t' & S1 & _ & _ & S4). unfold Tile64, plate_box in S1, S4. cbn [e6W e6E e6N e6S] in *. rewrite <- S4 in S1. apply (f_equal tX) in S1. cbn [tX] in S1. change (tile_col (fint 20) 1 = tile_col (fint (-20)) 1) in S1. rewrite S1 in C1. apply (Z.lt_irrefl 1). eapply Z.le_lt_trans; eassumption. }
    unfold GetFirstZoom64 in E. destruct (C135_first_zoom _ _ _ _ G H3 E) as [(_ & _ & K)|(Hz & Zt & (O1 & O2 & O3) & _ & _)]; [destruct N1; apply K; lia|].
    destruct (loop64 _ _ _ _ _ _ E) as [(_ & _ & K)|(_ & _ & K & _)]; [destruct N1; apply K; lia|]. assert (z = 0%Z). { destruct (Z.eq_dec z 0); auto. destruct N1. apply K. lia. }
    subst z. destruct t as [x y k]. cbn [tX tY tZ] in *. subst k. change (2 ^ 0)%Z with 1%Z in *. f_equal. f_equal; lia. }
  assert (H6 : below (mkTile 0 0 0) 1 (mkTile 1 0 1)) by (repeat split; reflexivity).
  assert (H7 : inside (/ 1000000) (mkTile 1 0 1) (12, 12)).
  { unfold inside. destruct (Bounds_eq (mkTile 1 0 1)) as (A & B & C & D). cbn [tX tY tZ] in *. rewrite A, B, C, D. replace (pow2 1) with 2 by (rewrite pow2_IZR by lia; reflexivity). unfold edge_lat, gd.
    replace (PI * (1 - 2 * (0 + 1) / 2)) with 0 by field. rewrite sinh_0, atan_0. replace (PI * (1 - 2 * 0 / 2)) with PI by field. unfold ClipFeature_Props.max_lat in ML. cbn [fst snd]. lra. }
  assert (H8 : clear_by (/ 1000000) (map (map val) [plate]) (12, 12)).
  { cbn [map]. rewrite EV. intros r q [<-|[]] Hq [W1 W2]. cbn [on_ring app on_line fst snd] in *. apply ab in W1, W2.
    repeat (destruct Hq as [Hq|Hq]; [destruct Hq as (u & Hu & A & B); cbn [fst snd] in *; lra|]). subst q. cbn [fst snd] in *. lra. }
  assert (HE : even_odd (map (map val) [plate]) (12, 12) = true).
  { cbn [map]. rewrite EV. cbn [even_odd fold_right ring_edges edges app parity]. unfold crosses. cbn [fst snd].
    rewrite (proj2 (Rleb_true (-20) 12)), (proj2 (Rleb_false 20 12)) by lra. cbn [xorb andb]. rewrite (proj2 (Rltb_false _ _)) by lra. rewrite (proj2 (Rltb_true _ _)) by lra. reflexivity. }
  assert (H9 : honest exact_libm power7_64 (mkTile 0 0 0) [plate] 1 (12, 12)). { intros j k rs Hj R _ _. assert (j = 0)%nat by lia. subst j. inversion R; subst. exact HE. }
  assert (HD : margin + 46 / 10 ^ 8 * IZR (1 - 0) <= / 1000000) by (unfold margin; change (1 - 0)%Z with 1%Z; lra).
  repeat (split; [first [assumption|exact power7_ok]|]).
  destruct (C135_result exact_libm power7_64 (fun mp => mp) plate_box [plate] 1 0 (mkTile 0 0 0) (/ 1000000) G power7_ok ltac:(intros; apply Permutation_refl) H3 ltac:(discriminate) H4 H5 ltac:(lia) HD) as [(mp & E & _ & _ & _ & Q)|[_ Q]].
  - destruct (Q (mkTile 1 0 1) (12, 12)) as [(rs & I & Ev)|[_ Ev]]; [split; [|split; [|split]]; assumption| |congruence]. exists mp, rs. split; auto. split; auto. congruence.
  - specialize (Q (mkTile 1 0 1) (12, 12) ltac:(split; [|split; [|split]]; assumption)). congruence.
Qed.
