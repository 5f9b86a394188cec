(** Property C148: polygons written to a tile and read from it, in binary64: the same points are inside. *)
From Coq Require Import ZArith List Lia Bool Reals Lra.
From Flocq Require Import Core BinarySingleNaN.
From Verif Require Import GoBase Num Tileid_Model TileR_Model TileR_Proofs TileF64_Model TileF64_Proofs F64 ColorF64_Model ColorF64_Proofs Tile64_Model Tile64_Proofs Tile64_Props
  MvtProj_Proofs MvtProj64_Model MvtProj64_Proofs MvtProj64_Props Pbf_Model MvtGeom_Model MvtGeom_Spec MvtLayer_Model MvtLayer_Spec Clip_Model Clip_Spec Clip_Proofs Clip64_Proofs Clip64_Props Parity_Proofs ClipPoly64_Props ClipTile64_Model ClipTile64_Proofs ClipTile64_Props
  ClipLine64_Proofs ClipLine64_Props
  Pbf_Proofs MvtGeo_Model Decode64_Model MvtAgain64_Model MvtTile_Props MvtLayer_Props MvtGeo64_Model MvtGeo64_Proofs MvtGeo64_Props MvtRead64_Model MvtRead64_Props TileLine64_Proofs TileLine64_Props TilePoly64_Proofs.
From Verif Require MvtGeo_Props.
Import ListNotations.
Open Scope R_scope.

(** ** Specification *)
(** A ring with vertices in the tile, up to 1e-10 degrees, and between 85 degrees south and north *)
Definition ring_in (t : TileID) (r : list lnglat64) : Prop := r <> [] /\ Forall (fun p => fin p /\ Rabs (B2R (snd p)) <= 85 + / 1000 /\ inside (- tiny) t (val p)) r.
(** Whatever grid points next to the vertices are taken, the outer ring encloses area. *)
Definition has_area (eb : bool) (t : TileID) (e : Z) (rs : list (list lnglat64)) : Prop :=
  match rs with [] => True | o :: _ => forall gs, Forall2 (next_to eb t e) o gs -> surveyor gs <> 0%Z end.
Definition poly_in (t : TileID) (rs : list (list lnglat64)) : Prop := rs <> [] /\ Forall (ring_in t) rs.
(** The same number of rings, and the same points inside, except next to the outline *)
Definition same_inside (d : R) (rs rs' : list (list lnglat64)) : Prop :=
  length rs = length rs' /\ forall p, clear_by d (map (map val) rs) p -> even_odd (map (map val) rs') p = even_odd (map (map val) rs) p.

(** ** Lemmas *)
Lemma F2_flip {A B} (P : A -> B -> Prop) l l' : Forall2 P l l' -> Forall2 (fun b a => P a b) l' l.
Proof. induction 1; constructor; auto. Qed.
Lemma F2_rev {A B} (P : A -> B -> Prop) l l' : Forall2 P l l' -> Forall2 P (rev l) (rev l').
Proof. induction 1; cbn [rev]; [constructor|]. apply Forall2_app; [assumption|constructor; [assumption|constructor]]. Qed.
Section OneRing.
Context (eb : bool) (t : TileID) (e : Z) (gr : lnglat64 -> Z * Z) (F : fine t e) (H2 : (2 <= e)%Z) (HG : gridding eb t e gr).
Lemma ring_same outer r r' p : ring_in t r -> ring64 t e gr outer r r' -> (forall q, on_ring (map val r) q -> ~ within (unit_off t e) p q) -> parity p (ring_edges (map val r')) = parity p (ring_edges (map val r)).
Proof.
  intros (_ & HR) (c & gs & ws & (f & Hf & CL) & SQ & WS & _ & AT) HC. set (d := 180 / IZR (e * 2 ^ tZ t)).
  assert (Hf' : hd_error (map val r) = Some (val f)) by (destruct r; [discriminate|]; cbn [nth_error] in Hf; cbn [map hd_error]; congruence). assert (If : In f r) by (apply nth_error_In in Hf; exact Hf).
  assert (PC : parity p (ring_edges (map val c)) = parity p (ring_edges (map val r)) /\ (forall q, on_ring (map val c) q -> on_ring (map val r) q) /\ forall x, In x c -> In x r).
  { destruct CL as [(_ & ->)|(_ & ->)]; [auto|]. rewrite map_app. cbn [map]. split; [|split].
    - destruct (map val r) as [|h k] eqn:E; [discriminate|]. cbn [hd_error] in Hf'. assert (h = val f) as -> by congruence. apply (ring_hd _ (val f) k). reflexivity.
    - intros q. apply closed_on. exact Hf'.
    - intros x Hx. apply in_app_iff in Hx. destruct Hx as [Hx|[<-|[]]]; auto. }
  destruct PC as (P0 & ON & IC). rewrite <- P0.
  assert (A2 : Forall2 (within (d + 39 / 10 ^ 10)) (map val c) (map (place t e) (map gr c))).
  { rewrite Forall_forall in HR. clear - F H2 HG HR IC. induction c as [|x c IH]; cbn [map]; constructor; [|apply IH; intros y Hy; apply IC; right; exact Hy]. destruct (HR x (IC x (or_introl eq_refl))) as (F1 & F2 & F3). apply within_sym. apply (snap t e F eb x (gr x)); auto. apply (proj2 HG), in_placed; auto. }
  assert (AV : exists k, (r' = k \/ r' = rev k) /\ Forall2 (within (27 / 10 ^ 13)) (map (place t e) gs) (map val k)).
  { assert (W : forall gs k, Forall2 (at_grid t e) gs k -> Forall2 (within (27 / 10 ^ 13)) (map (place t e) gs) (map val k)) by (clear; induction 1 as [|g p gs l' A _ IH]; cbn [map]; constructor; auto; apply within_sym; apply (at_place t e g p A)).
    destruct WS as [-> | ->]; [exists r'; auto|]. exists (rev r'). rewrite rev_involutive. split; [auto|]. apply W. apply F2_rev in AT. rewrite rev_involutive in AT. exact AT. }
  destruct AV as (k & KR & A3). assert (KP : parity p (ring_edges (map val r')) = parity p (ring_edges (map val k))) by (destruct KR as [-> | ->]; [reflexivity|rewrite map_rev; apply ring_rev]). rewrite KP.
  assert (C1 : forall q, on_ring (map val c) q -> ~ within (d + 39 / 10 ^ 10) p q) by (intros q Hq W; apply (HC q (ON q Hq)); eapply within_mono; [|exact W]; unfold unit_off; fold d; lra).
  assert (C2 : forall q, on_ring (map (place t e) gs) q -> ~ within (27 / 10 ^ 13) p q).
  { intros q Hq W. apply (sq_on_ring (place t e) q _ _ SQ) in Hq. destruct (ring_within _ _ _ q (F2_sym _ _ _ A2) Hq) as (q' & Hq' & W'). apply (HC q' (ON q' Hq')). eapply within_mono; [|eapply within_trans; [exact W|exact W']]. unfold unit_off. fold d. lra. }
  rewrite (moved_ring p _ _ _ A2 C1), (sq_ring (place t e) p _ _ SQ). symmetry. apply (moved_ring p _ _ _ A3 C2).
Qed.
Lemma shape_same rs rs' : Forall (ring_in t) rs -> shape64 t e gr rs rs' -> same_inside (unit_off t e) rs rs'.
Proof.
  intros HR HS. destruct rs as [|o hs], rs' as [|o' hs']; try destruct HS as []. inversion HR as [|? ? R1 R2]; subst. split; [cbn [length]; f_equal; eapply F2_length; eauto|].
  intros p HC. cbn [map]. rewrite !even_odd_cons. f_equal; [apply (ring_same true o o' p R1 H); intros q Hq; apply (HC (map val o) q); [left; reflexivity|exact Hq]|].
  assert (HC' : clear_by (unit_off t e) (map (map val) hs) p) by (intros r q Hr; apply HC; right; exact Hr). clear - R2 H0 HC' F H2 HG. induction H0 as [|h h' hs hs' A _ IH]; [reflexivity|]. inversion R2; subst. cbn [map]. rewrite !even_odd_cons. f_equal.
  - apply (ring_same false h h' p); auto. intros q Hq. apply (HC' (map val h) q); [left; reflexivity|exact Hq].
  - apply IH; [assumption|]. intros r q Hr. apply HC'. right. exact Hr.
Qed.
End OneRing.
Lemma rings_fit eb t e rs : fine t e -> (2 <= e <= 23168)%Z -> poly_in t rs -> rings_fit64 eb t e rs.
Proof.
  intros F He (NE & HR). split; [exact NE|]. eapply Forall_impl; [|exact HR]. intros r (N & H). split; [exact N|]. eapply Forall_impl; [|exact H]. intros p (F1 & F2 & F3). split; [apply in_placed; auto; lia|]. destruct eb; [lia|].
  destruct (in_units t e F tiny p ltac:(unfold tiny; lra) F1 F2 F3) as [X Y]. pose proof (N_range t e F) as NR. assert (E2 : 2 <= IZR e <= 23168) by (split; apply IZR_le; lia). assert (T : IZR (e * 2 ^ tZ t) * (tiny / 360) <= 1 / 4 /\ IZR (e * 2 ^ tZ t) * (121 / 10 * tiny / 360) <= 1 / 4) by (unfold tiny; lra). split; apply ab; lra.
Qed.

(** ** Theorems *)
Theorem C148_polygon : forall m mExp t e eb name ver pt id rs, good_proj m mExp -> fine t e -> (2 <= e <= 23168)%Z -> (zlen name <= 2 ^ 32)%Z -> (- 2 ^ 63 <= ver < 2 ^ 63)%Z -> (- 2 ^ 63 <= id < 2 ^ 63)%Z ->
  poly_in t rs -> (Z.of_nat (words (XPolygon rs)) <= 2 ^ 21)%Z ->
  exists bs, WriteLayer64 m [mkFeat (IDInt id) [] (Some (XPolygon rs))] (mkCfg t name e ver eb pt) = Ok bs /\ forall fuel, (length bs + 4 < fuel)%nat ->
  exists gf rs', ReadTile64 m mExp fuel pt bs t = OValue [gf] /\ g6ID gf = id /\ g6Geom gf = XPolygon rs' /\ same_inside (unit_off t e) rs rs'.
Proof.
  intros m mExp t e eb name ver pt id rs G F He HN HV HI HP HW. assert (D : drawable64 eb t e (XPolygon rs)) by (split; [exact HW|apply rings_fit; assumption]).
  destruct (one_read m mExp t e eb name ver pt id _ G F HN HV HI D) as (bs & E & R). exists bs. split; [exact E|]. intros fuel Hf. destruct (R fuel Hf) as (gf & R1 & R2 & gr & R3 & R4). cbn [faithful64] in R4. destruct (g6Geom gf) as [a1|a2|rs'|a4|a5|a6|] eqn:EG; try contradiction.
  exists gf, rs'. split; [exact R1|]. split; [exact R2|]. split; [exact EG|]. apply (shape_same eb t e gr F ltac:(lia) R3); [apply HP|exact R4].
Qed.
Print Assumptions C148_polygon.

(** Several polygons, all but the first with area on the grid: as many are read, in order, each with the same points inside *)
Theorem C148_multipolygon : forall m mExp t e eb name ver pt id ps, good_proj m mExp -> fine t e -> (2 <= e <= 23168)%Z -> (zlen name <= 2 ^ 32)%Z -> (- 2 ^ 63 <= ver < 2 ^ 63)%Z -> (- 2 ^ 63 <= id < 2 ^ 63)%Z ->
  ps <> [] -> Forall (poly_in t) ps -> Forall (has_area eb t e) (tl ps) -> (Z.of_nat (words (XMultiPolygon ps)) <= 2 ^ 21)%Z ->
  exists bs, WriteLayer64 m [mkFeat (IDInt id) [] (Some (XMultiPolygon ps))] (mkCfg t name e ver eb pt) = Ok bs /\ forall fuel, (length bs + 4 < fuel)%nat ->
  exists gf ps', ReadTile64 m mExp fuel pt bs t = OValue [gf] /\ g6ID gf = id /\ ((exists rs', g6Geom gf = XPolygon rs' /\ ps' = [rs']) \/ ((2 <= length ps')%nat /\ g6Geom gf = XMultiPolygon ps')) /\ Forall2 (same_inside (unit_off t e)) ps ps'.
Proof.
  intros m mExp t e eb name ver pt id ps G F He HN HV HI NE HP HA HW. assert (D : drawable64 eb t e (XMultiPolygon ps)) by (split; [exact HW|split; [exact NE|split; [eapply Forall_impl; [|exact HP]; intros rs; apply rings_fit; assumption|exact HA]]]).
  destruct (one_read m mExp t e eb name ver pt id _ G F HN HV HI D) as (bs & E & R). exists bs. split; [exact E|]. intros fuel Hf. destruct (R fuel Hf) as (gf & R1 & R2 & gr & R3 & R4). cbn [faithful64] in R4.
  assert (SS : forall rs rs', poly_in t rs -> shape64 t e gr rs rs' -> same_inside (unit_off t e) rs rs') by (intros rs rs' H K; apply (shape_same eb t e gr F ltac:(lia) R3); [apply H|exact K]).
  destruct ps as [|rs [|rs2 ps]]; [congruence| |].
  - pose proof (Forall_inv HP) as HP1. destruct (g6Geom gf) as [a1|a2|rs'|a4|a5|a6|] eqn:EG; try contradiction. exists gf, [rs']. split; [exact R1|]. split; [exact R2|]. split; [left; eauto|]. constructor; [apply SS; assumption|constructor].
  - destruct (g6Geom gf) as [a1|a2|a3|a4|a5|ps'|] eqn:EG; try contradiction. exists gf, ps'. split; [exact R1|]. split; [exact R2|]. split; [right; split; [rewrite <- (F2_length _ _ _ R4); cbn [length]; lia|exact EG]|].
    clear - SS R4 HP. induction R4; inversion HP; subst; constructor; auto.
Qed.
Print Assumptions C148_multipolygon.

(** ** An example: a triangle in the north western quarter of the map *)
Definition three : list lnglat64 := [(fint (-100), fint 10); (fint (-50), fint 10); (fint (-50), fint 40)].
Example C148_nonvacuous : let t := mkTile 0 0 1 in good_proj exact_libm exact_exp /\ fine t 4096 /\ poly_in t [three] /\ has_area true t 4096 [three] /\
  even_odd [map val three] (-55, 15) = true /\ clear_by (unit_off t 4096) (map (map val) [three]) (-55, 15) /\
  exists bs gf rs', WriteLayer64 exact_libm [mkFeat (IDInt 7) [] (Some (XPolygon [three]))] (mkCfg t [97%Z] 4096 2 true 0) = Ok bs /\
    ReadTile64 exact_libm exact_exp (length bs + 5) 0 bs t = OValue [gf] /\ g6ID gf = 7%Z /\ g6Geom gf = XPolygon rs' /\ even_odd (map (map val) rs') (-55, 15) = true.
Proof.
  intros t. pose proof (proj1 C120_nonvacuous) as G. assert (M : on_map t) by (unfold on_map, t; cbn [tX tY tZ]; lia). assert (F : fine t 4096) by (split; [exact M|split; [lia|discriminate]]). pose proof PI_range as PR. pose proof gd_PI as GP.
  destruct (fint_f 10 ltac:(lia)) as [F10 V10]. destruct (fint_f 40 ltac:(lia)) as [F40 V40]. destruct (fint_f (-100) ltac:(lia)) as [Fa Va]. destruct (fint_f (-50) ltac:(lia)) as [Fb Vb].
  destruct (Bounds_exact t M) as (BW & BE & BN & BS). cbn [t tX tY tZ] in BW, BE, BN, BS. change (IZR (0 + 1)) with 1 in *. change (IZR (2 ^ 1)) with 2 in *.
  replace (PI * (1 - 2 * 0 / 2)) with PI in BN by field. replace (PI * (1 - 2 * (0 + 1) / 2)) with 0 in BS by field. assert (G0 : gd 0 = 0) by (unfold gd; rewrite sinh_0; apply atan_0). rewrite G0, Rmult_0_r in BS.
  assert (IN : forall x y, is_finite x = true -> is_finite y = true -> -170 <= B2R x <= -10 -> 5 <= B2R y <= 80 -> fin (x, y) /\ Rabs (B2R (snd (x, y))) <= 85 + / 1000 /\ inside (- tiny) t (val (x, y))).
  { intros x y X Y HX HY. split; [split; assumption|]. unfold inside, val, tiny. cbn [fst snd]. split; [apply ab; lra|]. fold t in BW, BE, BN, BS. rewrite BW, BE, BN, BS. lra. }
  assert (I1 := IN (fint (-100)) (fint 10) Fa F10 ltac:(lra) ltac:(lra)). assert (I2 := IN (fint (-50)) (fint 10) Fb F10 ltac:(lra) ltac:(lra)). assert (I3 := IN (fint (-50)) (fint 40) Fb F40 ltac:(lra) ltac:(lra)).
  assert (NV : map val three = [(-100, 10); (-50, 10); (-50, 40)]) by (unfold three, val; cbn [map fst snd]; rewrite V10, V40, Va, Vb; reflexivity).
  assert (GRID : forall p g, fin p /\ Rabs (B2R (snd p)) <= 85 + / 1000 /\ inside (- tiny) t (val p) -> next_to true t 4096 p g -> Rabs (IZR (fst g) - ecol t 4096 p) <= 1 /\ Rabs (IZR (snd g) - erow t 4096 p) <= 1).
  { intros p g (P1 & P2 & P3) (A & B). destruct (in_units t 4096 F tiny p ltac:(unfold tiny; lra) P1 P2 P3) as [X Y]. change (IZR (4096 * 2 ^ tZ t)) with 8192 in *. pose proof (within_clamp t 4096 F true _ _ X ltac:(unfold tiny; lra)) as CX. pose proof (within_clamp t 4096 F true _ _ Y ltac:(unfold tiny; lra)) as CY. unfold tiny in CX, CY. apply ab in A, B, CX, CY. split; apply ab; lra. }
  assert (AR : forall xa xb ya yb, B2R xa = -100 -> B2R xb = -50 -> B2R ya = 10 -> B2R yb = 40 -> Forall (fun p => fin p /\ Rabs (B2R (snd p)) <= 85 + / 1000 /\ inside (- tiny) t (val p)) [(xa, ya); (xb, ya); (xb, yb)] -> has_area true t 4096 [[(xa, ya); (xb, ya); (xb, yb)]]).
  { clear V10 V40 Va Vb I1 I2 I3. intros xa xb ya yb Va Vb V10 V40 HF gs H. pose proof (Forall_inv HF) as J1. pose proof (Forall_inv (Forall_inv_tail HF)) as J2. pose proof (Forall_inv (Forall_inv_tail (Forall_inv_tail HF))) as J3. cbv beta in J1, J2, J3. clear HF. inversion H as [|? g1 ? k1 N1 H1]; subst. inversion H1 as [|? g2 ? k2 N2 H2]; subst. inversion H2 as [|? g3 ? k3 N3 H3]; subst. inversion H3; subst.
    apply GRID in N1, N2, N3; auto. destruct N1 as [N1 M1], N2 as [N2 M2], N3 as [N3 M3]. rewrite !ecol_k in * by exact M. rewrite !erow_k in * by exact M. unfold colk in *. unfold rowk in *. cbn [fst snd t tX tY tZ] in *. rewrite V10 in M1, M2. rewrite V40 in M3. rewrite Va in N1. rewrite Vb in N2, N3. change (IZR (2 ^ 1)) with 2 in *.
    set (w1 := merc (10 * (PI / 180))) in *. set (w2 := merc (40 * (PI / 180))) in *.
    assert (W : PI / 6 <= w2 - w1). { assert (G1 : gd w1 = 10 * (PI / 180)) by (apply gd_merc; lra). assert (G2 : gd w2 = 40 * (PI / 180)) by (apply gd_merc; lra). pose proof (gd_up w2 w1) as U. rewrite G1, G2 in U. assert (L : w1 < w2) by (apply gd_lt; lra). rewrite !Rabs_pos_eq in U by lra. lra. }
    assert (Q : 2 * (4096 * ((w2 - w1) / PI)) >= 1365). { assert (1 / 6 <= (w2 - w1) / PI). { apply Rmult_le_reg_r with PI; [lra|]. unfold Rdiv at 2. rewrite Rmult_assoc, Rinv_l by lra. lra. } lra. }
    assert (Z1 : forall w, (1 - w / PI) / 2 * 2 - 0 = 1 - w / PI) by (intros w; field; lra). rewrite Z1 in M1, M2, M3. assert (D : (w2 - w1) / PI = w2 / PI - w1 / PI) by (unfold Rdiv; ring). rewrite D in Q. set (a := w1 / PI) in *. set (b := w2 / PI) in *. clearbody a b.
    destruct g1 as [x1 y1], g2 as [x2 y2], g3 as [x3 y3]. cbn [fst snd] in *. apply ab in N1, N2, N3, M1, M2, M3.
    assert (E1 : (1819 <= x1 <= 1822)%Z) by (split; apply le_IZR; lra || (apply Z.lt_pred_le; apply lt_IZR; lra)). assert (E2 : (2957 <= x2 <= 2960)%Z) by (split; apply le_IZR; lra). assert (E3 : (2957 <= x3 <= 2960)%Z) by (split; apply le_IZR; lra).
    assert (Y1 : (- 2 <= y2 - y1 <= 2)%Z) by (split; apply le_IZR; rewrite minus_IZR; lra). assert (Y2 : (y3 - y1 <= - 600)%Z) by (apply le_IZR; rewrite minus_IZR; lra).
    unfold surveyor. cbn [app cross_sum]. unfold cross. cbn [fst snd]. nia. }
  assert (FI : Forall (fun p => fin p /\ Rabs (B2R (snd p)) <= 85 + / 1000 /\ inside (- tiny) t (val p)) three) by (unfold three; apply Forall_cons; [exact I1|]; apply Forall_cons; [exact I2|]; apply Forall_cons; [exact I3|apply Forall_nil]).
  assert (P : poly_in t [three]) by (split; [discriminate|]; apply Forall_cons; [|apply Forall_nil]; split; [discriminate|]; exact FI).
  assert (EO : even_odd [map val three] (-55, 15) = true).
  { rewrite NV. unfold even_odd. cbn [fold_right ring_edges app edges parity]. unfold crosses. cbn [fst snd]. rewrite (proj2 (Rleb_true (-100) (-55))), (proj2 (Rleb_false (-50) (-55))) by lra. cbn [xorb andb]. rewrite (proj2 (Rltb_false _ _)) by lra. rewrite (proj2 (Rltb_true _ _)) by lra. reflexivity. }
  assert (CL : clear_by (unit_off t 4096) (map (map val) [three]) (-55, 15)).
  { intros r q [<-|[]] Hq [W1 W2]. rewrite NV in Hq. unfold unit_off, t in W1, W2. cbn [tZ] in W1, W2. change (IZR (4096 * 2 ^ 1)) with 8192 in W1, W2. cbn [fst snd] in W1, W2. apply ab in W1, W2. cbn [on_ring app on_line] in Hq. destruct Hq as [(k & Hk & E1 & E2)|[(k & Hk & E1 & E2)|[(k & Hk & E1 & E2)|E]]]; [| | |subst q]; cbn [fst snd] in *; lra. }
  split; [exact G|]. split; [exact F|]. split; [exact P|]. split; [exact (AR _ _ _ _ Va Vb V10 V40 FI)|]. split; [exact EO|]. split; [exact CL|].
  assert (NL : (zlen [97%Z] <= 2 ^ 32)%Z) by (unfold zlen; cbn [length]; lia). assert (WD : (Z.of_nat (words (XPolygon [three])) <= 2 ^ 21)%Z) by (unfold three; cbv; discriminate).
  destruct (C148_polygon exact_libm exact_exp t 4096 true [97%Z] 2 0 7 [three] G F ltac:(lia) NL ltac:(lia) ltac:(lia) P WD) as (bs & E & R). destruct (R (length bs + 5)%nat ltac:(lia)) as (gf & rs' & R1 & R2 & R3 & R4 & R5). exists bs, gf, rs'. split; [exact E|]. split; [exact R1|]. split; [exact R2|]. split; [exact R3|]. rewrite (R5 _ CL). exact EO.
Qed.
