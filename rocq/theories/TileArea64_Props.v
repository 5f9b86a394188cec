(** Property C151: polygons that are large on the grid are written and read, in binary64. *)
From Coq Require Import ZArith List Lia Bool Reals Lra.
From Flocq Require Import Core BinarySingleNaN.
From Verif Require Import GoBase Num Tileid_Model TileR_Model TileR_Proofs TileF64_Model TileF64_Proofs F64 ColorF64_Model ColorF64_Proofs Tile64_Model Tile64_Proofs Tile64_Props
  MvtProj_Proofs MvtProj64_Model MvtProj64_Proofs MvtProj64_Props Pbf_Model MvtGeom_Model MvtGeom_Spec MvtLayer_Model MvtLayer_Spec Clip_Model Clip_Spec Clip_Proofs Clip64_Proofs Clip64_Props Parity_Proofs ClipPoly64_Props ClipTile64_Model ClipTile64_Proofs ClipTile64_Props
  ClipLine64_Proofs ClipLine64_Props
  Pbf_Proofs MvtGeo_Model Decode64_Model MvtAgain64_Model MvtTile_Props MvtLayer_Props MvtGeo64_Model MvtGeo64_Proofs MvtGeo64_Props MvtRead64_Model MvtRead64_Props TileLine64_Proofs TileLine64_Props TilePoly64_Proofs TilePoly64_Props.
From Verif Require MvtGeo_Props.
Import ListNotations.
Open Scope R_scope.

(** ** Specification *)
(** The position on the grid of the tile, not rounded *)
Definition on_grid (t : TileID) (e : Z) (p : lnglat64) : R * R := (ecol t e p, erow t e p).
(** Twice the area a ring encloses, by the surveyor's formula *)
Fixpoint crosses_sum (l : list (R * R)) : R :=
  match l with p :: ((q :: _) as r) => (fst p * snd q - fst q * snd p) + crosses_sum r | _ => 0 end.
Definition twice_area (l : list (R * R)) : R := match l with [] => 0 | p :: _ => crosses_sum (l ++ [p]) end.
(** The way around a ring, along columns and rows *)
Fixpoint walk (l : list (R * R)) : R :=
  match l with p :: ((q :: _) as r) => Rabs (fst q - fst p) + Rabs (snd q - snd p) + walk r | _ => 0 end.
Definition around (l : list (R * R)) : R := match l with [] => 0 | p :: _ => walk (l ++ [p]) end.
(** How far the grid point of a position may be from it in one coordinate, in units: half a unit, a little more on very fine grids *)
Definition drift (t : TileID) (e : Z) : R := 1 / 2 + IZR (e * 2 ^ tZ t) * (9 / 10 ^ 12).
(** A ring that encloses more than its rim: a strip as wide as the drift along the way around, and a square for each vertex *)
Definition wide (t : TileID) (e : Z) (r : list lnglat64) : Prop :=
  let l := map (on_grid t e) r in 2 * (drift t e * around l + drift t e * drift t e * INR (length r)) < Rabs (twice_area l).

(** ** Lemmas *)
Definition near_g (h : R) (p : R * R) (g : Z * Z) : Prop := Rabs (IZR (fst g) - fst p) <= h /\ Rabs (IZR (snd g) - snd p) <= h.
Definition slip (p : R * R) (g : Z * Z) : R := fst p * (IZR (snd g) - snd p) - (IZR (fst g) - fst p) * snd p.
Lemma mul_abs a b x y : Rabs a <= x -> Rabs b <= y -> - (x * y) <= a * b <= x * y.
Proof.
  intros A B. assert (H : Rabs (a * b) <= x * y) by (rewrite Rabs_mult; apply Rmult_le_compat; auto using Rabs_pos). apply ab in H. lra.
Qed.
Lemma mul_self a b x : Rabs a <= x -> - (x * Rabs b) <= a * b <= x * Rabs b.
Proof. intros A. apply mul_abs; [exact A|apply Rle_refl]. Qed.
(** One edge *)
Lemma edge_drift h p q g k : 0 <= h -> near_g h p g -> near_g h q k ->
  Rabs (IZR (cross g k) - (fst p * snd q - fst q * snd p) - (slip q k - slip p g)) <= 2 * h * (Rabs (fst q - fst p) + Rabs (snd q - snd p)) + 2 * (h * h).
Proof.
  intros H0 (A1 & A2) (B1 & B2). unfold cross, slip. rewrite minus_IZR, !mult_IZR. destruct p as [px py], q as [qx qy], g as [gx gy], k as [kx ky]. cbn [fst snd] in *.
  set (a := IZR gx - px) in *. set (b := IZR gy - py) in *. set (c := IZR kx - qx) in *. set (d := IZR ky - qy) in *. replace (IZR gx) with (px + a) by (unfold a; ring). replace (IZR gy) with (py + b) by (unfold b; ring). replace (IZR kx) with (qx + c) by (unfold c; ring). replace (IZR ky) with (qy + d) by (unfold d; ring). clearbody a b c d. clear gx gy kx ky.
  replace ((px + a) * (qy + d) - (qx + c) * (py + b) - (px * qy - qx * py) - (qx * d - c * qy - (px * b - a * py))) with ((a + c) * (qy - py) - (b + d) * (qx - px) + (a * d - c * b)) by ring.
  assert (AC : Rabs (a + c) <= 2 * h) by (eapply Rle_trans; [apply Rabs_triang|]; lra). assert (BD : Rabs (b + d) <= 2 * h) by (eapply Rle_trans; [apply Rabs_triang|]; lra).
  pose proof (mul_self (a + c) (qy - py) _ AC) as M1. pose proof (mul_self (b + d) (qx - px) _ BD) as M2. pose proof (mul_abs a d h h A1 B2) as M3. pose proof (mul_abs c b h h B1 A2) as M4. apply ab. lra.
Qed.
(** A chain of edges *)
Lemma chain_drift h : 0 <= h -> forall l gs p g, Forall2 (near_g h) (p :: l) (g :: gs) ->
  Rabs (IZR (cross_sum (g :: gs)) - crosses_sum (p :: l) - (slip (last l p) (last gs g) - slip p g)) <= 2 * h * walk (p :: l) + 2 * (h * h) * INR (length l).
Proof.
  intros H0 l. induction l as [|q l IH]; intros gs p g H; inversion H as [|? ? ? ? A HT]; subst; inversion HT as [|? k ? gs' B HT']; subst.
  - cbn [cross_sum crosses_sum last walk length INR]. apply ab. lra.
  - specialize (IH gs' q k HT). pose proof (edge_drift h p q g k H0 A B) as E. change (cross_sum (g :: k :: gs')) with (cross g k + cross_sum (k :: gs'))%Z. change (crosses_sum (p :: q :: l)) with (fst p * snd q - fst q * snd p + crosses_sum (q :: l)). change (walk (p :: q :: l)) with (Rabs (fst q - fst p) + Rabs (snd q - snd p) + walk (q :: l)). change (length (q :: l)) with (S (length l)). rewrite S_INR, plus_IZR.
    assert (L1 : forall (A : Type) (r : list A) (x y : A), last (x :: r) y = last r x) by (clear; intros A r; induction r as [|z r IHr]; intros x y; [reflexivity|]; change (last (z :: r) y = last (z :: r) x); rewrite !IHr; reflexivity). rewrite !L1.
    apply ab in IH, E. apply ab. lra.
Qed.
Lemma ring_drift h l gs : 0 <= h -> Forall2 (near_g h) l gs -> Rabs (IZR (surveyor gs) - twice_area l) <= 2 * (h * around l + h * h * INR (length l)).
Proof.
  intros H0 H. inversion H as [|p g l' gs' A B]; subst; [unfold surveyor, twice_area, around; cbn [length INR]; apply ab; lra|].
  assert (H' : Forall2 (near_g h) (p :: (l' ++ [p])) (g :: (gs' ++ [g]))) by (change (Forall2 (near_g h) ((p :: l') ++ [p]) ((g :: gs') ++ [g])); apply Forall2_app; [exact H|constructor; [exact A|constructor]]).
  pose proof (chain_drift h H0 _ _ _ _ H') as C. rewrite !last_last in C. unfold surveyor, twice_area, around. cbn [app]. rewrite app_length in C. cbn [length] in C. rewrite Nat.add_1_r in C. cbn [length]. apply ab in C. apply ab. lra.
Qed.
Lemma next_near eb t e p g : fine t e -> fin p -> Rabs (B2R (snd p)) <= 85 + / 1000 -> inside (- tiny) t (val p) -> next_to eb t e p g -> near_g (drift t e) (on_grid t e p) g.
Proof.
  intros F P1 P2 P3 (A & B). destruct (in_units t e F tiny p ltac:(unfold tiny; lra) P1 P2 P3) as [X Y]. pose proof (N_range t e F) as NR. set (N := IZR (e * 2 ^ tZ t)) in *. pose proof (within_clamp t e F eb _ _ X ltac:(unfold tiny; nra)) as CX. pose proof (within_clamp t e F eb _ _ Y ltac:(unfold tiny; nra)) as CY. unfold tiny in CX, CY. fold N in A, B. apply ab in A, B, CX, CY. unfold near_g, on_grid, drift. cbn [fst snd]. fold N. split; apply ab; lra.
Qed.

(** ** Theorems *)
(** Whatever grid points next to its vertices are taken, a wide ring encloses area, and as much as it did up to its rim. *)
Theorem C151_area : forall eb t e r gs, fine t e -> ring_in t r -> Forall2 (next_to eb t e) r gs ->
  Rabs (IZR (surveyor gs) - twice_area (map (on_grid t e) r)) <= 2 * (drift t e * around (map (on_grid t e) r) + drift t e * drift t e * INR (length r)) /\
  (wide t e r -> surveyor gs <> 0%Z).
Proof.
  intros eb t e r gs F (_ & HR) H. pose proof (N_range t e F) as NR. assert (D0 : 0 <= drift t e) by (unfold drift; nra).
  assert (NG : Forall2 (near_g (drift t e)) (map (on_grid t e) r) gs). { clear - F HR H. induction H as [|p g r gs A _ IH]; cbn [map]; constructor; [|apply IH; inversion HR; assumption]. destruct (Forall_inv HR) as (P1 & P2 & P3). apply (next_near eb t e p g F P1 P2 P3 A). }
  pose proof (ring_drift _ _ _ D0 NG) as K. rewrite map_length in K. split; [exact K|]. intros W E. rewrite E in K. unfold wide in W. cbv zeta in W. rewrite Rminus_0_l, Rabs_Ropp in K. lra.
Qed.
Print Assumptions C151_area.
(** So several polygons, all but the first with a wide outer ring, are written and read as as many, with the same points inside. *)
Theorem C151_multipolygon : forall m mExp t e eb name ver pt id ps, good_proj m mExp -> fine t e -> (2 <= e <= 23168)%Z -> (zlen name <= 2 ^ 32)%Z -> (- 2 ^ 63 <= ver < 2 ^ 63)%Z -> (- 2 ^ 63 <= id < 2 ^ 63)%Z ->
  ps <> [] -> Forall (poly_in t) ps -> Forall (fun rs => match rs with [] => False | o :: _ => wide t e o end) (tl ps) -> (Z.of_nat (words (XMultiPolygon ps)) <= 2 ^ 21)%Z ->
  exists bs, WriteLayer64 m [mkFeat (IDInt id) [] (Some (XMultiPolygon ps))] (mkCfg t name e ver eb pt) = Ok bs /\ forall fuel, (length bs + 4 < fuel)%nat ->
  exists gf ps', ReadTile64 m mExp fuel pt bs t = OValue [gf] /\ g6ID gf = id /\ ((exists rs', g6Geom gf = XPolygon rs' /\ ps' = [rs']) \/ ((2 <= length ps')%nat /\ g6Geom gf = XMultiPolygon ps')) /\ Forall2 (same_inside (unit_off t e)) ps ps'.
Proof.
  intros m mExp t e eb name ver pt id ps G F He HN HV HI NE HP HW HL. apply C148_multipolygon; auto. destruct ps as [|r0 ps]; [congruence|]. cbn [tl] in *. pose proof (Forall_inv_tail HP) as HP'. clear NE HP HL. induction HW as [|rs ps A _ IH]; [constructor|]. constructor; [|apply IH; exact (Forall_inv_tail HP')].
  destruct (Forall_inv HP') as (_ & RI). destruct rs as [|o hs]; [destruct A|]. intros gs H. apply (C151_area eb t e o gs F (Forall_inv RI) H). exact A.
Qed.
Print Assumptions C151_multipolygon.

(** ** Not vacuous *)
Lemma three_wide t xa xb ya yb : t = mkTile 0 0 1 -> B2R xa = -100 -> B2R xb = -50 -> B2R ya = 10 -> B2R yb = 40 -> wide t 4096 [(xa, ya); (xb, ya); (xb, yb)].
Proof.
  intros Et Va Vb V10 V40. assert (M : on_map t) by (rewrite Et; unfold on_map; cbn [tX tY tZ]; lia). pose proof PI_range as PR.
  set (w1 := merc (10 * (PI / 180))). set (w2 := merc (40 * (PI / 180))). assert (G1 : gd w1 = 10 * (PI / 180)) by (apply gd_merc; lra). assert (G2 : gd w2 = 40 * (PI / 180)) by (apply gd_merc; lra).
  assert (L : w1 < w2) by (apply gd_lt; lra). assert (W : PI / 6 <= w2 - w1) by (pose proof (gd_up w2 w1) as U; rewrite G1, G2 in U; rewrite !Rabs_pos_eq in U by lra; lra).
  assert (W2 : w2 <= PI) by (apply Rlt_le, gd_lt; pose proof gd_PI as GP; assert (K : 180 / PI * gd w2 < 180 / PI * gd PI) by (rewrite G2; replace (180 / PI * (40 * (PI / 180))) with 40 by (field; lra); lra); apply Rmult_lt_reg_l in K; [exact K|apply Rdiv_lt_0_compat; lra]).
  assert (W1 : 0 <= w1) by (apply Rlt_le, gd_lt; assert (G0 : gd 0 = 0) by (unfold gd; rewrite sinh_0; apply atan_0); rewrite G0, G1; lra).
  assert (Q : 1 / 6 <= w2 / PI - w1 / PI <= 1). { replace (w2 / PI - w1 / PI) with ((w2 - w1) * / PI) by (field; lra). assert (0 < / PI) by (apply Rinv_0_lt_compat; lra). assert (PI * / PI = 1) by (apply Rinv_r; lra). split; nra. }
  unfold wide. cbv zeta. cbn [map]. unfold on_grid. rewrite !ecol_k by exact M. rewrite !erow_k by exact M. unfold colk, rowk. cbn [fst snd]. rewrite Va, Vb, V10, V40. fold w1 w2. rewrite Et. unfold drift. cbn [tX tY tZ]. change (IZR (4096 * 2 ^ 1)) with 8192. change (IZR (2 ^ 1)) with 2.
  set (a := w1 / PI) in *. set (b := w2 / PI) in *. clearbody a b. clear - Q. unfold twice_area, around. cbn [app crosses_sum walk fst snd length INR].
  match goal with |- _ < Rabs ?x => replace x with (- (4096 * (50 / 360 * 2)) * (4096 * (b - a))) by field end. rewrite Rabs_mult, (Rabs_left (- _)) by lra.
  rewrite (Rabs_pos_eq (4096 * (b - a))) by lra.
  repeat match goal with |- context [Rabs ?x] => unfold Rabs at 1; destruct (Rcase_abs x); try (exfalso; lra) end; lra.
Qed.
Example C151_nonvacuous : let t := mkTile 0 0 1 in good_proj exact_libm exact_exp /\ fine t 4096 /\ ring_in t three /\ wide t 4096 three /\
  even_odd [map val three] (-55, 15) = true /\ clear_by (unit_off t 4096) (map (map val) [three]) (-55, 15) /\
  exists bs gf a b, WriteLayer64 exact_libm [mkFeat (IDInt 7) [] (Some (XMultiPolygon [[three]; [three]]))] (mkCfg t [97%Z] 4096 2 false 0) = Ok bs /\
    ReadTile64 exact_libm exact_exp (length bs + 5) 0 bs t = OValue [gf] /\ g6ID gf = 7%Z /\ g6Geom gf = XMultiPolygon [a; b] /\ even_odd (map (map val) b) (-55, 15) = true.
Proof.
  destruct C148_nonvacuous as (G & F & P & _ & EO & CL & _). intros t. fold t in F, P, CL.
  destruct (fint_f 10 ltac:(lia)) as [_ V10]. destruct (fint_f 40 ltac:(lia)) as [_ V40]. destruct (fint_f (-100) ltac:(lia)) as [_ Va]. destruct (fint_f (-50) ltac:(lia)) as [_ Vb].
  assert (W : wide t 4096 three) by (unfold three; apply three_wide; [reflexivity| | | |]; assumption).
  split; [exact G|]. split; [exact F|]. split; [exact (Forall_inv (proj2 P))|]. split; [exact W|]. split; [exact EO|]. split; [exact CL|].
  assert (NL : (zlen [97%Z] <= 2 ^ 32)%Z) by (unfold zlen; cbn [length]; lia). assert (WD : (Z.of_nat (words (XMultiPolygon [[three]; [three]])) <= 2 ^ 21)%Z) by (unfold three; cbv; discriminate).
  destruct (C151_multipolygon exact_libm exact_exp t 4096 false [97%Z] 2 0 7 [[three]; [three]] G F ltac:(lia) NL ltac:(lia) ltac:(lia) ltac:(discriminate) ltac:(apply Forall_cons; [exact P|apply Forall_cons; [exact P|apply Forall_nil]]) ltac:(apply Forall_cons; [exact W|apply Forall_nil]) WD) as (bs & E & K).
  destruct (K (length bs + 5)%nat ltac:(lia)) as (gf & ps' & R1 & R2 & R3 & R4). destruct ps' as [|a [|b [|c r]]]; try (pose proof (F2_length _ _ _ R4) as L; discriminate L). exists bs, gf, a, b. split; [exact E|]. split; [exact R1|]. split; [exact R2|]. split.
  - destruct R3 as [(rs' & _ & K3)|(_ & K3)]; [discriminate K3|exact K3].
  - assert (RB : Forall2 (same_inside (unit_off t 4096)) [[three]] [b]) by (exact (match R4 in Forall2 _ l l' return match l, l' with _ :: x, _ :: y => Forall2 (same_inside (unit_off t 4096)) x y | _, _ => True end with Forall2_nil _ => I | Forall2_cons _ _ _ H => H end)).
    assert (SB : same_inside (unit_off t 4096) [three] b) by (exact (match RB in Forall2 _ l l' return match l, l' with x :: _, y :: _ => same_inside (unit_off t 4096) x y | _, _ => True end with Forall2_nil _ => I | Forall2_cons _ _ H _ => H end)). destruct SB as [_ S]. rewrite (S _ CL). exact EO.
Qed.
