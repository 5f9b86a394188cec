(** mvt/clip.go: lines cut to the edges of tiles in binary64; lemmas for C143. *)
From Coq Require Import ZArith Reals Lia Lra Bool List Sorted.
From Flocq Require Import Core BinarySingleNaN.
From Verif Require Import GoBase Num MvtGeom_Model Tileid_Model TileR_Model TileR_Proofs TileF64_Model TileF64_Proofs F64 ColorF64_Proofs Clip_Model Clip_Spec Clip_Proofs Clip_Props
  Tile64_Model Tile64_Proofs Tile64_Props Clip64_Proofs Clip64_Props Parity_Proofs ClipTile64_Model ClipTile64_Proofs ClipTile64_Props.
Import ListNotations.
Open Scope R_scope.

(** ** How many pieces *)
Ltac cmp := repeat (match goal with |- context [Rleb ?x ?y] => destruct (Rleb_spec x y) | |- context [Rltb ?x ?y] => destruct (Rltb_spec x y) end; cbn [andb orb negb app]; try lra).
Lemma seg_pieces (l : list (R * R)) k1 k2 axis ps : k1 <= k2 -> (1 <= length l <= 2)%nat -> clipLine RNum l k1 k2 axis false = Ok ps -> ps = [] \/ exists x, ps = [x] /\ (1 <= length x <= 2)%nat.
Proof.
  intros Hk Hl. destruct l as [|p [|q [|r l]]]; cbn [length] in Hl; try lia; unfold clipLine; cbn [clip_loop].
  - cbn [RNum nleb]. fold RNum. destruct (Rleb _ _ && Rleb _ _); cbn [app close_slice andb length]; intros E; injection E as <-; [right|left; auto]. eexists. split; [reflexivity|]. cbn [length]. lia.
  - unfold emit. set (u1 := cut RNum axis p q k1). set (u2 := cut RNum axis p q k2). clearbody u1 u2. cbn [RNum nleb nltb]. fold RNum.
    cbv zeta. cbn [negb].
    cmp; cbn [clip_loop app andb orb negb]; cmp; cbn [close_slice app andb]; intros E; injection E as <-; try (left; reflexivity); right; eexists; (split; [reflexivity|]); cbn [length]; lia.
Qed.

Definition never_less (l : list (R * R)) : Prop := StronglySorted Rle (map fst l).
Definition never_more (l : list (R * R)) : Prop := StronglySorted Rge (map fst l).
Section Mono.
  Context (k1 k2 : R) (Hk : k1 <= k2).
  Notation loop := (clip_loop RNum false false k1 k2).
  (** once past the band, nothing more *)
  Lemma up_past r : forall p done, never_less (p :: r) -> k2 < fst p -> exists z, loop p r done [] = (done, [], z) /\ k2 < fst z.
  Proof.
    induction r as [|q r IH]; intros p done H Hp; cbn [clip_loop]; [eauto|]. unfold never_less in H. cbn [map] in H. inversion H as [|? ? H1 H2]; subst. inversion H2 as [|? ? H3 _]; subst.
    unfold emit. cbn [coord RNum nleb nltb]. fold RNum. cmp. cbn [app negb andb]. apply IH; auto.
  Qed.
  Lemma up_loop r : forall p cur, never_less (p :: r) -> exists d c z, loop p r [] cur = (d, c, z) /\ (d = [] \/ exists x, d = [x] /\ c = [] /\ k2 < fst z).
  Proof.
    induction r as [|q r IH]; intros p cur H; cbn [clip_loop]; [exists [], cur, p; auto|]. pose proof H as H0. unfold never_less in H. cbn [map] in H. inversion H as [|? ? H1 H2]; subst. inversion H2 as [|? ? H3 _]; subst.
    assert (HQ : never_less (q :: r)) by exact H1.
    destruct (emit RNum false k1 k2 p q) as [em ex] eqn:E. cbn [negb]. rewrite andb_true_l. destruct ex; [|apply IH; auto]. cbn [app].
    assert (K : k2 < fst q). { revert E. unfold emit. cbn [coord RNum nleb nltb]. fold RNum. cmp; intros E; injection E; intros; try discriminate; try lra. }
    destruct (up_past r q [cur ++ em] HQ K) as (z & -> & Z). eexists _, _, _. split; [reflexivity|]. right. eauto.
  Qed.
  Lemma down_past r : forall p done, never_more (p :: r) -> fst p < k1 -> exists z, loop p r done [] = (done, [], z) /\ fst z < k1.
  Proof.
    induction r as [|q r IH]; intros p done H Hp; cbn [clip_loop]; [eauto|]. unfold never_more in H. cbn [map] in H. inversion H as [|? ? H1 H2]; subst. inversion H2 as [|? ? H3 _]; subst.
    unfold emit. cbn [coord RNum nleb nltb]. fold RNum. cmp. cbn [app negb andb]. apply IH; auto.
  Qed.
  Lemma down_loop r : forall p cur, never_more (p :: r) -> exists d c z, loop p r [] cur = (d, c, z) /\ (d = [] \/ exists x, d = [x] /\ c = [] /\ fst z < k1).
  Proof.
    induction r as [|q r IH]; intros p cur H; cbn [clip_loop]; [exists [], cur, p; auto|]. pose proof H as H0. unfold never_more in H. cbn [map] in H. inversion H as [|? ? H1 H2]; subst. inversion H2 as [|? ? H3 _]; subst.
    assert (HQ : never_more (q :: r)) by exact H1.
    destruct (emit RNum false k1 k2 p q) as [em ex] eqn:E. cbn [negb]. rewrite andb_true_l. destruct ex; [|apply IH; auto]. cbn [app].
    assert (K : fst q < k1). { revert E. unfold emit. cbn [coord RNum nleb nltb]. fold RNum. cmp; intros E; injection E; intros; try discriminate; try lra. }
    destruct (down_past r q [cur ++ em] HQ K) as (z & -> & Z). eexists _, _, _. split; [reflexivity|]. right. eauto.
  Qed.
  Lemma mono_pieces l ps : never_less l \/ never_more l -> clipLine RNum l k1 k2 false false = Ok ps -> (length ps <= 1)%nat.
  Proof.
    intros H. destruct l as [|p r]; [discriminate|]. unfold clipLine.
    assert (X : exists d c z, loop p r [] [] = (d, c, z) /\ (d = [] \/ exists x, d = [x] /\ c = [] /\ (k2 < fst z \/ fst z < k1))).
    { destruct H as [H|H]; [destruct (up_loop r p [] H) as (d & c & z & E & [D|(x & D)])|destruct (down_loop r p [] H) as (d & c & z & E & [D|(x & D)])]; exists d, c, z; split; auto; right; exists x; tauto. }
    destruct X as (d & c & z & -> & [->|(x & -> & -> & Z)]); cbn [coord RNum nleb]; fold RNum.
    - destruct (Rleb _ _ && Rleb _ _); [|destruct c]; cbn [app close_slice andb]; intros E; injection E as <-; auto. destruct (c ++ [z]); cbn [close_slice andb length]; lia.
    - cmp; cbn [close_slice app]; intros E; injection E as <-; auto.
  Qed.
End Mono.

(** ** Pieces are not empty *)
Section NonEmpty.
  Context {F : Type} (N : NumOps F).
  Lemma emit_exit axis k1 k2 p q em : emit N axis k1 k2 p q = (em, true) -> em <> [].
  Proof.
    unfold emit. cbv zeta. destruct (nltb N _ _ && nleb N _ _); [intros E; injection E as <-; intros K; apply app_eq_nil in K; destruct K as [_ K]; discriminate|].
    destruct (nltb N _ _ && nleb N _ _); [|discriminate]. intros E; injection E as <-. intros K. apply app_eq_nil in K. destruct K as [_ K]. discriminate.
  Qed.
  Lemma loop_filled axis k1 k2 r : forall p done cur, (forall x, In x done -> x <> []) -> forall x, In x (fst (fst (clip_loop N axis false k1 k2 p r done cur))) -> x <> [].
  Proof.
    induction r as [|q r IH]; intros p done cur H; cbn [clip_loop]; [exact H|]. destruct (emit N axis k1 k2 p q) as [em ex] eqn:E. cbn [negb]. rewrite andb_true_l. destruct ex; [|apply IH; auto].
    apply IH. intros x Hx. apply in_app_iff in Hx. destruct Hx as [Hx|[<-|[]]]; auto. intros K. apply app_eq_nil in K. destruct K as [_ K]. eapply emit_exit; eauto.
  Qed.
  Lemma pieces_filled l k1 k2 axis ps : clipLine N l k1 k2 axis false = Ok ps -> forall x, In x ps -> x <> [].
  Proof.
    destruct l as [|p r]; [discriminate|]. unfold clipLine. pose proof (loop_filled axis k1 k2 r p [] [] ltac:(intros x [])) as L. destruct (clip_loop _ _ _ _ _ _ _ _ _) as [[d c] z]. cbn [fst] in L.
    destruct (close_slice _ _ _) as [|f o]; intros E; injection E as <-; auto. intros x Hx. apply in_app_iff in Hx. destruct Hx as [Hx|[<-|[]]]; auto. discriminate.
  Qed.
End NonEmpty.

(** ** One cut *)
Lemma in_band_coord' axis a b q : in_band axis a b q <-> a <= coord axis q <= b.
Proof. destruct axis; reflexivity. Qed.
Lemma line_in_band lo hi axis (l : list (R * R)) q : (forall v, In v l -> lo <= coord axis v <= hi) -> on_line l q -> lo <= coord axis q <= hi.
Proof. intros H. apply on_line_conv. exact H. Qed.

(** The number of pieces is that of the exact run. *)
Lemma piece_count k l k1 k2 axis ps : (-900 <= k <= 90)%Z -> l <> [] -> Forall (upto k) l -> is_finite k1 = true -> is_finite k2 = true -> clipLine F64Num l k1 k2 axis false = Ok ps ->
  exists ps', clipLine RNum (map val l) (B2R k1) (B2R k2) axis false = Ok ps' /\ length ps' = length ps /\ forall x, ps = [x] -> exists x', ps' = [x'] /\ length x' = length x.
Proof.
  intros Hk Hl HU F1 F2 E. destruct (C121_same_pieces k l k1 k2 axis Hk Hl HU F1 F2) as (a & b & E1 & E2 & H). rewrite E in E1. injection E1 as <-. exists b. split; auto.
  assert (L : forall A B (P : A -> B -> Prop) x y, Forall2 P x y -> length y = length x) by (induction 1; cbn [length]; auto).
  split; [eapply L; eauto|]. intros x ->. inversion H as [|? x' ? r H1 H2]; subst. inversion H2; subst. exists x'. split; auto. eapply L; eauto.
Qed.
Definition cut_ok (d : R) (axis : bool) (lo hi : R) (l x : list (R * R)) : Prop :=
  (forall p, on_line x p -> in_band axis lo hi p /\ exists q, on_line l q /\ in_band axis lo hi q /\ within d p q) /\
  (forall q, on_line l q -> in_band axis lo hi q -> exists p, on_line x p /\ within d p q).
Lemma vertex_bound M d l x : Forall (inb M) l -> Forall fin x -> (forall p, on_line (map val x) p -> exists q, on_line (map val l) q /\ within d p q) -> Forall (inb (M + d)) x.
Proof.
  intros HM HF HS. apply Forall_forall. intros p Hp. rewrite Forall_forall in HF, HM. destruct (HS (val p)) as (q & Hq & W1 & W2); [apply on_line_vertex, in_map; auto|].
  assert (Q : forall ax, - M <= coord ax q <= M). { intros ax. apply (on_line_conv ax _ _ (map val l)); auto. intros z Hz. apply in_map_iff in Hz. destruct Hz as (z0 & <- & Hz). destruct (HM _ Hz) as (_ & Z1 & Z2). apply ab in Z1, Z2. destruct ax; auto. }
  pose proof (Q false) as Q1. pose proof (Q true) as Q2. unfold coord in Q1, Q2. unfold val in W1, W2. cbn [fst snd] in W1, W2. apply ab in W1, W2. split; [auto|]. split; apply ab; lra.
Qed.
(** A cut that leaves at most one piece *)
Lemma one_cut eps l k1 k2 axis M : l <> [] -> Forall (inb M) l -> M <= 256 -> is_finite k1 = true -> is_finite k2 = true -> B2R k1 <= B2R k2 ->
  (forall ps, clipLine RNum (map val l) (B2R k1) (B2R k2) axis false = Ok ps -> (length ps <= 1)%nat) ->
  exists g, clip F64Num eps (CLine l) k1 k2 axis = Ok g /\
    ((g = CMultiLine [] /\ forall q, on_line (map val l) q -> ~ in_band axis (B2R k1) (B2R k2) q) \/
     (exists x, g = CLine x /\ x <> [] /\ ((length l <= 2)%nat -> (length x <= 2)%nat) /\ Forall (inb (M + / 2 ^ 41)) x /\ cut_ok (/ 2 ^ 41) axis (B2R k1) (B2R k2) (map val l) (map val x))).
Proof.
  intros Hl HM M256 F1 F2 Hle H1. assert (B41 : bpow radix2 (8 - 49) = / 2 ^ 41). { change (8 - 49)%Z with (- (41))%Z. rewrite (bpm 41 2199023255552) by (lia || reflexivity). lra. }
  assert (HU : Forall (upto 8) l) by (eapply Forall_impl; [|exact HM]; intros p; apply inb_upto; change (bpow radix2 8) with 256; lra).
  destruct (C121_line 8 l k1 k2 axis ltac:(lia) Hl HU F1 F2 Hle) as (ps & E & FI & HS & HC). rewrite B41 in HS, HC. pose proof (pieces_filled F64Num l k1 k2 axis ps E) as NE.
  destruct (piece_count 8 l k1 k2 axis ps ltac:(lia) Hl HU F1 F2 E) as (ps' & E' & L & LX). specialize (H1 ps' E'). unfold clip. rewrite E. cbn [bind].
  destruct ps as [|x [|y ys]]; [| |cbn [length] in L; lia].
  - eexists. split; [reflexivity|]. left. split; auto. intros q Hq Hb. destruct (HC q Hq Hb) as (p & (a & [] & _) & _).
  - eexists. split; [reflexivity|]. right. exists x. split; auto. split; [apply NE; left; auto|]. split.
    { intros L2. destruct (LX x eq_refl) as (x' & -> & <-). destruct (seg_pieces (map val l) (B2R k1) (B2R k2) axis [x'] Hle) as [K|(z & K & Z)]; auto; [rewrite map_length; destruct l; [congruence|cbn [length] in *; lia]|discriminate|]. injection K as ->. lia. }
    assert (S : forall p, on_line (map val x) p -> in_band axis (B2R k1) (B2R k2) p /\ exists q, on_line (map val l) q /\ in_band axis (B2R k1) (B2R k2) q /\ within (/ 2 ^ 41) p q).
    { intros p Hp. apply HS. exists (map val x). split; [left; auto|auto]. }
    split; [|split; auto].
    + apply (vertex_bound M (/ 2 ^ 41) l x HM); [inversion FI; auto|]. intros p Hp. destruct (S p Hp) as (_ & q & A & _ & B). eauto.
    + intros q Hq Hb. destruct (HC q Hq Hb) as (p & (a & [<-|[]] & Hp) & W). eauto.
Qed.
Lemma seg_one (l : list (f64 * f64)) (k1 k2 : f64) axis : B2R k1 <= B2R k2 -> (1 <= length l <= 2)%nat -> forall ps, clipLine RNum (map val l) (B2R k1) (B2R k2) axis false = Ok ps -> (length ps <= 1)%nat.
Proof. intros Hle HL ps E. destruct (seg_pieces (map val l) (B2R k1) (B2R k2) axis ps Hle) as [->|(x & -> & _)]; auto. rewrite map_length. auto. Qed.

(** ** The height of a tile *)
Lemma tile_height t : on_map t -> (tZ t <= 40)%Z -> 2 / 10 ^ 11 < eN (Bounds t) - eS (Bounds t) /\ 3 / 10 ^ 11 < eE (Bounds t) - eW (Bounds t).
Proof.
  intros M Hz. pose proof PI_range as PR. pose proof M as (Z0 & HX & HY). destruct (Bounds_exact t M) as (BW & BE & BN & BS). rewrite BW, BE, BN, BS.
  pose proof (p43 (tZ t) 40 ltac:(lia)) as P. assert (P1 : (1 <= 2 ^ tZ t)%Z) by (pose proof (pz (tZ t) ltac:(lia)); lia).
  assert (N1 : 1 <= IZR (2 ^ tZ t)) by (apply IZR_le; lia). assert (N2 : IZR (2 ^ tZ t) <= 1099511627776) by (apply IZR_le; exact P).
  set (n := IZR (2 ^ tZ t)) in *. assert (I : / 1099511627776 <= / n) by (apply Rinv_le_contravar; lra).
  assert (Y0 : 0 <= IZR (tY t)) by (apply IZR_le; lia). assert (Y1 : IZR (tY t) + 1 <= n) by (unfold n; rewrite <- plus_IZR; apply IZR_le; lia).
  split.
  - set (a := PI * (1 - 2 * IZR (tY t) / n)). set (b := PI * (1 - 2 * (IZR (tY t) + 1) / n)).
    assert (AB : a - b = 2 * PI * / n) by (unfold a, b; field; lra).
    assert (Q0 : 0 <= IZR (tY t) / n <= 1). { split; [apply Rmult_le_pos; [lra|apply Rlt_le, Rinv_0_lt_compat; lra]|]. apply Rmult_le_reg_r with n; [lra|]. unfold Rdiv. rewrite Rmult_assoc, Rinv_l by lra. lra. }
    assert (Q1 : 0 <= (IZR (tY t) + 1) / n <= 1). { split; [apply Rmult_le_pos; [lra|apply Rlt_le, Rinv_0_lt_compat; lra]|]. apply Rmult_le_reg_r with n; [lra|]. unfold Rdiv. rewrite Rmult_assoc, Rinv_l by lra. lra. }
    assert (A1 : Rabs a <= 3142 / 1000). { apply ab. unfold a. replace (2 * IZR (tY t) / n) with (2 * (IZR (tY t) / n)) by (field; lra). nra. }
    assert (B1 : Rabs b <= 3142 / 1000). { apply ab. unfold b. replace (2 * (IZR (tY t) + 1) / n) with (2 * ((IZR (tY t) + 1) / n)) by (field; lra). nra. }
    pose proof (gd_low a b A1 B1) as L. assert (LT : b < a) by (assert (0 < 2 * PI * / n) by (apply Rmult_lt_0_compat; [lra|apply Rinv_0_lt_compat; lra]); lra).
    pose proof (gd_increasing b a LT) as GI. rewrite !Rabs_pos_eq in L by lra. rewrite AB in L.
    replace (180 / PI * gd a - 180 / PI * gd b) with (180 / PI * (gd a - gd b)) by ring.
    apply Rlt_le_trans with (180 / PI * (10 / 121 * (2 * PI * / n))); [|apply Rmult_le_compat_l; [apply Rlt_le, Rdiv_lt_0_compat; lra|lra]].
    replace (180 / PI * (10 / 121 * (2 * PI * / n))) with (3600 / 121 * / n) by (field; lra). lra.
  - rewrite plus_IZR. replace (_ - _) with (360 * / n) by (field; lra). lra.
Qed.
