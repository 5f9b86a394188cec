(** Thinning the features of a tile (C119). *)
From Coq Require Import ZArith Reals Rtrigo1 Lra Lia List Bool Arith String Ascii.
From Verif Require Import GoBase Json Tileid_Model TileR_Model TileR_Proofs Reduce_Model.
Import ListNotations.
Open Scope string_scope.
Open Scope list_scope.
Open Scope R_scope.

(** The mean of coordinates: not a number when there are none or one of them is not. *)
Fixpoint total (l : list coord) : coord := match l with [] => Some 0 | a :: r => cadd a (total r) end.
Definition mean (l : list coord) : coord := match l with [] => None | _ => match total l with Some x => Some (x / INR (List.length l)) | None => None end end.
Definition fst_of (p : list coord) : coord := nth 0 p None.
Definition snd_of (p : list coord) : coord := nth 1 p None.

Section Spec.
Context {A : Type}.
Implicit Types f g : rfeat A.
(** Where a point feature is *)
Definition location f : option (coord * coord) :=
  if seqb (rType f) (B "Point") then Some (fst_of (rPoint f), snd_of (rPoint f))
  else if seqb (rType f) (B "MultiPoint") then Some (mean (map fst_of (rMulti f)), mean (map snd_of (rMulti f)))
  else None.
Definition two (p : list coord) : Prop := (2 <= List.length p)%nat.
Definition planar f : Prop := (rType f = B "Point" -> two (rPoint f)) /\ (rType f = B "MultiPoint" -> Forall two (rMulti f)).
Definition extended f : Prop := In (rType f) [B "LineString"; B "MultiLineString"; B "Polygon"; B "MultiPolygon"].
(** What is left of a kept feature *)
Definition collapsed f g : Prop := rType g = B "Point" /\ rMulti g = [] /\ rRest g = rRest f /\ exists x y, location f = Some (x, y) /\ rPoint g = [x; y].

Lemma cadd_assoc a b c : cadd a (cadd b c) = cadd (cadd a b) c.
Proof. destruct a, b, c; cbn [cadd]; auto. f_equal. lra. Qed.
Lemma sum_points_ok l : Forall two l -> forall x y, sum_points l x y = Ok (cadd x (total (map fst_of l)), cadd y (total (map snd_of l))).
Proof.
  induction 1 as [|p l H _ IH]; intros x y.
  - cbn [sum_points map total]. f_equal. f_equal; [destruct x|destruct y]; cbn [cadd]; auto; f_equal; lra.
  - destruct p as [|a [|b q]]; unfold two in H; cbn in H; try lia. cbn [sum_points map total]. rewrite IH, !cadd_assoc. reflexivity.
Qed.
Lemma sum_points_bad l : ~ Forall two l -> forall x y, sum_points l x y = Panic.
Proof.
  induction l as [|p l IH]; intros H x y; [exfalso; apply H; constructor|]. destruct p as [|a [|b q]]; cbn [sum_points]; auto. apply IH. intros K. apply H. constructor; auto. unfold two. cbn. lia.
Qed.
Lemma two_dec (l : list (list coord)) : Forall two l \/ ~ Forall two l.
Proof. destruct (Forall_dec two) with (l := l) as [H|H]; auto. intros p. unfold two. apply le_dec. Qed.
Lemma avg_mean l : avg (cadd (Some 0) (total l)) (List.length l) = mean l.
Proof. unfold mean, avg. destruct l as [|a l]; [cbn [total cadd List.length]; reflexivity|]. destruct (total (a :: l)) as [x|]; cbn [cadd]; [|reflexivity]. cbn [List.length]. f_equal. f_equal. lra. Qed.
Lemma seqb_eq a b : seqb a b = true <-> a = b.
Proof. destruct (seqb_spec a b); split; auto; discriminate. Qed.
Lemma bounds_lt t : eW (Bounds t) < eE (Bounds t) /\ eS (Bounds t) < eN (Bounds t).
Proof. pose proof (Center_inside t). lra. Qed.
Lemma tile_eqb_eq a b : tile_eqb a b = true <-> a = b.
Proof. unfold tile_eqb. rewrite !andb_true_iff, !Z.eqb_eq. destruct a as [a1 a2 a3], b as [b1 b2 b3]; cbn [tX tY tZ]. split; [intros [[-> ->] ->]; reflexivity|intros [= -> -> ->]; auto]. Qed.
Lemma seen_iff a l : existsb (tile_eqb a) l = true <-> In a l.
Proof. rewrite existsb_exists. split; [intros (b & H & E); apply tile_eqb_eq in E; subst; auto|intros H; exists a; split; auto; apply tile_eqb_eq; reflexivity]. Qed.

Variable bbox : rfeat A -> (R * R) * (R * R).
Definition wide t f : Prop :=
  let '((x0, y0), (x1, y1)) := bbox f in
  (x1 - x0) > (eE (Bounds t) - eW (Bounds t)) / 200 \/ (y1 - y0) > (eN (Bounds t) - eS (Bounds t)) / 200.
Definition place z f : option TileID := match location f with Some (x, y) => Some (Cell x y z) | None => None end.
(** One call *)
Definition same_but_map (c c' : rcfg) : Prop := cPercent c' = cPercent c /\ cDX c' = cDX c /\ cDY c' = cDY c /\ cZoom c' = cZoom c /\ cOn c' = cOn c.
Lemma Filter_spec f c : cOn c = true -> planar f ->
  exists b g c', Filter bbox f c = Ok (b, g, c') /\ same_but_map c c' /\
  match place (cZoom c) f with
  | Some k => (b = true <-> ~ In k (cMap c)) /\ (forall k', In k' (cMap c') <-> k' = k \/ In k' (cMap c)) /\ (if b then if seqb (rType f) (B "MultiPoint") then collapsed f g else g = f else g = f)
  | None => cMap c' = cMap c /\ g = f /\
     (b = true <-> extended f /\ let '((x0, y0), (x1, y1)) := bbox f in cPercent c < (x1 - x0) / cDX c \/ cPercent c < (y1 - y0) / cDY c)
  end.
Proof.
  intros On [P1 P2]. unfold Filter, place, location. rewrite On. cbn [negb]. destruct (seqb (rType f) (B "Point")) eqn:E1.
  - apply seqb_eq in E1. specialize (P1 E1). destruct (rPoint f) as [|x [|y q]] eqn:EP; unfold two in P1; cbn in P1; try lia. cbv zeta. unfold fst_of, snd_of. cbn [nth].
    assert (NM : seqb (rType f) (B "MultiPoint") = false) by (rewrite E1; reflexivity). rewrite NM. destruct (existsb _ (cMap c)) eqn:ES.
    + apply seen_iff in ES. do 3 eexists. split; [reflexivity|]. split; [unfold same_but_map; cbn [cPercent cDX cDY cZoom cOn]; auto 8|]. split; [split; [discriminate|contradiction]|]. split; [|reflexivity]. intros k'. split; [auto|]. intros [->|H]; auto.
    + do 3 eexists. split; [reflexivity|]. split; [unfold same_but_map; cbn [cPercent cDX cDY cZoom cOn]; auto 8|]. cbn [cMap]. split; [split; [|auto]|]. { intros _ H. apply seen_iff in H. congruence. } split; [|reflexivity]. intros k'. cbn [In]. split; intros [H|H]; auto.
  - destruct (seqb (rType f) (B "MultiPoint")) eqn:E2.
    + apply seqb_eq in E2. specialize (P2 E2). rewrite (sum_points_ok _ P2). cbn [bind]. cbv zeta.
      assert (M1 : avg (cadd (Some 0) (total (map fst_of (rMulti f)))) (List.length (rMulti f)) = mean (map fst_of (rMulti f))) by (rewrite <- avg_mean, map_length; reflexivity).
      assert (M2 : avg (cadd (Some 0) (total (map snd_of (rMulti f)))) (List.length (rMulti f)) = mean (map snd_of (rMulti f))) by (rewrite <- avg_mean, map_length; reflexivity). rewrite M1, M2. destruct (existsb _ (cMap c)) eqn:ES.
      * apply seen_iff in ES. do 3 eexists. split; [reflexivity|]. split; [unfold same_but_map; cbn [cPercent cDX cDY cZoom cOn]; auto 8|]. split; [split; [discriminate|contradiction]|]. split; [|reflexivity]. intros k'. split; [auto|]. intros [->|H]; auto.
      * do 3 eexists. split; [reflexivity|]. split; [unfold same_but_map; cbn [cPercent cDX cDY cZoom cOn]; auto 8|]. cbn [cMap]. split; [split; [|auto]|]. { intros _ H. apply seen_iff in H. congruence. } split; [intros k'; cbn [In]; split; intros [H|H]; auto|]. split; [reflexivity|]. split; [reflexivity|]. split; [reflexivity|]. unfold location. rewrite E1. apply seqb_eq in E2. rewrite E2. eexists. eexists. split; reflexivity.
    + assert (X : (seqb (rType f) (B "LineString") || seqb (rType f) (B "MultiLineString") || seqb (rType f) (B "MultiPolygon") || seqb (rType f) (B "Polygon")) = true <-> extended f).
      { unfold extended. rewrite !orb_true_iff, !seqb_eq. cbn [In]. split; [intros [[[->| ->]| ->]| ->]; auto|]. intros [<-|[<-|[<-|[<-|[]]]]]; auto. }
      destruct (_ || seqb (rType f) (B "Polygon")) eqn:E3.
      * destruct (bbox f) as [[x0 y0] [x1 y1]]. do 3 eexists. split; [reflexivity|]. split; [unfold same_but_map; cbn [cPercent cDX cDY cZoom cOn]; auto 8|]. split; [reflexivity|]. split; [reflexivity|]. rewrite orb_true_iff. destruct (Rlt_dec _ _), (Rlt_dec _ _); intuition congruence.
      * do 3 eexists. split; [reflexivity|]. split; [unfold same_but_map; cbn [cPercent cDX cDY cZoom cOn]; auto 8|]. split; [reflexivity|]. split; [reflexivity|]. split; [discriminate|]. intros [H _]. apply X in H. discriminate.
Qed.
Lemma Filter_panic f c : cOn c = true -> ~ planar f -> Filter bbox f c = Panic.
Proof.
  intros On H. unfold Filter. rewrite On. cbn [negb]. destruct (seqb (rType f) (B "Point")) eqn:E1.
  - apply seqb_eq in E1. destruct (rPoint f) as [|x [|y q]] eqn:EP; auto. exfalso. apply H. split; [intros _; rewrite EP; unfold two; cbn; lia|]. rewrite E1. discriminate.
  - destruct (seqb (rType f) (B "MultiPoint")) eqn:E2.
    + apply seqb_eq in E2. destruct (two_dec (rMulti f)) as [K|K]; [|rewrite (sum_points_bad _ K); reflexivity]. exfalso. apply H. split; [rewrite E2; discriminate|auto].
    + exfalso. apply H. split; intros K; apply seqb_eq in K; congruence.
Qed.
Lemma planar_dec f : planar f \/ ~ planar f.
Proof.
  unfold planar. destruct (seqb (rType f) (B "Point")) eqn:E1.
  - apply seqb_eq in E1. rewrite E1. destruct (le_dec 2 (List.length (rPoint f))) as [K|K]; [left; split; [auto|discriminate]|right; intros [H _]; exact (K (H eq_refl))].
  - assert (rType f <> B "Point") by (intros K; apply seqb_eq in K; congruence). destruct (seqb (rType f) (B "MultiPoint")) eqn:E2.
    + apply seqb_eq in E2. destruct (two_dec (rMulti f)) as [K|K]; [left; split; [contradiction|auto]|right; intros [_ Q]; auto].
    + left. split; intros K; [contradiction|apply seqb_eq in K; congruence].
Qed.
Lemma Filters_spec fs : forall c, cOn c = true -> Forall planar fs -> exists l c', Filters bbox fs c = Ok (l, c') /\ List.length l = List.length fs /\
  forall i f, nth_error fs i = Some f -> exists b g, nth_error l i = Some (b, g) /\
  match place (cZoom c) f with
  | Some k => (b = true <-> ~ In k (cMap c) /\ forall j f', (j < i)%nat -> nth_error fs j = Some f' -> place (cZoom c) f' <> Some k) /\ (if b then if seqb (rType f) (B "MultiPoint") then collapsed f g else g = f else g = f)
  | None => g = f /\ (b = true <-> extended f /\ let '((x0, y0), (x1, y1)) := bbox f in cPercent c < (x1 - x0) / cDX c \/ cPercent c < (y1 - y0) / cDY c)
  end.
Proof.
  induction fs as [|f fs IH]; intros c On H.
  - exists [], c. split; [reflexivity|]. split; [reflexivity|]. intros [|i] f K; discriminate.
  - inversion H as [|? ? H1 H2]; subst. cbn [Filters]. destruct (Filter_spec f c On H1) as (b & g & c1 & E & (S1 & S2 & S3 & S4 & S5) & K). rewrite E. cbn [bind]. destruct (IH c1 ltac:(congruence) H2) as (l & c2 & E2 & L & K2). rewrite E2. cbn [bind]. exists ((b, g) :: l), c2. split; [reflexivity|]. split; [cbn; congruence|].
    intros [|i] f' N; cbn [nth_error] in *.
    + injection N as <-. exists b, g. split; [reflexivity|]. destruct (place (cZoom c) f) as [k|]; [|tauto]. destruct K as (K1 & _ & K3). split; [|exact K3]. rewrite K1. split; [intros Q; split; [exact Q|lia]|tauto].
    + destruct (K2 i f' N) as (b' & g' & N' & Q). exists b', g'. split; [exact N'|]. rewrite S1, S2, S3, S4 in Q. destruct (place (cZoom c) f') as [k|]; [|exact Q]. destruct Q as [Q1 Q2]. split; [|exact Q2]. rewrite Q1. clear Q1 Q2.
      assert (M : In k (cMap c1) <-> place (cZoom c) f = Some k \/ In k (cMap c)). { destruct (place (cZoom c) f) as [k0|]. - destruct K as (_ & K & _). rewrite K. split; intros [D|D]; auto; left; congruence. - destruct K as (-> & _). split; [auto|]. intros [D|D]; [discriminate|auto]. }
      rewrite M. split.
      * intros [Q1 Q2]. split; [tauto|]. intros [|j] f'' J N''; cbn [nth_error] in N''; [injection N'' as <-; tauto|]. apply (Q2 j); auto. lia.
      * intros [Q1 Q2]. split; [intros [D|D]; [|tauto]; apply (Q2 O f); auto; lia|]. intros j f'' J N''. apply (Q2 (S j) f''); [lia|exact N''].
Qed.

(** ** C119 *)
(** A run over features panics exactly when a point lacks a coordinate. *)
Theorem C119_panic : forall t fs, (Filters bbox fs (NewReduceConfig t) = Panic <-> Exists (fun f => ~ planar f) fs) /\ Filters bbox fs (NewReduceConfig t) <> NoFuel.
Proof.
  intros t. enough (K : forall fs c, cOn c = true -> (Filters bbox fs c = Panic <-> Exists (fun f => ~ planar f) fs) /\ Filters bbox fs c <> NoFuel) by (intros fs; apply K; reflexivity).
  induction fs as [|f fs IH]; intros c On.
  - cbn [Filters]. split; [|discriminate]. split; [discriminate|]. intros H. inversion H.
  - cbn [Filters]. destruct (planar_dec f) as [P|P].
    + destruct (Filter_spec f c On P) as (b & g & c1 & E & (_ & _ & _ & _ & S5) & _). rewrite E. cbn [bind]. destruct (IH c1 ltac:(congruence)) as [I1 I2]. destruct (Filters bbox fs c1) as [[l c2]| |]; cbn [bind]; [|split; [|discriminate]|congruence].
      * split; [|discriminate]. split; [discriminate|]. intros H. inversion H; subst; [contradiction|]. apply I1 in H1. discriminate.
      * split; [|reflexivity]. intros _. right. apply I1. reflexivity.
    + rewrite (Filter_panic f c On P). cbn [bind]. split; [|discriminate]. split; [|reflexivity]. intros _. left. exact P.
Qed.
Print Assumptions C119_panic.
(** What is kept: the first point feature of each cell, a multipoint as its mean, and lines and areas over half a percent of the tile wide or high. *)
Theorem C119_kept : forall t fs, (0 <= tZ t < 2 ^ 63 - 8)%Z -> Forall planar fs -> exists l c', Filters bbox fs (NewReduceConfig t) = Ok (l, c') /\ List.length l = List.length fs /\
  forall i f, nth_error fs i = Some f -> exists b g, nth_error l i = Some (b, g) /\
  match place (tZ t + 8) f with
  | Some k => (b = true <-> forall j f', (j < i)%nat -> nth_error fs j = Some f' -> place (tZ t + 8) f' <> Some k) /\ (if b && seqb (rType f) (B "MultiPoint") then collapsed f g else g = f)
  | None => g = f /\ (b = true <-> extended f /\ wide t f)
  end.
Proof.
  intros t fs Hz H. destruct (Filters_spec fs (NewReduceConfig t) eq_refl H) as (l & c' & E & L & K). exists l, c'. split; [exact E|]. split; [exact L|]. intros i f N. destruct (K i f N) as (b & g & N' & Q). exists b, g. split; [exact N'|].
  unfold NewReduceConfig in Q. cbn [cZoom cMap cPercent cDX cDY] in Q. rewrite (wrap64_id (tZ t)) in Q by (unfold in_i64; lia). rewrite wrap64_id in Q by (unfold in_i64; lia). destruct (place (tZ t + 8) f) as [k|].
  - destruct Q as [Q1 Q2]. split; [rewrite Q1; cbn [In]; tauto|]. destruct b; cbn [andb]; exact Q2.
  - destruct Q as [Q1 Q2]. split; [exact Q1|]. rewrite Q2. clear Q2. unfold wide. destruct (bbox f) as [[x0 y0] [x1 y1]]. pose proof (bounds_lt t) as [BX BY].
    assert (D : forall w d, 0 < d -> (5 / 1000 < w / d <-> w > d / 200)). { intros w d Hd. split; intros Hw. - apply Rlt_gt. replace w with (w / d * d) by (field; lra). nra. - apply Rmult_lt_reg_r with d; [exact Hd|]. replace (w / d * d) with w by (field; lra). lra. }
    rewrite (D _ (eE (Bounds t) - eW (Bounds t))), (D _ (eN (Bounds t) - eS (Bounds t))) by lra. tauto.
Qed.
Print Assumptions C119_kept.
(** Switched off, everything is kept as it is. *)
Theorem C119_off : forall fs c, cOn c = false -> Filters bbox fs c = Ok (map (fun f => (true, f)) fs, c).
Proof. induction fs as [|f fs IH]; intros c H; [reflexivity|]. cbn [Filters map]. unfold Filter. rewrite H. cbn [negb bind]. rewrite IH by exact H. reflexivity. Qed.
Print Assumptions C119_off.

Lemma sec_pos y : -90 < y < 90 -> 0 < tan (y * (PI / 180)) + 1 / cos (y * (PI / 180)).
Proof.
  intros H. pose proof PI_RGT_0 as P. set (a := y * (PI / 180)). assert (AR : - (PI / 2) < a < PI / 2) by (unfold a; nra). pose proof (cos_gt_0 a ltac:(lra) ltac:(lra)) as C. pose proof (sin2_cos2 a) as Q. unfold Rsqr in Q. unfold tan.
  replace (sin a / cos a + 1 / cos a) with ((sin a + 1) / cos a) by (field; lra). apply Rdiv_lt_0_compat; [|exact C]. pose proof (SIN_bound a). nra.
Qed.
Lemma Cell_Tile x y z : -90 < y < 90 -> Cell (Some x) (Some y) z = Tile x y z.
Proof. intros H. unfold Cell, CellCol, CellRow. destruct (Rlt_dec _ _) as [_|K]; [|destruct K; apply sec_pos, H]. rewrite !Tile_eq. reflexivity. Qed.
Definition inside t (p : coord * coord) : Prop := exists x y, p = (Some x, Some y) /\ eW (Bounds t) <= x < eE (Bounds t) /\ eS (Bounds t) < y <= eN (Bounds t).
Definition cells t : list TileID := map (fun p => mkTile (256 * tX t + Z.of_nat (fst p)) (256 * tY t + Z.of_nat (snd p)) (tZ t + 8)) (list_prod (seq 0 256) (seq 0 256)).
Lemma cells_length t : Z.of_nat (List.length (cells t)) = 65536%Z.
Proof. unfold cells. rewrite map_length, prod_length, seq_length, Nat2Z.inj_mul. reflexivity. Qed.
Lemma cell_in t x y : (0 <= tZ t < 2 ^ 63)%Z -> eW (Bounds t) <= x < eE (Bounds t) -> eS (Bounds t) < y <= eN (Bounds t) -> In (Cell (Some x) (Some y) (tZ t + 8)) (cells t).
Proof.
  intros Hz HX HY. destruct (Bounds_eq t) as (_ & _ & EN & ES). pose proof (edge_lat_range (IZR (tY t)) (pow2 (tZ t))) as R1. pose proof (edge_lat_range (IZR (tY t) + 1) (pow2 (tZ t))) as R2. rewrite <- EN in R1. rewrite <- ES in R2. assert (HL : -90 < y < 90) by lra. rewrite Cell_Tile by exact HL.
  assert (T : Tile x y (tZ t) = t) by (apply Tile_iff; auto; lia). rewrite Tile_eq in T. rewrite Tile_eq.
  assert (P : pow2 (tZ t + 8) = 256 * pow2 (tZ t)). { replace (tZ t + 8)%Z with (tZ t + 1 + 1 + 1 + 1 + 1 + 1 + 1 + 1)%Z by lia. rewrite !pow2_succ. lra. }
  assert (K : forall a k, Rfloor a = k -> exists i, (i < 256)%nat /\ Rfloor (256 * a) = (256 * k + Z.of_nat i)%Z).
  { intros a k E. pose proof (proj1 (Rfloor_spec a k) E) as E1. set (v := Rfloor (256 * a)). pose proof (proj1 (Rfloor_spec (256 * a) v) eq_refl) as E2. assert (256 * k <= v)%Z. { apply Z.lt_succ_r, lt_IZR. rewrite succ_IZR, mult_IZR. lra. } assert (v < 256 * k + 256)%Z. { apply lt_IZR. rewrite plus_IZR, mult_IZR. lra. }
    exists (Z.to_nat (v - 256 * k)). split; [apply Nat2Z.inj_lt; rewrite Z2Nat.id by lia; change (Z.of_nat 256) with 256%Z; lia|]. rewrite Z2Nat.id by lia. lia. }
  assert (TX : Rfloor (colR x (pow2 (tZ t))) = tX t) by (rewrite <- T at 2; reflexivity). assert (TY : Rfloor (rowR y (pow2 (tZ t))) = tY t) by (rewrite <- T at 2; reflexivity).
  destruct (K _ _ TX) as (i & Hi & EX). destruct (K _ _ TY) as (j & Hj & EY). assert (C1 : colR x (pow2 (tZ t + 8)) = 256 * colR x (pow2 (tZ t))) by (unfold colR; rewrite P; lra). assert (C2 : rowR y (pow2 (tZ t + 8)) = 256 * rowR y (pow2 (tZ t))) by (unfold rowR; rewrite P; lra).
  rewrite C1, C2, EX, EY, u64_id by (unfold in_u64; lia). unfold cells. apply in_map_iff. exists (i, j). split; [reflexivity|]. apply in_prod; apply in_seq; lia.
Qed.
(** However many point features there are in the tile, no more than 256 x 256 of them are kept. *)
Theorem C119_budget : forall t fs l c', (0 <= tZ t < 2 ^ 63 - 8)%Z -> Filters bbox fs (NewReduceConfig t) = Ok (l, c') ->
  forall is, NoDup is -> (forall i, In i is -> exists f p g, nth_error fs i = Some f /\ location f = Some p /\ inside t p /\ nth_error l i = Some (true, g)) ->
  (Z.of_nat (List.length is) <= 65536)%Z.
Proof.
  intros t fs l c' Hz E is ND H. assert (PL : Forall planar fs). { destruct (C119_panic t fs) as [[_ Q] _]. apply Forall_forall. intros f Hf. destruct (planar_dec f) as [|N]; auto. rewrite E in Q. discriminate Q. apply Exists_exists. eauto. }
  destruct (C119_kept t fs Hz PL) as (l' & c'' & E' & _ & K). rewrite E in E'. injection E' as <- <-.
  set (h := fun i => match nth_error fs i with Some f => match place (tZ t + 8) f with Some k => k | None => t end | None => t end).
  assert (Q : forall i, In i is -> exists f k g, nth_error fs i = Some f /\ nth_error l i = Some (true, g) /\ place (tZ t + 8) f = Some k /\ h i = k /\ In k (cells t)).
  { intros i Hi. destruct (H i Hi) as (f & p & g & N & L & (x & y & -> & HX & HY) & N'). exists f, (Cell (Some x) (Some y) (tZ t + 8)), g. assert (PF : place (tZ t + 8) f = Some (Cell (Some x) (Some y) (tZ t + 8))) by (unfold place; rewrite L; reflexivity). split; [exact N|]. split; [exact N'|]. split; [exact PF|]. split; [unfold h; rewrite N, PF; reflexivity|]. apply cell_in; auto. lia. }
  rewrite <- (cells_length t). apply inj_le. rewrite <- (map_length h is). apply NoDup_incl_length.
  - assert (INJ : forall i j, In i is -> In j is -> h i = h j -> (i < j)%nat -> False). { intros i j Hi Hj Ehij Lt. destruct (Q i Hi) as (f & k & g & A1 & A2 & A3 & A4 & _). destruct (Q j Hj) as (f' & k' & g' & B1 & B2 & B3 & B4 & _). destruct (K j f' B1) as (b & g2 & B5 & B6). rewrite B2 in B5. injection B5 as <- <-. rewrite B3 in B6. destruct B6 as [[B6 _] _]. apply (B6 eq_refl i f Lt A1). congruence. }
    clear - ND INJ. induction ND as [|i is N ND IH]; [constructor|]. cbn [map]. constructor; [|apply IH; intros a b Ha Hb; apply INJ; right; auto]. intros C. apply in_map_iff in C. destruct C as (j & Ej & Hj). destruct (Nat.lt_trichotomy i j) as [L|[L|L]]; [|subst; contradiction|].
    + apply (INJ i j); auto; [left; reflexivity|right; exact Hj].
    + apply (INJ j i); auto; [right; exact Hj|left; reflexivity].
  - intros k Hk. apply in_map_iff in Hk. destruct Hk as (i & <- & Hi). destruct (Q i Hi) as (f & k & g & _ & _ & _ & -> & Hc). exact Hc.
Qed.
Print Assumptions C119_budget.
(** The mean of points of a box is in the box; of no points, or with a coordinate that is not a number, it is not a number and goes to one fixed cell. *)
Theorem C119_mean : forall l a b, l <> [] -> (forall c, In c l -> exists x, c = Some x /\ a <= x <= b) -> exists m, mean l = Some m /\ a <= m <= b.
Proof.
  intros l a b N H. assert (T : exists s, total l = Some s /\ a * INR (List.length l) <= s <= b * INR (List.length l)).
  { clear N bbox. induction l as [|c l IH]; [exists 0; cbn [List.length INR total]; split; [reflexivity|lra]|]. destruct IH as (s & E & B); [intros c' Hc; apply H; right; exact Hc|]. destruct (H c (or_introl eq_refl)) as (x & -> & X). exists (x + s). cbn [total]. rewrite E. split; [reflexivity|]. cbn [List.length]. rewrite S_INR. lra. }
  destruct T as (s & E & T). unfold mean. destruct l as [|c l]; [congruence|]. rewrite E. eexists. split; [reflexivity|]. assert (0 < INR (List.length (c :: l))) by (apply lt_0_INR; cbn; lia). set (n := INR (List.length (c :: l))) in *.
  change (a <= s / n <= b). split; (apply Rmult_le_reg_r with n; [assumption|]); replace (s / n * n) with s by (field; lra); lra.
Qed.
Print Assumptions C119_mean.
Theorem C119_nan : forall l t f, (l = [] \/ In None l <-> mean l = None) /\
  (rType f = B "MultiPoint" -> rMulti f = [] -> place (tZ t) f = Some (mkTile (- 2 ^ 63) (- 2 ^ 63) (u64 (tZ t)))).
Proof.
  intros l t f. split.
  - assert (T : total l = None <-> In None l).
    { clear. induction l as [|[x|] l IH]; cbn [total In].
      - split; [discriminate|tauto].
      - destruct (total l); cbn [cadd]; split; intros K; try discriminate; [destruct K as [K|K]; [discriminate|]; apply IH in K; discriminate|right; apply IH; reflexivity|reflexivity].
      - cbn [cadd]. tauto. }
    unfold mean. destruct l as [|c l]; [tauto|]. destruct (total (c :: l)) as [s|] eqn:E.
    + split; [|discriminate]. intros [K|K]; [discriminate|]. apply T in K. discriminate.
    + split; auto. intros _. right. apply T. reflexivity.
  - intros E M. unfold place, location. rewrite E, M. reflexivity.
Qed.
Print Assumptions C119_nan.
End Spec.

Example C119_nonvacuous : let box := fun _ : rfeat unit => ((0, 0), (1, 1)) in
  let p := mkRfeat (B "Point") [Some 10; Some 20] [] tt in
  let q := mkRfeat (B "MultiPoint") [] [[Some 9; Some 20; Some 7]; [Some 11; Some 20]] tt in
  let far := mkRfeat (B "MultiPoint") [] [[Some (-9); Some (-20)]] tt in
  let bad := mkRfeat (B "Point") [Some 10] [] tt in
  Forall planar [p; q; far] /\ location q = location p /\ ~ planar bad /\
  exists c', Filters box [p; q; far] (NewReduceConfig (mkTile 0 0 0)) = Ok ([(true, p); (false, q); (true, mkRfeat (B "Point") [Some (-9); Some (-20)] [] tt)], c').
Proof.
  intros box p q far bad. assert (L : location q = location p). { unfold location, p, q, fst_of, snd_of, mean. cbn [rType rPoint rMulti map nth total cadd List.length]. cbn [seqb B]. change (seqb (B "MultiPoint") (B "Point")) with false. change (seqb (B "MultiPoint") (B "MultiPoint")) with true. change (seqb (B "Point") (B "Point")) with true. cbv iota. cbn [INR]. repeat f_equal; lra. }
  assert (PL : Forall planar [p; q; far]). { repeat constructor; cbn; discriminate || (intros _; unfold two; cbn; lia) || (intros _; repeat constructor; unfold two; cbn; lia). }
  split; [exact PL|]. split; [exact L|]. split; [intros [K _]; specialize (K eq_refl); unfold two in K; cbn in K; lia|].
  destruct (C119_kept box (mkTile 0 0 0) _ ltac:(cbn; lia) PL) as (l & c' & E & LL & K). exists c'. rewrite E. f_equal. f_equal.
  destruct (K 0%nat p eq_refl) as (b0 & g0 & N0 & Q0). destruct (K 1%nat q eq_refl) as (b1 & g1 & N1 & Q1). destruct (K 2%nat far eq_refl) as (b2 & g2 & N2 & Q2). destruct l as [|x0 [|x1 [|x2 [|x3 l]]]]; try discriminate. cbn [nth_error] in N0, N1, N2. injection N0 as ->. injection N1 as ->. injection N2 as ->. cbn [tZ] in *. change (0 + 8)%Z with 8%Z in *.
  assert (LP : location p = Some (Some 10, Some 20)) by reflexivity. assert (LF : location far = Some (Some (-9), Some (-20))). { unfold location, far, fst_of, snd_of, mean. cbn [rType rPoint rMulti map nth total cadd List.length INR]. change (seqb (B "MultiPoint") (B "Point")) with false. change (seqb (B "MultiPoint") (B "MultiPoint")) with true. cbv iota. repeat f_equal; lra. }
  assert (PP : place 8 p = Some (Cell (Some 10) (Some 20) 8)) by reflexivity. assert (PQ : place 8 q = Some (Cell (Some 10) (Some 20) 8)) by (unfold place; rewrite L, LP; reflexivity). assert (PF : place 8 far = Some (Cell (Some (-9)) (Some (-20)) 8)) by (unfold place; rewrite LF; reflexivity).
  rewrite PP in Q0. rewrite PQ in Q1. rewrite PF in Q2. destruct Q0 as [Q0 G0]. destruct Q1 as [Q1 G1]. destruct Q2 as [Q2 G2].
  assert (b0 = true) as -> by (apply Q0; intros j f' J; lia). assert (b1 = false) as ->. { destruct b1; auto. exfalso. apply (proj1 Q1 eq_refl 0%nat p); [lia|reflexivity|exact PP]. }
  assert (NC : CellCol (Some (-9)) 8 <> CellCol (Some 10) 8). { unfold CellCol. rewrite !Tile_eq. cbn [tX]. unfold colR. assert (P : pow2 8 = 256) by (change 8%Z with (0 + 1 + 1 + 1 + 1 + 1 + 1 + 1 + 1)%Z; rewrite !pow2_succ; change (pow2 0) with (powerRZ 2 0); cbn; lra). rewrite P. rewrite (proj2 (Rfloor_spec ((-9 + 180) / 360 * 256) 121)) by lra. rewrite (proj2 (Rfloor_spec ((10 + 180) / 360 * 256) 135)) by lra. discriminate. }
  assert (b2 = true) as ->. { apply Q2. intros [|[|[|j]]] f' J N; [| |lia|lia]; cbn [nth_error] in N; injection N as <-; rewrite ?PP, ?PQ; intros [= C _]; apply NC; symmetry; exact C. }
  cbn [andb] in *. change (seqb (rType p) (B "MultiPoint")) with false in G0. change (seqb (rType far) (B "MultiPoint")) with true in G2. cbv iota in G0, G1, G2. rewrite G0, G1. destruct G2 as (G2 & G3 & G4 & x & y & G5 & G6). rewrite LF in G5. injection G5 as <- <-. destruct g2 as [ty pt mu re]. cbn [rType rMulti rRest rPoint] in *. rewrite G2, G3, G4, G6. reflexivity.
Qed.
