(** Thinning the features of a tile in binary64 (C141). *)
From Coq Require Import ZArith Reals Lra Lia List Bool Arith String Ascii.
From Flocq Require Import Core BinarySingleNaN.
From Verif Require Import GoBase Json Num Tileid_Model TileR_Model TileR_Proofs TileF64_Model TileF64_Proofs F64 ColorF64_Model ColorF64_Proofs ColorF64_Props Tile64_Model Tile64_Proofs Tile64_Props Reduce_Model Reduce64_Model.
From Verif Require Reduce_Props Points64_Props Line64_Proofs.
Import ListNotations.
Open Scope string_scope.
Open Scope list_scope.
Open Scope R_scope.

(** The mean of coordinates as added up from the first to the last *)
Definition mean64 (l : list f64) : f64 := fdiv (fold_left fadd l (fint 0)) (fint (Z.of_nat (List.length l))).
Definition fst_of (p : list f64) : f64 := nth 0 p B754_nan.
Definition snd_of (p : list f64) : f64 := nth 1 p B754_nan.

Section Spec.
Context {A : Type}.
Implicit Types f g : rfeat64 A.
(** Where a point feature is *)
Definition location f : option (f64 * f64) :=
  if seqb (r6Type f) (B "Point") then Some (fst_of (r6Point f), snd_of (r6Point f))
  else if seqb (r6Type f) (B "MultiPoint") then Some (mean64 (map fst_of (r6Multi f)), mean64 (map snd_of (r6Multi f)))
  else None.
Definition two (p : list f64) : Prop := (2 <= List.length p)%nat.
Definition planar f : Prop := (r6Type f = B "Point" -> two (r6Point f)) /\ (r6Type f = B "MultiPoint" -> Forall two (r6Multi f)).
Definition extended f : Prop := In (r6Type f) [B "LineString"; B "MultiLineString"; B "Polygon"; B "MultiPolygon"].
(** What is left of a kept multipoint *)
Definition collapsed f g : Prop := r6Type g = B "Point" /\ r6Multi g = [] /\ r6Rest g = r6Rest f /\ exists x y, location f = Some (x, y) /\ r6Point g = [x; y].

Lemma sum_points_ok l : Forall two l -> forall x y, sum_points64 l x y = Ok (fold_left fadd (map fst_of l) x, fold_left fadd (map snd_of l) y).
Proof.
  induction 1 as [|p l H _ IH]; intros x y; [reflexivity|]. destruct p as [|a [|b q]]; unfold two in H; cbn in H; try lia. cbn [sum_points64 map fold_left]. rewrite IH. reflexivity.
Qed.
Lemma sum_points_bad l : ~ Forall two l -> forall x y, sum_points64 l x y = Panic.
Proof.
  induction l as [|p l IH]; intros H x y; [exfalso; apply H; constructor|]. destruct p as [|a [|b q]]; cbn [sum_points64]; auto. apply IH. intros K. apply H. constructor; auto. unfold two. cbn. lia.
Qed.
Lemma two_dec (l : list (list f64)) : Forall two l \/ ~ Forall two l.
Proof. destruct (Forall_dec two) with (l := l) as [H|H]; auto. intros p. unfold two. apply le_dec. Qed.

Variable m : libm.
Variable bbox : rfeat64 A -> (f64 * f64) * (f64 * f64).
Definition place z f : option TileID := match location f with Some (x, y) => Some (Cell64 m x y z) | None => None end.
(** One call *)
Definition same_but_map (c c' : rcfg64) : Prop := c6Percent c' = c6Percent c /\ c6DX c' = c6DX c /\ c6DY c' = c6DY c /\ c6Zoom c' = c6Zoom c /\ c6On c' = c6On c.
Lemma Filter_spec f c : c6On c = true -> planar f ->
  exists b g c', Filter64 m bbox f c = Ok (b, g, c') /\ same_but_map c c' /\
  match place (c6Zoom c) f with
  | Some k => (b = true <-> ~ In k (c6Map c)) /\ (forall k', In k' (c6Map c') <-> k' = k \/ In k' (c6Map c)) /\ (if b then if seqb (r6Type f) (B "MultiPoint") then collapsed f g else g = f else g = f)
  | None => c6Map c' = c6Map c /\ g = f /\
     (b = true <-> extended f /\ let '((x0, y0), (x1, y1)) := bbox f in (Bltb (c6Percent c) (fdiv (fsub x1 x0) (c6DX c)) || Bltb (c6Percent c) (fdiv (fsub y1 y0) (c6DY c)))%bool = true)
  end.
Proof.
  intros On [P1 P2]. unfold Filter64, place, location. rewrite On. cbn [negb]. destruct (seqb (r6Type f) (B "Point")) eqn:E1.
  - apply Reduce_Props.seqb_eq in E1. specialize (P1 E1). destruct (r6Point f) as [|x [|y q]] eqn:EP; unfold two in P1; cbn in P1; try lia. cbv zeta. unfold fst_of, snd_of. cbn [nth].
    assert (NM : seqb (r6Type f) (B "MultiPoint") = false) by (rewrite E1; reflexivity). rewrite NM. destruct (existsb _ (c6Map c)) eqn:ES.
    + apply Reduce_Props.seen_iff in ES. do 3 eexists. split; [reflexivity|]. split; [unfold same_but_map; cbn [c6Percent c6DX c6DY c6Zoom c6On]; auto 8|]. split; [split; [discriminate|contradiction]|]. split; [|reflexivity]. intros k'. split; [auto|]. intros [->|H]; auto.
    + do 3 eexists. split; [reflexivity|]. split; [unfold same_but_map; cbn [c6Percent c6DX c6DY c6Zoom c6On]; auto 8|]. cbn [c6Map]. split; [split; [|auto]|]. { intros _ H. apply Reduce_Props.seen_iff in H. congruence. } split; [|reflexivity]. intros k'. cbn [In]. split; intros [H|H]; auto.
  - destruct (seqb (r6Type f) (B "MultiPoint")) eqn:E2.
    + apply Reduce_Props.seqb_eq in E2. specialize (P2 E2). rewrite (sum_points_ok _ P2). cbn [bind]. cbv zeta.
      assert (M1 : fdiv (fold_left fadd (map fst_of (r6Multi f)) (fint 0)) (fint (Z.of_nat (List.length (r6Multi f)))) = mean64 (map fst_of (r6Multi f))) by (unfold mean64; rewrite map_length; reflexivity).
      assert (M2 : fdiv (fold_left fadd (map snd_of (r6Multi f)) (fint 0)) (fint (Z.of_nat (List.length (r6Multi f)))) = mean64 (map snd_of (r6Multi f))) by (unfold mean64; rewrite map_length; reflexivity). rewrite M1, M2. destruct (existsb _ (c6Map c)) eqn:ES.
      * apply Reduce_Props.seen_iff in ES. do 3 eexists. split; [reflexivity|]. split; [unfold same_but_map; cbn [c6Percent c6DX c6DY c6Zoom c6On]; auto 8|]. split; [split; [discriminate|contradiction]|]. split; [|reflexivity]. intros k'. split; [auto|]. intros [->|H]; auto.
      * do 3 eexists. split; [reflexivity|]. split; [unfold same_but_map; cbn [c6Percent c6DX c6DY c6Zoom c6On]; auto 8|]. cbn [c6Map]. split; [split; [|auto]|]. { intros _ H. apply Reduce_Props.seen_iff in H. congruence. } split; [intros k'; cbn [In]; split; intros [H|H]; auto|]. split; [reflexivity|]. split; [reflexivity|]. split; [reflexivity|]. unfold location. rewrite E1. apply Reduce_Props.seqb_eq in E2. rewrite E2. eexists. eexists. split; reflexivity.
    + assert (X : (seqb (r6Type f) (B "LineString") || seqb (r6Type f) (B "MultiLineString") || seqb (r6Type f) (B "MultiPolygon") || seqb (r6Type f) (B "Polygon")) = true <-> extended f).
      { unfold extended. rewrite !orb_true_iff, !Reduce_Props.seqb_eq. cbn [In]. split; [intros [[[->| ->]| ->]| ->]; auto|]. intros [<-|[<-|[<-|[<-|[]]]]]; auto. }
      destruct (_ || seqb (r6Type f) (B "Polygon")) eqn:E3.
      * destruct (bbox f) as [[x0 y0] [x1 y1]]. do 3 eexists. split; [reflexivity|]. split; [unfold same_but_map; cbn [c6Percent c6DX c6DY c6Zoom c6On]; auto 8|]. split; [reflexivity|]. split; [reflexivity|]. rewrite <- X. tauto.
      * do 3 eexists. split; [reflexivity|]. split; [unfold same_but_map; cbn [c6Percent c6DX c6DY c6Zoom c6On]; auto 8|]. split; [reflexivity|]. split; [reflexivity|]. split; [discriminate|]. intros [H _]. apply X in H. discriminate.
Qed.
Lemma Filter_panic f c : c6On c = true -> ~ planar f -> Filter64 m bbox f c = Panic.
Proof.
  intros On H. unfold Filter64. rewrite On. cbn [negb]. destruct (seqb (r6Type f) (B "Point")) eqn:E1.
  - apply Reduce_Props.seqb_eq in E1. destruct (r6Point f) as [|x [|y q]] eqn:EP; auto. exfalso. apply H. split; [intros _; rewrite EP; unfold two; cbn; lia|]. rewrite E1. discriminate.
  - destruct (seqb (r6Type f) (B "MultiPoint")) eqn:E2.
    + apply Reduce_Props.seqb_eq in E2. destruct (two_dec (r6Multi f)) as [K|K]; [|rewrite (sum_points_bad _ K); reflexivity]. exfalso. apply H. split; [rewrite E2; discriminate|auto].
    + exfalso. apply H. split; intros K; apply Reduce_Props.seqb_eq in K; congruence.
Qed.
Lemma planar_dec f : planar f \/ ~ planar f.
Proof.
  unfold planar. destruct (seqb (r6Type f) (B "Point")) eqn:E1.
  - apply Reduce_Props.seqb_eq in E1. rewrite E1. destruct (le_dec 2 (List.length (r6Point f))) as [K|K]; [left; split; [auto|discriminate]|right; intros [H _]; exact (K (H eq_refl))].
  - assert (r6Type f <> B "Point") by (intros K; apply Reduce_Props.seqb_eq in K; congruence). destruct (seqb (r6Type f) (B "MultiPoint")) eqn:E2.
    + apply Reduce_Props.seqb_eq in E2. destruct (two_dec (r6Multi f)) as [K|K]; [left; split; [contradiction|auto]|right; intros [_ Q]; auto].
    + left. split; intros K; [contradiction|apply Reduce_Props.seqb_eq in K; congruence].
Qed.
Lemma Filters_spec fs : forall c, c6On c = true -> Forall planar fs -> exists l c', Filters64 m bbox fs c = Ok (l, c') /\ List.length l = List.length fs /\
  forall i f, nth_error fs i = Some f -> exists b g, nth_error l i = Some (b, g) /\
  match place (c6Zoom c) f with
  | Some k => (b = true <-> ~ In k (c6Map c) /\ forall j f', (j < i)%nat -> nth_error fs j = Some f' -> place (c6Zoom c) f' <> Some k) /\ (if b then if seqb (r6Type f) (B "MultiPoint") then collapsed f g else g = f else g = f)
  | None => g = f /\ (b = true <-> extended f /\ let '((x0, y0), (x1, y1)) := bbox f in (Bltb (c6Percent c) (fdiv (fsub x1 x0) (c6DX c)) || Bltb (c6Percent c) (fdiv (fsub y1 y0) (c6DY c)))%bool = true)
  end.
Proof.
  induction fs as [|f fs IH]; intros c On H.
  - exists [], c. split; [reflexivity|]. split; [reflexivity|]. intros [|i] f K; discriminate.
  - inversion H as [|? ? H1 H2]; subst. cbn [Filters64]. destruct (Filter_spec f c On H1) as (b & g & c1 & E & (S1 & S2 & S3 & S4 & S5) & K). rewrite E. cbn [bind]. destruct (IH c1 ltac:(congruence) H2) as (l & c2 & E2 & L & K2). rewrite E2. cbn [bind]. exists ((b, g) :: l), c2. split; [reflexivity|]. split; [cbn; congruence|].
    intros [|i] f' N; cbn [nth_error] in *.
    + injection N as <-. exists b, g. split; [reflexivity|]. destruct (place (c6Zoom c) f) as [k|]; [|tauto]. destruct K as (K1 & _ & K3). split; [|exact K3]. rewrite K1. split; [intros Q; split; [exact Q|lia]|tauto].
    + destruct (K2 i f' N) as (b' & g' & N' & Q). exists b', g'. split; [exact N'|]. rewrite S1, S2, S3, S4 in Q. destruct (place (c6Zoom c) f') as [k|]; [|exact Q]. destruct Q as [Q1 Q2]. split; [|exact Q2]. rewrite Q1. clear Q1 Q2.
      assert (M : In k (c6Map c1) <-> place (c6Zoom c) f = Some k \/ In k (c6Map c)). { destruct (place (c6Zoom c) f) as [k0|]. - destruct K as (_ & K & _). rewrite K. split; intros [D|D]; auto; left; congruence. - destruct K as (-> & _). split; [auto|]. intros [D|D]; [discriminate|auto]. }
      rewrite M. split.
      * intros [Q1 Q2]. split; [tauto|]. intros [|j] f'' J N''; cbn [nth_error] in N''; [injection N'' as <-; tauto|]. apply (Q2 j); auto. lia.
      * intros [Q1 Q2]. split; [intros [D|D]; [|tauto]; apply (Q2 O f); auto; lia|]. intros j f'' J N''. apply (Q2 (S j) f''); [lia|exact N''].
Qed.

(** ** C141 *)
(** A run over features panics exactly when a point lacks a coordinate. *)
Theorem C141_panic : forall t fs, (Filters64 m bbox fs (NewReduceConfig64 m t) = Panic <-> Exists (fun f => ~ planar f) fs) /\ Filters64 m bbox fs (NewReduceConfig64 m t) <> NoFuel.
Proof.
  intros t. enough (K : forall fs c, c6On c = true -> (Filters64 m bbox fs c = Panic <-> Exists (fun f => ~ planar f) fs) /\ Filters64 m bbox fs c <> NoFuel) by (intros fs; apply K; reflexivity).
  induction fs as [|f fs IH]; intros c On.
  - cbn [Filters64]. split; [|discriminate]. split; [discriminate|]. intros H. inversion H.
  - cbn [Filters64]. destruct (planar_dec f) as [P|P].
    + destruct (Filter_spec f c On P) as (b & g & c1 & E & (_ & _ & _ & _ & S5) & _). rewrite E. cbn [bind]. destruct (IH c1 ltac:(congruence)) as [I1 I2]. destruct (Filters64 m bbox fs c1) as [[l c2]| |]; cbn [bind]; [|split; [|discriminate]|congruence].
      * split; [|discriminate]. split; [discriminate|]. intros H. inversion H; subst; [contradiction|]. apply I1 in H1. discriminate.
      * split; [|reflexivity]. intros _. right. apply I1. reflexivity.
    + rewrite (Filter_panic f c On P). cbn [bind]. split; [|discriminate]. split; [|reflexivity]. intros _. left. exact P.
Qed.

(** Longer in one direction than half a percent of the tile and [d] degrees *)
Definition beyond t d f : Prop :=
  let '((x0, y0), (x1, y1)) := bbox f in
  (B2R x1 - B2R x0) > (eE (Bounds t) - eW (Bounds t)) / 200 + d \/ (B2R y1 - B2R y0) > (eN (Bounds t) - eS (Bounds t)) / 200 + d.
Definition boxed f : Prop :=
  let '((x0, y0), (x1, y1)) := bbox f in Forall (fun v => is_finite v = true /\ Rabs (B2R v) <= 1000) [x0; y0; x1; y1].

Definition vpct : R := 5764607523034235 / 1152921504606846976.
Lemma pct_f : is_f percent64 vpct.
Proof. assert (E : bpow radix2 (-60) = / 1152921504606846976) by exact (bpm 60 1152921504606846976 ltac:(lia) eq_refl). split; [reflexivity|]. unfold percent64, B2R, F2R, vpct. cbn [Fnum Fexp cond_Zopp]. rewrite E. unfold Rdiv. ring. Qed.
Lemma vpct_near : / 200 - / 10 ^ 17 <= vpct <= / 200 + / 10 ^ 17.
Proof. unfold vpct. lra. Qed.
Lemma share a b d Dh D : is_finite a = true -> is_finite b = true -> Rabs (B2R a) <= 1000 -> Rabs (B2R b) <= 1000 -> is_f d Dh -> Rabs (Dh - D) <= 17 / 10 ^ 12 -> 4 / 10 ^ 10 <= D <= 360 ->
  (B2R b - B2R a > D / 200 + / 10 ^ 12 -> Bltb percent64 (fdiv (fsub b a) d) = true) /\ (Bltb percent64 (fdiv (fsub b a) d) = true -> B2R b - B2R a > D / 200 + - / 10 ^ 12).
Proof.
  intros Fa Fb Ha Hb FD HD RD. apply ab in Ha, Hb, HD. set (x := B2R a) in *. set (y := B2R b) in *. assert (W : Rabs (y - x) <= 2048) by (apply ab; lra).
  pose proof (fsub_f b a y x (conj Fb eq_refl) (conj Fa eq_refl) ltac:(apply big, ab; lra)) as FW. pose proof (re 11 2048 ltac:(lia) ltac:(lia) eq_refl _ W) as EW. apply ab in EW. unfold uu in EW.
  set (w := rnd (y - x)) in *. assert (Dp : 3 / 10 ^ 10 <= Dh <= 361) by lra. assert (IP : 0 < / Dh) by (apply Rinv_0_lt_compat; lra).
  assert (IU : / Dh <= 10 ^ 10). { apply Rle_trans with (/ (/ 10 ^ 10)); [apply Rinv_le_contravar; lra|]. rewrite Rinv_inv. lra. }
  assert (IL : / 361 <= / Dh) by (apply Rinv_le_contravar; lra).
  assert (WB : -2049 <= w <= 2049) by (apply ab in W; lra).
  assert (QB : Rabs (w / Dh) <= 1000000000000000000000). { unfold Rdiv. rewrite Rabs_mult, (Rabs_pos_eq (/ Dh)) by lra. apply Rle_trans with (2049 * 10 ^ 10); [|lra]. apply Rmult_le_compat; try lra; [apply Rabs_pos|apply ab; lra]. }
  pose proof (fdiv_f _ _ _ _ FW FD ltac:(lra) ltac:(apply big, QB)) as FQ. rewrite (Bltb_f _ _ _ _ pct_f FQ). pose proof vpct_near as VP. set (q := w / Dh) in *.
  assert (EQ : q * Dh = w) by (unfold q; field; lra).
  assert (VD : D / 200 - 2 / 10 ^ 13 <= vpct * Dh <= D / 200 + 2 / 10 ^ 13). { assert (V1 : vpct * Dh = Dh / 200 + (vpct - / 200) * Dh) by lra. assert (V2 : - (361 / 10 ^ 17) <= (vpct - / 200) * Dh <= 361 / 10 ^ 17). { apply ab. rewrite Rabs_mult, (Rabs_pos_eq Dh) by lra. replace (361 / 10 ^ 17) with (/ 10 ^ 17 * 361) by lra. apply Rmult_le_compat; try lra; [apply Rabs_pos|apply ab; lra]. } lra. }
  assert (RQ : forall v, Rabs v <= 1 -> v - / 10 ^ 15 <= rnd v <= v + / 10 ^ 15). { intros v Hv. pose proof (re 0 1 ltac:(lia) ltac:(lia) eq_refl v Hv) as K. apply ab in K. unfold uu in K. lra. }
  assert (MG : forall c, 4 / 10 ^ 13 <= c * Dh -> 11 / 10 ^ 16 <= c). { intros c Hc. apply Rnot_lt_le. intros L. assert (c * Dh <= 11 / 10 ^ 16 * Dh) by (apply Rmult_le_compat_r; lra). lra. }
  destruct (Rltb_spec vpct (rnd q)) as [L|L].
  - split; [reflexivity|]. intros _. apply Rnot_le_gt. intros K. assert (M1 : 11 / 10 ^ 16 <= vpct - q) by (apply MG; rewrite Rmult_minus_distr_r, EQ; lra).
    destruct (Rle_lt_dec (-1) q) as [Q|Q].
    + pose proof (RQ q ltac:(apply ab; lra)). lra.
    + pose proof (rnd_le_int q (-1) ltac:(lia) ltac:(lra)). lra.
  - split; [|discriminate]. intros K. exfalso. assert (M1 : 11 / 10 ^ 16 <= q - vpct) by (apply MG; rewrite Rmult_minus_distr_r, EQ; lra).
    destruct (Rle_lt_dec q 1) as [Q|Q].
    + pose proof (RQ q ltac:(apply ab; lra)). lra.
    + pose proof (rnd_ge_int q 1 ltac:(lia) ltac:(lra)). lra.
Qed.
(** The extent of a tile and its rounded value *)
Lemma extents t : good_libm m -> on_map t -> (tZ t <= 36)%Z ->
  (exists Dh, is_f (c6DX (NewReduceConfig64 m t)) Dh /\ Rabs (Dh - (eE (Bounds t) - eW (Bounds t))) <= 17 / 10 ^ 12 /\ 4 / 10 ^ 10 <= eE (Bounds t) - eW (Bounds t) <= 360) /\
  (exists Dh, is_f (c6DY (NewReduceConfig64 m t)) Dh /\ Rabs (Dh - (eN (Bounds t) - eS (Bounds t))) <= 17 / 10 ^ 12 /\ 4 / 10 ^ 10 <= eN (Bounds t) - eS (Bounds t) <= 360).
Proof.
  intros G M Hz. pose proof M as (Z0 & HX & HY). destruct (bounds_near m G t M ltac:(lia)) as (FW & FE & (rn & FN & EN) & (rs & FS & ES)). destruct (Bounds_exact t M) as (BW & BE & BN & BS). pose proof (n_pos t M) as N1. destruct (u_range t M) as (U1 & U2 & U3 & U4). pose proof PI_range as P.
  assert (NB : IZR (2 ^ tZ t) <= 68719476736) by (apply IZR_le; change 68719476736%Z with (2 ^ 36)%Z; apply p43; lia). set (n := IZR (2 ^ tZ t)) in *.
  assert (IN : / 68719476736 <= / n <= 1). { split; [apply Rinv_le_contravar; lra|]. replace 1 with (/ 1) by lra. apply Rinv_le_contravar; lra. }
  unfold NewReduceConfig64. cbn [c6DX c6DY]. split.
  - set (D := eE (Bounds t) - eW (Bounds t)) in *. assert (DE : D = 360 * / n). { unfold D. rewrite BE, BW, plus_IZR. field. lra. } assert (DR : 4 / 10 ^ 10 <= D <= 360) by lra.
    eexists. split; [apply fsub_f; [exact FE|exact FW|fold D; apply big, ab; lra]|]. fold D. split; [|exact DR]. assert (K : Rabs D <= 1024) by (apply ab; lra). apply re1024 in K. unfold uu in K. lra.
  - set (D := eN (Bounds t) - eS (Bounds t)) in *. unfold e12 in EN, ES. apply ab in EN, ES.
    assert (DR : 4 / 10 ^ 10 <= D <= 180).
    { unfold D. rewrite BN, BS. set (uN := PI * (1 - 2 * IZR (tY t) / n)) in *. set (uS := PI * (1 - 2 * (IZR (tY t) + 1) / n)) in *.
      pose proof (gd_low uN uS ltac:(apply ab; lra) ltac:(apply ab; lra)) as L. pose proof (proj1 (gd_le uS uN) U2) as GL. rewrite !Rabs_pos_eq in L by lra. rewrite U4 in L.
      assert (KD : 57 <= 180 / PI <= 58). { split; apply Rmult_le_reg_r with PI; try lra; unfold Rdiv; rewrite Rmult_assoc, Rinv_l by lra; lra. }
      assert (GU : forall c, -90 <= 180 / PI * gd c <= 90). { intros c. unfold gd. pose proof (atan_bound (sinh c)) as K. assert (E : 180 / PI * (PI / 2) = 90) by (field; lra). split; nra. }
      pose proof (GU uN). pose proof (GU uS). split; [|lra]. assert (L2 : 6 * / n <= 121 / 10 * (gd uN - gd uS)). { apply Rle_trans with (2 * PI / n); [|exact L]. unfold Rdiv. apply Rmult_le_compat_r; lra. }
      rewrite <- Rmult_minus_distr_l. apply Rle_trans with (57 * (gd uN - gd uS)); [lra|]. apply Rmult_le_compat_r; lra. }
    eexists. split; [apply fsub_f; [exact FN|exact FS|apply big, ab; unfold D in DR; lra]|]. split; [|lra].
    assert (K : Rabs (rn - rs) <= 1024) by (unfold D in DR; apply ab; lra). apply re1024 in K. apply ab in K. unfold uu in K. apply ab. unfold D. lra.
Qed.
(** What is kept: the first point feature of each cell, a multipoint as its mean, and lines and areas over half a percent of the tile wide or high, up to 1e-12 degrees. *)
Theorem C141_kept : forall t fs, good_libm m -> on_map t -> (tZ t <= 36)%Z -> Forall planar fs -> exists l c', Filters64 m bbox fs (NewReduceConfig64 m t) = Ok (l, c') /\ List.length l = List.length fs /\
  forall i f, nth_error fs i = Some f -> exists b g, nth_error l i = Some (b, g) /\
  match place (tZ t + 8) f with
  | Some k => (b = true <-> forall j f', (j < i)%nat -> nth_error fs j = Some f' -> place (tZ t + 8) f' <> Some k) /\ (if b && seqb (r6Type f) (B "MultiPoint") then collapsed f g else g = f)
  | None => g = f /\ (~ extended f -> b = false) /\ (extended f -> boxed f -> (beyond t (/ 10 ^ 12) f -> b = true) /\ (b = true -> beyond t (- / 10 ^ 12) f))
  end.
Proof.
  intros t fs G M Hz H. pose proof M as (Z0 & _ & _). destruct (Filters_spec fs (NewReduceConfig64 m t) eq_refl H) as (l & c' & E & L & K). exists l, c'. split; [exact E|]. split; [exact L|]. intros i f N. destruct (K i f N) as (b & g & N' & Q). exists b, g. split; [exact N'|].
  assert (EZ : c6Zoom (NewReduceConfig64 m t) = (tZ t + 8)%Z). { unfold NewReduceConfig64. cbn [c6Zoom]. rewrite (wrap64_id (tZ t)) by (unfold in_i64; lia). apply wrap64_id. unfold in_i64; lia. } rewrite EZ in Q. change (c6Map (NewReduceConfig64 m t)) with (@nil TileID) in Q. change (c6Percent (NewReduceConfig64 m t)) with percent64 in Q. destruct (place (tZ t + 8) f) as [k|].
  - destruct Q as [Q1 Q2]. split; [rewrite Q1; cbn [In]; tauto|]. destruct b; cbn [andb]; exact Q2.
  - destruct Q as [Q1 Q2]. split; [exact Q1|]. split; [intros X; destruct b; auto; exfalso; apply X, Q2; reflexivity|]. intros X BX. destruct (extents t G M Hz) as ((DX & FX & EX & RX) & (DY & FY & EY & RY)). revert BX Q2. unfold boxed, beyond. destruct (bbox f) as [[x0 y0] [x1 y1]]. intros BX Q2.
    inversion BX as [|? ? (F1 & B1) BX1]; subst. inversion BX1 as [|? ? (F2 & B2) BX2]; subst. inversion BX2 as [|? ? (F3 & B3) BX3]; subst. inversion BX3 as [|? ? (F4 & B4) _]; subst.
    destruct (share x0 x1 _ _ _ F1 F3 B1 B3 FX EX RX) as [S1 S2]. destruct (share y0 y1 _ _ _ F2 F4 B2 B4 FY EY RY) as [S3 S4]. split.
    + intros Y. apply Q2. split; [exact X|]. apply orb_true_iff. destruct Y as [Y|Y]; auto.
    + intros Y. apply Q2 in Y. destruct Y as [_ Y]. apply orb_true_iff in Y. destruct Y as [Y|Y]; auto.
Qed.
(** Switched off, everything is kept as it is. *)
Theorem C141_off : forall fs c, c6On c = false -> Filters64 m bbox fs c = Ok (map (fun f => (true, f)) fs, c).
Proof. induction fs as [|f fs IH]; intros c H; [reflexivity|]. cbn [Filters64 map]. unfold Filter64. rewrite H. cbn [negb bind]. rewrite IH by exact H. reflexivity. Qed.

Lemma go_floor_f x v : is_f x v -> Rabs v <= bpow radix2 60 -> go_floor x = Zfloor v.
Proof.
  intros [F <-] H. unfold go_floor. rewrite F. cbn [andb]. apply ab in H. assert (E : bpow radix2 60 = IZR (2 ^ 60)) by (apply bz; lia). rewrite E in H.
  pose proof (Zfloor_lb (B2R x)) as L. pose proof (Zfloor_ub (B2R x)) as U. assert (A1 : (Zfloor (B2R x) <= 2 ^ 60)%Z) by (apply le_IZR; lra). assert (A2 : (- 2 ^ 60 - 1 < Zfloor (B2R x))%Z) by (apply lt_IZR; rewrite minus_IZR, opp_IZR; lra).
  rewrite (proj2 (Z.leb_le _ _)), (proj2 (Z.ltb_lt _ _)) by lia. reflexivity.
Qed.
Lemma cell_tile (p : f64 * f64) z : good_libm m -> Points64_Props.on_earth p -> (0 <= z <= 44)%Z -> Cell64 m (fst p) (snd p) z = Tile64 m (fst p) (snd p) z.
Proof.
  intros G W Hz. destruct (Points64_Props.world_u p W) as (u & EU & HU). destruct W as (F1 & F2 & HL & _). destruct Points64_Props.world as (W1 & W2 & _). rewrite W1, W2 in HL. pose proof PI_range as PR.
  destruct (row_rel m G (snd p) u F2 EU ltac:(apply ab; lra)) as (h & FH & _ & BH). unfold Cell64, Tile64. cbv zeta.
  assert (BN : forall v, Rabs v <= 2 -> Rabs (v * bpow radix2 z) <= bpow radix2 60). { intros v Hv. pose proof (bpow_gt_0 radix2 z) as P. rewrite Rabs_mult, (Rabs_pos_eq (bpow radix2 z)) by lra. apply Rle_trans with (2 * bpow radix2 z); [apply Rmult_le_compat_r; lra|]. change 2 with (bpow radix2 1). rewrite <- bpow_plus. apply bpow_le. lia. }
  assert (FI : forall x v, is_f x v -> Rabs v <= 2 -> is_f (fmul x (fpow2 z)) (v * bpow radix2 z)). { intros x v F B. split; [|apply Points64_Props.scale_exact; auto; lia]. apply (fmul_f _ _ _ _ F (fpow2_f z ltac:(lia))). eapply Rle_trans; [apply BN, B|]. apply bpow_le. lia. }
  f_equal.
  - pose proof (fadd_f _ _ _ _ (conj F1 eq_refl) c180_f ltac:(apply big, ab; lra)) as K1. assert (0 <= rnd (B2R (fst p) + 180) <= 360) by (split; [apply rnd_nonneg; lra|apply (rnd_le_int _ 360); [lia|lra]]).
    pose proof (fdiv_f _ _ _ _ K1 c360_f ltac:(lra) ltac:(apply big, ab; lra)) as K2. assert (0 <= rnd (rnd (B2R (fst p) + 180) / 360) <= 1) by (split; [apply rnd_nonneg; lra|apply (rnd_le_int _ 1); [lia|lra]]).
    pose proof (FI _ _ K2 ltac:(apply ab; lra)) as K3. rewrite (go_floor_f _ _ K3) by (apply BN, ab; lra). unfold tile_col. destruct K3 as [_ ->]. reflexivity.
  - unfold rel_row in FH. cbv zeta in FH. pose proof (FI _ _ FH BH) as K3. rewrite (go_floor_f _ _ K3) by (apply BN, BH). unfold tile_row. cbv zeta. destruct K3 as [_ ->]. reflexivity.
Qed.
Lemma cell_in t (p : f64 * f64) : good_libm m -> Points64_Props.on_earth p -> (0 <= tZ t <= 36)%Z -> Tile64 m (fst p) (snd p) (tZ t) = t -> In (Cell64 m (fst p) (snd p) (tZ t + 8)) (Reduce_Props.cells t).
Proof.
  intros G W Hz E. rewrite (cell_tile p) by (auto; lia). pose proof (fun z => Points64_Props.tile_above m p z G W) as U.
  assert (K : tX t = (tX (Tile64 m (fst p) (snd p) (tZ t + 8)) / 256)%Z /\ tY t = (tY (Tile64 m (fst p) (snd p) (tZ t + 8)) / 256)%Z).
  { set (T := fun k => Tile64 m (fst p) (snd p) (tZ t + k)). assert (UT : forall k, (0 <= k < 8)%Z -> T k = Points64_Props.above (T (k + 1)%Z)). { intros k Hk. unfold T. rewrite Z.add_assoc, U by lia. reflexivity. }
    assert (T0 : t = T 0%Z) by (unfold T; rewrite Z.add_0_r; symmetry; exact E). change (Tile64 m (fst p) (snd p) (tZ t + 8)) with (T 8%Z). rewrite T0 at 1 2.
    rewrite (UT 0%Z), (UT (0 + 1)%Z), (UT (0 + 1 + 1)%Z), (UT (0 + 1 + 1 + 1)%Z), (UT (0 + 1 + 1 + 1 + 1)%Z), (UT (0 + 1 + 1 + 1 + 1 + 1)%Z), (UT (0 + 1 + 1 + 1 + 1 + 1 + 1)%Z), (UT (0 + 1 + 1 + 1 + 1 + 1 + 1 + 1)%Z) by lia. change (0 + 1 + 1 + 1 + 1 + 1 + 1 + 1 + 1)%Z with 8%Z. clearbody T. clear. unfold Points64_Props.above. cbn [tX tY]. rewrite !Z.div_div by lia. split; reflexivity. }
  set (c := Tile64 m (fst p) (snd p) (tZ t + 8)) in *. assert (CZ : tZ c = (tZ t + 8)%Z) by (unfold c, Tile64; cbn [tZ]; apply u64_id; unfold in_u64; lia). destruct K as [KX KY]. unfold Reduce_Props.cells. apply in_map_iff. exists (Z.to_nat (tX c mod 256), Z.to_nat (tY c mod 256)). cbn [fst snd].
  pose proof (Z.mod_pos_bound (tX c) 256 ltac:(lia)). pose proof (Z.mod_pos_bound (tY c) 256 ltac:(lia)). split.
  - rewrite !Z2Nat.id by lia. destruct c as [cx cy cz]. cbn [tX tY tZ] in *. f_equal; lia.
  - apply in_prod; apply in_seq; (split; [lia|]); apply Nat2Z.inj_lt; rewrite Z2Nat.id by lia; change (Z.of_nat (0 + 256)) with 256%Z; lia.
Qed.
(** However many point features the tile has, no more than 256 x 256 of them are kept. *)
Theorem C141_budget : forall t fs l c', good_libm m -> on_map t -> (tZ t <= 36)%Z -> Filters64 m bbox fs (NewReduceConfig64 m t) = Ok (l, c') ->
  forall is, NoDup is -> (forall i, In i is -> exists f p g, nth_error fs i = Some f /\ location f = Some p /\ Points64_Props.on_earth p /\ Tile64 m (fst p) (snd p) (tZ t) = t /\ nth_error l i = Some (true, g)) ->
  (Z.of_nat (List.length is) <= 65536)%Z.
Proof.
  intros t fs l c' G M Hz E is ND H. pose proof M as (Z0 & _ & _). assert (PL : Forall planar fs). { destruct (C141_panic t fs) as [[_ Q] _]. apply Forall_forall. intros f Hf. destruct (planar_dec f) as [|N]; auto. rewrite E in Q. discriminate Q. apply Exists_exists. eauto. }
  destruct (C141_kept t fs G M Hz PL) as (l' & c'' & E' & _ & K). rewrite E in E'. injection E' as <- <-.
  set (h := fun i => match nth_error fs i with Some f => match place (tZ t + 8) f with Some k => k | None => t end | None => t end).
  assert (Q : forall i, In i is -> exists f k g, nth_error fs i = Some f /\ nth_error l i = Some (true, g) /\ place (tZ t + 8) f = Some k /\ h i = k /\ In k (Reduce_Props.cells t)).
  { intros i Hi. destruct (H i Hi) as (f & p & g & N & L & W & ET & N'). exists f, (Cell64 m (fst p) (snd p) (tZ t + 8)), g. assert (PF : place (tZ t + 8) f = Some (Cell64 m (fst p) (snd p) (tZ t + 8))) by (unfold place; rewrite L; destruct p; reflexivity). split; [exact N|]. split; [exact N'|]. split; [exact PF|]. split; [unfold h; rewrite N, PF; reflexivity|]. apply cell_in; auto. }
  rewrite <- (Reduce_Props.cells_length t). apply inj_le. rewrite <- (map_length h is). apply NoDup_incl_length.
  - assert (INJ : forall i j, In i is -> In j is -> h i = h j -> (i < j)%nat -> False). { intros i j Hi Hj Ehij Lt. destruct (Q i Hi) as (f & k & g & A1 & A2 & A3 & A4 & _). destruct (Q j Hj) as (f' & k' & g' & B1 & B2 & B3 & B4 & _). destruct (K j f' B1) as (b & g2 & B5 & B6). rewrite B2 in B5. injection B5 as <- <-. rewrite B3 in B6. destruct B6 as [[B6 _] _]. apply (B6 eq_refl i f Lt A1). congruence. }
    clear - ND INJ. induction ND as [|i is N ND IH]; [constructor|]. cbn [map]. constructor; [|apply IH; intros a b Ha Hb; apply INJ; right; auto]. intros C. apply in_map_iff in C. destruct C as (j & Ej & Hj). destruct (Nat.lt_trichotomy i j) as [L|[L|L]]; [|subst; contradiction|].
    + apply (INJ i j); auto; [left; reflexivity|right; exact Hj].
    + apply (INJ j i); auto; [right; exact Hj|left; reflexivity].
  - intros k Hk. apply in_map_iff in Hk. destruct Hk as (i & <- & Hi). destruct (Q i Hi) as (f & k & g & _ & _ & _ & -> & Hc). exact Hc.
Qed.
End Spec.
Print Assumptions C141_panic.
Print Assumptions C141_kept.
Print Assumptions C141_off.
Print Assumptions C141_budget.

Definition sumR (l : list f64) : R := fold_right Rplus 0 (map (fun x => B2R x) l).
Definition e0 : R := 3 / 10 ^ 14.
Lemma fold_near l : forall k s rs e, is_f s rs -> 0 <= k -> Rabs (rs - e) <= k * k * e0 -> Rabs e <= 180 * k -> k + INR (List.length l) <= 1000000000 ->
  Forall (fun x => is_finite x = true /\ Rabs (B2R x) <= 180) l ->
  exists r, is_f (fold_left fadd l s) r /\ Rabs (r - (e + sumR l)) <= (k + INR (List.length l)) * (k + INR (List.length l)) * e0.
Proof.
  induction l as [|x l IH]; intros k s rs e FS K0 D B N H.
  - exists rs. cbn [fold_left List.length INR]. split; [exact FS|]. unfold sumR. cbn [map fold_right]. rewrite !Rplus_0_r. exact D.
  - inversion H as [|? ? [Fx Bx] H']; subst. cbn [List.length] in *. rewrite S_INR in *. pose proof (pos_INR (List.length l)) as LP. assert (KK : k * k * e0 <= k). { unfold e0. assert (k * k <= k * 1000000000) by (apply Rmult_le_compat_l; lra). lra. }
    apply ab in D, B, Bx. set (v := B2R x) in *. assert (RS : Rabs (rs + v) <= 182 * (k + 1)) by (apply ab; lra). cbn [fold_left].
    pose proof (fadd_f _ _ _ _ FS (conj Fx eq_refl : is_f x v) ltac:(apply big; eapply Rle_trans; [exact RS|lra])) as FA. pose proof (Line64_Proofs.rnd_rel (rs + v)) as R1. set (r1 := rnd (rs + v)) in *.
    assert (R2 : Rabs (r1 - (rs + v)) <= (k + 1) * e0). { eapply Rle_trans; [exact R1|]. unfold uu, e0, Line64_Proofs.eta. lra. } apply ab in R2.
    assert (SQ : (k + 1) * (k + 1) * e0 = k * k * e0 + 2 * (k * e0) + e0) by ring. assert (0 <= k * e0) by (unfold e0; lra). assert (E0 : 0 < e0) by (unfold e0; lra).
    destruct (IH (k + 1) (fadd s x) r1 (e + v) FA ltac:(lra) ltac:(apply ab; lra) ltac:(apply ab; lra) ltac:(lra) H') as (r & FR & ER). exists r. split; [exact FR|].
    replace (k + (INR (List.length l) + 1)) with (k + 1 + INR (List.length l)) by ring. unfold sumR in *. cbn [map fold_right]. fold v. rewrite <- Rplus_assoc. exact ER.
Qed.
(** The computed mean of n coordinates is within n/10^13 degrees of the true one. *)
Theorem C141_mean : forall l, l <> [] -> (Z.of_nat (List.length l) <= 1000000000)%Z -> Forall (fun x => is_finite x = true /\ Rabs (B2R x) <= 180) l ->
  is_finite (mean64 l) = true /\ Rabs (B2R (mean64 l) - sumR l / INR (List.length l)) <= INR (List.length l) / 10 ^ 13.
Proof.
  intros l NE N H. assert (N1 : 1 <= INR (List.length l)). { destruct l as [|a l]; [congruence|]. cbn [List.length]. rewrite S_INR. pose proof (pos_INR (List.length l)). lra. } assert (N2 : INR (List.length l) <= 1000000000) by (rewrite INR_IZR_INZ; apply IZR_le; lia).
  assert (F0 : is_f (fint 0) 0) by (apply (fint_f 0); lia). destruct (fold_near l 0 (fint 0) 0 0 F0 ltac:(lra) ltac:(rewrite Rabs_R0 || (apply ab; unfold e0; lra); unfold e0; lra) ltac:(apply ab; lra) ltac:(lra) H) as (r & FR & ER).
  rewrite !Rplus_0_l in ER. assert (FN : is_f (fint (Z.of_nat (List.length l))) (INR (List.length l))) by (rewrite INR_IZR_INZ; apply fint_f; lia). set (n := INR (List.length l)) in *.
  assert (S : Rabs (sumR l) <= 180 * n). { unfold n. clear - H. induction H as [|x l [_ B] _ IH]; [unfold sumR; cbn; rewrite Rabs_R0; lra|]. unfold sumR in *. cbn [map fold_right List.length]. rewrite S_INR. eapply Rle_trans; [apply Rabs_triang|]. lra. }
  assert (IP : 0 < / n <= 1). { split; [apply Rinv_0_lt_compat; lra|]. replace 1 with (/ 1) by lra. apply Rinv_le_contravar; lra. }
  assert (Q1 : Rabs (r / n - sumR l / n) <= n * e0). { replace (r / n - sumR l / n) with ((r - sumR l) * / n) by (field; lra). rewrite Rabs_mult, (Rabs_pos_eq (/ n)) by lra. replace (n * e0) with (n * n * e0 * / n) by (field; lra). apply Rmult_le_compat_r; lra. }
  assert (Q2 : Rabs (sumR l / n) <= 180). { unfold Rdiv. rewrite Rabs_mult, (Rabs_pos_eq (/ n)) by lra. replace 180 with (180 * n * / n) by (field; lra). apply Rmult_le_compat_r; lra. }
  apply ab in Q1, Q2. assert (NE0 : n * e0 <= 1) by (unfold e0; lra). assert (Q3 : Rabs (r / n) <= 256) by (apply ab; lra).
  assert (FM : is_f (mean64 l) (rnd (r / n))) by (apply fdiv_f; [exact FR|exact FN|lra|apply big; lra]). destruct FM as [F E]. split; [exact F|]. rewrite E. apply re256 in Q3. apply ab in Q3. unfold uu in Q3. apply ab. unfold e0 in *. lra.
Qed.
Print Assumptions C141_mean.
Lemma some_inj {A} (a b : A) : Some a = Some b -> a = b.
Proof. intros E. injection E. auto. Qed.
(** The mean of equal coordinates can be another one: a multipoint may be moved off its only place. *)
Definition tenth : f64 := @B754_finite 53 1024 false 7205759403792794 (-56) eq_refl.
Theorem C141_mean_refuted : exists x, is_finite x = true /\ is_finite (mean64 [x; x; x]) = true /\ B2R x < B2R (mean64 [x; x; x]).
Proof.
  exists tenth. assert (F : is_finite (mean64 [tenth; tenth; tenth]) = true) by (vm_compute; reflexivity). split; [reflexivity|]. split; [exact F|].
  assert (L : Bltb tenth (mean64 [tenth; tenth; tenth]) = true) by (vm_compute; reflexivity). rewrite Bltb_correct in L by (exact F || reflexivity). destruct (Rlt_bool_spec (B2R tenth) (B2R (mean64 [tenth; tenth; tenth]))); [assumption|discriminate].
Qed.
Print Assumptions C141_mean_refuted.

Example C141_nonvacuous :
  let box := fun f : rfeat64 bool => ((fint 0, fint 0), if r6Rest f then (fint 2, fint 0) else (fint 1, fdiv (fint 1) (fint 2))) in
  let p := mkRfeat64 (B "Point") [fint 10; fint 20] [] true in
  let q := mkRfeat64 (B "MultiPoint") [] [[fint 9; fint 20; fint 7]; [fint 11; fint 20]] true in
  let far := mkRfeat64 (B "MultiPoint") [] [[fint (-9); fint (-20)]] true in
  let long := mkRfeat64 (B "LineString") [] [] true in
  let short := mkRfeat64 (B "Polygon") [] [] false in
  let bad := mkRfeat64 (B "Point") [fint 10] [] true in
  good_libm exact_libm /\ on_map (mkTile 0 0 0) /\ Forall planar [p; q; far; long; short] /\ boxed box long /\ boxed box short /\ location q = location p /\ ~ planar bad /\ Points64_Props.on_earth (fint 10, fint 20) /\
  exists c', Filters64 exact_libm box [p; q; far; long; short] (NewReduceConfig64 exact_libm (mkTile 0 0 0)) =
    Ok ([(true, p); (false, q); (true, mkRfeat64 (B "Point") [fint (-9); fint (-20)] [] true); (true, long); (false, short)], c').
Proof.
  intros box p q far long short bad. pose proof (proj1 C118_nonvacuous) as G. pose proof Points64_Props.on_map0 as M.
  assert (L : location q = location p). { assert (E : mean64 [fint 9; fint 11] = fint 10 /\ mean64 [fint 20; fint 20] = fint 20) by (split; apply B2SF_inj; vm_compute; reflexivity). change (Some (mean64 [fint 9; fint 11], mean64 [fint 20; fint 20]) = Some (fint 10, fint 20)). destruct E as [-> ->]. reflexivity. }
  assert (LF : location far = Some (fint (-9), fint (-20))). { assert (E : mean64 [fint (-9)] = fint (-9) /\ mean64 [fint (-20)] = fint (-20)) by (split; apply B2SF_inj; vm_compute; reflexivity). change (Some (mean64 [fint (-9)], mean64 [fint (-20)]) = Some (fint (-9), fint (-20))). destruct E as [-> ->]. reflexivity. }
  assert (LP : location p = Some (fint 10, fint 20)) by reflexivity.
  assert (TW : forall a b r, two (a :: b :: r)) by (intros; unfold two; cbn; lia).
  assert (PL : Forall planar [p; q; far; long; short]).
  { apply Forall_cons; [split; intros K; [apply TW|discriminate K]|]. apply Forall_cons; [split; intros K; [discriminate K|]; apply Forall_cons; [apply TW|apply Forall_cons; [apply TW|apply Forall_nil]]|].
    apply Forall_cons; [split; intros K; [discriminate K|]; apply Forall_cons; [apply TW|apply Forall_nil]|]. apply Forall_cons; [split; intros K; discriminate K|]. apply Forall_cons; [split; intros K; discriminate K|apply Forall_nil]. }
  assert (FI : forall k, (Z.abs k <= 1000)%Z -> is_finite (fint k) = true /\ B2R (fint k) = IZR k) by (intros k Hk; apply (fint_f k); lia).
  assert (FH : is_f (fdiv (fint 1) (fint 2)) (/ 2)). { replace (/ 2) with (dy 1 (0 + 1)) by (rewrite dy_eq by lia; change (IZR (2 ^ (0 + 1))) with 2; lra). apply f_dy_half; [|lia|lia]. replace (dy 1 0) with 1 by (rewrite dy_eq by lia; change (IZR (2 ^ 0)) with 1; lra). apply (fint_f 1); lia. }
  assert (FB : forall k, (Z.abs k <= 1000)%Z -> is_finite (fint k) = true /\ Rabs (B2R (fint k)) <= 1000). { intros k Hk. destruct (FI k Hk) as [F ->]. split; [exact F|]. apply ab. split; [change (-1000 <= IZR k)|]; apply IZR_le; lia. }
  assert (FHB : is_finite (fdiv (fint 1) (fint 2)) = true /\ Rabs (B2R (fdiv (fint 1) (fint 2))) <= 1000) by (destruct FH as [F ->]; split; [exact F|apply ab; lra]).
  assert (BL : boxed box long) by (change (Forall (fun v => is_finite v = true /\ Rabs (B2R v) <= 1000) [fint 0; fint 0; fint 2; fint 0]); repeat (apply Forall_cons; [apply FB; lia|]); apply Forall_nil).
  assert (BS : boxed box short) by (change (Forall (fun v => is_finite v = true /\ Rabs (B2R v) <= 1000) [fint 0; fint 0; fint 1; fdiv (fint 1) (fint 2)]); repeat (apply Forall_cons; [apply FB; lia|]); apply Forall_cons; [exact FHB|apply Forall_nil]).
  pose proof Line64_Props.gd1 as GD. destruct Points64_Props.world as (W1 & W2 & W3 & W4). rewrite gd_odd in W4.
  assert (OE : forall a b, (-180 <= a <= 180)%Z -> (-80 <= b <= 80)%Z -> Points64_Props.on_earth (fint a, fint b)).
  { intros a b Ha Hb. unfold Points64_Props.on_earth. cbn [fst snd]. cbv zeta. rewrite W1, W2, W3, W4. destruct (FI a ltac:(lia)) as [F1 ->]. destruct (FI b ltac:(lia)) as [F2 ->]. split; [exact F1|]. split; [exact F2|].
    assert (A1 : -180 <= IZR a <= 180) by (split; apply IZR_le; lia). assert (A2 : -80 <= IZR b <= 80) by (split; apply IZR_le; lia). lra. }
  split; [exact G|]. split; [exact M|]. split; [exact PL|]. split; [exact BL|]. split; [exact BS|]. split; [exact L|]. split; [intros [K _]; specialize (K eq_refl); unfold two in K; cbn in K; lia|]. split; [apply OE; lia|].
  destruct (C141_kept exact_libm box (mkTile 0 0 0) _ G M ltac:(cbn [tZ]; lia) PL) as (l & c' & E & LL & K). exists c'. rewrite E. f_equal. f_equal.
  destruct (K 0%nat p eq_refl) as (b0 & g0 & N0 & Q0). destruct (K 1%nat q eq_refl) as (b1 & g1 & N1 & Q1). destruct (K 2%nat far eq_refl) as (b2 & g2 & N2 & Q2). destruct (K 3%nat long eq_refl) as (b3 & g3 & N3 & Q3). destruct (K 4%nat short eq_refl) as (b4 & g4 & N4 & Q4).
  destruct l as [|x0 [|x1 [|x2 [|x3 [|x4 [|x5 l]]]]]]; try discriminate LL. cbn [nth_error] in N0, N1, N2, N3, N4. injection N0 as ->. injection N1 as ->. injection N2 as ->. injection N3 as ->. injection N4 as ->. cbn [tZ] in *. change (0 + 8)%Z with 8%Z in *.
  assert (PP : place exact_libm 8 p = Some (Cell64 exact_libm (fint 10) (fint 20) 8)) by reflexivity. assert (PQ : place exact_libm 8 q = Some (Cell64 exact_libm (fint 10) (fint 20) 8)) by (unfold place; rewrite L, LP; reflexivity). assert (PF : place exact_libm 8 far = Some (Cell64 exact_libm (fint (-9)) (fint (-20)) 8)) by (unfold place; rewrite LF; reflexivity).
  rewrite PP in Q0. rewrite PQ in Q1. rewrite PF in Q2. change (place exact_libm 8 long) with (@None TileID) in Q3. change (place exact_libm 8 short) with (@None TileID) in Q4. destruct Q0 as [Q0 G0]. destruct Q1 as [Q1 G1]. destruct Q2 as [Q2 G2]. destruct Q3 as (-> & _ & Q3). destruct Q4 as (-> & _ & Q4).
  assert (b0 = true) as -> by (apply Q0; intros j f' J; lia). assert (b1 = false) as ->. { destruct b1; auto. exfalso. apply (proj1 Q1 eq_refl 0%nat p); [lia|reflexivity|exact PP]. }
  assert (NC : tX (Cell64 exact_libm (fint (-9)) (fint (-20)) 8) <> tX (Cell64 exact_libm (fint 10) (fint 20) 8)).
  { pose proof (cell_tile exact_libm (fint (-9), fint (-20)) 8 G (OE (-9)%Z (-20)%Z ltac:(lia) ltac:(lia)) ltac:(lia)) as C1. pose proof (cell_tile exact_libm (fint 10, fint 20) 8 G (OE 10%Z 20%Z ltac:(lia) ltac:(lia)) ltac:(lia)) as C2. cbn [fst snd] in C1, C2. rewrite C1, C2. unfold Tile64. cbn [tX].
    destruct (FI (-9)%Z ltac:(lia)) as [F1 E1]. destruct (FI 10%Z ltac:(lia)) as [F2 E2]. assert (P8 : IZR (2 ^ 8) = 256) by reflexivity. assert (P7 : (2 ^ 8 = 256)%Z) by reflexivity.
    pose proof (col_lt (fint (-9)) 128 8 ltac:(lia) ltac:(lia) F1) as A. rewrite E1, P8 in A. specialize (A ltac:(lra)). pose proof (col_ge (fint 10) 128 8 ltac:(lia) ltac:(lia) F2) as A2. rewrite E2, P8 in A2. specialize (A2 ltac:(lra)). lia. }
  assert (b2 = true) as ->. { apply Q2. intros [|[|[|j]]] f' J N; [| |lia|lia]; cbn [nth_error] in N; injection N as <-; rewrite ?PP, ?PQ; intros C; apply NC; symmetry; apply (f_equal tX); exact (some_inj _ _ C). }
  assert (b3 = true) as ->. { apply Q3; [left; reflexivity|exact BL|]. change (B2R (fint 2) - B2R (fint 0) > (eE (Bounds (mkTile 0 0 0)) - eW (Bounds (mkTile 0 0 0))) / 200 + / 10 ^ 12 \/ B2R (fint 0) - B2R (fint 0) > (eN (Bounds (mkTile 0 0 0)) - eS (Bounds (mkTile 0 0 0))) / 200 + / 10 ^ 12). left. rewrite W1, W2. destruct (FI 2%Z ltac:(lia)) as [_ ->]. destruct (FI 0%Z ltac:(lia)) as [_ ->]. lra. }
  assert (b4 = false) as ->. { destruct b4; auto. exfalso. destruct (Q4 ltac:(right; right; left; reflexivity) BS) as [_ Q5]. specialize (Q5 eq_refl). change (B2R (fint 1) - B2R (fint 0) > (eE (Bounds (mkTile 0 0 0)) - eW (Bounds (mkTile 0 0 0))) / 200 + - / 10 ^ 12 \/ B2R (fdiv (fint 1) (fint 2)) - B2R (fint 0) > (eN (Bounds (mkTile 0 0 0)) - eS (Bounds (mkTile 0 0 0))) / 200 + - / 10 ^ 12) in Q5. rewrite W1, W2, W3, W4 in Q5. destruct (FI 1%Z ltac:(lia)) as [_ E1]. destruct (FI 0%Z ltac:(lia)) as [_ E0']. destruct FH as [_ EH]. rewrite E1, E0', EH in Q5. lra. }
  cbn [andb] in *. change (seqb (r6Type p) (B "MultiPoint")) with false in G0. change (seqb (r6Type far) (B "MultiPoint")) with true in G2. cbv iota in G0, G1, G2. rewrite G0, G1. destruct G2 as (G2 & G3 & G4 & x & y & G5 & G6). rewrite LF in G5. injection G5 as E1 E2. rewrite <- E1, <- E2 in G6. destruct g2 as [ty pt mu re]. cbn [r6Type r6Multi r6Rest r6Point] in *. rewrite G2, G3, G4, G6. reflexivity.
Qed.
