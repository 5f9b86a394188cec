(** The clipper of mvt/clip.go in binary64 arithmetic: lemmas. *)
From Coq Require Import ZArith Reals Lia Lra Bool List.
From Flocq Require Import Core BinarySingleNaN Plus_error Relative.
From Verif Require Import GoBase Num MvtGeom_Model TileF64_Model TileF64_Proofs F64 ColorF64_Proofs Clip_Model.
Import ListNotations.
Open Scope R_scope.
#[local] Existing Instance vexp.

Lemma uro : u_ro radix2 53 = uu.
Proof. unfold u_ro. rewrite <- bp53. change (/ 2) with (bpow radix2 (-1)). rewrite <- bpow_plus. reflexivity. Qed.

(** A difference of two doubles is rounded with a relative error, even below the normal range. *)
Lemma sub_rel x y : fmt x -> fmt y -> exists d, Rabs d <= uu /\ rnd (x - y) = (x - y) * (1 + d).
Proof.
  intros Fx Fy. assert (Fy' : fmt (- y)) by (apply generic_format_opp; auto).
  destruct (@FLT_plus_error_N_ex radix2 (-1074) 53 eq_refl (fun z => negb (Z.even z)) x (- y) Fx Fy') as (d & Hd & E).
  exists d. split; [|exact E]. rewrite uro in Hd. eapply Rle_trans; [exact Hd|]. pose proof uu_pos. apply Rmult_le_reg_r with (1 + uu); [lra|].
  unfold Rdiv. rewrite Rmult_assoc, Rinv_l by lra. nra.
Qed.

Lemma sub_zero x y : fmt x -> fmt y -> rnd (x - y) = 0 <-> x = y.
Proof.
  intros Fx Fy. destruct (sub_rel x y Fx Fy) as (d & Hd & E). rewrite E. apply ab in Hd. pose proof uu_pos. unfold uu in *. split; intros H0.
  - apply Rmult_integral in H0. destruct H0; lra.
  - rewrite H0. ring.
Qed.

Lemma bk k j : bpow radix2 (k + j) = bpow radix2 k * bpow radix2 j. Proof. apply bpow_plus. Qed.

(** Interpolation [ay + (by - ay) * ((v - ax) / (bx - ax))] for [v] between [ax] and [bx]. *)
Lemma interp_near k (ax ay bx by_ v : f64) a c b d w : (-900 <= k <= 90)%Z ->
  is_f ax a -> is_f ay c -> is_f bx b -> is_f by_ d -> is_f v w ->
  Rabs a <= bpow radix2 k -> Rabs c <= bpow radix2 k -> Rabs b <= bpow radix2 k -> Rabs d <= bpow radix2 k ->
  a <> b -> (a <= w <= b \/ b <= w <= a) ->
  exists r, is_f (fadd ay (fmul (fsub by_ ay) (fdiv (fsub v ax) (fsub bx ax)))) r /\ Rabs (r - (c + (d - c) * ((w - a) / (b - a)))) <= bpow radix2 (k - 49).
Proof.
  intros Hk Fa Fc Fb Fd Fw Ba Bc Bb Bd Hab Hw.
  set (M := bpow radix2 k) in *. assert (Mp : 0 < M) by (apply bpow_gt_0).
  assert (M2 : bpow radix2 (k + 1) = 2 * M) by (rewrite bk; fold M; change (bpow radix2 1) with 2; ring).
  assert (U0 : forall j, bpow radix2 (k + j - 53) = bpow radix2 j * (M * uu)) by (intros j; rewrite <- bp53; unfold M; rewrite <- !bpow_plus; f_equal; lia).
  assert (U1 : bpow radix2 (k + 1 - 53) = 2 * (M * uu)) by (rewrite U0; reflexivity).
  assert (U4 : bpow radix2 (k - 49) = 16 * (M * uu)). { replace (k - 49)%Z with (k + 4 - 53)%Z by lia. rewrite U0. reflexivity. }
  assert (UB : uu <= / 1000000000) by (unfold uu; lra). pose proof uu_pos as UP.
  assert (MU : 0 < M * uu) by nra.
  assert (L100 : 4 * M <= bpow radix2 100). { apply Rle_trans with (bpow radix2 (k + 2)); [rewrite bk; fold M; change (bpow radix2 2) with 4; lra|apply bpow_le; lia]. }
  assert (L1 : 1 <= bpow radix2 100) by (change 1 with (bpow radix2 0); apply bpow_le; lia).
  apply ab in Ba, Bc, Bb, Bd.
  pose proof (is_f_fmt _ _ Fa) as Ga. pose proof (is_f_fmt _ _ Fb) as Gb. pose proof (is_f_fmt _ _ Fw) as Gw.
  destruct (sub_rel b a Gb Ga) as (e1 & He1 & E1). destruct (sub_rel w a Gw Ga) as (e2 & He2 & E2).
  assert (F1 : is_f (fsub bx ax) (rnd (b - a))) by (apply fsub_f; auto; apply ab; lra).
  assert (F2 : is_f (fsub v ax) (rnd (w - a))) by (apply fsub_f; auto; apply ab; lra).
  assert (F3 : is_f (fsub by_ ay) (rnd (d - c))) by (apply fsub_f; auto; apply ab; lra).
  pose proof (rnd_err (k + 1) (d - c) ltac:(lia) ltac:(rewrite M2; apply ab; lra)) as R3. rewrite U1 in R3.
  pose proof (rnd_abs (k + 1) (d - c) ltac:(lia) ltac:(rewrite M2; apply ab; lra)) as A3. rewrite M2 in A3.
  set (E := rnd (d - c)) in *. clearbody E.
  assert (T0 : 0 <= (w - a) / (b - a) <= 1).
  { destruct Hw as [Hw|Hw].
    - split; [apply Rmult_le_pos; [lra|left; apply Rinv_0_lt_compat; lra]|]. apply Rmult_le_reg_r with (b - a); [lra|]. unfold Rdiv. rewrite Rmult_assoc, Rinv_l by lra. lra.
    - replace ((w - a) / (b - a)) with ((a - w) / (a - b)) by (field; lra). split; [apply Rmult_le_pos; [lra|left; apply Rinv_0_lt_compat; lra]|]. apply Rmult_le_reg_r with (a - b); [lra|]. unfold Rdiv. rewrite Rmult_assoc, Rinv_l by lra. lra. }
  set (t := (w - a) / (b - a)) in *.
  apply ab in He1, He2.
  assert (D0 : rnd (b - a) <> 0). { intros Z. apply (sub_zero b a Gb Ga) in Z. lra. }
  assert (Q : rnd (w - a) / rnd (b - a) = t * ((1 + e2) / (1 + e1))). { rewrite E1, E2. unfold t. field. split; lra. }
  assert (QQ : Rabs ((1 + e2) / (1 + e1) - 1) <= 21 / 10 * uu).
  { replace ((1 + e2) / (1 + e1) - 1) with ((e2 - e1) / (1 + e1)) by (field; lra). unfold Rdiv. rewrite Rabs_mult, (Rabs_right (/ (1 + e1))) by (apply Rle_ge; left; apply Rinv_0_lt_compat; lra).
    apply Rmult_le_reg_r with (1 + e1); [lra|]. rewrite Rmult_assoc, Rinv_l by lra. rewrite Rmult_1_r. apply Rle_trans with (2 * uu); [apply ab; lra|]. nra. }
  set (q := (1 + e2) / (1 + e1)) in *. clearbody q. apply ab in QQ.
  assert (TQ : -1 <= t * q - t <= 1 /\ Rabs (t * q - t) <= 21 / 10 * uu).
  { replace (t * q - t) with (t * (q - 1)) by ring. assert (- (21 / 10 * uu) <= t * (q - 1) <= 21 / 10 * uu) by nra. split; [lra|apply ab; auto]. }
  destruct TQ as [TQ1 TQ2]. apply ab in TQ2.
  (* the rounded quotient is at most one because rounding is monotone *)
  assert (N1 : Rabs (rnd (w - a) / rnd (b - a)) <= 1).
  { assert (LE : Rabs (rnd (w - a)) <= Rabs (rnd (b - a))).
    { destruct Hw as [Hw|Hw].
      - rewrite !Rabs_right; try (apply Rle_ge; apply rnd_nonneg; lra). apply rnd_mono. lra.
      - assert (forall x, x <= 0 -> rnd x <= 0) by (intros x Hx; rewrite <- (rnd_id 0 fmt_0); apply rnd_mono; auto).
        rewrite !Rabs_left1 by (apply H; lra). apply Ropp_le_contravar. apply rnd_mono. lra. }
    unfold Rdiv. rewrite Rabs_mult, Rabs_inv. apply Rmult_le_reg_r with (Rabs (rnd (b - a))); [apply Rabs_pos_lt; auto|]. rewrite Rmult_assoc, Rinv_l by (apply Rabs_no_R0; auto). lra. }
  assert (F4 : is_f (fdiv (fsub v ax) (fsub bx ax)) (rnd (rnd (w - a) / rnd (b - a)))) by (apply fdiv_f; auto; lra).
  pose proof (re1 _ N1) as R4. pose proof (rnd_abs 0 _ ltac:(lia) N1) as A4. change (bpow radix2 0) with 1 in A4.
  rewrite Q in R4, F4, A4. set (T := rnd (t * q)) in *. clearbody T. apply ab in R4, A4.
  apply ab in R3, A3.
  assert (P1 : Rabs (E * T) <= 2 * M) by (apply ab; nra).
  assert (F5 : is_f (fmul (fsub by_ ay) (fdiv (fsub v ax) (fsub bx ax))) (rnd (E * T))) by (apply fmul_f; auto; apply Rle_trans with (2 * M); [auto|lra]).
  pose proof (rnd_err (k + 1) (E * T) ltac:(lia) ltac:(rewrite M2; auto)) as R5. rewrite U1 in R5. apply ab in R5.
  assert (TT : - (31 / 10 * uu) <= T - t <= 31 / 10 * uu) by lra.
  assert (P2 : Rabs (E * T - (d - c) * t) <= 83 / 10 * (M * uu)).
  { replace (E * T - (d - c) * t) with ((E - (d - c)) * T + (d - c) * (T - t)) by ring.
    assert (X1 : Rabs ((E - (d - c)) * T) <= 2 * (M * uu)). { rewrite Rabs_mult. apply Rle_trans with (2 * (M * uu) * 1); [|lra]. apply Rmult_le_compat; try apply Rabs_pos; apply ab; lra. }
    assert (X2 : Rabs ((d - c) * (T - t)) <= 2 * M * (31 / 10 * uu)). { rewrite Rabs_mult. apply Rmult_le_compat; try apply Rabs_pos; apply ab; lra. }
    eapply Rle_trans; [apply Rabs_triang|]. nra. }
  apply ab in P2. set (P := rnd (E * T)) in *. clearbody P.
  assert (CV : - M <= c + (d - c) * t <= M). { replace (c + (d - c) * t) with (c * (1 - t) + d * t) by ring. clearbody t M. clear - T0 Bc Bd Mp. nra. }
  assert (MS : M * uu <= M * / 1000000000) by (apply Rmult_le_compat_l; lra).
  assert (B6 : Rabs (c + P) <= 2 * M) by (apply ab; lra).
  assert (F6 : is_f (fadd ay (fmul (fsub by_ ay) (fdiv (fsub v ax) (fsub bx ax)))) (rnd (c + P))) by (apply fadd_f; auto; apply Rle_trans with (2 * M); [auto|lra]).
  pose proof (rnd_err (k + 1) (c + P) ltac:(lia) ltac:(rewrite M2; auto)) as R6. rewrite U1 in R6. apply ab in R6.
  exists (rnd (c + P)). split; auto. rewrite U4. apply ab. lra.
Qed.

(** [p] carries finite doubles whose values are the coordinates of [q]. *)
Definition same_pt (p : f64 * f64) (q : R * R) : Prop := is_f (fst p) (fst q) /\ is_f (snd p) (snd q).
Definition inM (k : Z) (q : R * R) : Prop := Rabs (fst q) <= bpow radix2 k /\ Rabs (snd q) <= bpow radix2 k.
(** exact on the clipped axis, within [e] on the other *)
Definition near_pt (axis : bool) (e : R) (p : f64 * f64) (q : R * R) : Prop :=
  is_f (coord axis p) (coord axis q) /\ is_finite (coord (negb axis) p) = true /\ Rabs (B2R (coord (negb axis) p) - coord (negb axis) q) <= e.

Lemma same_near axis e p q : 0 <= e -> same_pt p q -> near_pt axis e p q.
Proof.
  intros He [H1 H2]. destruct axis; unfold near_pt, coord; cbn [negb]; (split; [auto|]); [destruct H1 as [K1 K2]|destruct H2 as [K1 K2]]; (split; [auto|]); rewrite K2; unfold Rminus; rewrite Rplus_opp_r, Rabs_R0; auto.
Qed.
Lemma same_coord axis p q : same_pt p q -> is_f (coord axis p) (coord axis q).
Proof. intros [H1 H2]. destruct axis; auto. Qed.

Lemma cut_near k axis p q p' q' v w : (-900 <= k <= 90)%Z -> same_pt p p' -> same_pt q q' -> is_f v w -> inM k p' -> inM k q' ->
  (coord axis p' <= w <= coord axis q' \/ coord axis q' <= w <= coord axis p') ->
  near_pt axis (bpow radix2 (k - 49)) (cut F64Num axis p q v) (cut RNum axis p' q' w).
Proof.
  intros Hk Sp Sq Fw Bp Bq Hw. assert (E0 : 0 <= bpow radix2 (k - 49)) by (apply bpow_ge_0).
  destruct p as [ax ay], q as [bx by_], p' as [a c], q' as [b d]. destruct Sp as [Fa Fc], Sq as [Fb Fd], Bp as [Ba Bc], Bq as [Bb Bd].
  cbn [fst snd] in *. unfold cut. cbn [F64Num RNum nadd nsub nmul ndiv neqb nzero].
  change (@Bminus 53 1024 _ _ mode_NE) with fsub. change (@Bplus 53 1024 _ _ mode_NE) with fadd. change (@Bmult 53 1024 _ _ mode_NE) with fmul. change (@Bdiv 53 1024 _ _ mode_NE) with fdiv.
  assert (Z0 : is_f (B754_zero false) 0) by (split; reflexivity).
  assert (L100 : 4 * bpow radix2 k <= bpow radix2 100). { apply Rle_trans with (bpow radix2 (k + 2)); [rewrite bk; change (bpow radix2 2) with 4; lra|apply bpow_le; lia]. }
  pose proof (bpow_gt_0 radix2 k) as Mp.
  destruct axis; cbn [coord fst snd] in Hw.
  - assert (FS : is_f (fsub by_ ay) (rnd (d - c))) by (apply fsub_f; auto; apply ab in Bc, Bd; apply ab; lra).
    rewrite (Beqb_f _ _ _ _ FS Z0). destruct (Reqb_spec (d - c) 0) as [Z|Z].
    + assert (X : rnd (d - c) = 0) by (apply sub_zero; [eapply is_f_fmt; eauto|eapply is_f_fmt; eauto|lra]). rewrite X, Reqb_refl. apply same_near; auto. split; auto.
    + destruct (Reqb_spec (rnd (d - c)) 0) as [X|X]; [exfalso; apply Z; rewrite (proj1 (sub_zero _ _ (is_f_fmt _ _ Fd) (is_f_fmt _ _ Fc)) X); ring|].
      destruct (interp_near k ay ax by_ bx v c a d b w Hk Fc Fa Fd Fb Fw Bc Ba Bd Bb ltac:(intros EQ; apply Z; lra) Hw) as (r & Fr & Er).
      split; [exact Fw|]. cbn [coord negb fst]. destruct Fr as [K1 K2]. split; [auto|]. rewrite K2. auto.
  - assert (FS : is_f (fsub bx ax) (rnd (b - a))) by (apply fsub_f; auto; apply ab in Ba, Bb; apply ab; lra).
    rewrite (Beqb_f _ _ _ _ FS Z0). destruct (Reqb_spec (b - a) 0) as [Z|Z].
    + assert (X : rnd (b - a) = 0) by (apply sub_zero; [eapply is_f_fmt; eauto|eapply is_f_fmt; eauto|lra]). rewrite X, Reqb_refl. apply same_near; auto. split; auto.
    + destruct (Reqb_spec (rnd (b - a)) 0) as [X|X]; [exfalso; apply Z; rewrite (proj1 (sub_zero _ _ (is_f_fmt _ _ Fb) (is_f_fmt _ _ Fa)) X); ring|].
      destruct (interp_near k ax ay bx by_ v a c b d w Hk Fa Fc Fb Fd Fw Ba Bc Bb Bd ltac:(intros EQ; apply Z; lra) Hw) as (r & Fr & Er).
      split; [exact Fw|]. cbn [coord negb snd]. destruct Fr as [K1 K2]. split; [auto|]. rewrite K2. auto.
Qed.

Section Run.
  Variables (k : Z) (axis : bool) (k1 k2 : f64) (w1 w2 : R).
  Hypotheses (Hk : (-900 <= k <= 90)%Z) (F1 : is_f k1 w1) (F2 : is_f k2 w2).
  Notation nr := (near_pt axis (bpow radix2 (k - 49))).
  Notation E0 := (bpow_ge_0 radix2 (k - 49)).

  Lemma emit_near p q p' q' : same_pt p p' -> same_pt q q' -> inM k p' -> inM k q' ->
    Forall2 nr (fst (emit F64Num axis k1 k2 p q)) (fst (emit RNum axis w1 w2 p' q')) /\ snd (emit F64Num axis k1 k2 p q) = snd (emit RNum axis w1 w2 p' q').
  Proof.
    intros Sp Sq Bp Bq. unfold emit. cbn [F64Num RNum nleb nltb]. fold F64Num. fold RNum.
    pose proof (same_coord axis _ _ Sp) as Fa. pose proof (same_coord axis _ _ Sq) as Fb.
    rewrite !(Bleb_f _ _ _ _ Fa F1), !(Bleb_f _ _ _ _ F1 Fa), !(Bleb_f _ _ _ _ F1 Fb), !(Bleb_f _ _ _ _ F2 Fa), !(Bleb_f _ _ _ _ Fb F2), !(Bleb_f _ _ _ _ Fa F2), !(Bltb_f _ _ _ _ Fb F1), !(Bltb_f _ _ _ _ F2 Fb).
    cbn [fst snd]. split; [|reflexivity].
    apply Forall2_app; [|apply Forall2_app].
    - destruct (Rleb_spec (coord axis p') w1).
      + destruct (Rleb_spec w1 (coord axis q')); constructor; auto. apply cut_near; auto.
      + destruct (Rleb_spec w2 (coord axis p')).
        * destruct (Rleb_spec (coord axis q') w2); constructor; auto. apply cut_near; auto.
        * constructor; auto. apply same_near; auto. apply E0.
    - destruct (Rltb_spec (coord axis q') w1), (Rleb_spec w1 (coord axis p')); cbn [andb]; constructor; auto. apply cut_near; auto. lra.
    - destruct (Rltb_spec w2 (coord axis q')), (Rleb_spec (coord axis p') w2); cbn [andb]; constructor; auto. apply cut_near; auto. lra.
  Qed.

  Lemma loop_near ring l : forall l' p p' done done' cur cur', Forall2 same_pt l l' -> Forall (inM k) l' -> same_pt p p' -> inM k p' ->
    Forall2 (Forall2 nr) done done' -> Forall2 nr cur cur' ->
    let '(d, c, z) := clip_loop F64Num axis ring k1 k2 p l done cur in
    let '(d', c', z') := clip_loop RNum axis ring w1 w2 p' l' done' cur' in
    Forall2 (Forall2 nr) d d' /\ Forall2 nr c c' /\ same_pt z z'.
  Proof.
    induction l as [|q l IH]; intros l' p p' done done' cur cur' Hl Ml Sp Mp Hd Hc.
    - inversion Hl; subst. cbn [clip_loop]. auto.
    - inversion Hl as [|? q' ? l1 Sq Hl1]; subst. inversion Ml as [|? ? Mq Ml1]; subst. cbn [clip_loop].
      destruct (emit_near p q p' q' Sp Sq Mp Mq) as [He Hx].
      destruct (emit F64Num axis k1 k2 p q) as [em ex], (emit RNum axis w1 w2 p' q') as [em' ex']. cbn [fst snd] in He, Hx. subst ex'.
      assert (HC : Forall2 nr (cur ++ em) (cur' ++ em')) by (apply Forall2_app; auto).
      destruct (negb ring && ex); apply IH; auto. apply Forall2_app; auto.
  Qed.
End Run.
