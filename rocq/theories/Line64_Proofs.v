(** Interpolation along a segment in binary64. *)
From Coq Require Import ZArith Reals List Lia Lra Bool.
From Flocq Require Import Core BinarySingleNaN Relative.
From Verif Require Import GoBase Num Tileid_Model TileF64_Model TileF64_Proofs F64 ColorF64_Model ColorF64_Proofs Cover_Model Tile64_Model Tile64_Proofs Line64_Model.
Import ListNotations.
Open Scope R_scope.
#[local] Existing Instance vexp.

Definition eta : R := / 1000000000000000000000000000000.
Lemma rnd_rel x : Rabs (rnd x - x) <= uu * Rabs x + eta.
Proof.
  assert (E0 : 0 < eta) by (unfold eta; lra). pose proof uu_pos as U. destruct (Rle_lt_dec (bpow radix2 (-900)) (Rabs x)) as [H|H].
  - pose proof (relative_error_N_FLT radix2 (-1074) 53 eq_refl (fun t => negb (Z.even t)) x) as R. assert (R' : bpow radix2 (-1074 + 53 - 1) <= Rabs x) by (eapply Rle_trans; [|exact H]; apply bpow_le; lia). specialize (R R').
    assert (E : / 2 * bpow radix2 (-53 + 1) = uu) by (rewrite bpow_plus, bp53; change (bpow radix2 1) with 2; lra). change (- (53) + 1)%Z with (-53 + 1)%Z in R. rewrite E in R. unfold rnd. eapply Rle_trans; [exact R|]. lra.
  - pose proof (rnd_err (-900) x ltac:(lia) ltac:(lra)) as R. pose proof (Rabs_pos x). assert (bpow radix2 (-900 - 53) <= eta). { apply Rle_trans with (bpow radix2 (- (100))); [apply bpow_le; lia|]. rewrite (bpm 100 1267650600228229401496703205376 ltac:(lia) eq_refl). unfold eta. apply Rinv_le_contravar; lra. }
    assert (0 <= uu * Rabs x) by (apply Rmult_le_pos; lra). lra.
Qed.

Definition veps : R := 7555786372591432 / 75557863725914323419136.
Lemma eps_f : is_f eps64 veps.
Proof. assert (E : bpow radix2 (-76) = / 75557863725914323419136) by exact (bpm 76 75557863725914323419136 ltac:(lia) eq_refl). split; [reflexivity|]. unfold eps64, B2R, F2R, veps. cbn [Fnum Fexp cond_Zopp]. rewrite E. unfold Rdiv. ring. Qed.
Lemma veps_near : Rabs (veps - / 10 ^ 7) <= / 10 ^ 20.
Proof. unfold veps. apply ab. lra. Qed.

(** The real line through two points, at the abscissa [v] *)
Definition line_at (x1 y1 x2 y2 v : R) : R := y1 + (v - x1) * ((y2 - y1) / (x2 - x1)).

(** quotients of nearly equal terms *)
Lemma quot_near V D V' D' K e : 0 < e <= / 1000 -> 0 <= K <= 3 -> D <> 0 -> Rabs V <= K * Rabs D -> Rabs (V' - V) <= e * (K + 1) * Rabs D -> Rabs (D' - D) <= e * Rabs D -> D' <> 0 /\ Rabs (V' / D' - V / D) <= 8 * e.
Proof.
  intros He HK HD HV EV ED. assert (PD : 0 < Rabs D) by (apply Rabs_pos_lt; auto).
  assert (LD : (1 - e) * Rabs D <= Rabs D'). { pose proof (Rabs_triang_inv D (D - D')) as T. replace (D - (D - D')) with D' in T by ring. rewrite Rabs_minus_sym in ED. lra. }
  assert (PD' : 0 < Rabs D') by (assert (0 < (1 - e) * Rabs D) by (apply Rmult_lt_0_compat; lra); lra). assert (ND' : D' <> 0) by (intros ->; rewrite Rabs_R0 in PD'; lra). split; [exact ND'|].
  replace (V' / D' - V / D) with (((V' - V) * D - V * (D' - D)) / (D' * D)) by (field; auto). unfold Rdiv. rewrite Rabs_mult, Rabs_inv, Rabs_mult. apply Rmult_le_reg_r with (Rabs D' * Rabs D); [apply Rmult_lt_0_compat; lra|]. rewrite Rmult_assoc, Rinv_l, Rmult_1_r by (apply Rgt_not_eq, Rmult_lt_0_compat; lra).
  eapply Rle_trans; [apply Rabs_triang|]. rewrite Rabs_Ropp, !Rabs_mult. set (d := Rabs D) in *. set (d' := Rabs D') in *. set (v := Rabs V) in *. set (a := Rabs (V' - V)) in *. set (b := Rabs (D' - D)) in *.
  assert (A0 : 0 <= a) by apply Rabs_pos. assert (B0 : 0 <= b) by apply Rabs_pos. assert (V0 : 0 <= v) by apply Rabs_pos. clearbody d d' v a b. clear HD ND' V D V' D'.
  assert (a * d <= e * (K + 1) * d * d) by (apply Rmult_le_compat_r; lra). assert (v * b <= K * d * (e * d)) by (apply Rmult_le_compat; lra).
  assert (Q : e * (d * d) * (2 * K + 1) <= e * (d * d) * 7) by (apply Rmult_le_compat_l; [apply Rmult_le_pos; nra|lra]). assert (W : 8 * e * ((1 - e) * d * d) <= 8 * e * (d' * d)) by (apply Rmult_le_compat_l; [lra|]; apply Rmult_le_compat_r; lra).
  assert (Z : e * (d * d) * 7 <= e * (d * d) * (8 * (1 - e))) by (apply Rmult_le_compat_l; [apply Rmult_le_pos; nra|lra]). nra.
Qed.

Section Interp.
Variables x1 y1 x2 y2 v : f64.
Hypothesis F : is_finite x1 = true /\ is_finite y1 = true /\ is_finite x2 = true /\ is_finite y2 = true /\ is_finite v = true.
Hypothesis B : Rabs (B2R x1) <= 180 /\ Rabs (B2R y1) <= 180 /\ Rabs (B2R x2) <= 180 /\ Rabs (B2R y2) <= 180 /\ Rabs (B2R v) <= 181.
Hypothesis HD : / 10 ^ 8 <= Rabs (B2R x2 - B2R x1).
Hypothesis HV : Rabs (B2R v - B2R x1) <= 3 * Rabs (B2R x2 - B2R x1).
Lemma interp_near : exists r, is_f (fadd y1 (fmul (fsub v x1) (fdiv (fsub y2 y1) (fsub x2 x1)))) r /\ Rabs (r - line_at (B2R x1) (B2R y1) (B2R x2) (B2R y2) (B2R v)) <= / 10 ^ 11.
Proof.
  destruct F as (F1 & F2 & F3 & F4 & F5). destruct B as (B1 & B2 & B3 & B4 & B5). apply ab in B1, B2, B3, B4, B5. assert (U : 0 < uu <= / 9000000000000000) by (unfold uu; lra). assert (E0 : 0 < eta <= / 1000000000000000000000000000000) by (unfold eta; lra).
  pose proof (fsub_f _ _ _ _ (conj F4 eq_refl) (conj F2 eq_refl) ltac:(apply big, ab; lra)) as FN. pose proof (fsub_f _ _ _ _ (conj F3 eq_refl) (conj F1 eq_refl) ltac:(apply big, ab; lra)) as FD. pose proof (fsub_f _ _ _ _ (conj F5 eq_refl) (conj F1 eq_refl) ltac:(apply big, ab; lra)) as FW.
  pose proof (rnd_rel (B2R y2 - B2R y1)) as EN. pose proof (rnd_rel (B2R x2 - B2R x1)) as ED. pose proof (rnd_rel (B2R v - B2R x1)) as EW. unfold line_at. replace ((B2R v - B2R x1) * ((B2R y2 - B2R y1) / (B2R x2 - B2R x1))) with ((B2R v - B2R x1) / (B2R x2 - B2R x1) * (B2R y2 - B2R y1)) by (unfold Rdiv; ring).
  assert (BN : Rabs (B2R y2 - B2R y1) <= 360) by (apply ab; lra). assert (BD : Rabs (B2R x2 - B2R x1) <= 360) by (apply ab; lra).
  set (N := B2R y2 - B2R y1) in *. set (D := B2R x2 - B2R x1) in *. set (V := B2R v - B2R x1) in *. set (n := rnd N) in *. set (d := rnd D) in *. set (w := rnd V) in *. assert (PD : 0 < Rabs D) by lra. assert (ND : D <> 0) by (intros E; rewrite E, Rabs_R0 in PD; lra).
  assert (D1 : Rabs (d - D) <= 2 * uu * Rabs D) by (unfold uu in *; lra). assert (W1 : Rabs (w - V) <= 2 * uu * (3 + 1) * Rabs D). { pose proof (Rabs_pos V). assert (uu * Rabs V <= uu * (3 * Rabs D)) by (apply Rmult_le_compat_l; lra). unfold uu in *; lra. }
  destruct (quot_near V D w d 3 (2 * uu) ltac:(lra) ltac:(lra) ND HV W1 D1) as [Nd Q].
  assert (BQ : Rabs (V / D) <= 3). { unfold Rdiv. rewrite Rabs_mult, Rabs_inv. apply Rmult_le_reg_r with (Rabs D); [lra|]. rewrite Rmult_assoc, Rinv_l by lra. lra. }
  assert (Bd : / 10 ^ 9 <= Rabs d <= 361). { pose proof (Rabs_triang_inv D (D - d)) as T. replace (D - (D - d)) with d in T by ring. pose proof (Rabs_triang D (d - D)) as T2. replace (D + (d - D)) with d in T2 by ring. rewrite (Rabs_minus_sym D d) in T. assert (2 * uu * Rabs D <= / 1000 * Rabs D) by (apply Rmult_le_compat_r; lra). lra. }
  assert (Bn : Rabs n <= 361 /\ Rabs (n - N) <= 361 * uu). { assert (uu * Rabs N <= uu * 360) by (apply Rmult_le_compat_l; lra). assert (X : Rabs (n - N) <= 361 * uu) by (unfold uu in *; lra). split; [|exact X]. pose proof (Rabs_triang N (n - N)) as T. replace (N + (n - N)) with n in T by ring. lra. }
  destruct Bn as [Bn EN']. assert (Bw : Rabs w <= 1100). { pose proof (Rabs_triang V (w - V)) as T. replace (V + (w - V)) with w in T by ring. assert (2 * uu * (3 + 1) * Rabs D <= / 1000 * Rabs D) by (apply Rmult_le_compat_r; lra). lra. }
  assert (BS : Rabs (n / d) <= 361 * 10 ^ 9). { unfold Rdiv. rewrite Rabs_mult, Rabs_inv. apply Rmult_le_compat; try apply Rabs_pos; auto; [apply Rlt_le, Rinv_0_lt_compat; lra|]. replace (10 ^ 9) with (/ / 10 ^ 9) by (field). apply Rinv_le_contravar; lra. }
  pose proof (fdiv_f _ _ _ _ FN FD Nd ltac:(apply big; lra)) as FS. pose proof (rnd_rel (n / d)) as ES. set (s := rnd (n / d)) in *.
  assert (WS : w * (n / d) = w / d * n) by (unfold Rdiv; ring). assert (Bwd : Rabs (w / d) <= 4). { pose proof (Rabs_triang (V / D) (w / d - V / D)) as T. replace (V / D + (w / d - V / D)) with (w / d) in T by ring. lra. }
  assert (P1 : Rabs (w * (n / d) - V / D * N) <= 10000 * uu). { rewrite WS. replace (w / d * n - V / D * N) with ((w / d - V / D) * n + V / D * (n - N)) by ring. eapply Rle_trans; [apply Rabs_triang|]. rewrite !Rabs_mult. assert (Rabs (w / d - V / D) * Rabs n <= 8 * (2 * uu) * 361) by (apply Rmult_le_compat; auto; apply Rabs_pos). assert (Rabs (V / D) * Rabs (n - N) <= 3 * (361 * uu)) by (apply Rmult_le_compat; auto; apply Rabs_pos). lra. }
  assert (P2 : Rabs (w * s - w * (n / d)) <= 1500 * uu). { replace (w * s - w * (n / d)) with (w * (s - n / d)) by ring. rewrite Rabs_mult. assert (X : Rabs w * Rabs (s - n / d) <= Rabs w * (uu * Rabs (n / d) + eta)) by (apply Rmult_le_compat_l; [apply Rabs_pos|exact ES]). assert (Y : Rabs w * Rabs (n / d) <= 4 * 361) by (rewrite <- Rabs_mult, WS, Rabs_mult; apply Rmult_le_compat; auto; apply Rabs_pos). assert (Z : Rabs w * eta <= 1100 * eta) by (apply Rmult_le_compat_r; lra). assert (uu * (Rabs w * Rabs (n / d)) <= uu * (4 * 361)) by (apply Rmult_le_compat_l; lra). unfold uu in *; lra. }
  assert (BP : Rabs (V / D * N) <= 1080) by (rewrite Rabs_mult; replace 1080 with (3 * 360) by lra; apply Rmult_le_compat; auto; apply Rabs_pos). apply ab in P1, P2, BP.
  assert (BWS : Rabs (w * s) <= 2048) by (apply ab; lra). pose proof (fmul_f _ _ _ _ FW FS ltac:(apply big; lra)) as FP. pose proof (re 11 2048 ltac:(lia) ltac:(lia) eq_refl _ BWS) as EP. set (p := rnd (w * s)) in *. apply ab in EP.
  assert (BR : Rabs (B2R y1 + p) <= 2048) by (apply ab; lra). pose proof (fadd_f _ _ _ _ (conj F2 eq_refl) FP ltac:(apply big; lra)) as FR. pose proof (re 11 2048 ltac:(lia) ltac:(lia) eq_refl _ BR) as ER. apply ab in ER.
  exists (rnd (B2R y1 + p)). split; [exact FR|]. apply ab. assert (20000 * uu <= / 10 ^ 11) by lra. lra.
Qed.
End Interp.
