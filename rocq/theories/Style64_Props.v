(** Zoom functions in binary64 arithmetic. *)
From Coq Require Import ZArith Reals List Lia Lra Bool.
From Flocq Require Import Core BinarySingleNaN.
From Verif Require Import GoBase Num TileR_Model TileR_Proofs TileF64_Model TileF64_Proofs F64 ColorF64_Proofs Clip64_Proofs Simplify64_Proofs Raster_Model Raster_Proofs Style_Model Style_Props Style64_Model.
Import ListNotations.
Open Scope R_scope.
#[local] Existing Instance vexp.

Definition fin (m : Z) (x : f64) : Prop := is_finite x = true /\ Rabs (B2R x) <= bpow radix2 m.
Lemma fin_f m x : fin m x -> is_f x (B2R x).
Proof. intros [H _]. split; auto. Qed.
Lemma fin_diff m x y : fin m x -> fin m y -> Rabs (B2R x - B2R y) <= bpow radix2 (m + 1).
Proof. intros [_ Hx] [_ Hy]. rewrite bpow_plus. change (bpow radix2 1) with 2. apply ab in Hx, Hy. apply ab. lra. Qed.
Lemma b100 m x : (m <= 100)%Z -> Rabs x <= bpow radix2 m -> Rabs x <= bpow radix2 100.
Proof. intros H K. eapply Rle_trans; [exact K|]. apply bpow_le. auto. Qed.
Lemma one_f : is_f (fint 1) 1. Proof. apply (f_int 1). lia. Qed.
Lemma zero_f : is_f (fint 0) 0. Proof. apply (f_int 0). lia. Qed.
Lemma Beqb_true x y a b : is_f x a -> is_f y b -> a = b -> Beqb x y = true.
Proof. intros Fx Fy E. rewrite (Beqb_f _ _ _ _ Fx Fy). destruct (Reqb_spec a b); auto. Qed.
Lemma Beqb_false x y a b : is_f x a -> is_f y b -> a <> b -> Beqb x y = false.
Proof. intros Fx Fy E. rewrite (Beqb_f _ _ _ _ Fx Fy). destruct (Reqb_spec a b); auto; contradiction. Qed.

Lemma rnd_1 x : x <= 1 -> rnd x <= 1.
Proof. intros H. apply (rnd_le_int x 1); [lia|auto]. Qed.

(** The quotient of two numbers, one between zero and the other. *)
Lemma unit_quot x y a b : is_f x a -> is_f y b -> b <> 0 -> 0 <= a <= b \/ b <= a <= 0 -> exists r, is_f (fdiv x y) r /\ 0 <= r <= 1 /\ r = rnd (a / b).
Proof.
  intros Fx Fy Hb H. assert (Q : 0 <= a / b <= 1).
  { destruct H as [H|H].
    - split; [apply Rmult_le_pos; [lra|left; apply Rinv_0_lt_compat; lra]|]. apply Rmult_le_reg_r with b; [lra|]. unfold Rdiv. rewrite Rmult_assoc, Rinv_l by lra. lra.
    - replace (a / b) with ((- a) / (- b)) by (field; auto). split; [apply Rmult_le_pos; [lra|left; apply Rinv_0_lt_compat; lra]|]. apply Rmult_le_reg_r with (- b); [lra|]. unfold Rdiv. rewrite Rmult_assoc, Rinv_l by lra. lra. }
  exists (rnd (a / b)). split; [apply fdiv_f; auto; apply small; rewrite Rabs_right; lra|]. split; auto. split; [apply rnd_nonneg|apply rnd_1]; lra.
Qed.

Section Diffs.
  Variables zoom lower higher : f64.
  Hypothesis Hz : fin 90 zoom. Hypothesis Hl : fin 90 lower. Hypothesis Hh : fin 90 higher.
  Hypothesis order : B2R lower <= B2R zoom < B2R higher.
  Let dl := fsub higher lower. Let pr := fsub zoom lower.

  Lemma dl_f : is_f dl (rnd (B2R higher - B2R lower)).
  Proof. apply fsub_f; try (eapply fin_f; eauto). apply (b100 91); [lia|]. apply (fin_diff 90); auto. Qed.
  Lemma pr_f : is_f pr (rnd (B2R zoom - B2R lower)).
  Proof. apply fsub_f; try (eapply fin_f; eauto). apply (b100 91); [lia|]. apply (fin_diff 90); auto. Qed.
  Lemma dl_pos : 0 < rnd (B2R higher - B2R lower).
  Proof.
    assert (0 <= rnd (B2R higher - B2R lower)) by (apply rnd_nonneg; lra). destruct (Req_dec (rnd (B2R higher - B2R lower)) 0) as [E|E]; [|lra].
    assert (G : forall x, fin 90 x -> fmt (B2R x)) by (intros x Hx; eapply is_f_fmt; eapply fin_f; eauto).
    apply (proj1 (sub_zero _ _ (G _ Hh) (G _ Hl))) in E. lra.
  Qed.

End Diffs.

Section Between.
  Variable pow : f64 -> f64 -> f64.
  Variables zoom lower higher base : f64.
  Hypothesis Hz : fin 90 zoom. Hypothesis Hl : fin 90 lower. Hypothesis Hh : fin 90 higher.
  Hypothesis order : B2R lower <= B2R zoom < B2R higher.
  Let dl := fsub higher lower. Let pr := fsub zoom lower.
  Let dl_f : is_f dl (rnd (B2R higher - B2R lower)) := dl_f lower higher Hl Hh. Let pr_f : is_f pr (rnd (B2R zoom - B2R lower)) := pr_f zoom lower Hz Hl. Let dl_pos := dl_pos zoom lower higher Hl Hh order.
  (** What is needed of math.Pow: its two results are ordered as the exponents are. *)
  Definition pow_ordered : Prop :=
    exists P D, is_f (pow base pr) P /\ is_f (pow base dl) D /\ Rabs P <= bpow radix2 90 /\ Rabs D <= bpow radix2 90 /\ D <> 1 /\ (1 <= P <= D \/ D <= P <= 1).

  Lemma pct_range : is_finite base = true -> B2R base = 1 \/ pow_ordered ->
    exists r, is_f (getExponentialPercentage64 pow zoom lower higher base) r /\ 0 <= r <= 1.
  Proof.
    intros Fb H. unfold getExponentialPercentage64. fold dl pr. rewrite (Beqb_false _ _ _ _ dl_f zero_f) by (pose proof dl_pos; lra).
    destruct (Req_dec (B2R base) 1) as [E|E].
    - rewrite (Beqb_true base (fint 1) (B2R base) 1) by (auto using one_f; split; auto).
      destruct (unit_quot pr dl _ _ pr_f dl_f) as (r & A & B & _); [pose proof dl_pos; lra| |exists r; auto]. left. split; [apply rnd_nonneg; lra|apply rnd_mono; lra].
    - destruct H as [H|H]; [contradiction|]. rewrite (Beqb_false base (fint 1) (B2R base) 1) by (auto using one_f; split; auto).
      destruct H as (P & D & FP & FD & BP & BD & ND & O).
      assert (S : forall x X, is_f x X -> Rabs X <= bpow radix2 90 -> is_f (fsub x (fint 1)) (rnd (X - 1))).
      { intros x X FX BX. apply fsub_f; auto using one_f. apply (b100 91); [lia|]. change (bpow radix2 91) with (2 * bpow radix2 90). apply ab in BX. apply ab. assert (1 <= bpow radix2 90) by (change 1 with (bpow radix2 0); apply bpow_le; lia). lra. }
      destruct (unit_quot _ _ _ _ (S _ _ FP BP) (S _ _ FD BD)) as (r & A & B & _); [| |exists r; auto].
      + intros Q. apply (proj1 (sub_zero _ _ (is_f_fmt _ _ FD) (is_f_fmt _ _ one_f))) in Q. contradiction.
      + destruct O as [O|O]; [left|right]; split; try apply rnd_mono; try lra; [apply rnd_nonneg; lra|].
        replace 0 with (rnd 0) by (apply (fi 0); lia). apply rnd_mono. lra.
  Qed.

  Lemma pct_linear : B2R base = 1 -> is_finite base = true -> exists r, is_f (getExponentialPercentage64 pow zoom lower higher base) r /\ 0 <= r <= 1 /\
    Rabs (r - (B2R zoom - B2R lower) / (B2R higher - B2R lower)) <= 31 / 10 * uu /\ r = rnd (rnd (B2R zoom - B2R lower) / rnd (B2R higher - B2R lower)).
  Proof.
    intros E Fb. unfold getExponentialPercentage64. fold dl pr. rewrite (Beqb_false _ _ _ _ dl_f zero_f) by (pose proof dl_pos; lra).
    rewrite (Beqb_true base (fint 1) (B2R base) 1) by (auto using one_f; split; auto).
    destruct (unit_quot pr dl _ _ pr_f dl_f) as (r & A & B & C); [pose proof dl_pos; lra| |].
    { left. split; [apply rnd_nonneg; lra|apply rnd_mono; lra]. }
    exists r. split; auto. split; auto. split; auto.
    assert (G : forall x, fin 90 x -> fmt (B2R x)) by (intros x Hx; eapply is_f_fmt; eapply fin_f; eauto).
    destruct (sub_rel _ _ (G _ Hz) (G _ Hl)) as (d1 & D1 & E1). destruct (sub_rel _ _ (G _ Hh) (G _ Hl)) as (d2 & D2 & E2).
    set (a := B2R zoom - B2R lower) in *. set (b := B2R higher - B2R lower) in *. rewrite E1, E2 in C.
    assert (Ob : 0 <= a < b) by (unfold a, b; lra).
    destruct (any_rel (a * (1 + d1) / (b * (1 + d2)))) as (d3 & h & D3 & Hh' & E3). rewrite E3 in C.
    assert (Q : 0 <= a / b <= 1). { split; [apply Rmult_le_pos; [lra|left; apply Rinv_0_lt_compat; lra]|]. apply Rmult_le_reg_r with b; [lra|]. unfold Rdiv. rewrite Rmult_assoc, Rinv_l by lra. lra. }
    assert (hb : bpow radix2 (-1000) <= uu / 100).
    { apply Rle_trans with (bpow radix2 (-53 + -7)); [apply bpow_le; lia|]. rewrite bpow_plus, bp53. change (bpow radix2 (-7)) with (/ 128). pose proof uu_pos. lra. }
    replace (a * (1 + d1) / (b * (1 + d2)) * (1 + d3) + h) with (a / b * ((1 + d1) / (1 + d2) * (1 + d3)) + h) in C.
    2:{ field. split; [|lra]. apply ab in D2. unfold uu in D2. lra. }
    set (q := a / b) in *. assert (K : Rabs ((1 + d1) / (1 + d2) * (1 + d3) - 1) <= 305 / 100 * uu).
    { apply ab in D1, D2, D3. clear - D1 D2 D3. unfold uu in *. assert (P : 0 < 1 + d2) by lra. assert (L : 0 < / (1 + d2)) by (apply Rinv_0_lt_compat; auto).
      replace ((1 + d1) / (1 + d2) * (1 + d3) - 1) with ((d1 + d3 + d1 * d3 - d2) * / (1 + d2)) by (field; lra).
      assert (U : / (1 + d2) <= 101 / 100). { apply Rmult_le_reg_r with (1 + d2); auto. rewrite Rinv_l by lra. lra. }
      assert (X : Rabs (d1 + d3 + d1 * d3 - d2) <= 301 / 100 * / 9007199254740992).
      { assert (Rabs (d1 * d3) <= / 100 * / 9007199254740992). { rewrite Rabs_mult. assert (Rabs d1 <= / 100) by (apply ab; lra). assert (Rabs d3 <= / 9007199254740992) by (apply ab; lra). apply Rmult_le_compat; auto; apply Rabs_pos. }
        apply ab in H. apply ab. lra. }
      rewrite Rabs_mult, (Rabs_right (/ (1 + d2))) by lra. apply Rle_trans with (301 / 100 * / 9007199254740992 * (101 / 100)); [apply Rmult_le_compat; auto; try apply Rabs_pos; lra|lra]. }
    rewrite C. replace (q * ((1 + d1) / (1 + d2) * (1 + d3)) + h - q) with (q * ((1 + d1) / (1 + d2) * (1 + d3) - 1) + h) by ring.
    set (w := (1 + d1) / (1 + d2) * (1 + d3) - 1) in *. clearbody w q.
    assert (Rabs (q * w) <= 305 / 100 * uu).
    { rewrite Rabs_mult, (Rabs_right q) by lra. apply Rle_trans with (1 * (305 / 100 * uu)); [|lra]. apply Rmult_le_compat; try lra. apply Rabs_pos. }
    apply ab in H, Hh'. apply ab. pose proof uu_pos. lra.
  Qed.
End Between.

(** Stops with moderate zooms and values of size up to [2^k] *)
Definition ok_stop (k : Z) (s : numStop64) : Prop := fin 90 (nz s) /\ fin k (nv s).
Definition sval (s : numStop64) : numStop := mkNS (B2R (nz s)) (B2R (nv s)).

Lemma num_loop64_skip pow base z pre : forall this a post, is_finite z = true -> (forall s, In s (pre ++ [a]) -> is_finite (nz s) = true /\ B2R (nz s) <= B2R z) ->
  num_loop64 pow base z this (pre ++ a :: post) = num_loop64 pow base z a post.
Proof.
  induction pre as [|p pre IH]; intros this a post Fz H; cbn [app num_loop64].
  - destruct (H a (or_introl eq_refl)) as [Fa La]. rewrite (Bleb_f _ _ (B2R (nz a)) (B2R z)) by (split; auto). destruct (Rleb_spec (B2R (nz a)) (B2R z)); auto. contradiction.
  - destruct (H p (or_introl eq_refl)) as [Fa La]. rewrite (Bleb_f _ _ (B2R (nz p)) (B2R z)) by (split; auto). destruct (Rleb_spec (B2R (nz p)) (B2R z)); [|contradiction]. apply IH; auto. intros s Hs. apply H. right. auto.
Qed.
Lemma NumGet64_skip pow base z pre a post : is_finite z = true -> (forall s, In s (pre ++ [a]) -> is_finite (nz s) = true /\ B2R (nz s) <= B2R z) ->
  NumGet64 pow base (pre ++ a :: post) z = Ok (num_loop64 pow base z a post).
Proof.
  intros Fz H. destruct pre as [|p pre]; cbn [app NumGet64].
  - destruct (H a (or_introl eq_refl)) as [Fa La]. rewrite (Bltb_f _ _ (B2R z) (B2R (nz a))) by (split; auto). destruct (Rltb_spec (B2R z) (B2R (nz a))); auto. lra.
  - destruct (H p (or_introl eq_refl)) as [Fa La]. rewrite (Bltb_f _ _ (B2R z) (B2R (nz p))) by (split; auto). destruct (Rltb_spec (B2R z) (B2R (nz p))); [lra|]. rewrite num_loop64_skip; auto. intros s Hs. apply H. right. auto.
Qed.

Lemma fabs_f x a : is_f x a -> is_f (Babs x) (Rabs a).
Proof. intros [Fx <-]. split; [rewrite is_finite_Babs; auto|apply B2R_Babs]. Qed.

(** The value for a given progress [r]: the rounded distance times [r], added to the lower value. *)
Lemma value_f k (P v w : f64) r : (-900 <= k <= 90)%Z -> fin k v -> fin k w -> is_f P r -> 0 <= r <= 1 ->
  let D := rnd (Rabs (B2R w - B2R v)) in
  is_f (fadd (fmul P (Babs (fsub w v))) v) (rnd (rnd (r * D) + B2R v)) /\ 0 <= rnd (r * D) <= D /\ 0 <= D <= 2 * bpow radix2 k /\
  Rabs (D - Rabs (B2R w - B2R v)) <= 2 * (bpow radix2 k * uu) /\ Rabs (rnd (r * D) - r * D) <= 2 * (bpow radix2 k * uu) /\
  Rabs (rnd (rnd (r * D) + B2R v) - (rnd (r * D) + B2R v)) <= 4 * (bpow radix2 k * uu).
Proof.
  intros Hk Hv Hw FP Hr D. assert (DB := fin_diff _ _ _ Hw Hv). set (M := bpow radix2 k) in *. assert (Mp : 0 < M) by apply bpow_gt_0.
  assert (P1 : bpow radix2 (k + 1) = 2 * M) by (rewrite bpow_plus; change (bpow radix2 1) with 2; unfold M; ring).
  assert (P2 : bpow radix2 (k + 2) = 4 * M) by (rewrite bpow_plus; change (bpow radix2 2) with 4; unfold M; ring).
  assert (AB : Rabs (Rabs (B2R w - B2R v)) <= bpow radix2 (k + 1)) by (rewrite Rabs_Rabsolu; auto).
  assert (DD : 0 <= D <= 2 * M).
  { split; [apply rnd_nonneg, Rabs_pos|]. rewrite <- P1. eapply Rle_trans; [apply Rle_abs|]. apply rnd_abs; [lia|auto]. }
  assert (RD : 0 <= r * D <= D) by (split; [apply Rmult_le_pos; lra|]; rewrite <- (Rmult_1_l D) at 2; apply Rmult_le_compat_r; lra).
  assert (RR : 0 <= rnd (r * D) <= D).
  { split; [apply rnd_nonneg; lra|]. rewrite <- (rnd_id D) at 2 by apply fmt_rnd. apply rnd_mono. lra. }
  assert (ED : Rabs (D - Rabs (B2R w - B2R v)) <= 2 * (M * uu)).
  { eapply Rle_trans; [apply (rnd_err (k + 1)); [lia|auto]|]. change (k + 1 - 53)%Z with (k + 1 + (-53))%Z. rewrite bpow_plus, bp53, P1. lra. }
  assert (EP : Rabs (rnd (r * D) - r * D) <= 2 * (M * uu)).
  { eapply Rle_trans; [apply (rnd_err (k + 1)); [lia|rewrite P1, Rabs_right; lra]|]. change (k + 1 - 53)%Z with (k + 1 + (-53))%Z. rewrite bpow_plus, bp53, P1. lra. }
  assert (SB : Rabs (rnd (r * D) + B2R v) <= bpow radix2 (k + 2)). { destruct Hv as [_ Bv]. fold M in Bv. apply ab in Bv. apply ab. rewrite P2. lra. }
  assert (ES : Rabs (rnd (rnd (r * D) + B2R v) - (rnd (r * D) + B2R v)) <= 4 * (M * uu)).
  { eapply Rle_trans; [apply (rnd_err (k + 2)); [lia|auto]|]. change (k + 2 - 53)%Z with (k + 2 + (-53))%Z. rewrite bpow_plus, bp53, P2. lra. }
  split; [|repeat split; tauto]. assert (FD : is_f (Babs (fsub w v)) D).
  { assert (E : D = Rabs (rnd (B2R w - B2R v))) by (apply round_NE_abs; apply vexp). rewrite E. apply fabs_f. apply fsub_f; try (eapply fin_f; eauto). apply (b100 (k + 1)); [lia|auto]. }
  apply fadd_f; [apply fmul_f; auto; apply (b100 (k + 1)); [lia|rewrite P1, Rabs_right; lra]|eapply fin_f; eauto|apply (b100 (k + 2)); [lia|auto]].
Qed.

(** C125, range: between two stops the value is at least the lower stop's, and at most one rounding
    above the lower value plus the distance between the two. *)
Theorem C125_range : forall pow base k pre a b post z, (-900 <= k <= 90)%Z ->
  fin 90 z -> (forall s, In s (pre ++ [a]) -> is_finite (nz s) = true /\ B2R (nz s) <= B2R z) -> B2R z < B2R (nz b) -> ok_stop k a -> ok_stop k b ->
  is_finite (the_base64 base) = true -> B2R (the_base64 base) = 1 \/ pow_ordered pow z (nz a) (nz b) (the_base64 base) ->
  exists v, NumGet64 pow base (pre ++ a :: b :: post) z = Ok v /\ is_finite v = true /\
    B2R (nv a) <= B2R v <= B2R (nv a) + Rabs (B2R (nv b) - B2R (nv a)) + bpow radix2 (k - 50).
Proof.
  intros pow base k pre a b post z Hk Fz H Lz [Za Va] [Zb Vb] Fb Hp. assert (La : B2R (nz a) <= B2R z) by (apply H; apply in_app_iff; right; left; auto).
  rewrite NumGet64_skip by (auto; apply Fz). cbn [num_loop64]. rewrite (Bleb_f _ _ (B2R (nz b)) (B2R z)) by (eapply fin_f; eauto). destruct (Rleb_spec (B2R (nz b)) (B2R z)) as [K|_]; [lra|].
  eexists. split; [reflexivity|]. unfold getNumericValueBetweenStops64. destruct (pct_range pow z (nz a) (nz b) (the_base64 base) Fz Za Zb ltac:(lra) Fb Hp) as (r & Fr & Rr).
  destruct (value_f k _ _ _ _ Hk Va Vb Fr Rr) as ([Ff Ev] & A1 & A2 & A3 & A4 & A5). split; auto. rewrite Ev.
  set (D := rnd (Rabs (B2R (nv b) - B2R (nv a)))) in *. set (y := rnd (r * D)) in *. split.
  - rewrite <- (rnd_id (B2R (nv a))) at 1 by (eapply is_f_fmt; eapply fin_f; eauto). apply rnd_mono. lra.
  - change (k - 50)%Z with (k + (-50))%Z. rewrite bpow_plus. replace (bpow radix2 (-50)) with (8 * uu) by (rewrite <- bp53; change (-50)%Z with (3 + -53)%Z; rewrite bpow_plus; reflexivity).
    apply ab in A3, A5. assert (0 < bpow radix2 k * uu) by (apply Rmult_lt_0_compat; [apply bpow_gt_0|apply uu_pos]). lra.
Qed.
Print Assumptions C125_range.

(** The exact upper end is not respected. *)
Definition q03 : f64 := (@B754_finite 53 1024 false 5404319552844595 (-54) eq_refl).
Definition q09 : f64 := (@B754_finite 53 1024 false 8106479329266893 (-53) eq_refl).
Definition z1 : f64 := (@B754_finite 53 1024 false 9007199254740991 (-53) eq_refl).
Theorem C125_upper_refuted : B2R (fint (-4)) <= B2R z1 < B2R (fint 1) /\ B2R q03 < B2R q09 /\ 
  exists v, NumGet64 (fun _ _ => fint 0) None [mkNS64 (fint (-4)) q03; mkNS64 (fint 1) q09] z1 = Ok v /\ is_finite v = true /\ B2R q09 < B2R v.
Proof.
  assert (L : forall x y : f64, is_finite x = true -> is_finite y = true -> Bltb x y = true -> B2R x < B2R y).
  { intros x y Fx Fy H. rewrite (Bltb_f x y (B2R x) (B2R y)) in H by (split; auto). destruct (Rltb_spec (B2R x) (B2R y)); auto; discriminate. }
  split; [split; [left|]; apply L; vm_compute; reflexivity|]. split; [apply L; vm_compute; reflexivity|].
  eexists. split; [reflexivity|]. split; [vm_compute; reflexivity|]. apply L; vm_compute; reflexivity.
Qed.
Print Assumptions C125_upper_refuted.

(** C125, at a stop: the value of the stop, for any base whose power over the interval is not 1. *)
Theorem C125_at_stop : forall pow base k pre a b post, (-900 <= k <= 90)%Z ->
  (forall s, In s (pre ++ [a]) -> is_finite (nz s) = true /\ B2R (nz s) <= B2R (nz a)) -> B2R (nz a) < B2R (nz b) -> ok_stop k a -> ok_stop k b ->
  is_finite (the_base64 base) = true ->
  (forall x y, Beqb y (fint 0) = true -> pow x y = fint 1) ->
  B2R (the_base64 base) = 1 \/ (exists D, is_f (pow (the_base64 base) (fsub (nz b) (nz a))) D /\ Rabs D <= bpow radix2 90 /\ D <> 1) ->
  exists v, NumGet64 pow base (pre ++ a :: b :: post) (nz a) = Ok v /\ is_finite v = true /\ B2R v = B2R (nv a).
Proof.
  intros pow base k pre a b post Hk H Lz [Za Va] [Zb Vb] Fb Hpow Hp.
  rewrite NumGet64_skip by (auto; apply Za). cbn [num_loop64]. rewrite (Bleb_f _ _ (B2R (nz b)) (B2R (nz a))) by (eapply fin_f; eauto). destruct (Rleb_spec (B2R (nz b)) (B2R (nz a))) as [K|_]; [lra|].
  eexists. split; [reflexivity|]. unfold getNumericValueBetweenStops64.
  assert (Fd := dl_f (nz a) (nz b) Za Zb). assert (Pd := dl_pos (nz a) (nz a) (nz b) Za Zb ltac:(lra)). assert (Fp := pr_f (nz a) (nz a) Za Za).
  rewrite Rminus_diag_eq in Fp by auto. assert (R0 : rnd 0 = 0) by (apply (fi 0); lia). rewrite R0 in Fp.
  assert (Q : is_f (getExponentialPercentage64 pow (nz a) (nz a) (nz b) (the_base64 base)) 0).
  { unfold getExponentialPercentage64. rewrite (Beqb_false _ _ _ _ Fd zero_f) by lra.
    assert (Z : forall x y b0, is_f x 0 -> is_f y b0 -> b0 <> 0 -> is_f (fdiv x y) 0).
    { intros x y b0 Fx Fy N0. replace 0 with (rnd (0 / b0)) by (unfold Rdiv; rewrite Rmult_0_l; auto). apply fdiv_f; auto. unfold Rdiv. rewrite Rmult_0_l, Rabs_R0. apply bpow_ge_0. }
    destruct (Req_dec (B2R (the_base64 base)) 1) as [E|E].
    - rewrite (Beqb_true _ (fint 1) (B2R (the_base64 base)) 1) by (auto using one_f; split; auto). eapply Z; eauto. lra.
    - destruct Hp as [Hp|(D & FD & BD & ND)]; [contradiction|]. rewrite (Beqb_false _ (fint 1) (B2R (the_base64 base)) 1) by (auto using one_f; split; auto).
      rewrite (Hpow _ (fsub (nz a) (nz a))) by (apply (Beqb_true _ _ _ _ Fp zero_f); auto). apply Z with (rnd (D - 1)).
      + split; [reflexivity|]. apply eq_trans with (rnd (1 - 1)); [|rewrite Rminus_diag_eq; auto]. apply (fsub_f _ _ _ _ one_f one_f). rewrite Rminus_diag_eq, Rabs_R0 by auto. apply bpow_ge_0.
      + apply fsub_f; auto using one_f. apply (b100 91); [lia|]. change (bpow radix2 91) with (2 * bpow radix2 90). apply ab in BD. apply ab. assert (1 <= bpow radix2 90) by (change 1 with (bpow radix2 0); apply bpow_le; lia). lra.
      + intros X. apply (proj1 (sub_zero _ _ (is_f_fmt _ _ FD) (is_f_fmt _ _ one_f))) in X. contradiction. }
  destruct (value_f k _ _ _ _ Hk Va Vb Q ltac:(lra)) as ([Ff Ev] & _). split; auto. rewrite Ev, Rmult_0_l, R0, Rplus_0_l. apply rnd_id. eapply is_f_fmt; eapply fin_f; eauto.
Qed.
Print Assumptions C125_at_stop.

(** When the power over the interval does round to 1, the value at the lower stop is NaN. *)
Theorem C125_flat_power_refuted : forall pow base a b, is_finite base = true -> B2R base <> 1 -> fin 90 (nz a) -> fin 90 (nz b) -> B2R (nz a) < B2R (nz b) ->
  (forall x y, Beqb y (fint 0) = true -> pow x y = fint 1) -> pow base (fsub (nz b) (nz a)) = fint 1 ->
  NumGet64 pow (Some base) [a; b] (nz a) = Ok B754_nan.
Proof.
  intros pow base a b Fb Nb Za Zb L Hpow H1. unfold NumGet64. rewrite (Bltb_f _ _ _ _ (fin_f _ _ Za) (fin_f _ _ Za)). destruct (Rltb_spec (B2R (nz a)) (B2R (nz a))); [lra|]. f_equal.
  cbn [num_loop64]. rewrite (Bleb_f _ _ _ _ (fin_f _ _ Zb) (fin_f _ _ Za)). destruct (Rleb_spec (B2R (nz b)) (B2R (nz a))); [lra|].
  unfold getNumericValueBetweenStops64, getExponentialPercentage64. cbn [the_base64].
  rewrite (Beqb_false _ _ _ _ (dl_f (nz a) (nz b) Za Zb) zero_f) by (pose proof (dl_pos (nz a) (nz a) (nz b) Za Zb ltac:(lra)); lra).
  rewrite (Beqb_false _ (fint 1) (B2R base) 1) by (auto using one_f; split; auto). rewrite H1.
  assert (Fp := pr_f (nz a) (nz a) Za Za). rewrite Rminus_diag_eq in Fp by auto. replace (rnd 0) with 0 in Fp by (symmetry; apply (fi 0); lia).
  rewrite (Hpow base (fsub (nz a) (nz a))) by (apply (Beqb_true _ _ _ _ Fp zero_f); auto).
  replace (fdiv (fsub (fint 1) (fint 1)) (fsub (fint 1) (fint 1))) with (@B754_nan 53 1024) by (apply B2SF_inj; vm_compute; reflexivity). reflexivity.
Qed.
Print Assumptions C125_flat_power_refuted.

(** Base 1, the default: close to the exact value at every zoom, and rising with the zoom between two stops. *)
Lemma linear_near pow base k a b z : (-900 <= k <= 90)%Z -> fin 90 z -> ok_stop k a -> ok_stop k b -> B2R (nz a) <= B2R z < B2R (nz b) ->
  is_finite (the_base64 base) = true -> B2R (the_base64 base) = 1 ->
  exists v, is_f (getNumericValueBetweenStops64 pow a b z base) v /\
    Rabs (v - getNumericValueBetweenStops (sval a) (sval b) (B2R z) None) <= bpow radix2 (k - 49).
Proof.
  intros Hk Fz [Za Va] [Zb Vb] L Fb Eb. unfold getNumericValueBetweenStops64.
  destruct (pct_linear pow z (nz a) (nz b) (the_base64 base) Fz Za Zb L Eb Fb) as (r & Fr & Rr & Er & _).
  destruct (value_f k _ _ _ _ Hk Va Vb Fr Rr) as (Ff & A1 & A2 & A3 & A4 & A5). eexists. split; [exact Ff|].
  unfold getNumericValueBetweenStops, getExponentialPercentage, sval. cbn [the_base nsZoom nsValue].
  destruct (Reqb_spec (B2R (nz b) - B2R (nz a)) 0) as [K|_]; [lra|]. destruct (Reqb_spec 1 1) as [_|K]; [|contradiction].
  set (q := (B2R z - B2R (nz a)) / (B2R (nz b) - B2R (nz a))) in *. set (d := Rabs (B2R (nv b) - B2R (nv a))) in *. set (D := rnd d) in *.
  change (k - 49)%Z with (k + (-49))%Z. rewrite bpow_plus. replace (bpow radix2 (-49)) with (16 * uu) by (rewrite <- bp53; change (-49)%Z with (4 + -53)%Z; rewrite bpow_plus; reflexivity).
  assert (Q : 0 <= q <= 1).
  { unfold q. split; [apply Rmult_le_pos; [lra|left; apply Rinv_0_lt_compat; lra]|]. apply Rmult_le_reg_r with (B2R (nz b) - B2R (nz a)); [lra|]. unfold Rdiv. rewrite Rmult_assoc, Rinv_l by lra. lra. }
  set (M := bpow radix2 k) in *. assert (Mp : 0 < M) by apply bpow_gt_0. assert (Mu : 0 < M * uu) by (apply Rmult_lt_0_compat; [auto|apply uu_pos]).
  assert (T1 : Rabs ((r - q) * D) <= 62 / 10 * (M * uu)).
  { rewrite Rabs_mult, (Rabs_right D) by lra. apply Rle_trans with (31 / 10 * uu * (2 * M)); [apply Rmult_le_compat; try lra; apply Rabs_pos|lra]. }
  assert (T2 : Rabs (q * (D - d)) <= 2 * (M * uu)).
  { rewrite Rabs_mult, (Rabs_right q) by lra. apply Rle_trans with (1 * (2 * (M * uu))); [apply Rmult_le_compat; try lra; apply Rabs_pos|lra]. }
  assert (S : r * D - q * d = (r - q) * D + q * (D - d)) by ring.
  set (t1 := (r - q) * D) in *. set (t2 := q * (D - d)) in *. set (y := rnd (r * D)) in *. set (rD := r * D) in *. set (qd := q * d) in *. clearbody t1 t2 rD qd y.
  apply ab in T1, T2, A4, A5. apply ab. lra.
Qed.

Theorem C125_near : forall pow base k stops z, (-900 <= k <= 90)%Z -> stops <> [] -> Forall (ok_stop k) stops -> fin 90 z ->
  is_finite (the_base64 base) = true -> B2R (the_base64 base) = 1 ->
  exists v r, NumGet64 pow base stops z = Ok v /\ is_finite v = true /\ NumGet None (map sval stops) (B2R z) = Ok r /\ Rabs (B2R v - r) <= bpow radix2 (k - 49).
Proof.
  intros pow base k stops z Hk Hne HF Fz Fb Eb. destruct stops as [|s0 rest]; [congruence|]. inversion HF as [|s0' rest' O0 OR]; subst. unfold NumGet64, NumGet. cbn [map].
  assert (e0 : 0 <= bpow radix2 (k - 49)) by apply bpow_ge_0.
  rewrite (Bltb_f _ _ _ _ (fin_f _ _ Fz) (fin_f _ _ (proj1 O0))). cbn [sval nsZoom]. destruct (Rltb_spec (B2R z) (B2R (nz s0))) as [L|L].
  { exists (fint 0), 0. split; [reflexivity|]. split; [apply zero_f|]. split; [reflexivity|]. rewrite (proj2 zero_f). replace (0 - 0) with 0 by ring. rewrite Rabs_R0. auto. }
  assert (X : forall rest this, Forall (ok_stop k) rest -> ok_stop k this -> B2R (nz this) <= B2R z ->
    exists v, is_f (num_loop64 pow base z this rest) v /\ Rabs (v - num_loop None (B2R z) (sval this) (map sval rest)) <= bpow radix2 (k - 49)).
  { clear - Hk Fz Fb Eb e0. induction rest as [|n rest IH]; intros this OR OT L; cbn [num_loop64 num_loop map].
    - exists (B2R (nv this)). split; [eapply fin_f; apply OT|]. cbn [sval nsValue]. rewrite Rminus_diag_eq, Rabs_R0; auto.
    - inversion OR as [|n' r' On OR']; subst. rewrite (Bleb_f _ _ _ _ (fin_f _ _ (proj1 On)) (fin_f _ _ Fz)). cbn [sval nsZoom].
      destruct (Rleb_spec (B2R (nz n)) (B2R z)) as [K|K]; [apply IH; auto|]. apply linear_near; auto. lra. }
  destruct (X rest s0 OR O0 ltac:(lra)) as (v & [Fv Ev] & E). eexists. eexists. split; [reflexivity|]. split; [exact Fv|]. split; [reflexivity|]. rewrite Ev. exact E.
Qed.
Print Assumptions C125_near.

Theorem C125_monotone : forall pow base k pre a b post z z', (-900 <= k <= 90)%Z ->
  fin 90 z -> fin 90 z' -> (forall s, In s (pre ++ [a]) -> is_finite (nz s) = true /\ B2R (nz s) <= B2R z) -> B2R z <= B2R z' < B2R (nz b) -> ok_stop k a -> ok_stop k b ->
  is_finite (the_base64 base) = true -> B2R (the_base64 base) = 1 ->
  exists v v', NumGet64 pow base (pre ++ a :: b :: post) z = Ok v /\ NumGet64 pow base (pre ++ a :: b :: post) z' = Ok v' /\ is_finite v = true /\ is_finite v' = true /\ B2R v <= B2R v'.
Proof.
  intros pow base k pre a b post z z' Hk Fz Fz' H Lz [Za Va] [Zb Vb] Fb Eb. assert (La : B2R (nz a) <= B2R z) by (apply H; apply in_app_iff; right; left; auto).
  assert (H' : forall s, In s (pre ++ [a]) -> is_finite (nz s) = true /\ B2R (nz s) <= B2R z') by (intros s Hs; destruct (H s Hs); split; auto; lra).
  rewrite !NumGet64_skip by (auto; first [apply Fz|apply Fz']). cbn [num_loop64]. rewrite (Bleb_f _ _ _ _ (fin_f _ _ Zb) (fin_f _ _ Fz)), (Bleb_f _ _ _ _ (fin_f _ _ Zb) (fin_f _ _ Fz')).
  destruct (Rleb_spec (B2R (nz b)) (B2R z)) as [K|_]; [lra|]. destruct (Rleb_spec (B2R (nz b)) (B2R z')) as [K|_]; [lra|].
  unfold getNumericValueBetweenStops64.
  destruct (pct_linear pow z (nz a) (nz b) (the_base64 base) Fz Za Zb ltac:(lra) Eb Fb) as (r & Fr & Rr & _ & Er).
  destruct (pct_linear pow z' (nz a) (nz b) (the_base64 base) Fz' Za Zb ltac:(lra) Eb Fb) as (r' & Fr' & Rr' & _ & Er').
  destruct (value_f k _ _ _ _ Hk Va Vb Fr Rr) as ([Ff Ev] & _ & A2 & _). destruct (value_f k _ _ _ _ Hk Va Vb Fr' Rr') as ([Ff' Ev'] & _).
  do 2 eexists. split; [reflexivity|]. split; [reflexivity|]. split; auto. split; auto. rewrite Ev, Ev'. apply rnd_mono. apply Rplus_le_compat_r. apply rnd_mono. apply Rmult_le_compat_r; [lra|].
  rewrite Er, Er'. apply rnd_mono. apply Rmult_le_compat_r; [|apply rnd_mono; lra]. left. apply Rinv_0_lt_compat. apply (dl_pos z (nz a) (nz b) Za Zb). lra.
Qed.
Print Assumptions C125_monotone.

(** Whatever the floats and the power function, the only panic is for an empty list of stops. *)
Theorem C125_panic : forall pow base stops z, NumGet64 pow base stops z = Panic <-> stops = [].
Proof. intros pow base [|s0 rest] z; cbn [NumGet64]; [tauto|]. destruct (Bltb z (nz s0)); split; discriminate. Qed.
Print Assumptions C125_panic.

Example C125_nonvacuous : ok_stop 2 (mkNS64 (fint 10) (fint 1)) /\ ok_stop 2 (mkNS64 (fint 20) (fint 4)) /\ fin 90 (fint 15) /\
  exists v, NumGet64 (fun _ _ => fint 0) None [mkNS64 (fint 10) (fint 1); mkNS64 (fint 20) (fint 4)] (fint 15) = Ok v /\ Beqb (fadd v v) (fint 5) = true.
Proof.
  assert (I : forall m n, (Z.abs n <= 2 ^ m)%Z -> (0 <= m <= 19)%Z -> fin m (fint n)).
  { intros m n H Hm. assert (P : (2 ^ m <= 2 ^ 19)%Z) by (apply Z.pow_le_mono_r; lia). destruct (f_int n ltac:(lia)) as [A B]. split; auto. rewrite B, <- abs_IZR. rewrite <- IZR_Zpower by lia. apply IZR_le. auto. }
  assert (J : forall n, (Z.abs n <= 32)%Z -> fin 90 (fint n)).
  { intros n H. destruct (I 5%Z n H ltac:(lia)) as [A B]. split; auto. eapply Rle_trans; [exact B|]. apply bpow_le. lia. }
  split; [split; [apply J|apply I]; lia|]. split; [split; [apply J|apply I]; lia|]. split; [apply J; lia|]. eexists. split; [reflexivity|]. vm_compute. reflexivity.
Qed.

(** ** C126: colour functions *)

Lemma channel64 P p a b : is_byte a -> is_byte b -> is_f P p -> 0 <= p <= 1 ->
  getColorValueBetweenStops64 P a b = (a + Zfloor (rnd (IZR (b - a) * p)))%Z /\ byte_between a b (getColorValueBetweenStops64 P a b).
Proof.
  unfold is_byte. intros Ha Hb FP Hp. unfold getColorValueBetweenStops64, getValueThroughStop64.
  assert (Fd : is_f (fsub (fint b) (fint a)) (IZR (b - a))).
  { rewrite <- (fi (b - a)) by lia. rewrite minus_IZR. apply fsub_f; try (apply f_int; lia). apply small. rewrite <- minus_IZR, <- abs_IZR. apply IZR_le. lia. }
  assert (Ib : Rabs (IZR (b - a)) <= 255) by (rewrite <- abs_IZR; apply IZR_le; lia).
  assert (Fm : is_f (fmul (fsub (fint b) (fint a)) P) (rnd (IZR (b - a) * p))).
  { apply fmul_f; auto. apply small. rewrite Rabs_mult, (Rabs_right p) by lra. apply Rle_trans with (255 * 1); [apply Rmult_le_compat; try lra; apply Rabs_pos|lra]. }
  set (x := IZR (b - a) * p) in *. set (n := Zfloor (rnd x)) in *.
  assert (N : (Z.min 0 (b - a) <= n <= Z.max 0 (b - a))%Z).
  { destruct (Z_le_dec 0 (b - a)) as [C|C].
    - assert (0 <= IZR (b - a)) by (apply IZR_le; lia). assert (X : 0 <= x <= IZR (b - a)) by (unfold x; nra).
      rewrite Z.min_l, Z.max_r by lia. split; [apply Zfloor_lub, rnd_nonneg; lra|]. rewrite <- (Zfloor_IZR (b - a)). apply Zfloor_le. apply rnd_le_int; [lia|lra].
    - assert (IZR (b - a) < 0) by (apply IZR_lt; lia). assert (X : IZR (b - a) <= x <= 0) by (unfold x; nra).
      rewrite Z.min_r, Z.max_l by lia. split; [apply Zfloor_lub, rnd_ge_int; [lia|lra]|]. rewrite <- (Zfloor_IZR 0). apply Zfloor_le. apply (rnd_le_int _ 0); [lia|lra]. }
  assert (Fs : is_f (fadd (ffloor (fmul (fsub (fint b) (fint a)) P)) (fint a)) (IZR (a + n))).
  { rewrite Z.add_comm. rewrite <- (fi (n + a)) by lia. rewrite plus_IZR. apply fadd_f; [apply ffloor_f; auto|apply f_int; lia|].
    apply small. rewrite <- plus_IZR, <- abs_IZR. apply IZR_le. lia. }
  assert (E : fbyte (fadd (ffloor (fmul (fsub (fint b) (fint a)) P)) (fint a)) = (a + n)%Z).
  { rewrite (fbyte_f _ _ Fs) by (apply IZR_le; lia). rewrite Zfloor_IZR. apply Z.mod_small. lia. }
  rewrite E. split; auto. unfold byte_between. lia.
Qed.

Lemma col_loop64_skip pow base z pre : forall this a post, is_finite z = true -> (forall s, In s (pre ++ [a]) -> is_finite (cz s) = true /\ B2R (cz s) <= B2R z) ->
  col_loop64 pow base z this (pre ++ a :: post) = col_loop64 pow base z a post.
Proof.
  induction pre as [|p pre IH]; intros this a post Fz H; cbn [app col_loop64].
  - destruct (H a (or_introl eq_refl)) as [Fa La]. rewrite (Bleb_f _ _ (B2R (cz a)) (B2R z)) by (split; auto). destruct (Rleb_spec (B2R (cz a)) (B2R z)); auto. contradiction.
  - destruct (H p (or_introl eq_refl)) as [Fa La]. rewrite (Bleb_f _ _ (B2R (cz p)) (B2R z)) by (split; auto). destruct (Rleb_spec (B2R (cz p)) (B2R z)); [|contradiction]. apply IH; auto. intros s Hs. apply H. right. auto.
Qed.
Lemma ColGet64_skip pow base z pre a post : is_finite z = true -> (forall s, In s (pre ++ [a]) -> is_finite (cz s) = true /\ B2R (cz s) <= B2R z) ->
  ColGet64 pow base (pre ++ a :: post) z = col_loop64 pow base z a post.
Proof.
  intros Fz H. destruct pre as [|p pre]; cbn [app ColGet64].
  - destruct (H a (or_introl eq_refl)) as [Fa La]. rewrite (Bltb_f _ _ (B2R z) (B2R (cz a))) by (split; auto). destruct (Rltb_spec (B2R z) (B2R (cz a))); auto. lra.
  - destruct (H p (or_introl eq_refl)) as [Fa La]. rewrite (Bltb_f _ _ (B2R z) (B2R (cz p))) by (split; auto). destruct (Rltb_spec (B2R z) (B2R (cz p))); [lra|]. rewrite col_loop64_skip; auto. intros s Hs. apply H. right. auto.
Qed.

(** Between two RGBA stops every channel is a byte between the two stops' channels, for any power function that keeps the order. *)
Theorem C126_between : forall pow base pre a b post z, fin 90 z -> fin 90 (cz a) -> fin 90 (cz b) ->
  (forall s, In s (pre ++ [a]) -> is_finite (cz s) = true /\ B2R (cz s) <= B2R z) -> B2R z < B2R (cz b) -> rgba_ok (cc a) -> rgba_ok (cc b) ->
  is_finite (the_base64 base) = true -> B2R (the_base64 base) = 1 \/ pow_ordered pow z (cz a) (cz b) (the_base64 base) ->
  exists c, ColGet64 pow base (pre ++ a :: b :: post) z = Ok c /\ rgba_ok c /\
    forall i, (i < 4)%nat -> let x := nth i (channels (cc a)) 0%Z in let y := nth i (channels (cc b)) 0%Z in
      byte_between x y (nth i (channels c) 0%Z) /\
      (B2R (the_base64 base) = 1 -> (Z.abs (nth i (channels c) 0%Z - (x + Rfloor (IZR (y - x) * ((B2R z - B2R (cz a)) / (B2R (cz b) - B2R (cz a)))))) <= 1)%Z) /\
      (B2R z = B2R (cz a) -> B2R (the_base64 base) = 1 -> nth i (channels c) 0%Z = x).
Proof.
  intros pow base pre [za ca] [zb cb] post z Fz Za Zb H Lz Ra Rb Fb Hp. cbn [cz cc] in *. assert (La : B2R za <= B2R z) by (apply (H (mkCS64 za ca)); apply in_app_iff; right; left; auto).
  rewrite ColGet64_skip by (auto; apply Fz). cbn [col_loop64 cz]. rewrite (Bleb_f _ _ _ _ (fin_f _ _ Zb) (fin_f _ _ Fz)). destruct (Rleb_spec (B2R zb) (B2R z)) as [K|_]; [lra|].
  destruct ca as [|r g b0 al|]; cbn [rgba_ok] in Ra; try contradiction. destruct cb as [|r' g' b' al'|]; cbn [rgba_ok] in Rb; try contradiction.
  unfold color_between64. cbn [cz cc].
  assert (X : exists p, is_f (getExponentialPercentage64 pow z za zb (the_base64 base)) p /\ 0 <= p <= 1 /\
    (B2R (the_base64 base) = 1 -> Rabs (p - (B2R z - B2R za) / (B2R zb - B2R za)) <= 31 / 10 * uu) /\ (B2R z = B2R za -> B2R (the_base64 base) = 1 -> p = 0)).
  { destruct (Req_dec (B2R (the_base64 base)) 1) as [E|E].
    - destruct (pct_linear pow z za zb (the_base64 base) Fz Za Zb ltac:(lra) E Fb) as (p & A & B & C & D). exists p. split; auto. split; auto. split; auto.
      intros E2 _. rewrite D, E2, Rminus_diag_eq by auto. replace (rnd 0) with 0 by (symmetry; apply (fi 0); lia). unfold Rdiv. rewrite Rmult_0_l. apply (fi 0). lia.
    - destruct (pct_range pow z za zb (the_base64 base) Fz Za Zb ltac:(lra) Fb Hp) as (p & A & B). exists p. split; auto. split; auto. split; intros; contradiction. }
  destruct X as (p & FP & Pr & Near & Zero). set (P := getExponentialPercentage64 pow z za zb (the_base64 base)) in *. clearbody P.
  set (q := (B2R z - B2R za) / (B2R zb - B2R za)) in *. assert (Q : 0 <= q <= 1).
  { unfold q. split; [apply Rmult_le_pos; [lra|left; apply Rinv_0_lt_compat; lra]|]. apply Rmult_le_reg_r with (B2R zb - B2R za); [lra|]. unfold Rdiv. rewrite Rmult_assoc, Rinv_l by lra. lra. }
  assert (C : forall x y, is_byte x -> is_byte y -> byte_between x y (getColorValueBetweenStops64 P x y) /\
    (B2R (the_base64 base) = 1 -> (Z.abs (getColorValueBetweenStops64 P x y - (x + Rfloor (IZR (y - x) * q))) <= 1)%Z) /\
    (B2R z = B2R za -> B2R (the_base64 base) = 1 -> getColorValueBetweenStops64 P x y = x)).
  { intros x y X Y. destruct (channel64 P p x y X Y FP Pr) as [E1 E2]. split; auto. rewrite E1. split.
    - intros B1. specialize (Near B1). unfold is_byte in *. assert (I : Rabs (IZR (y - x)) <= 255) by (rewrite <- abs_IZR; apply IZR_le; lia).
      assert (G : Rabs (rnd (IZR (y - x) * p) - IZR (y - x) * q) < 1).
      { assert (A : Rabs (IZR (y - x) * p) <= 256). { rewrite Rabs_mult, (Rabs_right p) by lra. apply Rle_trans with (255 * 1); [apply Rmult_le_compat; try lra; apply Rabs_pos|lra]. }
        apply re256 in A. assert (A' : Rabs (IZR (y - x) * (p - q)) <= 255 * (31 / 10 * uu)) by (rewrite Rabs_mult; apply Rmult_le_compat; auto; apply Rabs_pos).
        replace (IZR (y - x) * (p - q)) with (IZR (y - x) * p - IZR (y - x) * q) in A' by ring. set (s := IZR (y - x) * p) in *. set (t := IZR (y - x) * q) in *. clearbody s t.
        apply ab in A, A'. unfold uu in A, A'. apply Rabs_def1; lra. }
      pose proof (Zfloor_lb (rnd (IZR (y - x) * p))) as F1. pose proof (Zfloor_ub (rnd (IZR (y - x) * p))) as F2.
      pose proof (proj1 (Rfloor_spec (IZR (y - x) * q) _) eq_refl) as F3. set (m := Zfloor _) in *. set (n := Rfloor _) in *. set (s := rnd _) in *. set (t := IZR (y - x) * q) in *. clearbody m n s t.
      apply Rabs_def2 in G. assert ((m < n + 2)%Z) by (apply lt_IZR; rewrite plus_IZR; lra). assert ((n < m + 2)%Z) by (apply lt_IZR; rewrite plus_IZR; lra). lia.
    - intros B1 B2. rewrite (Zero B1 B2), Rmult_0_r. replace (rnd 0) with 0 by (symmetry; apply (fi 0); lia). rewrite (Zfloor_IZR 0). lia. }
  destruct Ra as (A1 & A2 & A3 & A4). destruct Rb as (B1 & B2 & B3 & B4).
  destruct (C r r' A1 B1) as [D1 E1]. destruct (C g g' A2 B2) as [D2 E2]. destruct (C b0 b' A3 B3) as [D3 E3]. destruct (C al al' A4 B4) as [D4 E4].
  eexists. split; [reflexivity|]. split; [unfold rgba_ok, is_byte, byte_between in *; lia|]. intros i Hi. cbn [channels].
  destruct i as [|[|[|[|i]]]]; cbn [nth]; auto. lia.
Qed.
Print Assumptions C126_between.

(** The difference of one does occur: seven tenths of the way from 0 to 90 is 63, and the code gives 62. *)
Theorem C126_exact_refuted :
  ColGet64 (fun _ _ => fint 0) None [mkCS64 (fint 0) (CRGBA 0 0 0 255); mkCS64 (fint 10) (CRGBA 90 90 90 255)] (fint 7) = Ok (CRGBA 62 62 62 255) /\
  ColGet None [mkCS 0 (CRGBA 0 0 0 255); mkCS 10 (CRGBA 90 90 90 255)] 7 = Ok (CRGBA 63 63 63 255).
Proof.
  split; [vm_compute; reflexivity|].
  destruct (C48_between_stops None [] (mkCS 0 (CRGBA 0 0 0 255)) (mkCS 10 (CRGBA 90 90 90 255)) [] 7) as (c & E & O & N); cbn [the_base csZoom csColor rgba_ok]; try lra; try (unfold is_byte; lia).
  { intros s [<-|[]]. cbn. lra. }
  cbn [app] in E. rewrite E. destruct c as [|r g b a|]; try contradiction. f_equal. cbn [channels csColor csZoom the_base] in N. unfold weight in N. destruct (Req_EM_T 1 1) as [_|K]; [|lra].
  assert (F : forall y n, IZR n <= IZR y * ((7 - 0) / (10 - 0)) < IZR n + 1 -> Rfloor (IZR y * ((7 - 0) / (10 - 0))) = n) by (intros; apply Rfloor_spec; auto).
  pose proof (N 0%nat ltac:(lia)) as [N0 _]. pose proof (N 1%nat ltac:(lia)) as [N1 _]. pose proof (N 2%nat ltac:(lia)) as [N2 _]. pose proof (N 3%nat ltac:(lia)) as [N3 _]. cbn [nth] in *.
  change (90 - 0)%Z with 90%Z in *. change (255 - 255)%Z with 0%Z in *. rewrite (F 90%Z 63%Z) in * by lra. rewrite (F 0%Z 0%Z) in * by lra. subst. reflexivity.
Qed.
Print Assumptions C126_exact_refuted.

(** The panics are those of exact arithmetic: no stops, or a zoom between stops that are not both RGBA. *)
Theorem C126_panic : forall pow base pre a b post z, fin 90 z ->
  ColGet64 pow base [] z = Panic /\
  ((forall s, In s (pre ++ [a]) -> is_finite (cz s) = true /\ B2R (cz s) <= B2R z) -> fin 90 (cz b) -> B2R z < B2R (cz b) ->
   (ColGet64 pow base (pre ++ a :: b :: post) z = Panic <-> channels (cc a) = [] \/ channels (cc b) = [])).
Proof.
  intros pow base pre a b post z Fz. split; [reflexivity|]. intros H Zb L. rewrite ColGet64_skip by (auto; apply Fz). cbn [col_loop64]. rewrite (Bleb_f _ _ _ _ (fin_f _ _ Zb) (fin_f _ _ Fz)).
  destruct (Rleb_spec (B2R (cz b)) (B2R z)) as [K|_]; [lra|]. unfold color_between64. destruct (cc a), (cc b); cbn [channels]; split; auto; try discriminate; intros [K|K]; discriminate.
Qed.
Print Assumptions C126_panic.
Example C126_nonvacuous : fin 90 (fint 5) /\ fin 90 (fint 0) /\ fin 90 (fint 10) /\ rgba_ok (CRGBA 0 10 200 255) /\
  ColGet64 (fun _ _ => fint 0) None [mkCS64 (fint 0) (CRGBA 0 10 200 255); mkCS64 (fint 10) (CRGBA 90 0 100 255)] (fint 5) = Ok (CRGBA 45 5 150 255).
Proof.
  assert (J : forall n, (Z.abs n <= 32)%Z -> fin 90 (fint n)).
  { intros n H. destruct (f_int n ltac:(lia)) as [A B]. split; auto. rewrite B, <- abs_IZR. apply Rle_trans with (IZR (2 ^ 5)); [apply IZR_le; lia|]. change (IZR (2 ^ 5)) with (bpow radix2 5). apply bpow_le. lia. }
  repeat (split; [apply J; lia|]). split; [unfold rgba_ok, is_byte; lia|]. vm_compute. reflexivity.
Qed.
