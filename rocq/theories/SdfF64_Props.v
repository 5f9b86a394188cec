(** Distance transform and signed distance fields in binary64 (C117). *)
From Coq Require Import ZArith Reals List Lia Lra Bool Arith.
From Flocq Require Import Core BinarySingleNaN.
From Verif Require Import GoBase GoArr Num TileF64_Model TileF64_Proofs F64 ColorF64_Model ColorF64_Proofs Sdf_Model Sdf_Spec Sdf_Props SdfF64_Model SdfF64_Proofs.
Import ListNotations.
Open Scope R_scope.
#[local] Existing Instance vexp.

(** ** Minima *)
Lemma min_exists n g : (1 <= n)%nat -> exists m, is_min n g m.
Proof.
  induction n as [|n IH]; intros H; [lia|]. destruct n as [|n].
  - exists (g 0%nat). split; [intros p Hp; replace p with 0%nat by lia; lra|exists 0%nat; auto].
  - destruct (IH ltac:(lia)) as (m & M1 & p & Hp & M2). destruct (Rle_or_lt m (g (S n))) as [L|L].
    + exists m. split; [|exists p; split; [lia|auto]]. intros q Hq. destruct (Nat.eq_dec q (S n)) as [->|N]; [auto|apply M1; lia].
    + exists (g (S n)). split; [|exists (S n); auto]. intros q Hq. destruct (Nat.eq_dec q (S n)) as [->|N]; [lra|]. specialize (M1 q ltac:(lia)). lra.
Qed.
Lemma row_mins w h g : (1 <= w)%nat -> forall n, (n <= h)%nat -> exists r, forall y, (y < n)%nat -> is_min w (fun x => g x y) (r y).
Proof.
  intros Hw. induction n as [|n IH]; intros Hn; [exists (fun _ => 0); intros; lia|]. destruct (IH ltac:(lia)) as (r & Hr). destruct (min_exists w (fun x => g x n) Hw) as (m & Hm).
  exists (fun y => if (y =? n)%nat then m else r y). intros y Hy. destruct (Nat.eqb_spec y n) as [->|N]; [exact Hm|apply Hr; lia].
Qed.
Lemma min2_exists w h g : (1 <= w)%nat -> (1 <= h)%nat -> exists m, is_min2 w h g m.
Proof.
  intros Hw Hh. destruct (row_mins w h g Hw h (le_n h)) as (r & Hr). destruct (min_exists h r Hh) as (m & M1 & y & Hy & ->). exists (r y). split.
  - intros x' y' Hx' Hy'. specialize (M1 y' Hy'). destruct (Hr y' Hy') as [K _]. specialize (K x' Hx'). lra.
  - destruct (Hr y Hy) as [_ (x & Hx & E)]. exists x, y. auto.
Qed.

(** ** One pixel *)
Definition cost (data : list f64) (w x y x' y' : nat) : R := sq x x' + sq y y' + cell data (y' * w + x').
Lemma sq_0 a : sq a a = 0. Proof. unfold sq. ring. Qed.
Lemma sq_int a b : exists k, sq a b = IZR k /\ (0 <= k)%Z.
Proof. exists ((Z.of_nat a - Z.of_nat b) * (Z.of_nat a - Z.of_nat b))%Z. split; [unfold sq; rewrite !INR_IZR_INZ, <- minus_IZR, mult_IZR; ring|apply Z.square_nonneg]. Qed.
Lemma sq_ne a b : a <> b -> 1 <= sq a b.
Proof.
  intros H. unfold sq. rewrite !INR_IZR_INZ, <- minus_IZR. replace (IZR (Z.of_nat a - Z.of_nat b) ^ 2) with (IZR ((Z.of_nat a - Z.of_nat b) * (Z.of_nat a - Z.of_nat b))) by (rewrite mult_IZR; ring). apply IZR_le.
  assert (K : (Z.of_nat a - Z.of_nat b <> 0)%Z) by lia. nia.
Qed.
Section Pixel.
Variables (data : list f64) (w h x y : nat).
Hypotheses (Hw : (w <= N64)%nat) (Hh : (h <= N64)%nat) (Hx : (x < w)%nat) (Hy : (y < h)%nat).
Hypothesis Hr : forall i, (i < w * h)%nat -> is_finite (nth i data (fint 0)) = true /\ raw_v (cell data i).
Lemma near2_dist t m : near2 data w h x y t -> is_min2 w h (cost data w x y) m ->
  (m < INF -> m <= 2097152 /\ 0 <= t <= 4194304 /\ Rabs (t - m) <= / 65536 /\ (m < 3 / 4 -> t = cell data (y * w + x) /\ m = cell data (y * w + x)) /\
     ((forall i, (i < w * h)%nat -> cell data i = 0 \/ cell data i = INF) -> t = m)) /\
  (INF <= m -> m = INF /\ INF <= t <= INF + 129 * 16384).
Proof.
  intros (c & Hc & X & HX & Et & Low) (M1 & xs & ys & Hxs & Hys & M2). pose proof uu_pos as U0. assert (U1 : 4194304 * uu <= / 2000000000) by (unfold uu; lra). assert (EE : ee = / 262144) by reflexivity.
  assert (RC : forall x' y', (x' < w)%nat -> (y' < h)%nat -> raw_v (cell data (y' * w + x'))) by (intros; apply Hr, cell_lt; auto).
  assert (SX : forall x', (x' < w)%nat -> 0 <= sq x x' <= 1046529) by (intros; apply sq_bound; lia). assert (SY : forall y', (y' < h)%nat -> 0 <= sq y y' <= 1046529) by (intros; apply sq_bound; lia).
  assert (CG : forall x', (x' < w)%nat -> small_v (c x') \/ INF <= c x' <= INF + 65 * 16384) by (intros x' Hx'; apply (near_raw (fun p => cell data (p * w + x')) h y (c x') Hh Hy); [intros p Hp; apply RC; auto|apply Hc; auto]).
  (* what a column holds *)
  assert (CL : forall x', (x' < w)%nat -> m <= INF -> m <= sq x x' + c x' + 1048576 * uu).
  { intros x' Hx' Hm. destruct (Hc x' Hx') as (Y & HY & Ec & _). pose proof (M1 x' Y Hx' HY) as K. unfold cost in K. unfold valc in Ec. specialize (SX x' Hx'). specialize (SY Y HY). destruct (RC x' Y Hx' HY) as [R|R].
    - pose proof (re 20 1048576 ltac:(lia) ltac:(lia) eq_refl (sq y Y + cell data (Y * w + x')) ltac:(apply ab; lra)) as E. apply ab in E. rewrite <- Ec in E. lra.
    - assert (INF <= c x') by (rewrite Ec; apply rnd_INF_ge; lra). lra. }
  pose proof (SX xs Hxs) as Sxs. pose proof (SY ys Hys) as Sys. pose proof (SX X HX) as SXX. unfold cost in M2. split.
  - intros Hm. destruct (RC xs ys Hxs Hys) as [R|R]; [|exfalso; lra]. assert (Mb : m <= 2093059) by lra. split; [lra|].
    (* the column of the nearest source *)
    assert (CU : sq x xs + c xs <= m + ee + 1048576 * uu).
    { destruct (Hc xs Hxs) as (Y & HY & Ec & L). specialize (L ys Hys). unfold valc in *. assert (V : sq y Y + cell data (Y * w + xs) <= sq y ys + cell data (ys * w + xs) + ee).
      { unfold cap in L. rewrite (Rmin_left (sq y ys + cell data (ys * w + xs))) in L by (rewrite INF_eq; lra). unfold Rmin in L. rewrite INF_eq, EE in *. destruct (Rle_dec _ _) in L; lra. }
      pose proof (re 20 1048576 ltac:(lia) ltac:(lia) eq_refl (sq y ys + cell data (ys * w + xs) + ee) ltac:(apply ab; rewrite EE; lra)) as E. apply ab in E. apply rnd_mono in V. rewrite <- Ec in V. lra. }
    assert (TV : valc c X x <= m + 2 * ee + 1048576 * uu).
    { specialize (Low xs Hxs). unfold cap in Low. assert (Q : valc c xs x <= m + ee + 1048576 * uu) by exact CU. rewrite (Rmin_left (valc c xs x)) in Low by (rewrite INF_eq; rewrite EE in Q; lra). unfold Rmin in Low. rewrite INF_eq, EE in *. destruct (Rle_dec _ _) in Low; lra. }
    pose proof (CL X HX ltac:(lra)) as TL. unfold valc in TV, Et. assert (C0 : 0 <= c X) by (destruct (CG X HX) as [K|K]; unfold small_v in *; rewrite ?INF_eq in *; lra).
    pose proof (re 22 4194304 ltac:(lia) ltac:(lia) eq_refl (sq x X + c X) ltac:(apply ab; rewrite EE in TV; lra)) as ET. rewrite <- Et in ET. apply ab in ET.
    assert (T0 : 0 <= t) by (rewrite Et; apply rnd_nonneg; lra). assert (TM : Rabs (t - m) <= / 65536) by (apply ab; rewrite EE in TV; lra). split; [rewrite EE in TV; lra|]. split; [exact TM|]. destruct (Hc X HX) as (Y & HY & Ec & _). unfold valc in Ec. split.
    + intros Hm'. assert (x = X) as <- by (destruct (Nat.eq_dec x X) as [|N]; [auto|pose proof (sq_ne _ _ N); rewrite EE in TV; lra]). rewrite sq_0 in *.
      assert (cx : c x < 1) by (rewrite EE in TV; lra). assert (y = Y) as <-.
      { destruct (Nat.eq_dec y Y) as [|N]; [auto|]. exfalso. pose proof (sq_ne _ _ N). assert (K : 1 <= c x); [|lra]. rewrite Ec. apply (rnd_ge_int _ 1); [reflexivity|]. destruct (RC x Y Hx HY) as [R'|R']; [lra|rewrite R', INF_eq; lra]. }
      rewrite sq_0, Rplus_0_l in Ec. assert (FM : fmt (cell data (y * w + x))) by (unfold cell; apply generic_format_B2R). rewrite (rnd_id _ FM) in Ec. rewrite Rplus_0_l, Ec, (rnd_id _ FM) in Et. split; [exact Et|].
      assert (x = xs) as <- by (destruct (Nat.eq_dec x xs) as [|N]; [auto|pose proof (sq_ne _ _ N); lra]). assert (y = ys) as <- by (destruct (Nat.eq_dec y ys) as [|N]; [auto|pose proof (sq_ne _ _ N); lra]). rewrite !sq_0 in M2. lra.
    + intros HI. destruct (HI (Y * w + X)%nat (cell_lt w h X Y HX HY)) as [Z0|Z1]; [|exfalso; assert (INF <= c X) by (rewrite Ec, Z1; apply rnd_INF_ge; specialize (SY Y HY); lra); rewrite INF_eq, EE in *; lra].
      destruct (HI (ys * w + xs)%nat (cell_lt w h xs ys Hxs Hys)) as [W0|W1]; [|lra]. rewrite Z0, Rplus_0_r in Ec. rewrite W0 in M2. specialize (SY Y HY).
      destruct (sq_int y Y) as (a & Ea & Ha). destruct (sq_int x X) as (b & Eb & Hb). destruct (sq_int x xs) as (a' & Ea' & Ha'). destruct (sq_int y ys) as (b' & Eb' & Hb').
      assert (A2 : (a <= 1046529)%Z) by (apply le_IZR; lra). assert (B2 : (b <= 1046529)%Z) by (apply le_IZR; lra). rewrite Ea, (fi a) in Ec by lia. rewrite Eb, Ec, <- plus_IZR, (fi (b + a)) in Et by lia. rewrite Ea', Eb', Rplus_0_r, <- plus_IZR in M2. subst t m. rewrite <- minus_IZR in TM. apply ab in TM. f_equal.
      assert (K1 : (-1 < b + a - (a' + b'))%Z) by (apply lt_IZR; lra). assert (K2 : (b + a - (a' + b') < 1)%Z) by (apply lt_IZR; lra). lia.
  - intros Hm. assert (AI : forall x' y', (x' < w)%nat -> (y' < h)%nat -> cell data (y' * w + x') = INF).
    { intros x' y' Hx' Hy'. destruct (RC x' y' Hx' Hy') as [R|R]; [|exact R]. exfalso. pose proof (M1 x' y' Hx' Hy') as K. unfold cost in K. specialize (SX x' Hx'). specialize (SY y' Hy'). rewrite INF_eq in Hm. lra. }
    assert (CI : INF <= c X <= INF + 65 * 16384). { destruct (CG X HX) as [K|K]; [|exact K]. exfalso. destruct (Hc X HX) as (Y & HY & Ec & _). unfold valc in Ec. rewrite (AI X Y HX HY) in Ec. assert (INF <= c X) by (rewrite Ec; apply rnd_INF_ge; specialize (SY Y HY); lra). unfold small_v in K. rewrite INF_eq in *. lra. }
    split; [pose proof (M1 x y Hx Hy) as K; unfold cost in K; rewrite !sq_0, (AI x y Hx Hy) in K; lra|]. rewrite Et. unfold valc. split; [apply rnd_INF_ge; lra|apply (rnd_INF_le _ 129); [lia|lra]].
Qed.
End Pixel.

(** ** Square roots *)
Lemma sqrt_near a b e : 0 <= a -> / 4 <= b -> Rabs (a - b) <= e -> Rabs (sqrt a - sqrt b) <= 2 * e.
Proof.
  intros Ha Hb H. pose proof (sqrt_pos a) as A0. assert (B0 : / 2 <= sqrt b). { replace (/ 2) with (sqrt (/ 4)); [apply sqrt_le_1; lra|]. replace (/ 4) with (/ 2 * / 2) by lra. apply sqrt_square. lra. }
  assert (A1 : sqrt a * sqrt a = a) by (apply sqrt_sqrt; lra). assert (B1 : sqrt b * sqrt b = b) by (apply sqrt_sqrt; lra). set (p := sqrt a) in *. set (q := sqrt b) in *. clearbody p q.
  apply ab in H. apply ab. assert (F : (p - q) * (p + q) = a - b) by (rewrite <- A1, <- B1; ring). clear A1 B1. split; nra.
Qed.
Lemma sqrt_le_sq a r : 0 <= a -> 0 <= r -> a <= r * r -> sqrt a <= r.
Proof. intros Ha Hr H. apply sqrt_le_1 in H; [|lra|nra]. rewrite sqrt_square in H by lra. exact H. Qed.
Lemma sqrt_ge_sq a r : 0 <= r -> r * r <= a -> r <= sqrt a.
Proof. intros Hr H. apply sqrt_le_1 in H; [|nra|nra]. rewrite sqrt_square in H by lra. exact H. Qed.

(** ** C117 *)
(** A cell is finite and 1e20 or at most 1, as in the grids of CalcSDF *)
Definition grid_ok (data : list f64) : Prop := forall c, In c data -> is_finite c = true /\ (0 <= B2R c <= 1 \/ B2R c = 10 ^ 20).
Definition dist2 (data : list f64) (w x y : nat) : nat -> nat -> R := fun x' y' => sq x x' + sq y y' + B2R (nth (y' * w + x') data (fint 0)).
Lemma I20 : INF = 10 ^ 20. Proof. unfold INF. lra. Qed.
Lemma edt_pixel data w h s : (1 <= w <= 1024)%nat -> (1 <= h <= 1024)%nat -> length data = (w * h)%nat -> grid_ok data -> scr64_ok (Nat.max w h) s ->
  exists data' s', edt64 data w h s = Ok (data', s') /\ length data' = (w * h)%nat /\ scr64_ok (Nat.max w h) s' /\
    forall x y, (x < w)%nat -> (y < h)%nat -> exists m t, is_min2 w h (dist2 data w x y) m /\ is_f (nth (y * w + x) data' (fint 0)) (rnd (sqrt t)) /\ 0 <= t /\
      (m < INF -> m <= 2097152 /\ t <= 4194304 /\ Rabs (t - m) <= / 65536 /\ (m < 3 / 4 -> t = B2R (nth (y * w + x) data (fint 0)) /\ m = t) /\ ((forall c, In c data -> B2R c = 0 \/ B2R c = INF) -> t = m)) /\
      (INF <= m -> m = INF /\ INF <= t <= INF + 129 * 16384).
Proof.
  intros Hw Hh Hl G Hs. assert (RW : forall i, (i < w * h)%nat -> is_finite (nth i data (fint 0)) = true /\ raw_v (cell data i)).
  { intros i Hi. destruct (G (nth i data (fint 0)) ltac:(apply nth_In; lia)) as [G1 G2]. split; [exact G1|]. unfold raw_v, cell. rewrite I20. exact G2. }
  destruct (edt64_ok data w h s (Nat.max w h) Hl ltac:(lia) ltac:(lia) ltac:(lia) Hs RW) as (data' & s' & E & S' & L & K). exists data', s'. split; [exact E|]. split; [exact L|]. split; [exact S'|].
  intros x y Hx Hy. destruct (K x y Hx Hy) as (v & t & Fv & N & Ev). destruct (min2_exists w h (dist2 data w x y) ltac:(lia) ltac:(lia)) as (m & M). exists m, t. split; [exact M|].
  destruct (near2_dist data w h x y ltac:(lia) ltac:(lia) Hx Hy RW t m N M) as [P1 P2]. rewrite Ev. assert (T0 : 0 <= t). { destruct (Rlt_or_le m INF) as [Q|Q]; [apply P1 in Q; lra|apply P2 in Q; rewrite INF_eq in Q; lra]. }
  split; [apply fsqrt_f; auto|]. split; [exact T0|]. split; [|exact P2]. intros Hm. destruct (P1 Hm) as (Q1 & Q2 & Q3 & Q4 & Q5). split; [exact Q1|]. split; [lra|]. split; [exact Q3|]. split.
  - intros H. destruct (Q4 H) as [A B]. split; [exact A|]. rewrite B. symmetry. exact A.
  - intros H. apply Q5. intros i Hi. apply H. apply nth_In. lia.
Qed.
Lemma out_near t m : 0 <= t -> 0 <= m -> (m < INF -> m <= 2097152 /\ t <= 4194304 /\ Rabs (t - m) <= / 65536 /\ (m < 3 / 4 -> m = t)) -> (INF <= m -> m = INF /\ INF <= t <= INF + 129 * 16384) ->
  (m < INF -> Rabs (rnd (sqrt t) - sqrt m) <= / 30000) /\ Rabs (rnd (sqrt t) - sqrt m) <= / 9200 /\ 0 <= rnd (sqrt t) <= 10000000001.
Proof.
  intros T0 M0 P1 P2. pose proof (rnd_nonneg (sqrt t) (sqrt_pos t)) as R0. pose proof uu_pos as U0. assert (U1 : 17179869184 * uu <= / 500000) by (unfold uu; lra).
  assert (K : m < INF -> Rabs (rnd (sqrt t) - sqrt m) <= / 30000 /\ rnd (sqrt t) <= 10000000001).
  { intros H. destruct (P1 H) as (Q1 & Q2 & Q3 & Q4). assert (ST : sqrt t <= 2048) by (apply sqrt_le_sq; lra). pose proof (sqrt_pos t) as SP. pose proof (re 11 2048 ltac:(lia) ltac:(lia) eq_refl (sqrt t) ltac:(apply ab; lra)) as E. apply ab in E. split; [|lra].
    destruct (Rlt_or_le m (3 / 4)) as [L|L]; [rewrite (Q4 L); apply ab; lra|]. pose proof (sqrt_near t m _ T0 ltac:(lra) Q3) as S. apply ab in S. apply ab. lra. }
  assert (K2 : INF <= m -> Rabs (rnd (sqrt t) - sqrt m) <= / 9200 /\ rnd (sqrt t) <= 10000000001).
  { intros H. destruct (P2 H) as (-> & T1 & T2). replace (sqrt INF) with 10000000000 by (symmetry; replace INF with (10000000000 * 10000000000) by (rewrite INF_eq; lra); apply sqrt_square; lra). rewrite INF_eq in *.
    assert (S1 : 10000000000 <= sqrt t) by (apply sqrt_ge_sq; lra). assert (S2 : sqrt t <= 10000000000 + 10568 / 100000000) by (apply sqrt_le_sq; lra). pose proof (re 34 17179869184 ltac:(lia) ltac:(lia) eq_refl (sqrt t) ltac:(apply ab; lra)) as E.
    pose proof (rnd_ge_int (sqrt t) 10000000000 ltac:(lia) S1) as L. apply ab in E. assert (E2 : Rabs (rnd (sqrt t) - sqrt t) <= 17179869184 * uu) by (apply ab; lra). split; [|lra]. apply ab. lra. }
  destruct (Rlt_or_le m INF) as [L|L].
  - destruct (K L) as [A B]. split; [intros _; exact A|]. split; [|lra]. apply ab in A. apply ab. lra.
  - destruct (K2 L) as [A B]. split; [intros; lra|]. split; [exact A|lra].
Qed.
(** The transform of a grid that holds a source: every distance is right within 1/30000, and as exact as a float can be when all
    sources are 0.  A grid without a source gives 1e10 everywhere, within 1/9200. *)
Theorem C117_transform : forall data w h s, (1 <= w <= 1024)%nat -> (1 <= h <= 1024)%nat -> length data = (w * h)%nat -> grid_ok data ->
  (Nat.max w h <= length (s6F s))%nat -> (Nat.max w h <= length (s6D s))%nat -> (Nat.max w h <= length (s6V s))%nat -> (Nat.max w h < length (s6Z s))%nat ->
  exists data' s', edt64 data w h s = Ok (data', s') /\ length data' = (w * h)%nat /\
    forall x y, (x < w)%nat -> (y < h)%nat -> let d := nth (y * w + x) data' (fint 0) in is_finite d = true /\
      exists m, is_min2 w h (dist2 data w x y) m /\ Rabs (B2R d - sqrt m) <= / 9200 /\
        (m < 10 ^ 20 -> Rabs (B2R d - sqrt m) <= / 30000 /\ ((forall c, In c data -> B2R c = 0 \/ B2R c = 10 ^ 20) -> B2R d = rnd (sqrt m))).
Proof.
  intros data w h s Hw Hh Hl G S1 S2 S3 S4. destruct (edt_pixel data w h s Hw Hh Hl G ltac:(repeat split; auto)) as (data' & s' & E & L & _ & K). exists data', s'. split; [exact E|]. split; [exact L|].
  intros x y Hx Hy d. destruct (K x y Hx Hy) as (m & t & M & [F1 F2] & T0 & P1 & P2). split; [exact F1|]. exists m. split; [exact M|]. unfold d. rewrite F2. rewrite <- I20.
  assert (M0 : 0 <= m). { destruct M as (_ & x' & y' & Hx' & Hy' & ->). unfold dist2. pose proof (sq_bound x x' ltac:(lia) ltac:(lia)). pose proof (sq_bound y y' ltac:(lia) ltac:(lia)). destruct (G (nth (y' * w + x') data (fint 0)) ltac:(apply nth_In; rewrite Hl; apply cell_lt; auto)) as [_ [Q|Q]]; lra. }
  destruct (out_near t m T0 M0) as (O1 & O2 & _); [|exact P2|].
  - intros H. destruct (P1 H) as (Q1 & Q2 & Q3 & Q4 & _). split; [auto|]. split; [auto|]. split; [auto|]. intros H'. apply Q4, H'.
  - split; [exact O2|]. intros H. split; [apply O1, H|]. intros Z. destruct (P1 H) as (_ & _ & _ & _ & Q5). rewrite Q5; [reflexivity|exact Z].
Qed.
Print Assumptions C117_transform.

(** ** The costs of a pixel *)
Lemma odd_gap a : (0 <= a <= 65535)%Z -> Rabs (1 / 2 - IZR a / 65535) >= / 131070.
Proof.
  intros Ha. destruct (Z.le_gt_cases a 32767) as [L|L].
  - apply IZR_le in L. rewrite Rabs_pos_eq by lra. lra.
  - assert (32768 <= a)%Z as L' by lia. apply IZR_le in L'. rewrite Rabs_left1 by lra. lra.
Qed.
(** The rounded square of the positive part of [y], a rounding of [x] *)
Lemma pos_sq x y : -1 / 2 <= x <= 1 / 2 -> Rabs x >= / 131070 -> Rabs (y - x) <= 2 * uu ->
  let o := Rmax 0 y in 0 <= o <= 1 /\ 0 <= rnd (o * o) <= 1 /\ Rabs (rnd (o * o) - Rmax 0 x ^ 2) <= 8 * uu /\ Rabs (sqrt (rnd (o * o)) - sqrt (Rmax 0 x ^ 2)) <= / 1000000.
Proof.
  intros Hx Hg Hy o. assert (U : 0 < uu <= / 9000000000000000) by (unfold uu; lra). apply ab in Hy. rewrite <- Rsqr_pow2, sqrt_Rsqr by apply Rmax_l. unfold Rsqr.
  destruct (Rle_or_lt x 0) as [L|L].
  - assert (x <= - / 131070) by (rewrite Rabs_left1 in Hg by lra; lra). unfold o. rewrite !(Rmax_left 0) by lra. rewrite Rmult_0_l, (fi 0) by lia. rewrite sqrt_0. repeat split; try lra; apply ab; lra.
  - assert (G : / 131070 <= x) by (rewrite Rabs_pos_eq in Hg by lra; lra). unfold o. rewrite !(Rmax_right 0) by lra. clear Hg o.
    assert (Y : / 140000 <= y <= 501 / 1000) by lra. assert (YY : 0 <= y * y <= 251001 / 1000000) by nra. pose proof (re1 (y * y) ltac:(apply ab; lra)) as E. apply ab in E. pose proof (rnd_nonneg (y * y) ltac:(lra)) as R0.
    assert (XY : Rabs (y * y - x * x) <= 4 * uu). { replace (y * y - x * x) with ((y - x) * (y + x)) by ring. apply ab. split; nra. }
    apply ab in XY. split; [lra|]. split; [lra|]. split; [apply ab; lra|].
    assert (S : Rabs (sqrt (rnd (y * y)) - y) <= 140000 * uu).
    { pose proof (sqrt_pos (rnd (y * y))) as P. pose proof (sqrt_sqrt _ R0) as Q. set (q := sqrt (rnd (y * y))) in *. clearbody q. assert (F : Rabs ((q - y) * (q + y)) <= uu) by (apply ab; replace ((q - y) * (q + y)) with (q * q - y * y) by ring; rewrite Q; lra).
      apply ab in F. clear Q E R0 XY YY. apply ab. split; nra. }
    apply ab in S. apply ab. unfold uu in *. lra.
Qed.
Definition cost_near (c : f64) (k : R) : Prop := is_finite c = true /\ ((0 <= B2R c <= 1 /\ 0 <= k <= 1 /\ Rabs (B2R c - k) <= 8 * uu /\ Rabs (sqrt (B2R c) - sqrt k) <= / 1000000) \/ (B2R c = INF /\ k = INF)).
Lemma near_zero x : is_f x 0 -> cost_near x 0.
Proof. intros [F E]. split; [exact F|]. left. rewrite E. pose proof uu_pos. repeat split; try lra; apply ab; lra. Qed.
Lemma near_INF : cost_near INF64 (10 ^ 20).
Proof. destruct INF64_f as [F E]. split; [exact F|]. right. split; [exact E|]. symmetry. apply I20. Qed.
Lemma costs64 a : (0 <= a <= 65535)%Z -> cost_near (fst (outer_inner64 a)) (outer_cost a) /\ cost_near (snd (outer_inner64 a)) (inner_cost a).
Proof.
  intros Ha. assert (U : 0 < uu <= / 9000000000000000) by (unfold uu; lra). pose proof (frac a Ha) as FR. pose proof (f_int a ltac:(lia)) as Fa. pose proof (f_int 65535 ltac:(lia)) as Fm. pose proof (f_int 0 ltac:(lia)) as F0. pose proof (f_int 1 ltac:(lia)) as F1.
  pose proof (fdiv_f _ _ _ _ Fa Fm ltac:(lra) ltac:(apply big, ab; lra)) as Fq. pose proof (re1 (IZR a / 65535) ltac:(apply ab; lra)) as E. unfold outer_inner64, outer_cost, inner_cost. cbv zeta.
  set (al := fdiv (fint a) (fint 65535)) in *. rewrite (Beqb_f _ _ _ _ Fq F1), (Beqb_f _ _ _ _ Fq F0).
  destruct (Z.eqb_spec a 65535) as [->|N1].
  { replace (65535 / 65535) with 1 by lra. rewrite (fi 1) by lia. destruct (Reqb_spec 1 1); [|lra]. cbn [fst snd]. split; [apply near_zero, F0|apply near_INF]. }
  destruct (Z.eqb_spec a 0) as [->|N0].
  { replace (0 / 65535) with 0 by lra. rewrite (fi 0) by lia. destruct (Reqb_spec 0 1); [lra|]. destruct (Reqb_spec 0 0); [|lra]. cbn [fst snd]. split; [apply near_INF|apply near_zero, F0]. }
  apply ab in E. assert (1 <= IZR a <= 65534) by (split; apply IZR_le; lia). destruct (Reqb_spec (rnd (IZR a / 65535)) 1); [lra|]. destruct (Reqb_spec (rnd (IZR a / 65535)) 0); [lra|]. cbn [fst snd].
  set (x := IZR a / 65535) in *. pose proof (odd_gap a Ha) as G. fold x in G. set (r := rnd x) in *.
  pose proof (re1 (1 / 2 - r) ltac:(apply ab; lra)) as E1. pose proof (re1 (r - 1 / 2) ltac:(apply ab; lra)) as E2. apply ab in E1. apply ab in E2.
  pose proof (fsub_f _ _ _ _ half_f Fq ltac:(apply big, ab; lra)) as Fo. pose proof (fsub_f _ _ _ _ Fq half_f ltac:(apply big, ab; lra)) as Fi.
  pose proof (fmax_f _ _ _ _ F0 Fo) as Mo. pose proof (fmax_f _ _ _ _ F0 Fi) as Mi.
  destruct (pos_sq (1 / 2 - x) (rnd (1 / 2 - r)) ltac:(lra) G ltac:(apply ab; lra)) as (O1 & O2 & O3 & O4). destruct (pos_sq (x - 1 / 2) (rnd (r - 1 / 2)) ltac:(lra) ltac:(rewrite Rabs_minus_sym; exact G) ltac:(apply ab; lra)) as (I1 & I2 & I3 & I4).
  pose proof (fmul_f _ _ _ _ Mo Mo ltac:(apply big, ab; nra)) as [Po Qo]. pose proof (fmul_f _ _ _ _ Mi Mi ltac:(apply big, ab; nra)) as [Pi Qi].
  pose proof (half_sq (1 / 2 - x) ltac:(lra)). pose proof (half_sq (x - 1 / 2) ltac:(lra)).
  split; (split; [assumption|]); left; rewrite ?Qo, ?Qi; auto.
Qed.

(** ** Distances to the exact costs *)
Lemma dist_near data costs w h s : (1 <= w <= 1024)%nat -> (1 <= h <= 1024)%nat -> length data = (w * h)%nat -> (forall i, (i < w * h)%nat -> cost_near (nth i data (fint 0)) (costs i)) -> scr64_ok (Nat.max w h) s ->
  exists data' s', edt64 data w h s = Ok (data', s') /\ length data' = (w * h)%nat /\ scr64_ok (Nat.max w h) s' /\
    forall x y, (x < w)%nat -> (y < h)%nat -> exists m r, is_min2 w h (fun x' y' => sq x x' + sq y y' + costs (y' * w + x')%nat) m /\ is_f (nth (y * w + x) data' (fint 0)) r /\ 0 <= r <= 10000000001 /\
      Rabs (r - sqrt m) <= / 9200 /\ (m < INF -> Rabs (r - sqrt m) <= / 29000).
Proof.
  intros Hw Hh Hl C Hs. assert (G : grid_ok data).
  { intros c Hc. apply In_nth with (d := fint 0) in Hc as (i & Hi & <-). destruct (C i ltac:(lia)) as [F [(A & _)|(A & _)]]; (split; [exact F|]); [left; exact A|right; rewrite A; apply I20]. }
  destruct (edt_pixel data w h s Hw Hh Hl G Hs) as (data' & s' & E & L & S' & K). exists data', s'. split; [exact E|]. split; [exact L|]. split; [exact S'|]. intros x y Hx Hy.
  destruct (K x y Hx Hy) as (m' & t & M' & F & T0 & P1 & P2). destruct (min2_exists w h (fun x' y' => sq x x' + sq y y' + costs (y' * w + x')%nat) ltac:(lia) ltac:(lia)) as (m & M). exists m, (rnd (sqrt t)).
  split; [exact M|]. split; [exact F|]. assert (U : 0 < uu <= / 9000000000000000) by (unfold uu; lra).
  assert (SQ : forall a b n, (a < n)%nat -> (b < n)%nat -> (n <= 1024)%nat -> 0 <= sq a b <= 1046529) by (intros; apply sq_bound; lia).
  assert (M0' : 0 <= m'). { destruct M' as (_ & x' & y' & Hx' & Hy' & ->). unfold dist2. pose proof (SQ x x' w Hx Hx' ltac:(lia)). pose proof (SQ y y' h Hy Hy' ltac:(lia)). destruct (C (y' * w + x')%nat (cell_lt w h x' y' Hx' Hy')) as [_ [(Q & _)|(Q & _)]]; [lra|rewrite Q, INF_eq; lra]. }
  destruct (out_near t m' T0 M0') as (O1 & O2 & O3); [|exact P2|]. { intros H. destruct (P1 H) as (Q1 & Q2 & Q3 & Q4 & _). split; [auto|]. split; [auto|]. split; [auto|]. intros H'. apply Q4, H'. }
  split; [exact O3|]. destruct M as (ML & xm & ym & Hxm & Hym & ME). destruct M' as (ML' & xm' & ym' & Hxm' & Hym' & ME'). unfold dist2 in ML', ME'.
  assert (PW : forall x' y', (x' < w)%nat -> (y' < h)%nat -> Rabs (B2R (nth (y' * w + x') data (fint 0)) - costs (y' * w + x')%nat) <= 8 * uu).
  { intros x' y' Hx' Hy'. destruct (C (y' * w + x')%nat (cell_lt w h x' y' Hx' Hy')) as [_ [(_ & _ & Q & _)|(-> & ->)]]; [exact Q|]. rewrite Rminus_diag_eq, Rabs_R0 by reflexivity. lra. }
  assert (NEAR : Rabs (m' - m) <= 8 * uu).
  { pose proof (ML xm' ym' Hxm' Hym') as A. pose proof (ML' xm ym Hxm Hym) as B. pose proof (PW xm ym Hxm Hym) as C1. pose proof (PW xm' ym' Hxm' Hym') as C2. apply ab in C1. apply ab in C2. apply ab. lra. }
  destruct (Rlt_or_le m' INF) as [LT|GE].
  - destruct (P1 LT) as (Q1 & Q2 & Q3 & Q4 & _). apply ab in NEAR. assert (SS : Rabs (sqrt m' - sqrt m) <= / 1000000).
    { destruct (Rlt_or_le m' (3 / 4)) as [L3|L3].
      - destruct (Q4 L3) as [T1 T2]. assert (OWN : costs (y * w + x)%nat = m).
        { assert (xm = x /\ ym = y) as [-> ->]; [|rewrite ME; unfold sq; ring]. destruct (Nat.eq_dec xm x) as [->|Nx]; [destruct (Nat.eq_dec ym y) as [->|Ny]; [auto|]|].
          - exfalso. pose proof (sq_apart x y x ym ltac:(congruence)). destruct (C (ym * w + x)%nat (cell_lt w h x ym Hxm Hym)) as [_ [(_ & Q & _)|(_ & Q)]]; [lra|rewrite Q, INF_eq in ME; lra].
          - exfalso. pose proof (sq_apart x y xm ym ltac:(congruence)). destruct (C (ym * w + xm)%nat (cell_lt w h xm ym Hxm Hym)) as [_ [(_ & Q & _)|(_ & Q)]]; [lra|rewrite Q, INF_eq in ME; lra]. }
        rewrite T2, T1, <- OWN. destruct (C (y * w + x)%nat (cell_lt w h x y Hx Hy)) as [_ [(_ & _ & _ & Q)|(Q & _)]]; [exact Q|]. exfalso. rewrite T2, T1, Q, INF_eq in L3. lra.
      - rewrite Rabs_minus_sym. pose proof (sqrt_near m m' (8 * uu) ltac:(lra) ltac:(lra) ltac:(apply ab; lra)) as Z. apply ab in Z. apply ab. lra. }
    apply ab in SS. specialize (O1 LT). apply ab in O1. split; [apply ab; lra|]. intros _. apply ab. lra.
  - destruct (P2 GE) as (Q1 & _). assert (MI : m = INF).
    { pose proof (ML' xm ym Hxm Hym) as B. pose proof (ML xm' ym' Hxm' Hym') as A. pose proof (SQ x xm w Hx Hxm ltac:(lia)). pose proof (SQ y ym h Hy Hym ltac:(lia)). pose proof (SQ x xm' w Hx Hxm' ltac:(lia)). pose proof (SQ y ym' h Hy Hym' ltac:(lia)).
      destruct (C (ym * w + xm)%nat (cell_lt w h xm ym Hxm Hym)) as [_ [(Q & _)|(_ & Q)]]; [rewrite Q1, INF_eq in B; lra|]. destruct (C (ym' * w + xm')%nat (cell_lt w h xm' ym' Hxm' Hym')) as [_ [(Q' & _)|(Q' & Q'')]]; [rewrite Q1, INF_eq in ME'; lra|]. rewrite Q in ME. rewrite Q'' in A. rewrite Q1, Q' in ME'. lra. }
    rewrite MI, <- Q1. split; [exact O2|]. intros; lra.
Qed.

(** ** The bytes *)
Lemma nearbyint_f x a : is_f x a -> exists k, is_f (Bnearbyint mode_NA x) (IZR k) /\ Rabs (IZR k - a) <= 1 / 2.
Proof.
  intros [F <-]. destruct (Bnearbyint_correct 53 1024 _ mode_NA x) as (K1 & K2 & _). exists (ZnearestA (B2R x)). split.
  - split; [rewrite K2; exact F|]. rewrite K1. unfold round, F2R, scaled_mantissa, cexp, FIX_exp. cbn [Fnum Fexp round_mode]. change (bpow radix2 (- 0)) with 1. change (bpow radix2 0) with 1. rewrite !Rmult_1_r. reflexivity.
  - rewrite Rabs_minus_sym. eapply Rle_trans; [exact (Znearest_half (fun z => Z.leb 0 z) (B2R x))|lra].
Qed.
Lemma div_big d r m : 1 <= r -> Rabs d <= m -> Rabs (d / r) <= m.
Proof.
  intros Hr H. unfold Rdiv. rewrite Rabs_mult. assert (0 < / r <= 1). { split; [apply Rinv_0_lt_compat; lra|]. rewrite <- Rinv_1. apply Rinv_le_contravar; lra. } rewrite (Rabs_pos_eq (/ r)) by lra. pose proof (Rabs_pos d). nra.
Qed.
Lemma byte64_near o i radius cutoff ro ri r c so si e : is_f o ro -> is_f i ri -> is_f radius r -> is_f cutoff c -> 1 <= r -> Rabs c <= 1000 -> 0 <= ro <= 10000000001 -> 0 <= ri <= 10000000001 ->
  Rabs (ro - so) <= e -> Rabs (ri - si) <= e ->
  (0 <= sdf_byte64 o i radius cutoff <= 255)%Z /\ Rabs (IZR (sdf_byte64 o i radius cutoff) - Rmax 0 (Rmin 255 (255 - 255 * ((so - si) / r + c)))) <= 1 / 2 + 510 * e + / 200.
Proof.
  intros Fo Fi Fr Fc Hr Hc Bo Bi Eo Ei. unfold sdf_byte64. cbv zeta. pose proof (f_int 255 ltac:(lia)) as F255. pose proof (f_int 0 ltac:(lia)) as F0. pose proof uu_pos as U0.
  assert (U1 : 34359738368 * uu <= 39 / 10000000) by (unfold uu; lra). assert (U2 : 8796093022208 * uu <= 98 / 100000) by (unfold uu; lra). assert (U3 : 17179869184 * uu <= 20 / 10000000) by (unfold uu; lra).
  pose proof (fsub_f _ _ _ _ Fo Fi ltac:(apply big, ab; lra)) as F1. pose proof (re 34 17179869184 ltac:(lia) ltac:(lia) eq_refl (ro - ri) ltac:(apply ab; lra)) as E1. apply ab in E1. set (d := rnd (ro - ri)) in *.
  assert (BD : Rabs d <= 10000000002) by (apply ab; lra). pose proof (div_big d r _ Hr BD) as BQ.
  pose proof (fdiv_f _ _ _ _ F1 Fr ltac:(lra) ltac:(apply big; lra)) as F2. pose proof (re 34 17179869184 ltac:(lia) ltac:(lia) eq_refl (d / r) ltac:(lra)) as E2. apply ab in E2. apply ab in BQ. set (q := rnd (d / r)) in *. apply ab in Hc.
  pose proof (fadd_f _ _ _ _ F2 Fc ltac:(apply big, ab; lra)) as F3. pose proof (re 34 17179869184 ltac:(lia) ltac:(lia) eq_refl (q + c) ltac:(apply ab; lra)) as E3. apply ab in E3. set (p := rnd (q + c)) in *.
  pose proof (fmul_f _ _ _ _ F255 F3 ltac:(apply big, ab; lra)) as F4. pose proof (re 43 8796093022208 ltac:(lia) ltac:(lia) eq_refl (255 * p) ltac:(apply ab; lra)) as E4. apply ab in E4. set (g := rnd (255 * p)) in *.
  pose proof (fsub_f _ _ _ _ F255 F4 ltac:(apply big, ab; lra)) as F5. pose proof (re 43 8796093022208 ltac:(lia) ltac:(lia) eq_refl (255 - g) ltac:(apply ab; lra)) as E5. apply ab in E5. set (u := rnd (255 - g)) in *.
  assert (EQ : Rabs (d / r - (so - si) / r) <= 2 * e + 20 / 10000000). { replace (d / r - (so - si) / r) with ((d - (so - si)) / r) by (field; lra). apply div_big; [exact Hr|]. apply ab in Eo. apply ab in Ei. apply ab. lra. }
  apply ab in EQ. set (z := (so - si) / r) in *. assert (V : Rabs (u - (255 - 255 * (z + c))) <= 510 * e + / 200) by (apply ab; lra).
  destruct (nearbyint_f _ _ F5) as (k & Fk & Ek). pose proof (fmin_f _ _ _ _ F255 Fk) as Fm. pose proof (fmax_f _ _ _ _ F0 Fm) as FM. set (b := fmax _ _) in *. set (v := 255 - 255 * (z + c)) in *.
  assert (KB : Rmax 0 (Rmin 255 (IZR k)) = IZR (Z.max 0 (Z.min 255 k))).
  { unfold Rmax, Rmin. destruct (Rle_dec 255 (IZR k)) as [A|A].
    - apply le_IZR in A. destruct (Rle_dec 0 255); [|lra]. f_equal. lia.
    - assert (IZR k < 255) as A' by lra. apply lt_IZR in A'. destruct (Rle_dec 0 (IZR k)) as [B|B]; f_equal; [apply le_IZR in B; lia|]. assert (IZR k < 0) as B' by lra. apply lt_IZR in B'. lia. }
  rewrite KB in FM. rewrite (fbyte_f _ _ FM) by (apply (IZR_le 0); lia). rewrite Zfloor_IZR, Z.mod_small by lia. split; [lia|]. rewrite <- KB.
  apply ab in V. apply ab in Ek. clear - V Ek. apply ab. unfold Rmax, Rmin. destruct (Rle_dec 255 (IZR k)), (Rle_dec 255 v); repeat (destruct (Rle_dec 0 _)); lra.
Qed.
(** CalcSDF in floats: the field of C61, within a rounding of its real value.  [1 / 2] is the rounding to a byte, the rest the
    error of the floats: a sixteenth when one of the two distances is the mark 1e10, a fortieth otherwise. *)
Theorem C117_sdf : forall w h alphas radius cutoff,
  (2 <= w <= 1024)%nat -> (2 <= h <= 1024)%nat -> length alphas = (w * h)%nat -> (forall a, In a alphas -> (0 <= a <= 65535)%Z) ->
  is_finite radius = true -> 1 <= B2R radius -> is_finite cutoff = true -> Rabs (B2R cutoff) <= 1000 ->
  exists bs, CalcSDF64 w h alphas radius cutoff = Ok bs /\ length bs = (w * h)%nat /\
    forall x y, (x < w)%nat -> (y < h)%nat -> exists mo mi,
      is_min2 w h (fun x' y' => sq x x' + sq y y' + outer_cost (nth (y' * w + x') alphas 0%Z)) mo /\
      is_min2 w h (fun x' y' => sq x x' + sq y y' + inner_cost (nth (y' * w + x') alphas 0%Z)) mi /\
      let v := 255 - 255 * ((sqrt mo - sqrt mi) / B2R radius + B2R cutoff) in let b := nth (y * w + x) bs 0%Z in
      (0 <= b <= 255)%Z /\ Rabs (IZR b - Rmax 0 (Rmin 255 v)) <= 1 / 2 + / 16 /\
      (mo < 10 ^ 20 -> mi < 10 ^ 20 -> Rabs (IZR b - Rmax 0 (Rmin 255 v)) <= 1 / 2 + / 40).
Proof.
  intros w h al radius cutoff Hw Hh Hl Ha Fr Br Fc Bc. set (N := Nat.max w h). assert (HN : (N < w * h)%nat) by (unfold N; nia). unfold CalcSDF64.
  set (s0 := mkScr64 _ _ _ _). assert (S0 : scr64_ok N s0) by (unfold scr64_ok, s0; cbn [s6F s6D s6V s6Z]; rewrite !repeat_length; lia).
  assert (IN : forall i, (i < w * h)%nat -> (0 <= nth i al 0 <= 65535)%Z) by (intros; apply Ha; apply nth_In; lia).
  destruct (dist_near (map (fun a => fst (outer_inner64 a)) al) (fun i => outer_cost (nth i al 0%Z)) w h s0 ltac:(lia) ltac:(lia)) as (do & s1 & E1 & L1 & S1 & M1); [rewrite map_length; auto| |exact S0|].
  { intros i Hi. rewrite nth_map_lt with (da := 0%Z) by lia. apply costs64. auto. }
  cbv zeta. rewrite E1. cbn [bind].
  destruct (dist_near (map (fun a => snd (outer_inner64 a)) al) (fun i => inner_cost (nth i al 0%Z)) w h s1 ltac:(lia) ltac:(lia)) as (di & s2 & E2 & L2 & S2 & M2); [rewrite map_length; auto| |exact S1|].
  { intros i Hi. rewrite nth_map_lt with (da := 0%Z) by lia. apply costs64. auto. }
  rewrite E2. cbn [bind]. eexists. split; [reflexivity|]. split; [rewrite map_length, combine_length; lia|].
  intros x y Hx Hy. pose proof (cell_lt w h x y Hx Hy) as Hc. destruct (M1 x y Hx Hy) as (mo & ro & Mo & Fo & Bo & Eo & Eo'). destruct (M2 x y Hx Hy) as (mi & ri & Mi & Fi & Bi & Ei & Ei'). exists mo, mi. split; [exact Mo|]. split; [exact Mi|].
  set (v := 255 - 255 * ((sqrt mo - sqrt mi) / B2R radius + B2R cutoff)). set (b := nth (y * w + x) _ 0%Z). assert (B : b = sdf_byte64 (nth (y * w + x) do (fint 0)) (nth (y * w + x) di (fint 0)) radius cutoff).
  { unfold b. rewrite nth_map_lt with (da := (fint 0, fint 0)) by (rewrite combine_length; lia). rewrite combine_nth by lia. reflexivity. }
  pose proof (fun e A1 A2 => byte64_near _ _ _ _ _ _ _ _ (sqrt mo) (sqrt mi) e Fo Fi (conj Fr eq_refl) (conj Fc eq_refl) Br Bc Bo Bi A1 A2) as K. rewrite <- B in K. fold v in K.
  destruct (K _ Eo Ei) as [K1 K2]. split; [exact K1|]. split; [eapply Rle_trans; [exact K2|lra]|]. intros H1 H2. rewrite <- I20 in H1, H2. destruct (K _ (Eo' H1) (Ei' H2)) as [_ K3]. eapply Rle_trans; [exact K3|lra].
Qed.
Print Assumptions C117_sdf.

(** Images of opaque and clear pixels, with the constants of SDFBuilder.Glyph (line 138) *)
Theorem C117_bilevel_separates : forall w h alphas radius cutoff,
  (2 <= w <= 1024)%nat -> (2 <= h <= 1024)%nat -> length alphas = (w * h)%nat -> (forall a, In a alphas -> a = 0%Z \/ a = 65535%Z) ->
  is_f radius 8 -> is_f cutoff (1 / 4) ->
  exists bs, CalcSDF64 w h alphas radius cutoff = Ok bs /\ forall x y, (x < w)%nat -> (y < h)%nat ->
    (nth (y * w + x) alphas 0 = 65535 -> 223 <= nth (y * w + x) bs 0 <= 255)%Z /\
    (nth (y * w + x) alphas 0 = 0 -> 0 <= nth (y * w + x) bs 0 <= 159)%Z.
Proof.
  intros w h al radius cutoff Hw Hh Hl Ha [R1 R2] [K1 K2]. destruct (C117_sdf w h al radius cutoff Hw Hh Hl) as (bs & E & _ & F); auto; [intros a Hi; destruct (Ha a Hi); lia|lra|rewrite K2; apply ab; lra|].
  exists bs. split; [exact E|]. intros x y Hx Hy. destruct (F x y Hx Hy) as (mo & mi & Mo & Mi & CR & CR' & _). rewrite R2, K2 in CR'.
  assert (V : forall x' y', (x' < w)%nat -> (y' < h)%nat -> nth (y' * w + x') al 0%Z = 0%Z \/ nth (y' * w + x') al 0%Z = 65535%Z).
  { intros. apply Ha. apply nth_In. rewrite Hl. apply cell_lt; auto. }
  assert (Z0 : sq x x + sq y y = 0) by (unfold sq; ring).
  assert (C1 : outer_cost 65535 = 0) by reflexivity. assert (C2 : outer_cost 0 = 10 ^ 20) by reflexivity.
  assert (C3 : inner_cost 65535 = 10 ^ 20) by reflexivity. assert (C4 : inner_cost 0 = 0) by reflexivity.
  assert (POS : forall a b, 0 <= sq a b) by (intros; unfold sq; apply pow2_ge_0).
  apply Rabs_le_inv in CR'. set (b := nth (y * w + x) bs 0%Z) in *. split; intros A; [split; [|lia]|split; [lia|]].
  - assert (mo <= 0). { destruct Mo as (M & _). specialize (M x y Hx Hy). rewrite A, C1 in M. lra. }
    assert (1 <= mi). { destruct Mi as (_ & x' & y' & Hx' & Hy' & ->). destruct (V x' y' Hx' Hy') as [X|X]; rewrite X; [rewrite C4|rewrite C3].
      - pose proof (sq_apart x y x' y'). enough (1 <= sq x x' + sq y y') by lra. apply H0. intros EE. injection EE as <- <-. rewrite A in X. discriminate.
      - pose proof (POS x x'). pose proof (POS y y'). lra. }
    rewrite (sqrt_neg_0 mo) in CR' by auto. assert (1 <= sqrt mi) by (rewrite <- sqrt_1; apply sqrt_le_1_alt; auto).
    assert (222 + 1 / 2 < IZR b). { unfold Rmax, Rmin in CR'. destruct (Rle_dec 255 _), (Rle_dec 0 _); lra. }
    assert (222 < b)%Z by (apply lt_IZR; lra). lia.
  - assert (mi <= 0). { destruct Mi as (M & _). specialize (M x y Hx Hy). rewrite A, C4 in M. lra. }
    assert (1 <= mo). { destruct Mo as (_ & x' & y' & Hx' & Hy' & ->). destruct (V x' y' Hx' Hy') as [X|X]; rewrite X; [rewrite C2|rewrite C1].
      - pose proof (POS x x'). pose proof (POS y y'). lra.
      - pose proof (sq_apart x y x' y'). enough (1 <= sq x x' + sq y y') by lra. apply H0. intros EE. injection EE as <- <-. rewrite A in X. discriminate. }
    rewrite (sqrt_neg_0 mi) in CR' by auto. assert (1 <= sqrt mo) by (rewrite <- sqrt_1; apply sqrt_le_1_alt; auto).
    assert (IZR b < 160). { unfold Rmax, Rmin in CR'. destruct (Rle_dec 255 _), (Rle_dec 0 _); lra. }
    assert (b < 160)%Z by (apply lt_IZR; auto). lia.
Qed.
Print Assumptions C117_bilevel_separates.

(** Thin images have buffers one element short *)
Theorem C117_thin_refuted : ~ (forall w h alphas, (1 <= w)%nat -> (1 <= h)%nat -> length alphas = (w * h)%nat -> (forall a, In a alphas -> (0 <= a <= 65535)%Z) ->
  exists bs, CalcSDF64 w h alphas (fint 8) (fdiv (fint 1) (fint 4)) = Ok bs).
Proof.
  intros H. destruct (H 1%nat 3%nat [0; 0; 0]%Z ltac:(lia) ltac:(lia) eq_refl) as (bs & E); [intros a [<-|[<-|[<-|[]]]]; lia|].
  assert (P : CalcSDF64 1 3 [0; 0; 0]%Z (fint 8) (fdiv (fint 1) (fint 4)) = Panic) by (vm_compute; reflexivity). rewrite P in E. discriminate.
Qed.
Print Assumptions C117_thin_refuted.

Example C117_nonvacuous :
  CalcSDF64 2 2 [65535; 0; 0; 0]%Z (fint 8) (fdiv (fint 1) (fint 4)) = Ok [223; 159; 159; 146]%Z /\
  CalcSDF64 3 2 [65535; 40000; 100; 0; 32768; 65535]%Z (fint 8) (fdiv (fint 1) (fint 4)) = Ok [223; 195; 175; 159; 191; 223]%Z /\
  is_f (fint 8) 8 /\ is_f (fdiv (fint 1) (fint 4)) (1 / 4).
Proof.
  split; [vm_compute; reflexivity|]. split; [vm_compute; reflexivity|]. split; [apply f_int; lia|].
  pose proof (fdiv_f _ _ _ _ (f_int 1 ltac:(lia)) (f_int 4 ltac:(lia)) ltac:(lra) ltac:(apply big, ab; lra)) as F.
  rewrite rnd_id in F; [exact F|]. replace (1 / 4) with (bpow radix2 (-2)); [apply generic_format_bpow; vm_compute; discriminate|]. cbn. lra.
Qed.
