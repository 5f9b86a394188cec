(** mvt/simplify.go in binary64: the error of GetSqSegDist. *)
From Coq Require Import ZArith Reals Lia Lra Bool List.
From Flocq Require Import Core BinarySingleNaN Plus_error Relative.
From Verif Require Import GoBase Num TileF64_Model TileF64_Proofs F64 ColorF64_Proofs Clip64_Proofs Simplify_Model.
Import ListNotations.
Open Scope R_scope.
#[local] Existing Instance vexp.

(** ** Operations on values up to 2^1000 *)
Lemma wide_lt x : Rabs x <= bpow radix2 1000 -> Rlt_bool (Rabs x) (bpow radix2 1024) = true.
Proof. intros H. apply Rlt_bool_true. eapply Rle_lt_trans; [exact H|]. apply bpow_lt. lia. Qed.
Lemma fadd_w x y a b : is_f x a -> is_f y b -> Rabs (a + b) <= bpow radix2 1000 -> is_f (fadd x y) (rnd (a + b)).
Proof.
  intros [Fx <-] [Fy <-] H. pose proof (Bplus_correct 53 1024 _ _ mode_NE x y Fx Fy) as K. rewrite fexp_eq in K. cbn [round_mode] in K.
  rewrite wide_lt in K by (apply rnd_abs; [lia|auto]). destruct K as (K1 & K2 & _). split; auto.
Qed.
Lemma fsub_w x y a b : is_f x a -> is_f y b -> Rabs (a - b) <= bpow radix2 1000 -> is_f (fsub x y) (rnd (a - b)).
Proof.
  intros [Fx <-] [Fy <-] H. pose proof (Bminus_correct 53 1024 _ _ mode_NE x y Fx Fy) as K. rewrite fexp_eq in K. cbn [round_mode] in K.
  rewrite wide_lt in K by (apply rnd_abs; [lia|auto]). destruct K as (K1 & K2 & _). split; auto.
Qed.
Lemma fmul_w x y a b : is_f x a -> is_f y b -> Rabs (a * b) <= bpow radix2 1000 -> is_f (fmul x y) (rnd (a * b)).
Proof.
  intros [Fx <-] [Fy <-] H. pose proof (Bmult_correct 53 1024 _ _ mode_NE x y) as K. rewrite fexp_eq in K. cbn [round_mode] in K.
  rewrite wide_lt in K by (apply rnd_abs; [lia|auto]). destruct K as (K1 & K2 & _). split; auto. unfold fmul. rewrite K2, Fx, Fy. reflexivity.
Qed.
Lemma fdiv_w x y a b : is_f x a -> is_f y b -> b <> 0 -> Rabs (a / b) <= bpow radix2 1000 -> is_f (fdiv x y) (rnd (a / b)).
Proof.
  intros [Fx <-] [Fy <-] Hb H. pose proof (Bdiv_correct 53 1024 _ _ mode_NE x y Hb) as K. rewrite fexp_eq in K. cbn [round_mode] in K.
  rewrite wide_lt in K by (apply rnd_abs; [lia|auto]). destruct K as (K1 & K2 & _). split; auto. unfold fdiv. rewrite K2, Fx. reflexivity.
Qed.

(** ** Relative errors *)
Lemma add_rel x y : fmt x -> fmt y -> exists d, Rabs d <= uu /\ rnd (x + y) = (x + y) * (1 + d).
Proof.
  intros Fx Fy. destruct (sub_rel x (- y) Fx) as (d & Hd & E); [apply generic_format_opp; auto|]. exists d. split; auto.
  replace (x - - y) with (x + y) in E by ring. auto.
Qed.
Lemma fmt_rnd x : fmt (rnd x). Proof. apply generic_format_round; try apply vexp. apply valid_rnd_N. Qed.
(** a product that is zero or not below the normal range *)
Lemma mul_rel x : x = 0 \/ bpow radix2 (-1000) <= Rabs x -> exists d, Rabs d <= uu /\ rnd x = x * (1 + d).
Proof.
  intros [->|H].
  - exists 0. pose proof uu_pos. rewrite Rabs_R0. split; [lra|]. rewrite rnd_id by apply fmt_0. ring.
  - destruct (relative_error_N_FLT_ex radix2 (-1074) 53 eq_refl (fun z => negb (Z.even z)) x) as (d & Hd & E).
    { eapply Rle_trans; [apply bpow_le|exact H]. lia. }
    exists d. split; [|exact E]. eapply Rle_trans; [exact Hd|]. right. change (/ 2) with (bpow radix2 (-1)). rewrite <- bpow_plus, <- bp53. reflexivity.
Qed.
Lemma any_rel x : exists d h, Rabs d <= uu /\ Rabs h <= bpow radix2 (-1000) /\ rnd x = x * (1 + d) + h.
Proof.
  destruct (Rle_dec (bpow radix2 (-1000)) (Rabs x)) as [H|H].
  - destruct (mul_rel x (or_intror H)) as (d & Hd & E). exists d, 0. rewrite Rabs_R0. split; auto. split; [apply bpow_ge_0|]. rewrite E. ring.
  - exists 0, (rnd x - x). rewrite Rabs_R0. pose proof uu_pos. split; [lra|]. split; [|ring].
    eapply Rle_trans; [apply (rnd_err (-1000)); [lia|lra]|]. apply bpow_le. lia.
Qed.

(** coordinates that are zero or not tiny are multiples of 2^-453 *)
Definition coarse (c : R) : Prop := c = 0 \/ bpow radix2 (-400) <= Rabs c.
Definition g453 (c : R) : Prop := exists n : Z, c = IZR n * bpow radix2 (-453).
Lemma coarse_grid c : fmt c -> coarse c -> g453 c.
Proof.
  intros F [->|H]; [exists 0%Z; ring|].
  assert (C : (-453 <= cexp radix2 (FLT_exp (-1074) 53) c)%Z).
  { unfold cexp, FLT_exp. assert (-400 < mag radix2 c)%Z by (apply mag_gt_bpow; auto). lia. }
  set (e := cexp radix2 (FLT_exp (-1074) 53) c) in *. unfold generic_format in F. fold e in F.
  set (m := Ztrunc (scaled_mantissa radix2 (FLT_exp (-1074) 53) c)) in *.
  exists (m * 2 ^ (e + 453))%Z. rewrite F at 1. unfold F2R. cbn [Fnum Fexp]. rewrite mult_IZR. change 2%Z with (radix_val radix2). rewrite (IZR_Zpower radix2) by lia. rewrite Rmult_assoc, <- bpow_plus. do 2 f_equal. lia.
Qed.
Lemma grid_sub a b : g453 a -> g453 b -> g453 (a - b).
Proof. intros [n ->] [m ->]. exists (n - m)%Z. rewrite minus_IZR. ring. Qed.
Lemma grid_low a : g453 a -> a = 0 \/ bpow radix2 (-453) <= Rabs a.
Proof.
  intros [n ->]. destruct (Z.eq_dec n 0) as [->|Hn]; [left; ring|right]. rewrite Rabs_mult, (Rabs_right (bpow _ _)) by (apply Rle_ge, bpow_ge_0).
  rewrite <- abs_IZR. assert (1 <= IZR (Z.abs n)) by (apply (IZR_le 1); lia). pose proof (bpow_gt_0 radix2 (-453)). nra.
Qed.
Lemma rnd_low a : a = 0 \/ bpow radix2 (-453) <= Rabs a -> rnd a = 0 \/ bpow radix2 (-453) <= Rabs (rnd a).
Proof.
  intros [->|H]; [left; apply rnd_id, fmt_0|right]. apply abs_round_ge_generic; auto; try apply vexp; try apply valid_rnd_N. apply generic_format_bpow. unfold FLT_exp. lia.
Qed.
Lemma prod_low a b : (a = 0 \/ bpow radix2 (-453) <= Rabs a) -> (b = 0 \/ bpow radix2 (-453) <= Rabs b) -> a * b = 0 \/ bpow radix2 (-1000) <= Rabs (a * b).
Proof.
  intros [->|Ha] [->|Hb]; try (left; ring). right. rewrite Rabs_mult. apply Rle_trans with (bpow radix2 (-453) * bpow radix2 (-453)).
  - rewrite <- bpow_plus. apply bpow_le. lia.
  - pose proof (bpow_gt_0 radix2 (-453)). apply Rmult_le_compat; lra.
Qed.

(** product of two rounded differences *)
Lemma prod_rel a b : g453 a -> g453 b -> (exists x y, fmt x /\ fmt y /\ a = x - y) -> (exists x y, fmt x /\ fmt y /\ b = x - y) ->
  exists d, Rabs d <= 31 / 10 * uu /\ rnd (rnd a * rnd b) = a * b * (1 + d).
Proof.
  intros Ga Gb (x & y & Fx & Fy & Ea) (z & w & Fz & Fw & Eb).
  destruct (sub_rel x y Fx Fy) as (d1 & H1 & E1). destruct (sub_rel z w Fz Fw) as (d2 & H2 & E2). rewrite <- Ea in E1. rewrite <- Eb in E2.
  destruct (mul_rel (rnd a * rnd b)) as (d3 & H3 & E3). { apply prod_low; apply rnd_low, grid_low; auto. }
  exists ((1 + d1) * (1 + d2) * (1 + d3) - 1). rewrite E3, E1, E2. split; [|ring].
  apply ab in H1, H2, H3. pose proof uu_pos. assert (uu <= / 1000000000) by (unfold uu; lra). clear - H1 H2 H3 H H0.
  apply ab. set (u := uu) in *. clearbody u.
  assert (- (201 / 100 * u) <= (1 + d1) * (1 + d2) - 1 <= 201 / 100 * u).
  { replace ((1 + d1) * (1 + d2) - 1) with (d1 + d2 + d1 * d2) by ring. assert (- (u * u) <= d1 * d2 <= u * u) by nra. assert (u * u <= u * / 1000000000) by nra. lra. }
  set (q := (1 + d1) * (1 + d2) - 1) in *. replace ((1 + d1) * (1 + d2) * (1 + d3) - 1) with (q + d3 + q * d3) by (unfold q; ring). clearbody q.
  assert (- (3 * u * u) <= q * d3 <= 3 * u * u) by nra. assert (u * u <= u * / 1000000000) by nra. lra.
Qed.

(** ** The parameter of the foot point *)
Lemma t_err wx wy dx dy num den e h : let D := dx * dx + dy * dy in let S := Rabs (wx * dx) + Rabs (wy * dy) in 0 < D ->
  Rabs (num - (wx * dx + wy * dy)) <= 42 / 10 * uu * S -> Rabs (den - D) <= 42 / 10 * uu * D -> Rabs e <= uu ->
  Rabs (num / den * (1 + e) + h - (wx * dx + wy * dy) / D) <= 10 * uu * (S / D) + Rabs h.
Proof.
  intros D S HD Hn Hd He. assert (U : uu <= / 1000000000) by (unfold uu; lra). pose proof uu_pos as UP.
  set (n := wx * dx + wy * dy) in *.
  assert (S0 : Rabs n <= S). { unfold n, S. apply Rabs_triang. } clearbody n S D.
  assert (SP : 0 <= S) by (pose proof (Rabs_pos n); lra). apply ab in Hn, Hd, He, S0.
  assert (DP : D * (1 - / 100000000) <= den) by nra.
  assert (X : num / den * (1 + e) + h - n / D = ((num - n) * (1 + e) + n * e + n * ((D - den) / D)) / den + h) by (field; nra).
  rewrite X. eapply Rle_trans; [apply Rabs_triang|]. apply Rplus_le_compat_r. unfold Rdiv at 1. rewrite Rabs_mult.
  assert (DI : 0 < / den <= 101 / 100 * / D).
  { split; [apply Rinv_0_lt_compat; nra|]. apply Rmult_le_reg_r with den; [nra|]. rewrite Rinv_l by nra. apply Rmult_le_reg_r with D; auto. replace (101 / 100 * / D * den * D) with (101 / 100 * den) by (field; lra). nra. }
  rewrite (Rabs_right (/ den)) by lra.
  assert (Q : Rabs ((D - den) / D) <= 42 / 10 * uu).
  { unfold Rdiv. rewrite Rabs_mult, (Rabs_right (/ D)) by (apply Rle_ge; left; apply Rinv_0_lt_compat; auto). apply Rmult_le_reg_r with D; auto. rewrite Rmult_assoc, Rinv_l by lra. rewrite Rmult_1_r. apply ab. lra. }
  set (q := (D - den) / D) in *. clearbody q. apply ab in Q.
  assert (Y : Rabs ((num - n) * (1 + e) + n * e + n * q) <= 98 / 10 * uu * S).
  { apply ab in Hn. assert (A1 : Rabs ((num - n) * (1 + e)) <= 42 / 10 * uu * S * (1001 / 1000)).
    { rewrite Rabs_mult. apply Rmult_le_compat; try apply Rabs_pos; auto. apply ab. lra. }
    assert (A2 : Rabs (n * e) <= S * uu). { rewrite Rabs_mult. apply Rmult_le_compat; try apply Rabs_pos; apply ab; lra. }
    assert (A3 : Rabs (n * q) <= S * (42 / 10 * uu)). { rewrite Rabs_mult. apply Rmult_le_compat; try apply Rabs_pos; apply ab; lra. }
    eapply Rle_trans; [apply Rabs_triang|]. eapply Rle_trans; [apply Rplus_le_compat_r, Rabs_triang|].
    assert (US : 0 <= uu * S) by nra. lra. }
  apply Rle_trans with (98 / 10 * uu * S * (101 / 100 * / D)).
  - apply Rmult_le_compat; try apply Rabs_pos; lra.
  - assert (ID : 0 < / D) by (apply Rinv_0_lt_compat; auto). assert (US : 0 <= uu * S) by nra. assert (Z : 0 <= uu * S * / D) by (apply Rmult_le_pos; lra).
    replace (10 * uu * (S / D)) with (10 * (uu * S * / D)) by (unfold Rdiv; ring). replace (98 / 10 * uu * S * (101 / 100 * / D)) with (9898 / 1000 * (uu * S * / D)) by (field; lra). lra.
Qed.
Lemma s_dx wx wy dx dy m : Rabs wx <= m -> Rabs wy <= m -> 0 < dx * dx + dy * dy -> 
  (Rabs (wx * dx) + Rabs (wy * dy)) / (dx * dx + dy * dy) * Rabs dx <= 3 / 2 * m /\ (Rabs (wx * dx) + Rabs (wy * dy)) / (dx * dx + dy * dy) * Rabs dy <= 3 / 2 * m.
Proof.
  intros Hx Hy HD. rewrite !Rabs_mult. replace (dx * dx) with (Rabs dx * Rabs dx) in * by (rewrite <- Rabs_mult; apply Rabs_right; nra). replace (dy * dy) with (Rabs dy * Rabs dy) in * by (rewrite <- Rabs_mult; apply Rabs_right; nra).
  pose proof (Rabs_pos wx). pose proof (Rabs_pos wy). pose proof (Rabs_pos dx). pose proof (Rabs_pos dy).
  set (a := Rabs wx) in *. set (b := Rabs wy) in *. set (c := Rabs dx) in *. set (d := Rabs dy) in *. clearbody a b c d.
  pose proof (Rle_0_sqr (c - d)) as SQ. unfold Rsqr in SQ. assert (CD : 2 * (c * d) <= c * c + d * d) by lra. assert (0 <= c * d) by nra. assert (0 <= c * c) by nra. assert (0 <= d * d) by nra.
  split; apply Rmult_le_reg_r with (c * c + d * d); auto.
  - replace ((a * c + b * d) / (c * c + d * d) * c * (c * c + d * d)) with (a * (c * c) + b * (c * d)) by (field; lra). assert (a * (c * c) <= m * (c * c)) by nra. assert (b * (c * d) <= m * (c * d)) by nra. nra.
  - replace ((a * c + b * d) / (c * c + d * d) * d * (c * c + d * d)) with (a * (c * d) + b * (d * d)) by (field; lra). assert (a * (c * d) <= m * (c * d)) by nra. assert (b * (d * d) <= m * (d * d)) by nra. nra.
Qed.

(** num and den are accurate *)
Lemma num_err a b c d s1 s2 s3 : Rabs s1 <= 31 / 10 * uu -> Rabs s2 <= 31 / 10 * uu -> Rabs s3 <= uu ->
  Rabs ((a * b * (1 + s1) + c * d * (1 + s2)) * (1 + s3) - (a * b + c * d)) <= 42 / 10 * uu * (Rabs (a * b) + Rabs (c * d)).
Proof.
  intros H1 H2 H3. assert (U : uu <= / 1000000000) by (unfold uu; lra). pose proof uu_pos as UP.
  set (p := a * b). set (q := c * d). clearbody p q.
  replace ((p * (1 + s1) + q * (1 + s2)) * (1 + s3) - (p + q)) with (p * ((1 + s1) * (1 + s3) - 1) + q * ((1 + s2) * (1 + s3) - 1)) by ring.
  assert (G : forall s, Rabs s <= 31 / 10 * uu -> Rabs ((1 + s) * (1 + s3) - 1) <= 42 / 10 * uu).
  { intros s Hs. clear H1 H2. replace ((1 + s) * (1 + s3) - 1) with (s + s3 + s * s3) by ring. apply ab in Hs, H3. set (u := uu) in *. clearbody u.
    assert (- (4 * u * u) <= s * s3 <= 4 * u * u) by nra. assert (u * u <= u * / 1000000000) by nra. apply ab. lra. }
  eapply Rle_trans; [apply Rabs_triang|]. rewrite !Rabs_mult. pose proof (G _ H1). pose proof (G _ H2). pose proof (Rabs_pos p). pose proof (Rabs_pos q).
  set (x := Rabs ((1 + s1) * (1 + s3) - 1)) in *. set (y := Rabs ((1 + s2) * (1 + s3) - 1)) in *. set (P := Rabs p) in *. set (Q := Rabs q) in *. clearbody x y P Q.
  assert (P * x <= P * (42 / 10 * uu)) by (apply Rmult_le_compat_l; auto). assert (Q * y <= Q * (42 / 10 * uu)) by (apply Rmult_le_compat_l; auto). lra.
Qed.

(** the parameter limited to the segment *)
Definition clip01 (t : R) : R := if Rltb 1 t then 1 else if Rltb 0 t then t else 0.
Lemma clip01_lip s t : Rabs (clip01 s - clip01 t) <= Rabs (s - t).
Proof.
  unfold clip01. destruct (Rltb_spec 1 s), (Rltb_spec 1 t), (Rltb_spec 0 s), (Rltb_spec 0 t); try lra; unfold Rabs; repeat destruct Rcase_abs; lra.
Qed.
Lemma clip01_range t : 0 <= clip01 t <= 1.
Proof. unfold clip01. destruct (Rltb_spec 1 t), (Rltb_spec 0 t); lra. Qed.

(** mvt/simplify.go:8-22: the nearest point of the segment as the code computes it *)
Definition foot {F} (N : NumOps F) (one px py x y bx by_ : F) : F * F :=
  let dx := nsub N bx x in
  let dy := nsub N by_ y in
  if negb (neqb N dx (nzero N)) || negb (neqb N dy (nzero N)) then
    let t := ndiv N (nadd N (nmul N (nsub N px x) dx) (nmul N (nsub N py y) dy)) (nadd N (nmul N dx dx) (nmul N dy dy)) in
    if nltb N one t then (bx, by_)
    else if nltb N (nzero N) t then (nadd N x (nmul N dx t), nadd N y (nmul N dy t))
    else (x, y)
  else (x, y).
Lemma foot_eq {F} (N : NumOps F) one px py x y bx by_ : GetSqSegDist N one px py x y bx by_ =
  let '(x, y) := foot N one px py x y bx by_ in nadd N (nmul N (nsub N px x) (nsub N px x)) (nmul N (nsub N py y) (nsub N py y)).
Proof. reflexivity. Qed.

Lemma foot_R px py x y bx by_ : foot RNum 1 px py x y bx by_ =
  let dx := bx - x in let dy := by_ - y in
  let t := ((px - x) * dx + (py - y) * dy) / (dx * dx + dy * dy) in
  if Reqb dx 0 && Reqb dy 0 then (x, y) else (x + dx * clip01 t, y + dy * clip01 t).
Proof.
  unfold foot, clip01. cbn [RNum nsub nadd nmul ndiv neqb nltb nzero]. cbv zeta. destruct (Reqb (bx - x) 0), (Reqb (by_ - y) 0); cbn [negb orb andb]; auto;
  (destruct (Rltb 1 _); [f_equal; ring|destruct (Rltb 0 _); [reflexivity|f_equal; ring]]).
Qed.

Section Dist.
  Variable k : Z.
  Hypothesis Hk : (-350 <= k <= 40)%Z.
  Let M := bpow radix2 k.
  Let Mp : 0 < M. Proof. apply bpow_gt_0. Qed.
  Let M2 j : bpow radix2 (k + j) = bpow radix2 j * M. Proof. rewrite bk. unfold M. ring. Qed.
  Let UM j : bpow radix2 (k + j - 53) = bpow radix2 j * (M * uu).
  Proof. rewrite <- bp53. unfold M. rewrite <- !bpow_plus. f_equal. lia. Qed.
  Let big1 : 1000000 * M <= bpow radix2 1000.
  Proof. apply Rle_trans with (bpow radix2 (k + 20)); [rewrite M2, (bp 20 1048576) by (reflexivity || lia); lra|apply bpow_le; lia]. Qed.
  Let US : uu <= / 1000000000. Proof. unfold uu. lra. Qed.
  Let UMp : 0 < M * uu <= M * / 1000000000. Proof. pose proof uu_pos. split; [nra|]. apply Rmult_le_compat_l; lra. Qed.

  (** one coordinate of an interior foot point *)
  Lemma foot_coord x d0 t (dx T : R) (fx fd ft : f64) : is_f fx x -> is_f fd d0 -> is_f ft T -> Rabs x <= M -> Rabs (x + dx) <= M -> Rabs (d0 - dx) <= 2 * (M * uu) -> Rabs d0 <= 2 * M ->
    0 <= T <= 1 -> Rabs (T - t) * Rabs dx <= 31 * (M * uu) ->
    exists r, is_f (fadd fx (fmul fd ft)) r /\ Rabs (r - (x + dx * t)) <= 40 * (M * uu).
  Proof.
    intros Fx Fd Ft Bx Bb Ed Bd HT Et.
    assert (P1 : Rabs (d0 * T) <= 2 * M). { rewrite Rabs_mult. apply Rle_trans with (2 * M * 1); [|lra]. apply Rmult_le_compat; try apply Rabs_pos; auto. apply ab. lra. }
    assert (F1 : is_f (fmul fd ft) (rnd (d0 * T))) by (apply fmul_w; auto; lra).
    pose proof (rnd_err (k + 1) (d0 * T) ltac:(lia) ltac:(rewrite M2; change (bpow radix2 1) with 2; auto)) as R1. rewrite UM in R1. change (bpow radix2 1) with 2 in R1.
    assert (X1 : Rabs (d0 * T - dx * T) <= 2 * (M * uu)).
    { replace (d0 * T - dx * T) with ((d0 - dx) * T) by ring. rewrite Rabs_mult. apply Rle_trans with (2 * (M * uu) * 1); [|lra]. apply Rmult_le_compat; try apply Rabs_pos; auto. apply ab. lra. }
    assert (X2 : Rabs (dx * T - dx * t) <= 31 * (M * uu)). { replace (dx * T - dx * t) with ((T - t) * dx) by ring. rewrite Rabs_mult. auto. }
    set (P := rnd (d0 * T)) in *. clearbody P. apply ab in R1, X1, X2, Bx, Bb.
    assert (CV : - M <= x + dx * T <= M) by (clear - HT Bx Bb; nra).
    assert (B2 : Rabs (x + P) <= 2 * M) by (apply ab; lra).
    assert (F2 : is_f (fadd fx (fmul fd ft)) (rnd (x + P))) by (apply fadd_w; auto; lra).
    pose proof (rnd_err (k + 1) (x + P) ltac:(lia) ltac:(rewrite M2; change (bpow radix2 1) with 2; auto)) as R2. rewrite UM in R2. change (bpow radix2 1) with 2 in R2. apply ab in R2.
    exists (rnd (x + P)). split; auto. apply ab. lra.
  Qed.

  Lemma foot_near px py x y bx by_ p1 p2 a1 a2 b1 b2 :
    is_f px p1 -> is_f py p2 -> is_f x a1 -> is_f y a2 -> is_f bx b1 -> is_f by_ b2 ->
    Rabs p1 <= M -> Rabs p2 <= M -> Rabs a1 <= M -> Rabs a2 <= M -> Rabs b1 <= M -> Rabs b2 <= M ->
    coarse p1 -> coarse p2 -> coarse a1 -> coarse a2 -> coarse b1 -> coarse b2 ->
    exists r1 r2, is_f (fst (foot F64Num (fint 1) px py x y bx by_)) r1 /\ is_f (snd (foot F64Num (fint 1) px py x y bx by_)) r2 /\
      Rabs (r1 - fst (foot RNum 1 p1 p2 a1 a2 b1 b2)) <= 40 * (M * uu) /\ Rabs (r2 - snd (foot RNum 1 p1 p2 a1 a2 b1 b2)) <= 40 * (M * uu) /\
      Rabs (fst (foot RNum 1 p1 p2 a1 a2 b1 b2)) <= M /\ Rabs (snd (foot RNum 1 p1 p2 a1 a2 b1 b2)) <= M.
  Proof.
    intros Fp1 Fp2 Fa1 Fa2 Fb1 Fb2 Bp1 Bp2 Ba1 Ba2 Bb1 Bb2 Cp1 Cp2 Ca1 Ca2 Cb1 Cb2.
    rewrite foot_R. cbv zeta. unfold foot. cbn [F64Num nadd nsub nmul ndiv neqb nltb nzero]. cbv zeta.
    change (@Bminus 53 1024 _ _ mode_NE) with fsub. change (@Bplus 53 1024 _ _ mode_NE) with fadd. change (@Bmult 53 1024 _ _ mode_NE) with fmul. change (@Bdiv 53 1024 _ _ mode_NE) with fdiv.
    assert (Z0 : is_f (B754_zero false) 0) by (split; reflexivity). assert (O1 : is_f (fint 1) 1) by (apply f_int; lia).
    assert (A : forall u v, Rabs u <= M -> Rabs v <= M -> Rabs (u - v) <= 2 * M). { intros u v Hu Hv. apply ab in Hu, Hv. apply ab. lra. }
    assert (SUB : forall fu fv u v, is_f fu u -> is_f fv v -> Rabs u <= M -> Rabs v <= M -> is_f (fsub fu fv) (rnd (u - v)) /\ Rabs (rnd (u - v)) <= 2 * M /\ Rabs (rnd (u - v) - (u - v)) <= 2 * (M * uu)).
    { intros fu fv u v Fu Fv Hu Hv. pose proof (A u v Hu Hv) as AA. assert (AB : Rabs (u - v) <= bpow radix2 (k + 1)) by (rewrite M2; change (bpow radix2 1) with 2; auto). split; [apply fsub_w; auto; lra|]. split.
      - pose proof (rnd_abs (k + 1) (u - v) ltac:(lia) AB) as R1. rewrite M2 in R1. change (bpow radix2 1) with 2 in R1. auto.
      - pose proof (rnd_err (k + 1) (u - v) ltac:(lia) AB) as R1. rewrite UM in R1. change (bpow radix2 1) with 2 in R1. auto. }
    destruct (SUB _ _ _ _ Fb1 Fa1 Bb1 Ba1) as (Fd1 & Bd1 & Ed1). destruct (SUB _ _ _ _ Fb2 Fa2 Bb2 Ba2) as (Fd2 & Bd2 & Ed2).
    destruct (SUB _ _ _ _ Fp1 Fa1 Bp1 Ba1) as (Fw1 & Bw1 & Ew1). destruct (SUB _ _ _ _ Fp2 Fa2 Bp2 Ba2) as (Fw2 & Bw2 & Ew2). 
    pose proof (is_f_fmt _ _ Fp1) as Gp1. pose proof (is_f_fmt _ _ Fp2) as Gp2. pose proof (is_f_fmt _ _ Fa1) as Ga1. pose proof (is_f_fmt _ _ Fa2) as Ga2. pose proof (is_f_fmt _ _ Fb1) as Gb1. pose proof (is_f_fmt _ _ Fb2) as Gb2.
    assert (Q1 : Reqb (rnd (b1 - a1)) 0 = Reqb (b1 - a1) 0).
    { pose proof (sub_zero b1 a1 Gb1 Ga1). destruct (Reqb_spec (rnd (b1 - a1)) 0), (Reqb_spec (b1 - a1) 0); auto; exfalso; [apply n; rewrite (proj1 H); auto; ring|apply n, H; lra]. }
    assert (Q2 : Reqb (rnd (b2 - a2)) 0 = Reqb (b2 - a2) 0).
    { pose proof (sub_zero b2 a2 Gb2 Ga2). destruct (Reqb_spec (rnd (b2 - a2)) 0), (Reqb_spec (b2 - a2) 0); auto; exfalso; [apply n; rewrite (proj1 H); auto; ring|apply n, H; lra]. }
    rewrite (Beqb_f _ _ _ _ Fd1 Z0), (Beqb_f _ _ _ _ Fd2 Z0), Q1, Q2. rewrite <- negb_andb.
    assert (SAME : forall u v w z, is_f u w -> is_f v z -> exists r1 r2, is_f u r1 /\ is_f v r2 /\ Rabs (r1 - w) <= 40 * (M * uu) /\ Rabs (r2 - z) <= 40 * (M * uu)).
    { intros u v w z Hu Hv. exists w, z. unfold Rminus. rewrite !Rplus_opp_r, Rabs_R0. repeat split; auto; try apply Hu; try apply Hv; lra. }
    destruct (Reqb (b1 - a1) 0 && Reqb (b2 - a2) 0) eqn:EQ; cbn [negb].
    { cbn [fst snd]. destruct (SAME _ _ _ _ Fa1 Fa2) as (r1 & r2 & S1 & S2 & S3 & S4). exists r1, r2. auto 10. }
    set (dx := b1 - a1) in *. set (dy := b2 - a2) in *. set (wx := p1 - a1) in *. set (wy := p2 - a2) in *.
    assert (GD : g453 dx) by (apply grid_sub; apply coarse_grid; auto). assert (GE : g453 dy) by (apply grid_sub; apply coarse_grid; auto).
    assert (GW : g453 wx) by (apply grid_sub; apply coarse_grid; auto). assert (GV : g453 wy) by (apply grid_sub; apply coarse_grid; auto).
    assert (SD : exists x y, fmt x /\ fmt y /\ dx = x - y) by (exists b1, a1; auto). assert (SE : exists x y, fmt x /\ fmt y /\ dy = x - y) by (exists b2, a2; auto).
    assert (SW : exists x y, fmt x /\ fmt y /\ wx = x - y) by (exists p1, a1; auto). assert (SV : exists x y, fmt x /\ fmt y /\ wy = x - y) by (exists p2, a2; auto).
    destruct (prod_rel wx dx GW GD SW SD) as (s1 & Hs1 & E1). destruct (prod_rel wy dy GV GE SV SE) as (s2 & Hs2 & E2).
    destruct (prod_rel dx dx GD GD SD SD) as (s4 & Hs4 & E4). destruct (prod_rel dy dy GE GE SE SE) as (s5 & Hs5 & E5).
    destruct (add_rel (rnd (rnd wx * rnd dx)) (rnd (rnd wy * rnd dy)) (fmt_rnd _) (fmt_rnd _)) as (s3 & Hs3 & E3).
    destruct (add_rel (rnd (rnd dx * rnd dx)) (rnd (rnd dy * rnd dy)) (fmt_rnd _) (fmt_rnd _)) as (s6 & Hs6 & E6).
    rewrite E1, E2 in E3. rewrite E4, E5 in E6.
    assert (MM : bpow radix2 (2 * k + 2) = 4 * (M * M)). { replace (2 * k + 2)%Z with (k + (k + 2))%Z by lia. rewrite bpow_plus, M2. fold M. change (bpow radix2 2) with 4. ring. }
    assert (PB : forall u v, Rabs u <= 2 * M -> Rabs v <= 2 * M -> Rabs (u * v) <= bpow radix2 (2 * k + 2)).
    { intros u v Hu Hv. rewrite MM, Rabs_mult. replace (4 * (M * M)) with (2 * M * (2 * M)) by ring. apply Rmult_le_compat; try apply Rabs_pos; auto. }
    assert (B1000 : bpow radix2 (2 * k + 3) <= bpow radix2 1000) by (apply bpow_le; lia).
    assert (B23 : bpow radix2 (2 * k + 3) = 2 * bpow radix2 (2 * k + 2)). { replace (2 * k + 3)%Z with (2 * k + 2 + 1)%Z by lia. rewrite bpow_plus. change (bpow radix2 1) with 2. ring. }
    assert (B2p : 0 < bpow radix2 (2 * k + 2)) by (apply bpow_gt_0).
    assert (MUL : forall fu fv u v, is_f fu u -> is_f fv v -> Rabs u <= 2 * M -> Rabs v <= 2 * M -> is_f (fmul fu fv) (rnd (u * v)) /\ Rabs (rnd (u * v)) <= bpow radix2 (2 * k + 2)).
    { intros fu fv u v Fu Fv Hu Hv. pose proof (PB u v Hu Hv). split; [apply fmul_w; auto; lra|]. apply rnd_abs; auto. lia. }
    assert (ADD : forall fu fv u v, is_f fu u -> is_f fv v -> Rabs u <= bpow radix2 (2 * k + 2) -> Rabs v <= bpow radix2 (2 * k + 2) -> is_f (fadd fu fv) (rnd (u + v))).
    { intros fu fv u v Fu Fv Hu Hv. apply fadd_w; auto. eapply Rle_trans; [apply Rabs_triang|]. lra. }
    destruct (MUL _ _ _ _ Fw1 Fd1 Bw1 Bd1) as (FM1 & BM1). destruct (MUL _ _ _ _ Fw2 Fd2 Bw2 Bd2) as (FM2 & BM2).
    destruct (MUL _ _ _ _ Fd1 Fd1 Bd1 Bd1) as (FM3 & BM3). destruct (MUL _ _ _ _ Fd2 Fd2 Bd2 Bd2) as (FM4 & BM4).
    pose proof (ADD _ _ _ _ FM1 FM2 BM1 BM2) as FN. pose proof (ADD _ _ _ _ FM3 FM4 BM3 BM4) as FDN. rewrite E1, E2, E3 in FN. rewrite E4, E5, E6 in FDN.
    set (num := (wx * dx * (1 + s1) + wy * dy * (1 + s2)) * (1 + s3)) in *. set (den := (dx * dx * (1 + s4) + dy * dy * (1 + s5)) * (1 + s6)) in *.
    assert (NE : Rabs (num - (wx * dx + wy * dy)) <= 42 / 10 * uu * (Rabs (wx * dx) + Rabs (wy * dy))) by (apply num_err; auto).
    assert (DE : Rabs (den - (dx * dx + dy * dy)) <= 42 / 10 * uu * (dx * dx + dy * dy)).
    { pose proof (num_err dx dx dy dy s4 s5 s6 Hs4 Hs5 Hs6) as X. rewrite (Rabs_right (dx * dx)), (Rabs_right (dy * dy)) in X by nra. exact X. }
    clearbody num den.
    assert (D0 : bpow radix2 (-906) <= dx * dx + dy * dy).
    { assert (L : forall z, g453 z -> z <> 0 -> bpow radix2 (-906) <= z * z).
      { intros z Gz Nz. destruct (grid_low z Gz) as [|L]; [contradiction|]. change (-906)%Z with (-453 + -453)%Z. rewrite bpow_plus. replace (z * z) with (Rabs z * Rabs z) by (rewrite <- Rabs_mult; apply Rabs_right; nra). pose proof (bpow_gt_0 radix2 (-453)). apply Rmult_le_compat; lra. }
      apply andb_false_iff in EQ. destruct EQ as [EQ|EQ].
      - destruct (Reqb_spec dx 0) as [|N]; [discriminate|]. pose proof (L dx GD N). assert (0 <= dy * dy) by nra. lra.
      - destruct (Reqb_spec dy 0) as [|N]; [discriminate|]. pose proof (L dy GE N). assert (0 <= dx * dx) by nra. lra. }
    assert (DP : 0 < dx * dx + dy * dy) by (eapply Rlt_le_trans; [apply (bpow_gt_0 radix2 (-906))|exact D0]).
    set (D := dx * dx + dy * dy) in *. set (S := Rabs (wx * dx) + Rabs (wy * dy)) in *.
    assert (DEN : D / 2 <= den) by (apply ab in DE; clearbody D; clear - DE DP US; pose proof uu_pos; nra).
    assert (SB : 0 <= S <= 8 * (M * M)).
    { unfold S. pose proof (Rabs_pos (wx * dx)). pose proof (Rabs_pos (wy * dy)). split; [lra|].
      assert (Rabs (wx * dx) <= 4 * (M * M)) by (rewrite <- MM; apply PB; apply A; auto). assert (Rabs (wy * dy) <= 4 * (M * M)) by (rewrite <- MM; apply PB; apply A; auto). lra. }
    assert (NB : Rabs num <= 2 * S).
    { assert (Rabs (wx * dx + wy * dy) <= S) by apply Rabs_triang. replace num with ((num - (wx * dx + wy * dy)) + (wx * dx + wy * dy)) by ring. eapply Rle_trans; [apply Rabs_triang|].
      assert (42 / 10 * uu * S <= S) by (clear - SB US; clearbody S; nra). lra. }
    assert (TB : Rabs (num / den) <= bpow radix2 1000).
    { unfold Rdiv. rewrite Rabs_mult, Rabs_inv, (Rabs_right den) by lra. apply Rle_trans with (16 * (M * M) * (2 * bpow radix2 906)).
      - apply Rmult_le_compat; try apply Rabs_pos; [left; apply Rinv_0_lt_compat; lra|lra|].
        apply Rle_trans with (/ (bpow radix2 (-906) / 2)); [apply Rinv_le; [pose proof (bpow_gt_0 radix2 (-906)); lra|lra]|]. right. change (-906)%Z with (- (906))%Z. rewrite bpow_opp. pose proof (bpow_gt_0 radix2 906). field. lra.
      - apply Rle_trans with (bpow radix2 (2 * k + 2 + 3 + 906)); [|apply bpow_le; lia]. replace (2 * k + 2 + 3 + 906)%Z with ((2 * k + 2) + (3 + 906))%Z by lia. rewrite (bpow_plus radix2 (2 * k + 2)), (bpow_plus radix2 3), MM. change (bpow radix2 3) with 8. right. ring. }
    pose proof (fdiv_w _ _ _ _ FN FDN ltac:(lra) TB) as FT.
    destruct (any_rel (num / den)) as (e & h & He & Hh & ET). 
    pose proof (t_err wx wy dx dy num den e h DP NE DE He) as TE. rewrite <- ET in TE. fold D S in TE.
    set (T := rnd (num / den)) in *. set (t := (wx * dx + wy * dy) / D) in *.
    destruct (s_dx wx wy dx dy (2 * M) (A _ _ Bp1 Ba1) (A _ _ Bp2 Ba2) DP) as [SX SY]. fold D S in SX, SY.
    assert (HH : Rabs h * (2 * M) <= / 2 * (M * uu)).
    { apply Rle_trans with (bpow radix2 (-1000) * (2 * M)); [apply Rmult_le_compat_r; lra|].
      assert (bpow radix2 (-1000) <= uu / 4). { rewrite <- bp53. apply Rle_trans with (bpow radix2 (-55)); [apply bpow_le; lia|]. right.  change (-53)%Z with (-55 + 2)%Z. rewrite bpow_plus. change (bpow radix2 2) with 4. field. }
      clear - H Mp. nra. }
    assert (CL : Rabs (clip01 T - clip01 t) <= Rabs (T - t)) by apply clip01_lip.
    assert (TX : forall d, Rabs d <= 2 * M -> S / D * Rabs d <= 3 / 2 * (2 * M) -> Rabs (clip01 T - clip01 t) * Rabs d <= 31 * (M * uu)).
    { intros d Hd HS. apply Rle_trans with ((10 * uu * (S / D) + Rabs h) * Rabs d); [apply Rmult_le_compat_r; [apply Rabs_pos|lra]|].
      replace ((10 * uu * (S / D) + Rabs h) * Rabs d) with (10 * uu * (S / D * Rabs d) + Rabs h * Rabs d) by ring.
      assert (10 * uu * (S / D * Rabs d) <= 10 * uu * (3 / 2 * (2 * M))) by (apply Rmult_le_compat_l; [pose proof uu_pos; lra|auto]).
      assert (Rabs h * Rabs d <= Rabs h * (2 * M)) by (apply Rmult_le_compat_l; [apply Rabs_pos|auto]). lra. }
    pose proof (TX dx (A _ _ Bb1 Ba1) SX) as TX1. pose proof (TX dy (A _ _ Bb2 Ba2) SY) as TX2.
    pose proof (clip01_range t) as CR. clearbody t T.
    assert (BF : forall a b, Rabs a <= M -> Rabs b <= M -> Rabs (a + (b - a) * clip01 t) <= M).
    { intros a b Ha Hb. apply ab in Ha, Hb. apply ab. clear - Ha Hb CR. nra. }
    assert (FIN : Rabs (a1 + dx * clip01 t) <= M /\ Rabs (a2 + dy * clip01 t) <= M) by (split; apply BF; auto).
    rewrite (Bltb_f _ _ _ _ O1 FT), (Bltb_f _ _ _ _ Z0 FT).
    assert (END : forall a d b, Rabs (1 - clip01 t) * Rabs d <= 31 * (M * uu) -> d = b - a -> Rabs (b - (a + d * clip01 t)) <= 40 * (M * uu)).
    { intros a d b H E. replace (b - (a + d * clip01 t)) with ((1 - clip01 t) * d) by (rewrite E; ring). rewrite Rabs_mult. lra. }
    assert (STA : forall a d, Rabs (0 - clip01 t) * Rabs d <= 31 * (M * uu) -> Rabs (a - (a + d * clip01 t)) <= 40 * (M * uu)).
    { intros a d H. replace (a - (a + d * clip01 t)) with ((0 - clip01 t) * d) by ring. rewrite Rabs_mult. lra. }
    clear TE TX CL. unfold clip01 at 1 in TX1. unfold clip01 at 1 in TX2. destruct (Rltb_spec 1 T) as [L1|L1]; cbn [fst snd].
    - exists b1, b2. split; [exact Fb1|]. split; [exact Fb2|]. split; [apply END; auto|]. split; [apply END; auto|]. exact FIN.
    - destruct (Rltb_spec 0 T) as [L0|L0]; cbn [fst snd].
      + destruct (foot_coord a1 (rnd dx) (clip01 t) dx T _ _ _ Fa1 Fd1 FT Ba1 ltac:(unfold dx; replace (a1 + (b1 - a1)) with b1 by ring; exact Bb1) Ed1 Bd1 ltac:(lra) TX1) as (r1 & R1 & R1').
        destruct (foot_coord a2 (rnd dy) (clip01 t) dy T _ _ _ Fa2 Fd2 FT Ba2 ltac:(unfold dy; replace (a2 + (b2 - a2)) with b2 by ring; exact Bb2) Ed2 Bd2 ltac:(lra) TX2) as (r2 & R2 & R2').
        exists r1, r2. auto.
      + exists a1, a2. split; [exact Fa1|]. split; [exact Fa2|]. split; [apply STA; auto|]. split; [apply STA; auto|]. exact FIN.
  Qed.

  Lemma sq_near (p q r : R) fp fr : is_f fp p -> is_f fr r -> Rabs p <= M -> Rabs q <= M -> Rabs (r - q) <= 40 * (M * uu) ->
    exists s, is_f (fmul (fsub fp fr) (fsub fp fr)) s /\ Rabs (s - (p - q) * (p - q)) <= 200 * (M * M * uu) /\ 0 <= (p - q) * (p - q) <= 4 * (M * M).
  Proof.
    intros Fp Fr Bp Bq Er.
    assert (B1 : Rabs (p - r) <= 3 * M) by (apply ab in Bp, Bq, Er; apply ab; lra).
    assert (F1 : is_f (fsub fp fr) (rnd (p - r))) by (apply fsub_w; auto; lra).
    pose proof (rnd_err (k + 2) (p - r) ltac:(lia) ltac:(rewrite M2; change (bpow radix2 2) with 4; lra)) as R1. rewrite UM in R1. change (bpow radix2 2) with 4 in R1.
    set (e := rnd (p - r)) in *. clearbody e.
    assert (DE : Rabs (e - (p - q)) <= 44 * (M * uu)) by (apply ab in R1, Er; apply ab; lra).
    assert (BQ : Rabs (p - q) <= 2 * M) by (apply ab in Bp, Bq; apply ab; lra).
    assert (BE : Rabs e <= 21 / 10 * M) by (apply ab in DE, BQ; apply ab; lra).
    assert (MMp : 0 < M * M) by nra. assert (US2 : 0 < M * M * uu <= M * M * / 1000000000) by (split; [pose proof uu_pos; nra|apply Rmult_le_compat_l; lra]).
    assert (S1 : Rabs (e * e - (p - q) * (p - q)) <= 181 * (M * M * uu)).
    { replace (e * e - (p - q) * (p - q)) with ((e - (p - q)) * (e + (p - q))) by ring. rewrite Rabs_mult. apply Rle_trans with (44 * (M * uu) * (41 / 10 * M)); [|clear - US2; lra].
      apply Rmult_le_compat; try apply Rabs_pos; auto. eapply Rle_trans; [apply Rabs_triang|]. lra. }
    assert (Q : 0 <= (p - q) * (p - q) <= 4 * (M * M)).
    { split; [apply Rle_0_sqr|]. replace ((p - q) * (p - q)) with (Rabs (p - q) * Rabs (p - q)) by (rewrite <- Rabs_mult; apply Rabs_right, Rle_ge, Rle_0_sqr). replace (4 * (M * M)) with (2 * M * (2 * M)) by ring. apply Rmult_le_compat; try apply Rabs_pos; auto. }
    assert (MM : bpow radix2 (2 * k + 3) = 8 * (M * M)). { replace (2 * k + 3)%Z with (k + (k + 3))%Z by lia. rewrite bpow_plus, M2. fold M. change (bpow radix2 3) with 8. ring. }
    assert (B2 : Rabs (e * e) <= bpow radix2 (2 * k + 3)). { rewrite MM. apply ab in S1. apply ab. lra. }
    assert (F2 : is_f (fmul (fsub fp fr) (fsub fp fr)) (rnd (e * e))). { apply fmul_w; auto. eapply Rle_trans; [exact B2|]. apply bpow_le. lia. }
    pose proof (rnd_err (2 * k + 3) (e * e) ltac:(lia) B2) as R2. replace (bpow radix2 (2 * k + 3 - 53)) with (8 * (M * M * uu)) in R2
      by (rewrite <- bp53; replace (2 * k + 3 - 53)%Z with ((2 * k + 3) + -53)%Z by lia; rewrite (bpow_plus radix2 (2 * k + 3)), MM; ring).
    exists (rnd (e * e)). split; auto. split; auto. apply ab in R2, S1. apply ab. lra.
  Qed.

  Theorem dist_near px py x y bx by_ p1 p2 a1 a2 b1 b2 :
    is_f px p1 -> is_f py p2 -> is_f x a1 -> is_f y a2 -> is_f bx b1 -> is_f by_ b2 ->
    Rabs p1 <= M -> Rabs p2 <= M -> Rabs a1 <= M -> Rabs a2 <= M -> Rabs b1 <= M -> Rabs b2 <= M ->
    coarse p1 -> coarse p2 -> coarse a1 -> coarse a2 -> coarse b1 -> coarse b2 ->
    exists r, is_f (GetSqSegDist F64Num (fint 1) px py x y bx by_) r /\ Rabs (r - GetSqSegDist RNum 1 p1 p2 a1 a2 b1 b2) <= bpow radix2 (2 * k - 44).
  Proof.
    intros Fp1 Fp2 Fa1 Fa2 Fb1 Fb2 Bp1 Bp2 Ba1 Ba2 Bb1 Bb2 Cp1 Cp2 Ca1 Ca2 Cb1 Cb2.
    destruct (foot_near px py x y bx by_ p1 p2 a1 a2 b1 b2) as (r1 & r2 & F1 & F2 & E1 & E2 & G1 & G2); auto.
    rewrite !foot_eq. destruct (foot F64Num (fint 1) px py x y bx by_) as [f1 f2], (foot RNum 1 p1 p2 a1 a2 b1 b2) as [q1 q2]. cbn [fst snd] in *.
    cbn [F64Num RNum nadd nsub nmul].
    change (@Bminus 53 1024 _ _ mode_NE) with fsub. change (@Bplus 53 1024 _ _ mode_NE) with fadd. change (@Bmult 53 1024 _ _ mode_NE) with fmul.
    destruct (sq_near p1 q1 r1 _ _ Fp1 F1 Bp1 G1 E1) as (s1 & S1 & D1 & Q1). destruct (sq_near p2 q2 r2 _ _ Fp2 F2 Bp2 G2 E2) as (s2 & S2 & D2 & Q2).
    assert (MMp : 0 < M * M) by nra. assert (US2 : 0 < M * M * uu <= M * M * / 1000000000) by (split; [pose proof uu_pos; nra|apply Rmult_le_compat_l; lra]).
    apply ab in D1, D2.
    assert (MM : bpow radix2 (2 * k + 4) = 16 * (M * M)). { replace (2 * k + 4)%Z with (k + (k + 4))%Z by lia. rewrite bpow_plus, M2. fold M. change (bpow radix2 4) with 16. ring. }
    assert (B2 : Rabs (s1 + s2) <= bpow radix2 (2 * k + 4)) by (rewrite MM; apply ab; lra).
    pose proof (rnd_err (2 * k + 4) (s1 + s2) ltac:(lia) B2) as R2. replace (bpow radix2 (2 * k + 4 - 53)) with (16 * (M * M * uu)) in R2
      by (rewrite <- bp53; replace (2 * k + 4 - 53)%Z with ((2 * k + 4) + -53)%Z by lia; rewrite (bpow_plus radix2 (2 * k + 4)), MM; ring).
    exists (rnd (s1 + s2)). split.
    - apply fadd_w; auto. eapply Rle_trans; [exact B2|]. apply bpow_le. lia.
    - replace (bpow radix2 (2 * k - 44)) with (512 * (M * M * uu)).
      + apply ab in R2. apply ab. lra.
      + rewrite <- bp53. replace (2 * k - 44)%Z with ((2 * k + 4) + (5 + -53))%Z by lia. rewrite (bpow_plus radix2 (2 * k + 4)), MM, (bpow_plus radix2 5). change (bpow radix2 5) with 32. ring.
  Qed.
End Dist.
