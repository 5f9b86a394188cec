(** The distance transform in binary64: every choice is right up to a small error, and the errors add up. *)
From Coq Require Import ZArith Reals List Lia Lra Bool Arith.
From Flocq Require Import Core BinarySingleNaN.
From Verif Require Import GoBase GoArr Num TileF64_Model TileF64_Proofs F64 ColorF64_Model ColorF64_Proofs Sdf_Model Sdf_Spec SdfF64_Model.
Import ListNotations.
Open Scope R_scope.
#[local] Existing Instance vexp.

Notation N64 := 1024%nat.
Lemma big x : Rabs x <= 1000000000000000000000 -> Rabs x <= bpow radix2 100.
Proof. intros H. eapply Rle_trans; [exact H|]. rewrite (bp 100 (2 ^ 100) ltac:(lia) eq_refl). apply IZR_le. vm_compute. discriminate. Qed.
Lemma INF64_f : is_f INF64 INF.
Proof. split; [reflexivity|]. unfold INF64, B2R, F2R, INF. cbn [Fnum Fexp cond_Zopp]. rewrite (bp 14 16384 ltac:(lia) eq_refl). lra. Qed.
Lemma mINF64_f : is_f (Bopp INF64) (- INF).
Proof. destruct INF64_f as [F E]. split; [reflexivity|]. rewrite B2R_Bopp, E. reflexivity. Qed.
Lemma fmt_INF : fmt INF. Proof. exact (is_f_fmt _ _ INF64_f). Qed.
Lemma INF_eq : INF = 100000000000000000000. Proof. reflexivity. Qed.
Lemma fnat_f n : (n <= N64)%nat -> is_f (fnat n) (INR n).
Proof. intros H. unfold fnat. rewrite INR_IZR_INZ. apply f_int. lia. Qed.
Lemma INR_b n : (n < N64)%nat -> 0 <= INR n <= 1023.
Proof. intros H. split; [apply pos_INR|]. replace 1023 with (INR 1023) by (rewrite INR_IZR_INZ; reflexivity). apply le_INR. lia. Qed.
Lemma sqb t : -1023 <= t <= 1023 -> 0 <= t * t <= 1046529.
Proof. intros H. split; [apply Rle_0_sqr|nra]. Qed.
Lemma rnd_nat n : (Z.of_nat n < 2 ^ 53)%Z -> rnd (INR n) = INR n.
Proof. intros H. rewrite INR_IZR_INZ. apply fi. lia. Qed.
Lemma ab67 x : Rabs x <= 147573952589676412928 -> Rabs (rnd x) <= 147573952589676412928.
Proof. intros H. pose proof (rnd_abs 67 x ltac:(lia)) as K. rewrite (bp 67 147573952589676412928 ltac:(lia) eq_refl) in K. auto. Qed.
Lemma ab66 x : Rabs x <= 73786976294838206464 -> Rabs (rnd x) <= 73786976294838206464.
Proof. intros H. pose proof (rnd_abs 66 x ltac:(lia)) as K. rewrite (bp 66 73786976294838206464 ltac:(lia) eq_refl) in K. auto. Qed.

(** Comparing a whole number with a rounded quotient *)
Lemma below n D x : 2 <= D <= 2046 -> (x < N64)%nat -> INR x <= rnd (n / D) -> D * INR x <= n + 2097152 * uu.
Proof.
  intros HD Hx H. pose proof (INR_b x Hx) as Bx. pose proof uu_pos as U0. set (y := n / D) in *. assert (E : n = D * y) by (unfold y; field; lra). clearbody y. subst n.
  destruct (Rle_or_lt (INR x) y) as [K|K]; [apply Rle_trans with (D * y); [apply Rmult_le_compat_l; lra|nra]|].
  assert (L : -1 <= y). { destruct (Rle_or_lt (-1) y) as [|Q]; [auto|]. pose proof (rnd_le_int y (-1) ltac:(lia) ltac:(lra)) as R. exfalso. lra. }
  pose proof (re1024 y ltac:(apply ab; lra)) as R. apply ab in R. apply Rle_trans with (D * (y + 1024 * uu)); [apply Rmult_le_compat_l; lra|nra].
Qed.
Lemma above n D x : 2 <= D <= 2046 -> (x < N64)%nat -> rnd (n / D) <= INR x -> n <= D * INR x + 2097152 * uu.
Proof.
  intros HD Hx H. pose proof (INR_b x Hx) as Bx. pose proof uu_pos as U0. set (y := n / D) in *. assert (E : n = D * y) by (unfold y; field; lra). clearbody y. subst n.
  destruct (Rle_or_lt y (INR x)) as [K|K]; [apply Rle_trans with (D * INR x); [apply Rmult_le_compat_l; lra|nra]|].
  assert (L : y <= 1024). { destruct (Rle_or_lt y 1024) as [|Q]; [auto|]. pose proof (rnd_ge_int y 1024 ltac:(lia) ltac:(lra)) as R. exfalso. lra. }
  pose proof (re1024 y ltac:(apply ab; lra)) as R. apply ab in R. apply Rle_trans with (D * (INR x + 1024 * uu)); [apply Rmult_le_compat_l; lra|nra].
Qed.

(** Distances are either small or, without a source, huge. *)
Definition small_v (r : R) : Prop := 0 <= r <= 2097152.
Definition huge_v (r : R) : Prop := INF <= r <= INF + 8388608.
Definition line64 (f : list f64) (n : nat) : Prop :=
  (n <= length f)%nat /\ forall p, (p < n)%nat -> is_finite (nth p f (fint 0)) = true /\ (small_v (B2R (nth p f (fint 0))) \/ huge_v (B2R (nth p f (fint 0)))).
Definition dd : R := / 536870912.
Lemma dd_pos : 0 < dd. Proof. unfold dd. lra. Qed.

Section Env.
Variable f : list f64.
Variable n : nat.
Hypothesis Hn : (n <= N64)%nat.
Hypothesis Hf : line64 f n.
Notation F p := (B2R (nth p f (fint 0))).
Definition val64 (p x : nat) : R := (INR x - INR p) * (INR x - INR p) + F p.
(** Costs above INF are all the same *)
Definition cc (p x : nat) : R := Rmin (val64 p x) INF.
Definition sv (p q : nat) : R := rnd (rnd (rnd (F q + INR q * INR q) - rnd (F p + INR p * INR p)) / (2 * INR q - 2 * INR p)).

Lemma F_f p : (p < n)%nat -> is_f (nth p f (fint 0)) (F p).
Proof. intros H. split; [apply Hf; auto|reflexivity]. Qed.
Lemma F_b p : (p < n)%nat -> 0 <= F p <= INF + 8388608.
Proof. intros H. destruct (proj2 (proj2 Hf p H)) as [K|K]; unfold small_v, huge_v in K; rewrite INF_eq in *; lra. Qed.
Lemma sq_b p : (p < n)%nat -> 0 <= INR p * INR p <= 1046529.
Proof. intros H. pose proof (INR_b p ltac:(lia)). nra. Qed.
Lemma sq_int p : (p < n)%nat -> rnd (INR p * INR p) = INR p * INR p.
Proof. intros H. rewrite <- mult_INR. apply rnd_nat. nia. Qed.
Lemma dist_int p q : (p < n)%nat -> (q < n)%nat -> rnd (INR q - INR p) = INR q - INR p /\ rnd ((INR q - INR p) * (INR q - INR p)) = (INR q - INR p) * (INR q - INR p).
Proof. intros H K. rewrite !INR_IZR_INZ, <- minus_IZR, <- mult_IZR. split; apply fi; nia. Qed.
Lemma den p q : (p < q)%nat -> (q < n)%nat -> 2 <= 2 * INR q - 2 * INR p <= 2046.
Proof. intros H K. pose proof (INR_b q ltac:(lia)). pose proof (pos_INR p). apply Nat.le_succ_l, le_INR in H. rewrite S_INR in H. lra. Qed.

(** All parts of getS are finite. *)
Lemma parts p q : (p < q)%nat -> (q < n)%nat ->
  let A := rnd (F q + INR q * INR q) in let C := rnd (F p + INR p * INR p) in
  Rabs (F q + INR q * INR q) <= 147573952589676412928 /\ Rabs (F p + INR p * INR p) <= 147573952589676412928 /\ Rabs (A - C) <= 147573952589676412928 /\ Rabs (rnd (A - C)) <= 147573952589676412928 /\
  Rabs (rnd (A - C) / (2 * INR q - 2 * INR p)) <= 73786976294838206464.
Proof.
  intros H K A C. pose proof (F_b p ltac:(lia)) as Bp. pose proof (F_b q K) as Bq. pose proof (sq_b p ltac:(lia)) as Sp. pose proof (sq_b q K) as Sq. rewrite INF_eq in *.
  assert (A1 : Rabs (F q + INR q * INR q) <= 147573952589676412928) by (apply ab; lra). assert (C1 : Rabs (F p + INR p * INR p) <= 147573952589676412928) by (apply ab; lra).
  pose proof (ab67 _ A1) as A2. pose proof (ab67 _ C1) as C2. fold A in A2. fold C in C2. pose proof (rnd_nonneg (F q + INR q * INR q) ltac:(lra)) as A3. pose proof (rnd_nonneg (F p + INR p * INR p) ltac:(lra)) as C3. fold A in A3. fold C in C3. clearbody A C. apply ab in A2, C2.
  assert (D1 : Rabs (A - C) <= 147573952589676412928) by (apply ab; lra). pose proof (ab67 _ D1) as D2. split; [auto|]. split; [auto|]. split; [auto|]. split; [auto|].
  pose proof (den p q H K) as D. set (m := rnd (A - C)) in *. clearbody m. set (d := 2 * INR q - 2 * INR p) in *. clearbody d. unfold Rdiv. rewrite Rabs_mult. replace 73786976294838206464 with (147573952589676412928 * / 2) by lra.
  apply Rmult_le_compat; [apply Rabs_pos|apply Rabs_pos|exact D2|]. rewrite Rabs_right by (apply Rle_ge, Rlt_le, Rinv_0_lt_compat; lra). apply Rinv_le_contravar; lra.
Qed.
Lemma getS_f v q k : (q < n)%nat -> (k < length v)%nat -> (nth k v 0 < q)%nat ->
  exists s, getS64 f v q k = Ok s /\ is_f s (sv (nth k v 0%nat) q).
Proof.
  intros K Hk H. unfold getS64. destruct Hf as [Lf _]. rewrite (get_ok f q (fint 0)) by lia. rewrite (get_ok v k 0%nat) by lia. cbn [bind]. rewrite (get_ok f (nth k v 0%nat) (fint 0)) by lia. cbn [bind]. eexists. split; [reflexivity|].
  set (p := nth k v 0%nat) in *. clearbody p. destruct (parts p q H K) as (P1 & P2 & P3 & P4 & P5). pose proof (F_f p ltac:(lia)) as Fp. pose proof (F_f q K) as Fq. pose proof (fnat_f p ltac:(lia)) as Np. pose proof (fnat_f q ltac:(lia)) as Nq.
  pose proof (sq_b p ltac:(lia)) as Sp. pose proof (sq_b q K) as Sq. pose proof (INR_b p ltac:(lia)) as Ip. pose proof (INR_b q ltac:(lia)) as Iq. pose proof (f_int 2 ltac:(lia)) as T. pose proof (den p q H K) as D.
  pose proof (fmul_f _ _ _ _ Np Np ltac:(apply small, ab; lra)) as Mp. rewrite sq_int in Mp by lia. pose proof (fmul_f _ _ _ _ Nq Nq ltac:(apply small, ab; lra)) as Mq. rewrite sq_int in Mq by lia.
  pose proof (fadd_f _ _ _ _ Fq Mq ltac:(apply big; lra)) as A. pose proof (fadd_f _ _ _ _ Fp Mp ltac:(apply big; lra)) as C. pose proof (fsub_f _ _ _ _ A C ltac:(apply big; lra)) as N.
  pose proof (fmul_f _ _ _ _ T Nq ltac:(apply small, ab; lra)) as Tq. pose proof (fmul_f _ _ _ _ T Np ltac:(apply small, ab; lra)) as Tp.
  assert (Dq : forall m, (m < n)%nat -> rnd (2 * INR m) = 2 * INR m) by (intros m Hm; rewrite INR_IZR_INZ, <- mult_IZR; apply fi; lia). rewrite Dq in Tq, Tp by lia.
  pose proof (fsub_f _ _ _ _ Tq Tp ltac:(apply small, ab; lra)) as E. assert (Ed : rnd (2 * INR q - 2 * INR p) = 2 * INR q - 2 * INR p) by (rewrite !INR_IZR_INZ, <- !mult_IZR, <- minus_IZR; apply fi; lia). rewrite Ed in E.
  exact (fdiv_f _ _ _ _ N E ltac:(lra) ltac:(apply big; lra)).
Qed.

(** What a separator means for the whole numbers on either side *)
Lemma sep p q x : (p < q)%nat -> (q < n)%nat -> (x < n)%nat ->
  (INR x <= sv p q -> cc p x <= cc q x + dd) /\ (sv p q <= INR x -> cc q x <= cc p x + dd).
Proof.
  intros H K Hx. pose proof (den p q H K) as D. pose proof (sq_b p ltac:(lia)) as Sp. pose proof (sq_b q K) as Sq. pose proof (INR_b x ltac:(lia)) as Ix. pose proof (INR_b p ltac:(lia)) as Ip. pose proof (INR_b q ltac:(lia)) as Iq. pose proof dd_pos as D0.
  assert (VD : val64 q x - val64 p x = (F q + INR q * INR q) - (F p + INR p * INR p) - (2 * INR q - 2 * INR p) * INR x) by (unfold val64; ring).
  assert (DX : forall r, (r < n)%nat -> 0 <= (INR x - INR r) * (INR x - INR r) <= 1046529) by (intros r Hr; pose proof (INR_b r ltac:(lia)); split; [apply Rle_0_sqr|]; nra).
  pose proof (DX p ltac:(lia)) as DP. pose proof (DX q K) as DQ. clear DX. unfold cc.
  destruct (proj2 (proj2 Hf p ltac:(lia))) as [Sm|Hg], (proj2 (proj2 Hf q K)) as [Sm'|Hg']; unfold small_v, huge_v in *.
  - assert (Vp : val64 p x <= INF) by (unfold val64; rewrite INF_eq; lra). assert (Vq : val64 q x <= INF) by (unfold val64; rewrite INF_eq; lra). rewrite !Rmin_left by auto.
    unfold sv. pose proof (re 22 4194304 ltac:(lia) ltac:(lia) eq_refl (F q + INR q * INR q) ltac:(apply ab; lra)) as E1. pose proof (re 22 4194304 ltac:(lia) ltac:(lia) eq_refl (F p + INR p * INR p) ltac:(apply ab; lra)) as E2. apply ab in E1, E2. pose proof uu_pos as U0. assert (U1 : uu * 4194304 <= / 2000000000) by (unfold uu; lra).
    pose proof (rnd_nonneg (F q + INR q * INR q) ltac:(lra)) as A0. pose proof (rnd_nonneg (F p + INR p * INR p) ltac:(lra)) as C0. set (A := rnd (F q + INR q * INR q)) in *. set (C := rnd (F p + INR p * INR p)) in *. clearbody A C.
    pose proof (re 22 4194304 ltac:(lia) ltac:(lia) eq_refl (A - C) ltac:(apply ab; lra)) as E3. apply ab in E3. set (m := rnd (A - C)) in *. clearbody m. set (d := 2 * INR q - 2 * INR p) in *. clearbody d.
    assert (DD : 3 * (4194304 * uu) + 2097152 * uu <= dd) by (unfold dd, uu; lra).
    split; intros L; [apply (below m d x D ltac:(lia)) in L|apply (above m d x D ltac:(lia)) in L]; lra.
  - assert (Vp : val64 p x <= INF) by (unfold val64; rewrite INF_eq; lra). assert (Vq : INF <= val64 q x) by (unfold val64; lra). rewrite (Rmin_left (val64 p x)) by auto. rewrite (Rmin_right (val64 q x)) by auto.
    split; [lra|]. intros L. exfalso. unfold sv in L.
    assert (A0 : INF <= rnd (F q + INR q * INR q)) by (rewrite <- (rnd_id INF fmt_INF) at 1; apply rnd_mono; lra). pose proof (rnd_le_int (F p + INR p * INR p) 4194304 ltac:(lia) ltac:(lra)) as C0. set (A := rnd (F q + INR q * INR q)) in *. set (C := rnd (F p + INR p * INR p)) in *. clearbody A C. rewrite INF_eq in A0.
    pose proof (rnd_ge_int (A - C) 4503599627370496 ltac:(lia) ltac:(lra)) as M. set (m := rnd (A - C)) in *. clearbody m. set (d := 2 * INR q - 2 * INR p) in *. clearbody d.
    assert (Y : 2048 <= m / d). { apply Rmult_le_reg_r with d; [lra|]. unfold Rdiv. rewrite Rmult_assoc, Rinv_l by lra. nra. }
    pose proof (rnd_ge_int (m / d) 2048 ltac:(lia) Y). lra.
  - assert (Vq : val64 q x <= INF) by (unfold val64; rewrite INF_eq; lra). assert (Vp : INF <= val64 p x) by (unfold val64; lra). rewrite (Rmin_left (val64 q x)) by auto. rewrite (Rmin_right (val64 p x)) by auto.
    split; [|lra]. intros L. exfalso. unfold sv in L.
    assert (C0 : INF <= rnd (F p + INR p * INR p)) by (rewrite <- (rnd_id INF fmt_INF) at 1; apply rnd_mono; lra). pose proof (rnd_le_int (F q + INR q * INR q) 4194304 ltac:(lia) ltac:(lra)) as A0. set (A := rnd (F q + INR q * INR q)) in *. set (C := rnd (F p + INR p * INR p)) in *. clearbody A C. rewrite INF_eq in C0.
    pose proof (rnd_le_int (A - C) (-4503599627370496) ltac:(lia) ltac:(lra)) as M. set (m := rnd (A - C)) in *. clearbody m. set (d := 2 * INR q - 2 * INR p) in *. clearbody d.
    assert (Y : m / d <= -2048). { apply Rmult_le_reg_r with d; [lra|]. unfold Rdiv. rewrite Rmult_assoc, Rinv_l by lra. nra. }
    pose proof (rnd_le_int (m / d) (-2048) ltac:(lia) Y). lra.
  - assert (Vp : INF <= val64 p x) by (unfold val64; lra). assert (Vq : INF <= val64 q x) by (unfold val64; lra). rewrite !Rmin_right by auto. lra.
Qed.
Lemma sv_low p q : (p < q)%nat -> (q < n)%nat -> - INF < sv p q.
Proof. intros H K. destruct (parts p q H K) as (_ & _ & _ & _ & P). apply ab66 in P. apply ab in P. unfold sv. rewrite INF_eq. lra. Qed.

(** The stack v[0..k] with separators z[0..k+1], after the parabolas below [q]: what is on top of a whole number costs at
    most [e] more than any of them. *)
Definition zv (z : list f64) (i : nat) : R := B2R (nth i z (fint 0)).
Definition segment (z : list f64) (k j x : nat) : Prop := (j <= k)%nat /\ (j = 0%nat \/ zv z j < INR x) /\ (j = k \/ INR x <= zv z (S j)).
Definition stack64 (k : nat) (v : list nat) (z : list f64) (q : nat) : Prop :=
  nth 0 z (fint 0) = Bopp INF64 /\ (forall i, (i <= k)%nat -> is_finite (nth i z (fint 0)) = true) /\ (forall i, (i < k)%nat -> zv z i < zv z (S i)) /\ (forall i, (i <= k)%nat -> (nth i v 0 < q)%nat).
Definition covers (k : nat) (v : list nat) (z : list f64) (q : nat) (e : R) : Prop :=
  forall x j p, (x < n)%nat -> segment z k j x -> (p < q)%nat -> cc (nth j v 0%nat) x <= cc p x + e.
Lemma z_mono k v z q : stack64 k v z q -> forall a b, (a <= b)%nat -> (b <= k)%nat -> zv z a <= zv z b.
Proof. intros (_ & _ & S & _) a b Hab. induction Hab as [|b Hab IH]; intros Hb; [lra|]. specialize (IH ltac:(lia)). specialize (S b ltac:(lia)). lra. Qed.

Lemma pop64_ok v z q K e : (q < n)%nat -> (n <= length v)%nat -> (n < length z)%nat -> (K < n)%nat -> 0 <= e -> stack64 K v z q -> covers K v z q e ->
  forall k, (k <= K)%nat -> (forall x p, (x < n)%nat -> (k < K)%nat -> zv z (S k) < INR x -> (p < q)%nat -> cc q x <= cc p x + (e + dd)) ->
  exists k' s, pop64 f v z q k = Ok (k', s) /\ (k' <= K)%nat /\ is_f s (sv (nth k' v 0%nat) q) /\ zv z k' < sv (nth k' v 0%nat) q /\
    (forall x p, (x < n)%nat -> (k' < K)%nat -> zv z (S k') < INR x -> (p < q)%nat -> cc q x <= cc p x + (e + dd)).
Proof.
  intros Hq Hv Hz HK He (S0 & S1 & S2 & S3) C. pose proof dd_pos as D0. induction k as [|k IH]; intros Hk G.
  - pose proof (S3 0%nat ltac:(lia)) as V0. destruct (getS_f v q 0 Hq ltac:(lia) V0) as (s & E & Fs). cbn [pop64]. rewrite E. cbn [bind]. rewrite (get_ok z 0 (fint 0)) by lia. cbn [bind]. rewrite S0, (Bleb_f _ _ _ _ Fs mINF64_f). pose proof (sv_low _ q V0 Hq) as L.
    destruct (Rleb_spec (sv (nth 0 v 0%nat) q) (- INF)); [lra|]. exists 0%nat, s. split; [auto|]. split; [auto|]. split; [auto|]. split; [unfold zv; rewrite S0, (proj2 mINF64_f); exact L|exact G].
  - pose proof (S3 (S k) Hk) as Vk. destruct (getS_f v q (S k) Hq ltac:(lia) Vk) as (s & E & Fs). cbn [pop64]. rewrite E. cbn [bind]. rewrite (get_ok z (S k) (fint 0)) by lia. cbn [bind].
    assert (Fz : is_f (nth (S k) z (fint 0)) (zv z (S k))) by (split; [apply S1; lia|reflexivity]). rewrite (Bleb_f _ _ _ _ Fs Fz). destruct (Rleb_spec (sv (nth (S k) v 0%nat) q) (zv z (S k))) as [L|L].
    + apply IH; [lia|]. intros x p Hx _ Zx Hp. destruct (Rle_or_lt (INR x) (zv z (S (S k)))) as [U|U].
      * pose proof (C x (S k) p Hx ltac:(split; [lia|split; [right; lra|right; lra]]) Hp) as C1. destruct (sep _ q x Vk Hq Hx) as [_ C2]. specialize (C2 ltac:(lra)). lra.
      * destruct (Nat.eq_dec (S k) K) as [Ek|Nk]; [|apply G; auto; lia]. pose proof (C x (S k) p Hx ltac:(split; [lia|split; [right; lra|left; auto]]) Hp) as C1. destruct (sep _ q x Vk Hq Hx) as [_ C2]. specialize (C2 ltac:(lra)). lra.
    + exists (S k), s. split; [auto|]. split; [auto|]. split; [auto|]. split; [lra|exact G].
Qed.

Definition built64 (lv lz q : nat) (st : nat * list nat * list f64) : Prop :=
  let '(k, v, z) := st in
  length v = lv /\ length z = lz /\ (k < q)%nat /\ stack64 k v z q /\ nth (S k) z (fint 0) = INF64 /\ covers k v z q (INR q * (2 * dd)).
Lemma push64_ok lv lz q st : (n <= lv)%nat -> (n < lz)%nat -> (1 <= q < n)%nat -> built64 lv lz q st -> exists st', push64 f st q = Ok st' /\ built64 lv lz (q + 1) st'.
Proof.
  intros Hv Hz Hq. destruct st as [[k v] z]. intros (L1 & L2 & Hk & HS & Ez & C). unfold push64. pose proof dd_pos as D0. assert (E0 : 0 <= INR q * (2 * dd)) by (apply Rmult_le_pos; [apply pos_INR|lra]).
  destruct (pop64_ok v z q k _ ltac:(lia) ltac:(lia) ltac:(lia) ltac:(lia) E0 HS C k (le_n k)) as (k' & s & E & H1 & Fs & H3 & G); [intros; lia|]. pose proof (z_mono k v z q HS) as ZM. destruct HS as (S0 & S1 & S2 & S3).
  rewrite E. cbn [bind]. rewrite set_at_ok by lia. cbn [bind]. rewrite set_at_ok by lia. cbn [bind]. rewrite set_at_ok by (rewrite upd_length; lia). cbn [bind].
  eexists. split; [reflexivity|]. unfold built64. rewrite !upd_length. split; [auto|]. split; [auto|]. split; [lia|].
  assert (NV : forall i, nth i (upd v (S k') q) 0%nat = if (i =? S k')%nat then q else nth i v 0%nat) by (intros; apply nth_upd; lia).
  assert (NZ : forall i, nth i (upd (upd z (S k') s) (S k' + 1) INF64) (fint 0) = if (i =? S k' + 1)%nat then INF64 else if (i =? S k')%nat then s else nth i z (fint 0)).
  { intros i. rewrite nth_upd by (rewrite upd_length; lia). destruct (i =? S k' + 1)%nat; auto. apply nth_upd. lia. }
  set (z' := upd (upd z (S k') s) (S k' + 1) INF64) in *. assert (ZV : forall i, zv z' i = if (i =? S k' + 1)%nat then INF else if (i =? S k')%nat then sv (nth k' v 0%nat) q else zv z i).
  { intros i. unfold zv. rewrite NZ. destruct (i =? S k' + 1)%nat; [apply INF64_f|]. destruct (i =? S k')%nat; [apply Fs|reflexivity]. }
  assert (ZL : forall i, (i <= k')%nat -> zv z' i = zv z i). { intros i Hi. rewrite ZV. destruct (Nat.eqb_spec i (S k' + 1)); [lia|]. destruct (Nat.eqb_spec i (S k')); [lia|reflexivity]. }
  assert (ZT : zv z' (S k') = sv (nth k' v 0%nat) q). { rewrite ZV. destruct (Nat.eqb_spec (S k') (S k' + 1)); [lia|]. rewrite Nat.eqb_refl. reflexivity. }
  split; [|split].
  - split; [rewrite NZ; destruct (Nat.eqb_spec 0 (S k' + 1)); [lia|exact S0]|]. split; [|split].
    + intros i Hi. rewrite NZ. destruct (Nat.eqb_spec i (S k' + 1)); [lia|]. destruct (Nat.eqb_spec i (S k')); [apply Fs|apply S1; lia].
    + intros i Hi. destruct (Nat.eq_dec i k') as [->|Ni]; [rewrite ZT, ZL by lia; exact H3|]. rewrite !ZL by lia. apply S2. lia.
    + intros i Hi. rewrite NV. destruct (Nat.eqb_spec i (S k')); [lia|]. specialize (S3 i ltac:(lia)). lia.
  - rewrite NZ. replace (S k' + 1)%nat with (S (S k')) by lia. rewrite Nat.eqb_refl. reflexivity.
  - intros x j p Hx (J1 & J2 & J3) Hp. replace (INR (q + 1) * (2 * dd)) with (INR q * (2 * dd) + 2 * dd) by (rewrite plus_INR; cbn [INR]; ring). set (e := INR q * (2 * dd)) in *. rewrite NV. pose proof (S3 k' H1) as Vk. destruct (sep _ q x Vk ltac:(lia) Hx) as [C1 C2].
    destruct (Nat.eqb_spec j (S k')) as [->|Nj].
    + destruct J2 as [J2|J2]; [lia|]. rewrite ZT in J2. specialize (C2 ltac:(lra)). assert (p = q \/ p < q)%nat as [->|Hp'] by lia; [lra|].
      destruct (Nat.eq_dec k' k) as [->|Nk].
      * pose proof (C x k p Hx ltac:(split; [lia|split; [right; lra|left; auto]]) Hp'). lra.
      * destruct (Rle_or_lt (INR x) (zv z (S k'))) as [U|U]; [pose proof (C x k' p Hx ltac:(split; [lia|split; [right; lra|right; auto]]) Hp'); lra|]. pose proof (G x p Hx ltac:(lia) U Hp'). lra.
    + destruct J3 as [J3|J3]; [lia|]. destruct (Nat.eq_dec j k') as [->|Njk].
      * rewrite ZT in J3. specialize (C1 J3). rewrite ZL in J2 by lia. assert (p = q \/ p < q)%nat as [->|Hp'] by lia; [lra|].
        destruct (Nat.eq_dec k' k) as [->|Nk].
        -- pose proof (C x k p Hx ltac:(split; [lia|split; [auto|left; auto]]) Hp'). lra.
        -- destruct (Rle_or_lt (INR x) (zv z (S k'))) as [U|U]; [pose proof (C x k' p Hx ltac:(split; [lia|split; [auto|right; auto]]) Hp'); lra|]. pose proof (G x p Hx ltac:(lia) U Hp'). lra.
      * rewrite ZL in J2 by lia. rewrite ZL in J3 by lia. pose proof (ZM (S j) k' ltac:(lia) H1) as M. specialize (C1 ltac:(lra)). assert (SG : segment z k j x) by (split; [lia|split; [auto|right; lra]]).
        assert (p = q \/ p < q)%nat as [->|Hp'] by lia; [|pose proof (C x j p Hx SG Hp'); lra]. pose proof (C x j (nth k' v 0%nat) Hx SG Vk). lra.
Qed.
Lemma advance64_ok k z q : (forall i, (i <= S k)%nat -> is_finite (nth i z (fint 0)) = true) -> zv z (S k) = INF -> (q < n)%nat -> (S k < length z)%nat ->
  forall fuel j, (j <= k)%nat -> (k - j < fuel)%nat -> (j = 0%nat \/ zv z j < INR q) ->
  exists j', advance64 fuel z q j = Ok j' /\ (j' <= k)%nat /\ (j' = 0%nat \/ zv z j' < INR q) /\ INR q <= zv z (S j').
Proof.
  intros Fz Ez Hq Hl. pose proof (INR_b q ltac:(lia)) as Iq. induction fuel as [|fuel IH]; intros j Hj Hfu Hlo; [lia|]. cbn [advance64]. replace (j + 1)%nat with (S j) by lia. rewrite (get_ok z (S j) (fint 0)) by lia. cbn [bind].
  assert (X : is_f (nth (S j) z (fint 0)) (zv z (S j))) by (split; [apply Fz; lia|reflexivity]). rewrite (Bltb_f _ _ _ _ X (fnat_f q ltac:(lia))). destruct (Rltb_spec (zv z (S j)) (INR q)) as [H|H].
  - assert (j <> k) by (intros ->; rewrite Ez, INF_eq in H; lra). destruct (IH (S j)) as (j' & E & H1 & H2 & H3); [lia|lia|right; auto|]. exists j'. auto.
  - exists j. split; auto. split; auto. split; auto. lra.
Qed.

Definition ee : R := / 262144.
(** Cell [q] of the result is the rounded cost of a parabola that is at most [ee] above the lowest one. *)
Definition near_low (q : nat) (x : f64) : Prop := exists p, (p < n)%nat /\ is_f x (rnd (val64 p q)) /\ forall r, (r < n)%nat -> cc p q <= cc r q + ee.
Lemma edt1d64_ok d v z : (1 <= n)%nat -> (n <= length d)%nat -> (n <= length v)%nat -> (n < length z)%nat ->
  exists d' v' z', edt1d64 f d v z n = Ok (d', v', z') /\ length d' = length d /\ length v' = length v /\ length z' = length z /\
    forall q, (q < n)%nat -> near_low q (nth q d' (fint 0)).
Proof.
  intros Hn1 Hd Hv Hz. unfold edt1d64. rewrite set_at_ok by lia. cbn [bind]. rewrite set_at_ok by lia. cbn [bind]. rewrite set_at_ok by (rewrite upd_length; lia). cbn [bind]. pose proof dd_pos as D0.
  set (v0 := upd v 0 0%nat). set (z0 := upd (upd z 0 (Bopp INF64)) 1 INF64).
  assert (Z0 : nth 0 z0 (fint 0) = Bopp INF64) by (unfold z0; rewrite nth_upd by (rewrite upd_length; lia); cbn [Nat.eqb]; rewrite nth_upd by lia; reflexivity).
  assert (B : built64 (length v) (length z) 1 (0%nat, v0, z0)).
  { unfold built64, v0. split; [apply upd_length|]. split; [unfold z0; rewrite !upd_length; reflexivity|]. split; [lia|]. split; [|split].
    - split; [exact Z0|]. split; [intros i Hi; replace i with 0%nat by lia; rewrite Z0; apply mINF64_f|]. split; [intros; lia|]. intros i Hi. replace i with 0%nat by lia. rewrite nth_upd by lia. cbn. lia.
    - unfold z0. rewrite nth_upd by (rewrite upd_length; lia). reflexivity.
    - intros x j p Hx (J1 & _) Hp. replace j with 0%nat by lia. rewrite nth_upd by lia. cbn [Nat.eqb]. replace p with 0%nat by lia. cbn [INR]. lra. }
  destruct (for_seq (built64 (length v) (length z)) (push64 f) 1 (n - 1) _ B) as (st & E & B'); [intros q st Hq Hb; apply push64_ok; auto; lia|].
  rewrite E. cbn [bind]. replace (1 + (n - 1))%nat with n in B' by lia. destruct st as [[k v1] z1]. destruct B' as (L1 & L2 & Hk & (S0 & S1 & S2 & S3) & Ez & C). cbn [bind].
  assert (FZ : forall i, (i <= S k)%nat -> is_finite (nth i z1 (fint 0)) = true) by (intros i Hi; destruct (Nat.eq_dec i (S k)) as [->|Ni]; [rewrite Ez; reflexivity|apply S1; lia]).
  assert (EZ : zv z1 (S k) = INF) by (unfold zv; rewrite Ez; apply INF64_f).
  assert (EE : INR n * (2 * dd) <= ee). { assert (INR n <= 1024) by (replace 1024 with (INR 1024) by (rewrite INR_IZR_INZ; reflexivity); apply le_INR; auto). unfold dd, ee in *. lra. }
  set (P := fun (q : nat) (st : nat * list f64) => (fst st <= k)%nat /\ length (snd st) = length d /\ (fst st = 0%nat \/ zv z1 (fst st) < INR q) /\ forall p, (p < q)%nat -> near_low p (nth p (snd st) (fint 0))).
  destruct (for_seq P (query64 f v1 z1) 0 n (0%nat, d)) as (st & E2 & B2).
  { unfold P; cbn [fst snd]; split; [lia|]. split; auto. split; auto. intros; lia. }
  { intros q [j dl] Hq (P1 & P2 & P3 & P4). cbn [fst snd] in *. unfold query64.
    destruct (advance64_ok k z1 q FZ EZ ltac:(lia) ltac:(lia) (length z1) j P1 ltac:(lia) P3) as (j' & -> & J1 & J2 & J3). cbn [bind]. pose proof (S3 j' J1) as Vj. destruct Hf as [Lf _].
    rewrite (get_ok v1 j' 0%nat) by lia. cbn [bind]. rewrite (get_ok f (nth j' v1 0%nat) (fint 0)) by lia. cbn [bind]. rewrite set_at_ok by lia. cbn [bind]. eexists. split; [reflexivity|]. unfold P. cbn [fst snd]. rewrite upd_length. split; auto. split; auto. split.
    - destruct J2 as [->|J2]; [auto|right]. rewrite plus_INR. cbn [INR]. lra.
    - intros p Hp. rewrite nth_upd by lia. destruct (Nat.eqb_spec p q) as [->|Hne]; [|apply P4; lia]. exists (nth j' v1 0%nat). split; [exact Vj|]. split.
      + set (m := nth j' v1 0%nat) in *. clearbody m. destruct (dist_int m q Vj ltac:(lia)) as [I1 I2]. pose proof (INR_b m ltac:(lia)) as Im. pose proof (INR_b q ltac:(lia)) as Iq.
        pose proof (fsub_f _ _ _ _ (fnat_f q ltac:(lia)) (fnat_f m ltac:(lia)) ltac:(apply small, ab; lra)) as D. rewrite I1 in D. assert (DB : 0 <= (INR q - INR m) * (INR q - INR m) <= 1046529) by (apply sqb; lra).
        pose proof (fmul_f _ _ _ _ D D ltac:(apply small, ab; lra)) as M. rewrite I2 in M. pose proof (F_b m Vj) as Fb. rewrite INF_eq in Fb. exact (fadd_f _ _ _ _ M (F_f m Vj) ltac:(apply big, ab; lra)).
      + intros r Hr. eapply Rle_trans; [apply (C q j' r); [lia|split; [auto|split; [auto|right; auto]]|lia]|lra]. }
  rewrite E2. cbn [bind]. destruct st as [j d']. destruct B2 as (_ & P2 & _ & P4). cbn [fst snd] in *. cbn [bind]. exists d', v1, z1. split; [reflexivity|]. auto.
Qed.
End Env.

(** ** Two dimensions *)
Definition valc (c : nat -> R) (p x : nat) : R := sq x p + c p.
Definition cap (r : R) : R := Rmin r INF.
Definition nearc (c : nat -> R) (n q : nat) (t : R) : Prop := exists p, (p < n)%nat /\ t = rnd (valc c p q) /\ forall r, (r < n)%nat -> cap (valc c p q) <= cap (valc c r q) + ee.
Definition cell (data : list f64) (i : nat) : R := B2R (nth i data (fint 0)).
Definition good_v (r : R) : Prop := small_v r \/ huge_v r.
Definition scr64_ok (N : nat) (s : scratch64) : Prop :=
  (N <= length (s6F s) /\ N <= length (s6D s) /\ N <= length (s6V s) /\ N < length (s6Z s))%nat.
Lemma val64_c f p x : val64 f p x = valc (fun r => B2R (nth r f (fint 0))) p x.
Proof. unfold val64, valc, sq. ring. Qed.

Lemma pass64_ok N at_ g n data s : scr64_ok N s -> (1 <= n <= N)%nat -> (N <= N64)%nat ->
  (forall i, (i < n)%nat -> (at_ i < length data)%nat) ->
  (forall i j, (i < n)%nat -> (j < n)%nat -> at_ i = at_ j -> i = j) ->
  (forall i, (i < n)%nat -> is_finite (nth (at_ i) data (fint 0)) = true /\ good_v (cell data (at_ i))) ->
  exists data' s', pass64 at_ g n data s = Ok (data', s') /\ scr64_ok N s' /\ length data' = length data /\
    (forall i, (i < n)%nat -> exists x t, is_f x t /\ nearc (fun p => cell data (at_ p)) n i t /\ nth (at_ i) data' (fint 0) = g x) /\
    (forall j, (forall i, (i < n)%nat -> at_ i <> j) -> nth j data' (fint 0) = nth j data (fint 0)).
Proof.
  intros (K1 & K2 & K3 & K4) Hn HN Hin Hinj Hr. unfold pass64.
  destruct (for_seq (fun q f => length f = length (s6F s) /\ forall i, (i < q)%nat -> nth i f (fint 0) = nth (at_ i) data (fint 0))
    (fun f i => let! a := get data (at_ i) in set_at f i a) 0 n (s6F s)) as (f & Ef & L & Hf).
  { split; auto. intros; lia. }
  { intros q f Hq (L & H). rewrite (get_ok data (at_ q) (fint 0)) by (apply Hin; lia). cbn [bind]. rewrite set_at_ok by lia. eexists. split; [reflexivity|].
    rewrite upd_length. split; auto. intros i Hi. rewrite nth_upd by lia. destruct (Nat.eqb_spec i q) as [->|]; auto. apply H. lia. }
  rewrite Ef. cbn [bind]. cbn [plus] in Hf.
  destruct (edt1d64_ok f n ltac:(lia)) with (d := s6D s) (v := s6V s) (z := s6Z s) as (d & v & z & E & L1 & L2 & L3 & Hd); try lia.
  { split; [lia|]. intros p Hp. rewrite Hf by auto. apply Hr. auto. }
  rewrite E. cbn [bind].
  destruct (for_seq (fun q dt => length dt = length data /\ (forall i, (i < q)%nat -> nth (at_ i) dt (fint 0) = g (nth i d (fint 0))) /\
       (forall j, (forall i, (i < q)%nat -> at_ i <> j) -> nth j dt (fint 0) = nth j data (fint 0)))
    (fun data i => let! a := get d i in set_at data (at_ i) (g a)) 0 n data) as (dt & Ed & L4 & H1 & H2).
  { split; auto. split; auto. intros; lia. }
  { intros q dt Hq (L4 & H1 & H2). rewrite (get_ok d q (fint 0)) by lia. cbn [bind]. specialize (Hin q ltac:(lia)). rewrite set_at_ok by lia. eexists. split; [reflexivity|].
    rewrite upd_length. split; auto. split.
    - intros i Hi. rewrite nth_upd by lia. destruct (Nat.eqb_spec (at_ i) (at_ q)) as [Ei|Ei]; [apply Hinj in Ei; try lia; subst; auto|]. apply H1. assert (i <> q) by congruence. lia.
    - intros j Hj. rewrite nth_upd by lia. destruct (Nat.eqb_spec j (at_ q)) as [->|Ej]; [exfalso; apply (Hj q); auto; lia|]. apply H2. intros i Hi. apply Hj. lia. }
  rewrite Ed. cbn [bind plus] in *. exists dt, (mkScr64 f d v z). split; auto. split; [split; [|split; [|split]]; cbn; lia|]. split; auto. split; [|exact H2].
  intros i Hi. destruct (Hd i Hi) as (p & Hp & P1 & P2). assert (V : forall r, (r < n)%nat -> val64 f r i = valc (fun p => cell data (at_ p)) r i) by (intros r Hr'; rewrite val64_c; unfold valc, cell; rewrite Hf by auto; reflexivity).
  exists (nth i d (fint 0)), (rnd (val64 f p i)). split; [exact P1|]. split; [|apply H1; auto]. exists p. split; [auto|]. split; [rewrite V by auto; reflexivity|]. intros r Hr'. pose proof (P2 r Hr') as P. unfold cc in P. rewrite !V in P by auto. exact P.
Qed.

(** Values after the first pass *)
Definition raw_v (r : R) : Prop := 0 <= r <= 1 \/ r = INF.
Lemma sq_bound a b : (a < N64)%nat -> (b < N64)%nat -> 0 <= sq a b <= 1046529.
Proof. intros Ha Hb. unfold sq. replace ((INR a - INR b) ^ 2) with ((INR a - INR b) * (INR a - INR b)) by ring. apply sqb. pose proof (INR_b a Ha). pose proof (INR_b b Hb). lra. Qed.
Lemma raw_good r : raw_v r -> good_v r.
Proof. unfold raw_v, good_v, small_v, huge_v. rewrite INF_eq. intros [H|H]; [left|right]; lra. Qed.
Lemma fmt_INFk k : (Z.abs (6103515625000000 + k) < 2 ^ 53)%Z -> fmt (INF + IZR k * 16384).
Proof. intros H. replace (INF + IZR k * 16384) with (IZR (6103515625000000 + k) * bpow radix2 14). - apply fmt_F2R; lia. - rewrite (bp 14 16384 ltac:(lia) eq_refl), plus_IZR, INF_eq. lra. Qed.
Lemma rnd_INF_le x k : (0 <= k <= 1000000)%Z -> x <= INF + IZR k * 16384 -> rnd x <= INF + IZR k * 16384.
Proof. intros Hk H. rewrite <- (rnd_id (INF + IZR k * 16384)) by (apply fmt_INFk; lia). apply rnd_mono, H. Qed.
Lemma rnd_INF_ge x : INF <= x -> INF <= rnd x.
Proof. intros H. rewrite <- (rnd_id INF fmt_INF) at 1. apply rnd_mono, H. Qed.
Lemma near_raw c n q t : (n <= N64)%nat -> (q < n)%nat -> (forall p, (p < n)%nat -> raw_v (c p)) -> nearc c n q t -> good_v t /\ (small_v t \/ INF <= t <= INF + 65 * 16384).
Proof.
  intros Hn Hq Hc (p & Hp & -> & _). pose proof (sq_bound q p ltac:(lia) ltac:(lia)) as S. unfold valc.
  assert (K : small_v (rnd (sq q p + c p)) \/ INF <= rnd (sq q p + c p) <= INF + 65 * 16384).
  { destruct (Hc p Hp) as [C|C].
    - left. split; [apply rnd_nonneg; lra|]. apply (rnd_le_int _ 2097152); [reflexivity|lra].
    - right. rewrite C. split; [apply rnd_INF_ge; lra|]. apply (rnd_INF_le _ 65); [lia|lra]. }
  split; [|exact K]. destruct K as [K|K]; [left; exact K|right]. unfold huge_v. lra.
Qed.

Lemma cell_inj w x y x' y' : (x < w)%nat -> (x' < w)%nat -> (y * w + x = y' * w + x')%nat -> x = x' /\ y = y'.
Proof. intros H H' E. assert (y = y') by nia. subst. lia. Qed.
Lemma cell_lt w h x y : (x < w)%nat -> (y < h)%nat -> (y * w + x < w * h)%nat.
Proof. intros. nia. Qed.

(** Both passes: [t] is the squared distance found for (x, y) *)
Definition near2 (data : list f64) (w h x y : nat) (t : R) : Prop :=
  exists c, (forall x', (x' < w)%nat -> nearc (fun p => cell data (p * w + x')) h y (c x')) /\ nearc c w x t.
Lemma edt64_ok data w h s N : length data = (w * h)%nat -> (1 <= w <= N)%nat -> (1 <= h <= N)%nat -> (N <= N64)%nat -> scr64_ok N s ->
  (forall i, (i < w * h)%nat -> is_finite (nth i data (fint 0)) = true /\ raw_v (cell data i)) ->
  exists data' s', edt64 data w h s = Ok (data', s') /\ scr64_ok N s' /\ length data' = (w * h)%nat /\
    forall x y, (x < w)%nat -> (y < h)%nat -> exists v t, is_f v t /\ near2 data w h x y t /\ nth (y * w + x) data' (fint 0) = fsqrt v.
Proof.
  intros Hl Hw Hh HN Hs Hr. unfold edt64.
  set (P := fun (x : nat) (st : list f64 * scratch64) => scr64_ok N (snd st) /\ length (fst st) = (w * h)%nat /\
    forall x' y, (x' < w)%nat -> (y < h)%nat ->
      ((x' < x)%nat -> is_finite (nth (y * w + x') (fst st) (fint 0)) = true /\ nearc (fun p => cell data (p * w + x')) h y (cell (fst st) (y * w + x'))) /\
      ((x <= x')%nat -> nth (y * w + x') (fst st) (fint 0) = nth (y * w + x') data (fint 0))).
  destruct (for_seq P (fun '(data, s) x => pass64 (fun y => y * w + x)%nat (fun a => a) h data s) 0 w (data, s)) as ((d1 & s1) & E & B1 & B2 & B3).
  { split; auto. split; auto. intros x' y Hx Hy. split; [lia|auto]. }
  { intros x [dt st] Hx (P1 & P2 & P3). cbn [fst snd] in *.
    destruct (pass64_ok N (fun y => y * w + x)%nat (fun a => a) h dt st P1 Hh HN) as (dt' & st' & -> & Q1 & Q2 & Q3 & Q4).
    - intros i Hi. rewrite P2. apply cell_lt; lia.
    - intros i j Hi Hj Eij. lazy beta in Eij. apply cell_inj in Eij as [_ ?]; auto; lia.
    - intros i Hi. lazy beta. unfold cell. destruct (P3 x i ltac:(lia) Hi) as [_ ->]; auto. destruct (Hr (i * w + x)%nat (cell_lt _ _ _ _ (ltac:(lia) : (x < w)%nat) Hi)) as [R1 R2]. split; [exact R1|apply raw_good, R2].
    - eexists. split; [reflexivity|]. unfold P. cbn [fst snd]. split; auto. split; [congruence|]. intros x' y Hx' Hy. destruct (Nat.eq_dec x' x) as [->|Hne].
      + split; [intros _|lia]. destruct (Q3 y Hy) as (u & t & Fu & (p & Hp & M1 & M2) & Eu). unfold cell at 2. rewrite Eu. split; [apply Fu|]. rewrite (proj2 Fu).
        assert (X : forall r, (r < h)%nat -> cell dt (r * w + x) = cell data (r * w + x)) by (intros r Hr'; unfold cell; destruct (P3 x r ltac:(lia) Hr') as [_ X]; rewrite X; auto). unfold valc in *. exists p. split; [auto|]. unfold valc. rewrite <- (X p Hp). split; [exact M1|]. intros r Hr'. rewrite <- (X r Hr'). apply M2, Hr'.
      + assert (X : nth (y * w + x') dt' (fint 0) = nth (y * w + x') dt (fint 0)).
        { apply Q4. intros i Hi Eij. lazy beta in Eij. apply cell_inj in Eij as [? _]; lia. }
        unfold cell at 2. rewrite X. destruct (P3 x' y Hx' Hy) as [G1 G2]. split; intros; [apply G1|apply G2]; lia. }
  rewrite E. cbn [bind plus fst snd] in *.
  assert (R1 : forall x y, (x < w)%nat -> (y < h)%nat -> is_finite (nth (y * w + x) d1 (fint 0)) = true /\ nearc (fun p => cell data (p * w + x)) h y (cell d1 (y * w + x))) by (intros; apply B3; auto).
  assert (R2 : forall x y, (x < w)%nat -> (y < h)%nat -> good_v (cell d1 (y * w + x))).
  { intros x y Hx Hy. destruct (R1 x y Hx Hy) as [_ K]. apply (near_raw _ h y _ ltac:(lia) Hy) in K; [apply K|]. intros p Hp. apply Hr, cell_lt; auto. }
  set (Q := fun (y : nat) (st : list f64 * scratch64) => scr64_ok N (snd st) /\ length (fst st) = (w * h)%nat /\
    forall x y', (x < w)%nat -> (y' < h)%nat ->
      ((y' < y)%nat -> exists v t, is_f v t /\ nearc (fun p => cell d1 (y' * w + p)) w x t /\ nth (y' * w + x) (fst st) (fint 0) = fsqrt v) /\
      ((y <= y')%nat -> nth (y' * w + x) (fst st) (fint 0) = nth (y' * w + x) d1 (fint 0))).
  destruct (for_seq Q (fun '(data, s) y => pass64 (fun x => y * w + x)%nat fsqrt w data s) 0 h (d1, s1)) as ((d2 & s2) & E2 & C1 & C2 & C3).
  { split; auto. split; auto. intros x y' Hx Hy. split; [lia|auto]. }
  { intros y [dt st] Hy (P1 & P2 & P3). cbn [fst snd] in *.
    destruct (pass64_ok N (fun x => y * w + x)%nat fsqrt w dt st P1 Hw HN) as (dt' & st' & -> & Q1 & Q2 & Q3 & Q4).
    - intros i Hi. rewrite P2. apply cell_lt; lia.
    - intros i j Hi Hj Eij. lazy beta in Eij. lia.
    - intros i Hi. lazy beta. unfold cell. destruct (P3 i y Hi ltac:(lia)) as [_ ->]; auto. split; [apply R1; lia|apply R2; lia].
    - eexists. split; [reflexivity|]. unfold Q. cbn [fst snd]. split; auto. split; [congruence|]. intros x y' Hx Hy'. destruct (Nat.eq_dec y' y) as [->|Hne].
      + split; [intros _|lia]. destruct (Q3 x Hx) as (u & t & Fu & (p & Hp & M1 & M2) & Eu). exists u, t. split; [auto|]. split; [|exact Eu].
        assert (X : forall r, (r < w)%nat -> cell dt (y * w + r) = cell d1 (y * w + r)) by (intros r Hr'; unfold cell; destruct (P3 r y Hr' ltac:(lia)) as [_ X]; rewrite X; auto). unfold valc in *. exists p. split; [auto|]. unfold valc. rewrite <- (X p Hp). split; [exact M1|]. intros r Hr'. rewrite <- (X r Hr'). apply M2, Hr'.
      + assert (X : nth (y' * w + x) dt' (fint 0) = nth (y' * w + x) dt (fint 0)).
        { apply Q4. intros i Hi Eij. lazy beta in Eij. apply cell_inj in Eij as [_ ?]; lia. }
        rewrite X. destruct (P3 x y' Hx Hy') as [G1 G2]. split; intros; [apply G1|apply G2]; lia. }
  rewrite E2. cbn [plus fst snd] in *. exists d2, s2. split; auto. split; auto. split; auto. intros x y Hx Hy.
  destruct (C3 x y Hx Hy) as [C3' _]. destruct (C3' Hy) as (v & t & Fv & Nv & Ev). exists v, t. split; [auto|]. split; [|exact Ev].
  exists (fun p => cell d1 (y * w + p)). split; [|exact Nv]. intros x' Hx'. apply R1; auto.
Qed.
