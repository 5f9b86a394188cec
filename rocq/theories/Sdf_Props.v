(** Distance transform and signed distance fields (C59-C61). *)
From Coq Require Import ZArith Reals List Lia Lra Psatz Bool Arith.
From Verif Require Import GoBase GoArr Num TileR_Model MvtProj_Model MvtProj_Proofs Sdf_Model Sdf_Spec Sdf_Proofs.
Import ListNotations.
Open Scope R_scope.

(** ** C59 *)

(** Buffers: f, d, v of length at least n, z of length at least n + 1. *)
Theorem C59_edt1d_exact : forall f d v z n,
  (1 <= n)%nat -> INR n <= 10 ^ 20 -> (n <= length f)%nat -> (n <= length d)%nat -> (n <= length v)%nat -> (n < length z)%nat ->
  (forall p, (p < n)%nat -> 0 <= nth p f 0 <= 10 ^ 20) ->
  exists d' v' z', edt1d f d v z n = Ok (d', v', z') /\ length d' = length d /\
    forall q, (q < n)%nat -> is_min n (fun p => sq q p + nth p f 0) (nth q d' 0).
Proof.
  intros f d v z n H1 H2 H3 H4 H5 H6 H7. assert (E : 10 ^ 20 = INF) by (unfold INF; lra). rewrite E in *.
  destruct (edt1d_ok f d v z n) as (d' & v' & z' & E1 & L1 & _ & _ & M); auto. { split; auto. }
  exists d', v', z'. auto.
Qed.
Print Assumptions C59_edt1d_exact.

Lemma const_panics f d v z n c : (1 <= n)%nat -> (n <= length f)%nat -> (n <= length v)%nat -> length z = n ->
  (forall p, (p < n)%nat -> nth p f 0 = c) -> edt1d f d v z n = Panic.
Proof.
  intros Hn Hf Hv Hz Hc. unfold edt1d. rewrite set_at_ok by lia. cbn [bind]. rewrite set_at_ok by lia. cbn [bind].
  destruct (Nat.eq_dec n 1) as [->|Hn1].
  - unfold set_at. rewrite upd_length. destruct (Nat.ltb_spec 1 (length z)); [lia|]. reflexivity.
  - rewrite set_at_ok by (rewrite upd_length; lia). cbn [bind].
    set (P := fun (q : nat) (st : nat * list nat * list R) => let '(k, v1, z1) := st in
      (q = k + 1 /\ length v1 = length v /\ length z1 = n)%nat /\ (nth k v1 0 = k)%nat /\ nth k z1 0 < INR k).
    assert (POP : forall q k v1 z1, P q (k, v1, z1) -> (q < n)%nat -> exists s, pop f v1 z1 q k = Ok (k, s) /\ s < INR q).
    { intros q k v1 z1 ((Ek & L1 & L2) & V & Zk) Hq. assert (Er : INR q = INR k + 1) by (rewrite Ek, plus_INR; reflexivity).
      exists (INR k + 1 / 2). split; [|rewrite Er; lra].
      assert (E : getS f v1 q k = Ok (INR k + 1 / 2)).
      { unfold getS. rewrite (get_ok f q 0) by lia. cbn [bind]. rewrite (get_ok v1 k 0%nat) by lia. cbn [bind]. rewrite V. rewrite (get_ok f k 0) by lia. cbn [bind].
        rewrite !Hc by lia. f_equal. rewrite Er. field. lra. }
      assert (Hle : forall A (a b : A), (if Rleb (INR k + 1 / 2) (nth k z1 0) then a else b) = b) by (intros; destruct (Rleb_spec (INR k + 1 / 2) (nth k z1 0)); auto; lra).
      destruct k as [|k]; cbn [pop]; rewrite E; cbn [bind]; rewrite (get_ok z1 _ 0) by lia; cbn [bind]; apply Hle. }
    replace (seq 1 (n - 1)) with (seq 1 (n - 2) ++ [(n - 1)%nat]).
    2:{ replace (n - 1)%nat with (n - 2 + 1)%nat at 2 by lia. rewrite seq_app. cbn [seq]. replace (1 + (n - 2))%nat with (n - 1)%nat by lia. reflexivity. }
    rewrite for_each_app.
    destruct (for_seq P (push_step f) 1 (n - 2) (0%nat, upd v 0 0%nat, upd (upd z 0 (- INF)) 1 INF)) as ([[k v1] z1] & E & HP).
    { unfold P. rewrite !upd_length. split; [lia|]. split; [rewrite nth_upd by lia; reflexivity|].
      rewrite nth_upd by (rewrite upd_length; lia). cbn [Nat.eqb]. rewrite nth_upd by lia. cbn [Nat.eqb INR]. unfold INF. lra. }
    { intros q [[k v1] z1] Hq HP. destruct (POP q k v1 z1 HP ltac:(lia)) as (s & E & Hs). pose proof HP as ((Ek & L1 & L2) & V & Zk).
      unfold push_step. rewrite E. cbn [bind]. rewrite set_at_ok by lia. cbn [bind]. rewrite set_at_ok by lia. cbn [bind]. rewrite set_at_ok by (rewrite upd_length; lia). cbn [bind].
      eexists. split; [reflexivity|]. unfold P. rewrite !upd_length. split; [lia|]. rewrite nth_upd by lia. rewrite Nat.eqb_refl. split; [lia|].
      rewrite nth_upd by (rewrite upd_length; lia). destruct (Nat.eqb_spec (S k) (S k + 1)); [lia|]. rewrite nth_upd by lia. rewrite Nat.eqb_refl.
      replace (S k) with q by lia. auto. }
    rewrite E. cbn [bind for_each]. replace (1 + (n - 2))%nat with (n - 1)%nat in HP by lia. destruct (POP _ _ _ _ HP ltac:(lia)) as (s & E2 & _).
    pose proof HP as ((Ek & L1 & L2) & _). unfold push_step. rewrite E2. cbn [bind]. rewrite set_at_ok by lia. cbn [bind]. rewrite set_at_ok by lia. cbn [bind].
    unfold set_at. rewrite upd_length. destruct (Nat.ltb_spec (S k + 1) (length z1)); [lia|]. reflexivity.
Qed.

(** One element less in z and a constant line panics: the bound on z is needed. *)
Theorem C59_short_buffer_panics : forall f d v z n c, (1 <= n)%nat -> (n <= length f)%nat -> (n <= length v)%nat -> length z = n ->
  (forall p, (p < n)%nat -> nth p f 0 = c) -> edt1d f d v z n = Panic.
Proof. exact const_panics. Qed.
Print Assumptions C59_short_buffer_panics.

Example C59_nonvacuous : exists d v z, edt1d [0; 5] [0; 0] [0%nat; 0%nat] [0; 0; 0] 2 = Ok (d, v, z) /\ nth 0 d 0 = 0 /\ nth 1 d 0 = 1.
Proof.
  destruct (C59_edt1d_exact [0; 5] [0; 0] [0%nat; 0%nat] [0; 0; 0] 2) as (d & v & z & E & _ & M); cbn [length]; try lia.
  - cbn [INR]. lra.
  - intros [|[|p]] Hp; cbn [nth]; try lia; lra.
  - exists d, v, z. split; auto. split.
    + destruct (M 0%nat ltac:(lia)) as (M1 & [|[|p]] & Hp & M2); try lia; cbn [nth] in *; [rewrite M2; unfold sq; ring|].
      specialize (M1 0%nat ltac:(lia)). unfold sq in *. cbn [INR nth] in *. lra.
    + destruct (M 1%nat ltac:(lia)) as (M1 & [|[|p]] & Hp & M2); try lia; cbn [nth] in *; [rewrite M2; unfold sq; cbn [INR]; ring|].
      specialize (M1 0%nat ltac:(lia)). unfold sq in *. cbn [INR nth] in *. lra.
Qed.

(** ** C60 *)
Theorem C60_edt_exact : forall data w h s,
  (1 <= w)%nat -> (1 <= h)%nat -> length data = (w * h)%nat -> INR (Nat.max w h) <= 10 ^ 20 ->
  (Nat.max w h <= length (sF s))%nat -> (Nat.max w h <= length (sD s))%nat -> (Nat.max w h <= length (sV s))%nat -> (Nat.max w h < length (sZ s))%nat ->
  (forall i, (i < w * h)%nat -> 0 <= nth i data 0 <= 10 ^ 20) ->
  exists data' s', edt data w h s = Ok (data', s') /\ length data' = (w * h)%nat /\
    forall x y, (x < w)%nat -> (y < h)%nat ->
      exists m, is_min2 w h (fun x' y' => sq x x' + sq y y' + nth (y' * w + x') data 0) m /\ nth (y * w + x) data' 0 = sqrt m.
Proof.
  intros data w h s H1 H2 H3 H4 H5 H6 H7 H8 H9. assert (E : 10 ^ 20 = INF) by (unfold INF; lra). rewrite E in *.
  destruct (edt_ok data w h s (Nat.max w h)) as (d' & s' & E1 & _ & L & M); auto; try lia. { repeat split; auto. }
  exists d', s'. auto.
Qed.
Print Assumptions C60_edt_exact.

(** The buffers CalcSDF passes have w*h elements: enough for images of at least 2 by 2 pixels. *)
Example C60_nonvacuous : forall w h, (2 <= w)%nat -> (2 <= h)%nat -> (Nat.max w h < length (repeat 0 (w * h)))%nat.
Proof. intros. rewrite repeat_length. nia. Qed.

(** ** C61 *)

(** Squared cost of a pixel of alpha a/65535: to the nearest opaque pixel, to the nearest transparent one. *)
Definition outer_cost (a : Z) : R := if (a =? 65535)%Z then 0 else if (a =? 0)%Z then 10 ^ 20 else (Rmax 0 (1 / 2 - IZR a / 65535)) ^ 2.
Definition inner_cost (a : Z) : R := if (a =? 65535)%Z then 10 ^ 20 else if (a =? 0)%Z then 0 else (Rmax 0 (IZR a / 65535 - 1 / 2)) ^ 2.
(** [b] is a nearest whole number to [v] forced into 0..255. *)
Definition clamped_round (v : R) (b : Z) : Prop := (0 <= b <= 255)%Z /\ Rabs (IZR b - Rmax 0 (Rmin 255 v)) <= 1 / 2.

Lemma costs a : (0 <= a <= 65535)%Z -> outer_inner a = (outer_cost a, inner_cost a).
Proof.
  intros H. unfold outer_inner, outer_cost, inner_cost. assert (I20 : INF = 10 ^ 20) by (unfold INF; lra).
  destruct (Z.eqb_spec a 65535) as [->|H1].
  - destruct (Reqb_spec (65535 / 65535) 1) as [_|X]; [rewrite I20; reflexivity|exfalso; apply X; field].
  - destruct (Reqb_spec (IZR a / 65535) 1) as [X|_].
    { exfalso. apply H1. apply eq_IZR. apply Rmult_eq_reg_r with (/ 65535); [|lra]. unfold Rdiv in X. rewrite X. field. }
    destruct (Z.eqb_spec a 0) as [->|H2].
    + destruct (Reqb_spec (0 / 65535) 0) as [_|X]; [rewrite I20; reflexivity|exfalso; apply X; field].
    + destruct (Reqb_spec (IZR a / 65535) 0) as [X|_]; [|reflexivity].
      exfalso. apply H2. apply eq_IZR. apply Rmult_eq_reg_r with (/ 65535); [|lra]. unfold Rdiv in X. rewrite X. ring.
Qed.
Lemma frac a : (0 <= a <= 65535)%Z -> 0 <= IZR a / 65535 <= 1.
Proof. intros [H1 H2]. apply IZR_le in H1, H2. split; [apply Rmult_le_reg_r with 65535|apply Rmult_le_reg_r with 65535]; unfold Rdiv; rewrite ?Rmult_assoc, ?Rinv_l; lra. Qed.
Lemma half_sq x : x <= 1 / 2 -> 0 <= (Rmax 0 x) ^ 2 <= 1.
Proof. intros H. unfold Rmax. destruct (Rle_dec 0 x); nra. Qed.
Lemma cost_range a : (0 <= a <= 65535)%Z -> 0 <= outer_cost a <= INF /\ 0 <= inner_cost a <= INF.
Proof.
  intros H. pose proof (frac a H). pose proof (half_sq (1 / 2 - IZR a / 65535) ltac:(lra)). pose proof (half_sq (IZR a / 65535 - 1 / 2) ltac:(lra)).
  unfold outer_cost, inner_cost, INF. destruct (a =? 65535)%Z, (a =? 0)%Z; lra.
Qed.

Lemma Rabs_le_inv x y : Rabs x <= y -> - y <= x <= y.
Proof. intros H. unfold Rabs in H. destruct (Rcase_abs x); lra. Qed.
Lemma sdf_byte_spec o i radius cutoff : clamped_round (255 - 255 * ((o - i) / radius + cutoff)) (sdf_byte o i radius cutoff).
Proof.
  unfold sdf_byte, clamped_round. set (v := 255 - 255 * ((o - i) / radius + cutoff)). pose proof (RoundHA_err v) as H. apply Rabs_le_inv in H. split; [lia|].
  apply Rabs_le. destruct (Z.le_gt_cases (RoundHA v) 0) as [H1|H1].
  - replace (Z.max 0 (Z.min 255 (RoundHA v))) with 0%Z by lia. apply IZR_le in H1. unfold Rmax, Rmin. destruct (Rle_dec 255 v), (Rle_dec 0 _); lra.
  - destruct (Z.le_gt_cases 255 (RoundHA v)) as [H2|H2].
    + replace (Z.max 0 (Z.min 255 (RoundHA v))) with 255%Z by lia. apply IZR_le in H2. unfold Rmax, Rmin. destruct (Rle_dec 255 v), (Rle_dec 0 _); lra.
    + replace (Z.max 0 (Z.min 255 (RoundHA v))) with (RoundHA v) by lia. apply IZR_lt in H1, H2. unfold Rmax, Rmin. destruct (Rle_dec 255 v), (Rle_dec 0 _); lra.
Qed.

Lemma nth_map_lt {A B} (g : A -> B) l i da db : (i < length l)%nat -> nth i (map g l) db = g (nth i l da).
Proof. revert i. induction l as [|a l IH]; intros [|i] H; cbn in *; auto; try lia. apply IH. lia. Qed.
Lemma nth_combine_lt {A B} (l : list A) (l' : list B) i da db : length l = length l' -> nth i (combine l l') (da, db) = (nth i l da, nth i l' db).
Proof. apply combine_nth. Qed.

Theorem C61_sdf_formula : forall w h alphas radius cutoff,
  (2 <= w)%nat -> (2 <= h)%nat -> length alphas = (w * h)%nat -> INR (Nat.max w h) <= 10 ^ 20 -> (forall a, In a alphas -> (0 <= a <= 65535)%Z) ->
  exists bs, CalcSDF w h alphas radius cutoff = Ok bs /\ length bs = (w * h)%nat /\
    forall x y, (x < w)%nat -> (y < h)%nat -> exists mo mi,
      is_min2 w h (fun x' y' => sq x x' + sq y y' + outer_cost (nth (y' * w + x') alphas 0%Z)) mo /\
      is_min2 w h (fun x' y' => sq x x' + sq y y' + inner_cost (nth (y' * w + x') alphas 0%Z)) mi /\
      clamped_round (255 - 255 * ((sqrt mo - sqrt mi) / radius + cutoff)) (nth (y * w + x) bs 0%Z).
Proof.
  intros w h al radius cutoff Hw Hh Hl Hm Ha. assert (E : 10 ^ 20 = INF) by (unfold INF; lra). rewrite E in Hm.
  set (N := Nat.max w h) in *. assert (HN : (N < w * h)%nat) by (unfold N; nia). unfold CalcSDF.
  set (s0 := mkScr (repeat 0 (w * h)) (repeat 0 (w * h)) (repeat 0%nat (w * h)) (repeat 0 (w * h))).
  assert (S0 : scr_ok N s0) by (unfold scr_ok, s0; cbn [sF sD sV sZ]; rewrite !repeat_length; lia).
  assert (IN : forall i, (i < w * h)%nat -> (0 <= nth i al 0 <= 65535)%Z) by (intros; apply Ha; apply nth_In; lia).
  assert (NO : forall i, (i < w * h)%nat -> nth i (map (fun a => fst (outer_inner a)) al) 0 = outer_cost (nth i al 0%Z)).
  { intros i Hi. rewrite nth_map_lt with (da := 0%Z) by lia. rewrite costs by auto. reflexivity. }
  assert (NI : forall i, (i < w * h)%nat -> nth i (map (fun a => snd (outer_inner a)) al) 0 = inner_cost (nth i al 0%Z)).
  { intros i Hi. rewrite nth_map_lt with (da := 0%Z) by lia. rewrite costs by auto. reflexivity. }
  destruct (edt_ok (map (fun a => fst (outer_inner a)) al) w h s0 N) as (do & s1 & E1 & S1 & L1 & M1); auto; try (unfold N; lia).
  { rewrite map_length; auto. } { intros i Hi. rewrite NO by auto. apply cost_range. auto. }
  rewrite E1. cbn [bind].
  destruct (edt_ok (map (fun a => snd (outer_inner a)) al) w h s1 N) as (di & s2 & E2 & S2 & L2 & M2); auto; try (unfold N; lia).
  { rewrite map_length; auto. } { intros i Hi. rewrite NI by auto. apply cost_range. auto. }
  rewrite E2. cbn [bind]. eexists. split; [reflexivity|]. split; [rewrite map_length, combine_length; lia|].
  intros x y Hx Hy. pose proof (cell_lt w h x y Hx Hy) as Hc. destruct (M1 x y Hx Hy) as (mo & Mo & Eo). destruct (M2 x y Hx Hy) as (mi & Mi & Ei). exists mo, mi.
  split; [|split].
  - destruct Mo as (A & x' & y' & B1 & B2 & B3). split; [intros p q Hp Hq; specialize (A p q Hp Hq); rewrite NO in A by (apply cell_lt; auto); exact A|].
    exists x', y'. rewrite NO in B3 by (apply cell_lt; auto). auto.
  - destruct Mi as (A & x' & y' & B1 & B2 & B3). split; [intros p q Hp Hq; specialize (A p q Hp Hq); rewrite NI in A by (apply cell_lt; auto); exact A|].
    exists x', y'. rewrite NI in B3 by (apply cell_lt; auto). auto.
  - rewrite nth_map_lt with (da := (0, 0)) by (rewrite combine_length; lia). rewrite combine_nth by lia. rewrite Eo, Ei. apply sdf_byte_spec.
Qed.
Print Assumptions C61_sdf_formula.

(** On images of fully opaque and fully transparent pixels the field separates the two, with the constants
    of SDFBuilder.Glyph (line 138). *)
Lemma sq_apart x y x' y' : (x, y) <> (x', y') -> 1 <= sq x x' + sq y y'.
Proof.
  intros H. assert (G : forall a b, a <> b -> 1 <= sq a b).
  { intros a b Hab. unfold sq. rewrite !INR_IZR_INZ, <- minus_IZR, pow_IZR. apply IZR_le. replace (Z.of_nat 2) with 2%Z by reflexivity.
    assert (Z.of_nat a - Z.of_nat b <> 0)%Z by lia. nia. }
  assert (P : forall a b, 0 <= sq a b) by (intros; unfold sq; apply pow2_ge_0).
  destruct (Nat.eq_dec x x') as [->|Hx]; [destruct (Nat.eq_dec y y') as [->|Hy]; [congruence|]|].
  - specialize (G y y' Hy). specialize (P x' x'). lra.
  - specialize (G x x' Hx). specialize (P y y'). lra.
Qed.

Theorem C61_bilevel_separates : forall w h alphas bs,
  (2 <= w)%nat -> (2 <= h)%nat -> length alphas = (w * h)%nat -> INR (Nat.max w h) <= 10 ^ 20 -> (forall a, In a alphas -> a = 0%Z \/ a = 65535%Z) ->
  CalcSDF w h alphas 8 (1 / 4) = Ok bs ->
  forall x y, (x < w)%nat -> (y < h)%nat ->
    (nth (y * w + x) alphas 0 = 65535 -> 223 <= nth (y * w + x) bs 0)%Z /\
    (nth (y * w + x) alphas 0 = 0 -> nth (y * w + x) bs 0 <= 159)%Z.
Proof.
  intros w h al bs Hw Hh Hl Hm Ha E x y Hx Hy.
  destruct (C61_sdf_formula w h al 8 (1 / 4) Hw Hh Hl Hm) as (bs' & E' & _ & F). { intros a Hi. destruct (Ha a Hi); lia. }
  rewrite E in E'. injection E' as <-. destruct (F x y Hx Hy) as (mo & mi & Mo & Mi & CR & CR').
  assert (V : forall x' y', (x' < w)%nat -> (y' < h)%nat -> nth (y' * w + x') al 0%Z = 0%Z \/ nth (y' * w + x') al 0%Z = 65535%Z).
  { intros. apply Ha. apply nth_In. rewrite Hl. apply cell_lt; auto. }
  assert (Z0 : sq x x + sq y y = 0) by (unfold sq; ring).
  assert (C1 : outer_cost 65535 = 0) by reflexivity. assert (C2 : outer_cost 0 = 10 ^ 20) by reflexivity.
  assert (C3 : inner_cost 65535 = 10 ^ 20) by reflexivity. assert (C4 : inner_cost 0 = 0) by reflexivity.
  assert (POS : forall a b, 0 <= sq a b) by (intros; unfold sq; apply pow2_ge_0).
  apply Rabs_le_inv in CR'. set (b := nth (y * w + x) bs 0%Z) in *. split; intros A.
  - assert (mo <= 0). { destruct Mo as (M & _). specialize (M x y Hx Hy). rewrite A, C1 in M. lra. }
    assert (1 <= mi). { destruct Mi as (_ & x' & y' & Hx' & Hy' & ->). destruct (V x' y' Hx' Hy') as [X|X]; rewrite X; [rewrite C4|rewrite C3].
      - pose proof (sq_apart x y x' y'). enough (1 <= sq x x' + sq y y') by lra. apply H0. intros EE. injection EE as <- <-. rewrite A in X. discriminate.
      - pose proof (POS x x'). pose proof (POS y y'). lra. }
    rewrite (sqrt_neg_0 mo) in CR' by auto. assert (1 <= sqrt mi) by (rewrite <- sqrt_1; apply sqrt_le_1_alt; auto).
    apply le_IZR. assert (222 + 1 / 2 < IZR b).
    { unfold Rmax, Rmin in CR'. destruct (Rle_dec 255 _), (Rle_dec 0 _); lra. }
    apply IZR_le. assert (222 < b)%Z by (apply lt_IZR; lra). lia.
  - assert (mi <= 0). { destruct Mi as (M & _). specialize (M x y Hx Hy). rewrite A, C4 in M. lra. }
    assert (1 <= mo). { destruct Mo as (_ & x' & y' & Hx' & Hy' & ->). destruct (V x' y' Hx' Hy') as [X|X]; rewrite X; [rewrite C2|rewrite C1].
      - pose proof (POS x x'). pose proof (POS y y'). lra.
      - pose proof (sq_apart x y x' y'). enough (1 <= sq x x' + sq y y') by lra. apply H0. intros EE. injection EE as <- <-. rewrite A in X. discriminate. }
    rewrite (sqrt_neg_0 mi) in CR' by auto. assert (1 <= sqrt mo) by (rewrite <- sqrt_1; apply sqrt_le_1_alt; auto).
    assert (IZR b < 160). { unfold Rmax, Rmin in CR'. destruct (Rle_dec 255 _), (Rle_dec 0 _); lra. }
    assert (b < 160)%Z by (apply lt_IZR; auto). lia.
Qed.
Print Assumptions C61_bilevel_separates.

Example C61_nonvacuous : exists bs, CalcSDF 2 2 [65535; 0; 0; 0]%Z 8 (1 / 4) = Ok bs /\ (223 <= nth 0 bs 0)%Z /\ (nth 3 bs 0 <= 159)%Z.
Proof.
  assert (I2 : INR (Nat.max 2 2) <= 10 ^ 20) by (cbn [Nat.max INR]; lra).
  destruct (C61_sdf_formula 2 2 [65535; 0; 0; 0]%Z 8 (1 / 4)) as (bs & E & _); auto. { intros a [<-|[<-|[<-|[<-|[]]]]]; lia. }
  exists bs. split; auto. pose proof (C61_bilevel_separates 2 2 [65535; 0; 0; 0]%Z bs ltac:(lia) ltac:(lia) eq_refl I2) as B.
  assert (Hb : forall a, In a [65535; 0; 0; 0]%Z -> a = 0%Z \/ a = 65535%Z) by (intros a [<-|[<-|[<-|[<-|[]]]]]; lia).
  split; [apply (B Hb E 0%nat 0%nat); auto|apply (B Hb E 1%nat 1%nat); auto].
Qed.

(** A single row or column of equal pixels makes CalcSDF panic. *)
Lemma for_each_inv {S A} (P : S -> Prop) (f : S -> A -> res S) l : (forall s a s', f s a = Ok s' -> P s -> P s') ->
  forall s s', for_each f l s = Ok s' -> P s -> P s'.
Proof.
  intros H. induction l as [|a l IH]; intros s s' E Hs; cbn [for_each] in E; [injection E as <-; auto|].
  destruct (f s a) as [s1| |] eqn:E1; cbn [bind] in E; try discriminate. eauto.
Qed.
Lemma set_at_len {A} (l : list A) i x l' : set_at l i x = Ok l' -> length l' = length l.
Proof. unfold set_at. destruct (i <? length l)%nat; intros E; try discriminate. injection E as <-. apply upd_length. Qed.
Lemma edt1d_len f d v z n d' v' z' : edt1d f d v z n = Ok (d', v', z') -> length z' = length z /\ length v' = length v.
Proof.
  unfold edt1d. intros E.
  destruct (set_at v 0 0%nat) as [v0| |] eqn:E0; cbn [bind] in E; try discriminate. apply set_at_len in E0.
  destruct (set_at z 0 (- INF)) as [z0| |] eqn:E1; cbn [bind] in E; try discriminate. apply set_at_len in E1.
  destruct (set_at z0 1 INF) as [z1| |] eqn:E2; cbn [bind] in E; try discriminate. apply set_at_len in E2.
  destruct (for_each (push_step f) (seq 1 (n - 1)) (0%nat, v0, z1)) as [[[k v1] z2]| |] eqn:E3; cbn [bind] in E; try discriminate.
  destruct (for_each (query_step f v1 z2) (seq 0 n) (0%nat, d)) as [[k' d1]| |] eqn:E4; cbn [bind] in E; try discriminate. injection E as <- <- <-.
  apply (for_each_inv (fun st => length (snd st) = length z /\ length (snd (fst st)) = length v)) in E3; [exact E3| |cbn [fst snd]; lia].
  intros [[k0 v2] z3] q [[k1 v3] z4] Es (Hs & Hv). cbn [fst snd] in *. unfold push_step in Es.
  destruct (pop f v2 z3 q k0) as [[k2 s]| |]; cbn [bind] in Es; try discriminate.
  destruct (set_at v2 (S k2) q) as [v4| |] eqn:F0; cbn [bind] in Es; try discriminate.
  destruct (set_at z3 (S k2) s) as [z5| |] eqn:F1; cbn [bind] in Es; try discriminate.
  destruct (set_at z5 (S k2 + 1) INF) as [z6| |] eqn:F2; cbn [bind] in Es; try discriminate. injection Es as <- <- <-.
  apply set_at_len in F0, F1, F2. lia.
Qed.
Lemma gather_len at_ (data : list R) l f f' : for_each (fun f i => let! a := get data (at_ i) in set_at f i a) l f = Ok f' -> length f' = length f.
Proof.
  intros E. apply (for_each_inv (fun x : list R => length x = length f)) in E; auto.
  intros s a s' Es Hs. destruct (get data (at_ a)); cbn [bind] in Es; try discriminate. apply set_at_len in Es. lia.
Qed.
Lemma pass_len at_ g n data s data' s' : pass at_ g n data s = Ok (data', s') ->
  length (sF s') = length (sF s) /\ length (sV s') = length (sV s) /\ length (sZ s') = length (sZ s).
Proof.
  unfold pass. intros E.
  destruct (for_each (fun f i => let! a := get data (at_ i) in set_at f i a) (seq 0 n) (sF s)) as [f| |] eqn:E1; cbn [bind] in E; try discriminate.
  destruct (edt1d f (sD s) (sV s) (sZ s) n) as [[[d v] z]| |] eqn:E2; cbn [bind] in E; try discriminate.
  match type of E with bind ?X _ = _ => destruct X; cbn [bind] in E; try discriminate end. injection E as <- <-.
  apply gather_len in E1. apply edt1d_len in E2. cbn [sF sV sZ]. lia.
Qed.
(** A line of equal values in buffers of exactly its length *)
Lemma pass_const at_ g n data s c : (1 <= n)%nat -> length (sF s) = n -> length (sV s) = n -> length (sZ s) = n ->
  (forall i, (i < n)%nat -> (at_ i < length data)%nat /\ nth (at_ i) data 0 = c) -> pass at_ g n data s = Panic.
Proof.
  intros Hn L1 L2 L3 H. unfold pass.
  destruct (for_seq (fun q f => length f = n /\ forall i, (i < q)%nat -> nth i f 0 = c)
    (fun f i => let! a := get data (at_ i) in set_at f i a) 0 n (sF s)) as (f & Ef & L & Hf).
  { split; auto. intros; lia. }
  { intros q f Hq (L & G). destruct (H q ltac:(lia)) as [H1 H2]. rewrite (get_ok data (at_ q) 0) by auto. cbn [bind]. rewrite set_at_ok by lia. eexists. split; [reflexivity|].
    rewrite upd_length. split; auto. intros i Hi. rewrite nth_upd by lia. destruct (Nat.eqb_spec i q) as [->|]; auto. apply G. lia. }
  rewrite Ef. cbn [bind plus] in *. rewrite (const_panics f (sD s) (sV s) (sZ s) n c); auto; lia.
Qed.
Lemma nth_repeat_lt {A} (a d : A) n i : (i < n)%nat -> nth i (repeat a n) d = a.
Proof. revert i. induction n as [|n IH]; intros [|i] H; cbn; auto; try lia. apply IH. lia. Qed.

Theorem C61_thin_image_panics : forall n a radius cutoff, (1 <= n)%nat -> (0 <= a <= 65535)%Z ->
  CalcSDF 1 n (repeat a n) radius cutoff = Panic /\ CalcSDF n 1 (repeat a n) radius cutoff = Panic.
Proof.
  intros n a radius cutoff Hn Ha.
  assert (ND : forall i, (i < n)%nat -> nth i (map (fun a => fst (outer_inner a)) (repeat a n)) 0 = outer_cost a).
  { intros i Hi. rewrite nth_map_lt with (da := 0%Z) by (rewrite repeat_length; auto). rewrite nth_repeat_lt by auto. rewrite costs by auto. reflexivity. }
  assert (LD : length (map (fun a => fst (outer_inner a)) (repeat a n)) = n) by (rewrite map_length; apply repeat_length).
  assert (A1 : CalcSDF 1 n (repeat a n) radius cutoff = Panic).
  { unfold CalcSDF, edt. cbn [seq for_each]. rewrite (pass_const _ _ _ _ _ (outer_cost a)); auto; cbn [sF sV sZ]; rewrite ?repeat_length; try lia.
    intros i Hi. rewrite Nat.mul_1_r, Nat.add_0_r. split; [lia|auto]. }
  split; [exact A1|]. destruct (Nat.eq_dec n 1) as [->|Hn1]; [exact A1|].
  unfold CalcSDF, edt. rewrite Nat.mul_1_r.
  set (s0 := mkScr (repeat 0 n) (repeat 0 n) (repeat 0%nat n) (repeat 0 n)).
  destruct (for_seq (fun x (st : list R * scratch) => scr_ok 1 (snd st) /\ length (fst st) = n /\ (length (sF (snd st)) = n /\ length (sV (snd st)) = n /\ length (sZ (snd st)) = n) /\
      forall i, (i < n)%nat -> nth i (fst st) 0 = outer_cost a)
    (fun '(data, s) x => pass (fun y => y * n + x)%nat (fun b => b) 1 data s) 0 n (map (fun a => fst (outer_inner a)) (repeat a n), s0)) as ((dt & st) & E & B1 & B2 & (B3 & B4 & B5) & B6).
  { unfold scr_ok, s0. cbn [fst snd sF sD sV sZ]. rewrite !repeat_length. repeat split; auto; lia. }
  { intros x [dt st] Hx (P1 & P2 & (P3 & P4 & P5) & P6). cbn [fst snd] in *.
    destruct (pass_ok 1 (fun y => y * n + x)%nat (fun b => b) 1 dt st P1 ltac:(lia)) as (dt' & st' & E & Q1 & Q2 & Q3 & Q4).
    - cbn [INR]. unfold INF. lra.
    - intros i Hi. replace i with 0%nat by lia. cbn. lia.
    - intros; lia.
    - intros i Hi. rewrite P6 by nia. apply cost_range; auto.
    - exists (dt', st'). split; [exact E|]. cbn [fst snd]. apply pass_len in E. split; auto. split; [lia|]. split; [lia|].
      intros i Hi. destruct (Nat.eq_dec i x) as [->|Hne].
      + destruct (Q3 0%nat ltac:(lia)) as (m & (_ & p & Hp & Em) & E'). replace p with 0%nat in Em by lia. cbn [Nat.mul plus] in *. rewrite E', Em, P6 by lia. unfold sq. ring.
      + rewrite Q4; [auto|]. intros j Hj. replace j with 0%nat by lia. cbn. lia. }
  rewrite E. cbn [bind plus seq for_each fst snd] in *.
  rewrite (pass_const _ _ _ _ _ (outer_cost a)); auto. intros i Hi. cbn [Nat.mul plus]. split; [lia|auto].
Qed.
Print Assumptions C61_thin_image_panics.
