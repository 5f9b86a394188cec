(** Properties C33-C36: line simplification and feature reduction. *)
From Coq Require Import ZArith Reals List Bool Lia Lra.
From Verif Require Import GoBase Num Clip_Spec Clip_Proofs Simplify_Model.
Import ListNotations.
Open Scope Z_scope.

(** ** C35 *)
Definition sqdist (p q : rpt) : R := ((fst p - fst q) * (fst p - fst q) + (snd p - snd q) * (snd p - snd q))%R.

Lemma seg_dist_core : forall px py x y dx dy t0 t, (0 < dx * dx + dy * dy)%R ->
  t0 = (((px - x) * dx + (py - y) * dy) / (dx * dx + dy * dy))%R ->
  ((px - (x + t * dx)) * (px - (x + t * dx)) + (py - (y + t * dy)) * (py - (y + t * dy)) =
   (px - (x + t0 * dx)) * (px - (x + t0 * dx)) + (py - (y + t0 * dy)) * (py - (y + t0 * dy)) + (t - t0) * (t - t0) * (dx * dx + dy * dy))%R.
Proof.
  intros px py x y dx dy t0 t H E.
  assert (E' : (t0 * (dx * dx + dy * dy) = (px - x) * dx + (py - y) * dy)%R) by (subst t0; field; lra).
  assert (X : ((px - (x + t * dx)) * (px - (x + t * dx)) + (py - (y + t * dy)) * (py - (y + t * dy)) -
   ((px - (x + t0 * dx)) * (px - (x + t0 * dx)) + (py - (y + t0 * dy)) * (py - (y + t0 * dy)) + (t - t0) * (t - t0) * (dx * dx + dy * dy)) =
   2 * (t - t0) * (t0 * (dx * dx + dy * dy) - ((px - x) * dx + (py - y) * dy)))%R) by ring.
  rewrite E' in X. lra.
Qed.

Lemma seg_dist_min px py x y bx by_ : let dx := (bx - x)%R in let dy := (by_ - y)%R in (0 < dx * dx + dy * dy)%R ->
  let t0 := (((px - x) * dx + (py - y) * dy) / (dx * dx + dy * dy))%R in
  let q := if Rltb 1 t0 then (bx, by_) else if Rltb 0 t0 then (x + dx * t0, y + dy * t0)%R else (x, y) in
  seg (x, y) (bx, by_) q /\ (forall s, seg (x, y) (bx, by_) s -> (sqdist (px, py) q <= sqdist (px, py) s)%R).
Proof.
  intros dx dy HD t0 q.
  assert (HS : forall s, seg (x, y) (bx, by_) s <-> exists t, (0 <= t <= 1)%R /\ s = (x + t * dx, y + t * dy)%R).
  { intros s. rewrite seg_at. reflexivity. }
  assert (HC : forall t, sqdist (px, py) (x + t * dx, y + t * dy)%R =
    (sqdist (px, py) (x + t0 * dx, y + t0 * dy) + (t - t0) * (t - t0) * (dx * dx + dy * dy))%R).
  { intros t. exact (seg_dist_core px py x y dx dy t0 t HD eq_refl). }
  assert (HQ : exists t1, (0 <= t1 <= 1)%R /\ q = (x + t1 * dx, y + t1 * dy)%R /\ forall t, (0 <= t <= 1)%R -> ((t1 - t0) * (t1 - t0) <= (t - t0) * (t - t0))%R).
  { subst q. destruct (Rltb_spec 1 t0); [|destruct (Rltb_spec 0 t0)].
    - exists 1%R. split; [lra|]. split; [unfold dx, dy; f_equal; ring|]. intros; nra.
    - exists t0. split; [lra|]. split; [f_equal; ring|]. intros t Ht. replace ((t0 - t0) * (t0 - t0))%R with 0%R by ring. apply Rle_0_sqr.
    - exists 0%R. split; [lra|]. split; [f_equal; ring|]. intros; nra. }
  destruct HQ as (t1 & H1 & -> & Hmin). split; [apply HS; eauto|].
  intros s Hs. apply HS in Hs. destruct Hs as (t & Ht & ->). rewrite (HC t), (HC t1).
  specialize (Hmin t Ht). nra.
Qed.

(** GetSqSegDist is the least squared distance from the point to a point of the segment. *)
Theorem C35_distance_is_minimum : forall p a b,
  let d := GetSqSegDist RNum 1%R (fst p) (snd p) (fst a) (snd a) (fst b) (snd b) in
  (exists s, seg a b s /\ sqdist p s = d) /\ (forall s, seg a b s -> (d <= sqdist p s)%R).
Proof.
  intros [px py] [x y] [bx by_] d. subst d. unfold GetSqSegDist. cbn [fst snd RNum nsub nadd nmul ndiv neqb nltb nzero].
  pose proof (seg_dist_min px py x y bx by_) as HM. cbv zeta in HM.
  set (dx := (bx - x)%R) in *. set (dy := (by_ - y)%R) in *.
  destruct (Reqb_spec dx 0) as [Ex|Ex], (Reqb_spec dy 0) as [Ey|Ey]; cbn [negb orb].
  { assert (E : (bx, by_) = (x, y)) by (unfold dx, dy in *; f_equal; lra). rewrite E. split.
    - exists (x, y). split; [apply seg_l|reflexivity].
    - intros s H. apply seg_refl in H. subst s. apply Rle_refl. }
  1: specialize (HM ltac:(nra)). 2: specialize (HM ltac:(nra)). 3: specialize (HM ltac:(nra)).
  all: destruct (if Rltb 1 _ then _ else _) as [qx qy]; destruct HM as [HM1 HM2]; split; [eexists; split; [exact HM1|reflexivity]|exact HM2].
Qed.
Print Assumptions C35_distance_is_minimum.

Example C35_nonvacuous : GetSqSegDist RNum 1%R 1%R 2%R 0%R 0%R 2%R 0%R = 4%R.
Proof.
  unfold GetSqSegDist. cbn [RNum nsub nadd nmul ndiv neqb nltb nzero].
  destruct (Reqb_spec (2 - 0) 0); [lra|]. cbn [negb orb].
  replace (((1 - 0) * (2 - 0) + (2 - 0) * (0 - 0)) / ((2 - 0) * (2 - 0) + (0 - 0) * (0 - 0)))%R with (1/2)%R by field.
  destruct (Rltb_spec 1 (1/2)); [lra|]. destruct (Rltb_spec 0 (1/2)); [|lra]. lra.
Qed.

(** ** C34 *)
Lemma nth_res_in {A} (l : list A) i : 0 <= i < zlen l -> exists a, nth_res l i = Ok a.
Proof.
  unfold zlen. intros H. destruct (nth_error l (Z.to_nat i)) eqn:E.
  - exists a. apply nth_res_ok. split; [lia|auto].
  - apply nth_error_None in E. lia.
Qed.

Lemma set_res_ok {F} (l : list F) i v : 0 <= i < zlen l -> exists l', set_res l i v = Ok l' /\ zlen l' = zlen l /\
  nth_res l' i = Ok v /\ forall j, j <> i -> nth_res l' j = nth_res l j.
Proof.
  intros H. unfold set_res. destruct (i <? 0) eqn:E1; [lia|]. destruct (zlen l <=? i) eqn:E2; [lia|]. cbn [orb].
  eexists. split; [reflexivity|]. set (n := Z.to_nat i). unfold zlen in *. assert (Hn : (n < length l)%nat) by lia.
  assert (HL : length (firstn n l) = n) by (apply firstn_length_le; lia). split; [|split].
  - rewrite app_length, HL. cbn [length]. rewrite skipn_length. lia.
  - apply nth_res_ok. split; [lia|]. fold n. rewrite nth_error_app2, HL by lia. rewrite Nat.sub_diag. reflexivity.
  - intros j Hj. unfold nth_res. destruct (j <? 0) eqn:Ej; auto. set (m := Z.to_nat j).
    assert (m <> n) by lia. replace (nth_error (firstn n l ++ v :: skipn (S n) l) m) with (nth_error l m); auto.
    destruct (Nat.lt_ge_cases m n).
    + rewrite nth_error_app1 by lia. rewrite <- (firstn_skipn n l) at 1. rewrite nth_error_app1 by lia. auto.
    + rewrite nth_error_app2, HL by lia. destruct (m - n)%nat as [|k] eqn:Ek; [lia|]. cbn [nth_error].
      rewrite <- (firstn_skipn (S n) l) at 1. rewrite nth_error_app2 by (rewrite firstn_length_le; lia). rewrite firstn_length_le by lia. f_equal. lia.
Qed.

Section Shape.
  Context {F : Type} (N : NumOps F) (one tol : F).
  Hypothesis irrefl : nltb N tol tol = false.

  Lemma scan_shape coords ax ay bx by_ first last mid : 0 <= first -> last + 1 < zlen coords ->
    forall fuel i maxd minpos index, first < i -> (last - i < 3 * Z.of_nat fuel)%Z -> (exists k, i = first + 3 * k) ->
    (maxd = tol \/ (first < index < last /\ exists k, index = first + 3 * k)) ->
    exists maxd' index', scan N fuel one coords ax ay bx by_ i last mid maxd minpos index = Ok (maxd', index') /\
      (maxd' = tol \/ (first < index' < last /\ exists k, index' = first + 3 * k)).
  Proof.
    intros H0 H1. induction fuel as [|fuel IH]; intros i maxd minpos index Hi Hf Hk Hinv; cbn [scan].
    - destruct (i <? last) eqn:E; [lia|]. eauto.
    - destruct (i <? last) eqn:E; [|eauto].
      destruct (nth_res_in coords i ltac:(lia)) as (x & ->). cbn [bind].
      destruct (nth_res_in coords (i + 1) ltac:(lia)) as (y & ->). cbn [bind].
      assert (Hk' : exists k, i + 3 = first + 3 * k) by (destruct Hk as (k & ->); exists (k + 1); lia).
      destruct (nltb N maxd _).
      + apply IH; auto; try lia. right. split; auto. lia.
      + destruct (neqb N _ maxd); [destruct (_ <? minpos)|]; apply IH; auto; try lia.
        destruct Hinv as [->|Hinv]; auto. right. split; auto. lia.
  Qed.

  (** Positions Simplify may write: the importance entry of a vertex strictly between. *)
  Definition flag_pos (first last j : Z) : Prop := exists k, first < first + 3 * k < last /\ j = first + 3 * k + 2.

  Lemma simplify_shape : forall fuel coords first last, 0 <= first -> first <= last -> last + 1 < zlen coords ->
    (last - first < Z.of_nat fuel)%Z ->
    exists coords', Simplify N fuel one coords first last tol = Ok coords' /\ zlen coords' = zlen coords /\
      forall j, ~ flag_pos first last j -> nth_res coords' j = nth_res coords j.
  Proof.
    induction fuel as [|fuel IH]; intros coords first last H0 H1 H2 Hf; [lia|]. cbn [Simplify].
    destruct (nth_res_in coords first ltac:(lia)) as (ax & ->). cbn [bind].
    destruct (nth_res_in coords (first + 1) ltac:(lia)) as (ay & ->). cbn [bind].
    destruct (nth_res_in coords last ltac:(lia)) as (bx & ->). cbn [bind].
    destruct (nth_res_in coords (last + 1) ltac:(lia)) as (by_ & ->). cbn [bind].
    destruct (scan_shape coords ax ay bx by_ first last (Z.shiftr (last - first) 1) H0 H2 (Z.to_nat (last - first)) (first + 3) tol (last - first) 0)
      as (maxd & index & -> & Hinv); auto; try lia. { exists 1; lia. }
    cbn [bind]. destruct (nltb N tol maxd) eqn:EM; [|exists coords; auto].
    destruct Hinv as [->|(Hi & k & Hk)]; [congruence|].
    assert (S1 : exists c1, (if 3 <? index - first then Simplify N fuel one coords first index tol else Ok coords) = Ok c1 /\ zlen c1 = zlen coords /\
       forall j, ~ flag_pos first last j -> nth_res c1 j = nth_res coords j).
    { destruct (3 <? index - first); [|eauto]. destruct (IH coords first index) as (c1 & E & EL & HJ); try lia.
      exists c1. repeat split; auto. intros j Hj. apply HJ. intros (q & Hq & ->). apply Hj. exists q. split; auto. lia. }
    destruct S1 as (c1 & -> & EL1 & HJ1). cbn [bind].
    destruct (set_res_ok c1 (index + 2) maxd) as (c2 & -> & EL2 & _ & HJ2); [lia|]. cbn [bind].
    assert (HN : forall j, ~ flag_pos first last j -> nth_res c2 j = nth_res coords j).
    { intros j Hj. rewrite HJ2; auto. intros ->. apply Hj. exists k. lia. }
    destruct (3 <? last - index); [|exists c2; repeat split; auto; lia].
    destruct (IH c2 index last) as (c3 & E & EL & HJ); try lia.
    exists c3. repeat split; auto; [lia|]. intros j Hj. rewrite HJ; auto.
    intros (q & Hq & ->). apply Hj. exists (k + q). lia.
  Qed.
End Shape.

(** C34: for every number type, every array and every pair of end indexes inside it, Simplify
    terminates without panic, keeps the length, and only ever changes the third entry of a vertex
    strictly between the two ends.  [nltb tol tol = false] holds of every Go float64. *)
Theorem C34_only_flags_written : forall (F : Type) (N : NumOps F) (one tol : F) coords first last,
  nltb N tol tol = false ->
  0 <= first -> first <= last -> last + 1 < zlen coords ->
  exists coords', Simplify N (S (Z.to_nat (last - first))) one coords first last tol = Ok coords' /\
    zlen coords' = zlen coords /\
    forall j, nth_res coords' j <> nth_res coords j ->
      exists k, first < first + 3 * k < last /\ j = first + 3 * k + 2.
Proof.
  intros F N one tol coords first last HI H0 H1 H2.
  destruct (simplify_shape N one tol HI (S (Z.to_nat (last - first))) coords first last H0 H1 H2 ltac:(lia)) as (c & E & EL & HJ).
  exists c. repeat split; auto. intros j Hj.
  destruct (Z_le_gt_dec (j - first) 0) as [?|Hg].
  { exfalso. apply Hj. apply HJ. intros (k & Hk & ->). lia. }
  set (k := (j - 2 - first) / 3).
  assert (HD : flag_pos first last j \/ ~ flag_pos first last j).
  { destruct (Z.eq_dec j (first + 3 * k + 2)) as [E1|E1].
    - destruct (Z_lt_ge_dec first (first + 3 * k)), (Z_lt_ge_dec (first + 3 * k) last).
      + left. exists k. lia.
      + right. intros (q & Hq & E2). lia.
      + right. intros (q & Hq & E2). lia.
      + right. intros (q & Hq & E2). lia.
    - right. intros (q & Hq & E2). apply E1. unfold k. rewrite E2. replace (first + 3 * q + 2 - 2 - first) with (q * 3) by lia. rewrite Z.div_mul by lia. lia. }
  destruct HD as [HD|HD]; [exact HD|]. exfalso. apply Hj. apply HJ. exact HD.
Qed.
Print Assumptions C34_only_flags_written.

(** ** C33 *)
Definition xy (coords : list R) (i : Z) : rpt := (nth (Z.to_nat i) coords 0%R, nth (Z.to_nat (i + 1)) coords 0%R).
Definition flag (coords : list R) (i : Z) : R := nth (Z.to_nat (i + 2)) coords 0%R.

Lemma nth_res_nth (l : list R) i : 0 <= i < zlen l -> nth_res l i = Ok (nth (Z.to_nat i) l 0%R).
Proof.
  unfold zlen. intros H. apply nth_res_ok. split; [lia|]. apply nth_error_nth'. lia.
Qed.

Definition dist_of (coords : list R) (i a b : Z) : R :=
  GetSqSegDist RNum 1%R (fst (xy coords i)) (snd (xy coords i)) (fst (xy coords a)) (snd (xy coords a)) (fst (xy coords b)) (snd (xy coords b)).

Lemma scan_max coords first last mid : 0 <= first -> last + 1 < zlen coords ->
  forall fuel i maxd minpos index maxd' index', first < i ->
  scan RNum fuel 1%R coords (fst (xy coords first)) (snd (xy coords first)) (fst (xy coords last)) (snd (xy coords last)) i last mid maxd minpos index = Ok (maxd', index') ->
  (maxd <= maxd')%R /\ forall k, 0 <= k -> i + 3 * k < last -> (dist_of coords (i + 3 * k) first last <= maxd')%R.
Proof.
  intros H0 H1. induction fuel as [|fuel IH]; intros i maxd minpos index maxd' index' Hi E; cbn [scan] in E.
  - destruct (i <? last) eqn:EL; [discriminate|]. assert (X : maxd = maxd') by congruence. split; [lra|]. intros; lia.
  - destruct (i <? last) eqn:EL.
    2:{ assert (X : maxd = maxd') by congruence. split; [lra|]. intros; lia. }
    rewrite (nth_res_nth coords i), (nth_res_nth coords (i + 1)) in E by lia. cbn [bind] in E.
    change (GetSqSegDist RNum 1%R (nth (Z.to_nat i) coords 0%R) _ _ _ _ _) with (dist_of coords i first last) in E.
    cbn [RNum nltb neqb] in E. fold RNum in E.
    assert (step : forall m p x, (m <= maxd' -> True)%R -> scan RNum fuel 1%R coords (fst (xy coords first)) (snd (xy coords first)) (fst (xy coords last)) (snd (xy coords last)) (i + 3) last mid m p x = Ok (maxd', index') ->
      (maxd <= m)%R -> (dist_of coords i first last <= m)%R -> (maxd <= maxd')%R /\ forall k, 0 <= k -> i + 3 * k < last -> (dist_of coords (i + 3 * k) first last <= maxd')%R).
    { intros m p x _ E' Hm Hd. destruct (IH (i + 3) m p x maxd' index' ltac:(lia) E') as [I1 I2]. split; [lra|].
      intros k Hk Hl. destruct (Z.eq_dec k 0) as [->|].
      - replace (i + 3 * 0) with i by lia. lra.
      - replace (i + 3 * k) with (i + 3 + 3 * (k - 1)) by lia. apply I2; lia. }
    destruct (Rltb_spec maxd (dist_of coords i first last)) as [HL|HL].
    + eapply step; eauto; lra.
    + destruct (Reqb (dist_of coords i first last) maxd); [destruct (_ <? minpos)|]; eapply step; eauto; lra.
Qed.

Lemma flag_pos_dec first last j : flag_pos first last j \/ ~ flag_pos first last j.
Proof.
  set (k := (j - 2 - first) / 3).
  destruct (Z.eq_dec j (first + 3 * k + 2)) as [E1|E1].
  - destruct (Z_lt_ge_dec first (first + 3 * k)), (Z_lt_ge_dec (first + 3 * k) last).
    + left. exists k. lia.
    + right. intros (q & Hq & E2). lia.
    + right. intros (q & Hq & E2). lia.
    + right. intros (q & Hq & E2). lia.
  - right. intros (q & Hq & E2). apply E1. unfold k. rewrite E2. replace (first + 3 * q + 2 - 2 - first) with (q * 3) by lia. rewrite Z.div_mul by lia. lia.
Qed.

Lemma nth_eq (l l' : list R) j : 0 <= j -> nth_res l j = nth_res l' j -> nth (Z.to_nat j) l 0%R = nth (Z.to_nat j) l' 0%R.
Proof.
  intros Hj E. unfold nth_res in E. destruct (j <? 0) eqn:EJ; [lia|].
  destruct (nth_error l (Z.to_nat j)) eqn:E1, (nth_error l' (Z.to_nat j)) eqn:E2; try discriminate.
  - apply nth_error_nth with (d := 0%R) in E1. apply nth_error_nth with (d := 0%R) in E2. congruence.
  - apply nth_error_None in E1, E2. rewrite !nth_overflow; auto.
Qed.

Section Tolerance.
  Variable tol : R.

  (** Every vertex strictly between the two ends whose flag is at most the tolerance is close to
      the segment between the nearest flagged (or end) vertices around it. *)
  Definition goodseg (c : list R) (first n : Z) : Prop :=
    forall k, 0 < k < n -> (flag c (first + 3 * k) <= tol)%R ->
    exists ka kb, 0 <= ka < k /\ k < kb <= n /\
      (ka = 0 \/ (flag c (first + 3 * ka) > tol)%R) /\ (kb = n \/ (flag c (first + 3 * kb) > tol)%R) /\
      (forall j, ka < j < kb -> (flag c (first + 3 * j) <= tol)%R) /\
      (dist_of c (first + 3 * k) (first + 3 * ka) (first + 3 * kb) <= tol)%R.

  Lemma goodseg_ext c c' first n : 0 <= first ->
    (forall k, 0 <= k <= n -> xy c' (first + 3 * k) = xy c (first + 3 * k)) ->
    (forall k, 0 < k < n -> flag c' (first + 3 * k) = flag c (first + 3 * k)) ->
    goodseg c first n -> goodseg c' first n.
  Proof.
    intros H0 Hxy Hf HG k Hk Hl. rewrite Hf in Hl by lia. destruct (HG k Hk Hl) as (ka & kb & H1 & H2 & H3 & H4 & H5 & H6).
    exists ka, kb. split; auto. split; auto. split; [|split; [|split]].
    - destruct (Z.eq_dec ka 0); auto. destruct H3 as [|H3]; auto. right. rewrite Hf by lia. auto.
    - destruct (Z.eq_dec kb n); auto. destruct H4 as [|H4]; auto. right. rewrite Hf by lia. auto.
    - intros j Hj. rewrite Hf by lia. auto.
    - unfold dist_of in *. rewrite !Hxy by lia. auto.
  Qed.

  Let irr : nltb RNum tol tol = false.
  Proof. cbn [RNum nltb]. apply Rltb_false. lra. Qed.

  Lemma frame_xy c c' first last base k : 0 <= base + 3 * k -> (exists q, base = first + 3 * q) ->
    (forall j, ~ flag_pos first last j -> nth_res c' j = nth_res c j) -> xy c' (base + 3 * k) = xy c (base + 3 * k).
  Proof.
    intros H0 (q & Hq) HJ. unfold xy. f_equal; apply nth_eq; try lia; apply HJ; intros (r & Hr & E); lia.
  Qed.
  Lemma frame_flag c c' first last i : 0 <= i ->
    (forall j, ~ flag_pos first last j -> nth_res c' j = nth_res c j) -> ~ flag_pos first last (i + 2) -> flag c' i = flag c i.
  Proof. intros H0 HJ HN. unfold flag. apply nth_eq; [lia|]. auto. Qed.

  Lemma simplify_tol : forall fuel c first n c', 0 <= first -> 0 <= n -> first + 3 * n + 1 < zlen c ->
    (3 * n < Z.of_nat fuel)%Z -> (forall k, 0 < k < n -> (flag c (first + 3 * k) <= tol)%R) ->
    Simplify RNum fuel 1%R c first (first + 3 * n) tol = Ok c' -> goodseg c' first n.
  Proof.
    induction fuel as [|fuel IH]; intros c first n c' H0 Hn HL Hf Hz E; [lia|]. cbn [Simplify] in E.
    set (last := first + 3 * n) in *.
    rewrite (nth_res_nth c first), (nth_res_nth c (first + 1)), (nth_res_nth c last), (nth_res_nth c (last + 1)) in E by lia. cbn [bind] in E.
    change (nth (Z.to_nat first) c 0%R) with (fst (xy c first)) in E. change (nth (Z.to_nat (first + 1)) c 0%R) with (snd (xy c first)) in E.
    change (nth (Z.to_nat last) c 0%R) with (fst (xy c last)) in E. change (nth (Z.to_nat (last + 1)) c 0%R) with (snd (xy c last)) in E.
    destruct (scan_shape RNum 1%R tol irr c (fst (xy c first)) (snd (xy c first)) (fst (xy c last)) (snd (xy c last)) first last (Z.shiftr (last - first) 1) H0 ltac:(lia)
      (Z.to_nat (last - first)) (first + 3) tol (last - first) 0) as (maxd & index & ES & Hinv); auto; try lia. { exists 1; lia. }
    rewrite ES in E. cbn [bind] in E.
    unshelve epose proof (scan_max c first last (Z.shiftr (last - first) 1) H0 _ _ _ _ _ _ _ _ _ ES) as [_ Hmax]; [lia..|].
    cbn [RNum nltb] in E. fold RNum in E. destruct (Rltb_spec tol maxd) as [HM|HM].
    2:{ assert (c = c') by congruence. subst c'. intros k Hk _. exists 0, n. split; [lia|]. split; [lia|]. split; auto. split; auto.
        split; [intros; apply Hz; lia|]. replace (first + 3 * 0) with first by lia.
        specialize (Hmax (k - 1) ltac:(lia) ltac:(lia)). replace (first + 3 + 3 * (k - 1)) with (first + 3 * k) in Hmax by lia.
        fold last. lra. }
    destruct Hinv as [->|(Hi & m & Hm)]; [lra|]. subst index.
    (* left part *)
    assert (S1 : exists c1, (if 3 <? first + 3 * m - first then Simplify RNum fuel 1%R c first (first + 3 * m) tol else Ok c) = Ok c1 /\
       zlen c1 = zlen c /\ (forall j, ~ flag_pos first (first + 3 * m) j -> nth_res c1 j = nth_res c j) /\ goodseg c1 first m).
    { destruct (3 <? first + 3 * m - first) eqn:E3.
      - destruct (simplify_shape RNum 1%R tol irr fuel c first (first + 3 * m)) as (c1 & EC & EL & HJ); try lia.
        exists c1. repeat (split; auto). eapply IH; eauto; try lia. intros; apply Hz; lia.
      - exists c. repeat (split; auto). intros k Hk. lia. }
    destruct S1 as (c1 & EC1 & EL1 & HJ1 & G1). rewrite EC1 in E. cbn [bind] in E.
    destruct (set_res_ok c1 (first + 3 * m + 2) maxd ltac:(lia)) as (c2 & EC2 & EL2 & HV2 & HJ2). rewrite EC2 in E. cbn [bind] in E.
    (* right part *)
    assert (F2 : forall k, 0 <= k -> k <> m -> flag c2 (first + 3 * k) = flag c1 (first + 3 * k)).
    { intros k Hk Hkm. unfold flag. apply nth_eq; [lia|]. apply HJ2. lia. }
    assert (F1 : forall k, m <= k -> flag c1 (first + 3 * k) = flag c (first + 3 * k)).
    { intros k Hk. apply frame_flag with (first := first) (last := first + 3 * m); auto; [lia|]. intros (q & Hq & E'). lia. }
    assert (S3 : (forall j, ~ flag_pos (first + 3 * m) last j -> nth_res c' j = nth_res c2 j) /\ goodseg c' (first + 3 * m) (n - m)).
    { destruct (3 <? last - (first + 3 * m)) eqn:E3.
      - destruct (simplify_shape RNum 1%R tol irr fuel c2 (first + 3 * m) last) as (c3 & EC & EL & HJ); try lia.
        assert (c3 = c') by congruence. subst c3. split; auto.
        replace last with (first + 3 * m + 3 * (n - m)) in EC by lia. eapply IH; eauto; try lia.
        intros k Hk. replace (first + 3 * m + 3 * k) with (first + 3 * (m + k)) by lia. rewrite F2, F1 by lia. apply Hz. lia.
      - assert (c2 = c') by congruence. subst c'. split; auto. intros k Hk. lia. }
    destruct S3 as (HJ3 & G3).
    assert (X3 : forall k, 0 <= k -> xy c' (first + 3 * k) = xy c1 (first + 3 * k)).
    { intros k Hk. transitivity (xy c2 (first + 3 * k)).
      - replace (first + 3 * k) with (first + 3 * m + 3 * (k - m)) by lia. apply frame_xy with (first := first + 3 * m) (last := last); auto; [lia|]. exists 0; lia.
      - unfold xy. f_equal; apply nth_eq; try lia; apply HJ2; lia. }
    assert (F3 : forall k, 0 <= k < m -> flag c' (first + 3 * k) = flag c1 (first + 3 * k)).
    { intros k Hk. rewrite <- F2 by lia. apply frame_flag with (first := first + 3 * m) (last := last); auto; [lia|]. intros (q & Hq & E'). lia. }
    assert (FM : flag c' (first + 3 * m) = maxd).
    { transitivity (flag c2 (first + 3 * m)).
      - apply frame_flag with (first := first + 3 * m) (last := last); auto; [lia|]. intros (q & Hq & E'). lia.
      - unfold flag. apply nth_res_ok in HV2. destruct HV2 as [_ HV2]. apply nth_error_nth with (d := 0%R) in HV2. auto. }
    assert (G1' : goodseg c' first m). { eapply goodseg_ext; [..|exact G1]; auto. - intros; apply X3; lia. - intros; apply F3; lia. }
    intros k Hk Hl. destruct (Z.lt_trichotomy k m) as [Hkm|[->|Hkm]].
    - destruct (G1' k ltac:(lia) Hl) as (ka & kb & A1 & A2 & A3 & A4 & A5 & A6). exists ka, kb. split; auto. split; [lia|]. split; auto.
      split; [|auto]. destruct A4 as [->|]; auto. right. rewrite FM. lra.
    - rewrite FM in Hl. lra.
    - destruct (G3 (k - m) ltac:(lia)) as (ka & kb & A1 & A2 & A3 & A4 & A5 & A6).
      { replace (first + 3 * m + 3 * (k - m)) with (first + 3 * k) by lia. auto. }
      exists (ka + m), (kb + m). split; [lia|]. split; [lia|].
      replace (first + 3 * (ka + m)) with (first + 3 * m + 3 * ka) by lia. replace (first + 3 * (kb + m)) with (first + 3 * m + 3 * kb) by lia.
      replace (first + 3 * m + 3 * (k - m)) with (first + 3 * k) in A6 by lia. split; [|split; [|split; auto]].
      + destruct A3 as [->|]; auto. right. replace (first + 3 * m + 3 * 0) with (first + 3 * m) by lia. rewrite FM. lra.
      + destruct A4 as [->|]; auto. left. lia.
      + intros j Hj. specialize (A5 (j - m) ltac:(lia)). replace (first + 3 * m + 3 * (j - m)) with (first + 3 * j) in A5 by lia. auto.
  Qed.
End Tolerance.

(** C33: vertices [first], [first+3], ..., [first+3n]; a vertex is kept when its third entry is
    above the tolerance (initially none is).  After Simplify every interior vertex not kept is
    within the tolerance of some point of the segment joining the nearest kept (or end) vertices
    around it. *)
Theorem C33_tolerance_respected : forall tol coords first n,
  0 <= first -> 0 <= n -> first + 3 * n + 1 < zlen coords ->
  (forall k, 0 < k < n -> (flag coords (first + 3 * k) <= tol)%R) ->
  exists coords', Simplify RNum (S (Z.to_nat (3 * n))) 1%R coords first (first + 3 * n) tol = Ok coords' /\
  forall k, 0 < k < n -> (flag coords' (first + 3 * k) <= tol)%R ->
  exists ka kb, 0 <= ka < k /\ k < kb <= n /\
    (ka = 0 \/ (flag coords' (first + 3 * ka) > tol)%R) /\ (kb = n \/ (flag coords' (first + 3 * kb) > tol)%R) /\
    (forall j, ka < j < kb -> (flag coords' (first + 3 * j) <= tol)%R) /\
    exists s, seg (xy coords (first + 3 * ka)) (xy coords (first + 3 * kb)) s /\
      (sqdist (xy coords (first + 3 * k)) s <= tol)%R.
Proof.
  intros tol coords first n H0 Hn HL Hz.
  assert (irr : nltb RNum tol tol = false) by (cbn [RNum nltb]; apply Rltb_false; lra).
  destruct (simplify_shape RNum 1%R tol irr (S (Z.to_nat (3 * n))) coords first (first + 3 * n)) as (c & E & EL & HJ); try lia.
  exists c. split; auto. unshelve epose proof (simplify_tol tol _ _ _ _ _ H0 Hn HL _ Hz E) as G; [lia|].
  intros k Hk Hl. destruct (G k Hk Hl) as (ka & kb & A1 & A2 & A3 & A4 & A5 & A6).
  exists ka, kb. repeat (split; auto).
  assert (X : forall q, 0 <= q -> xy c (first + 3 * q) = xy coords (first + 3 * q)).
  { intros q Hq. apply frame_xy with (first := first) (last := first + 3 * n); auto; [lia|]. exists 0; lia. }
  unfold dist_of in A6. rewrite !X in A6 by lia.
  destruct (C35_distance_is_minimum (xy coords (first + 3 * k)) (xy coords (first + 3 * ka)) (xy coords (first + 3 * kb))) as [(s & Hs & Es) _].
  exists s. split; auto. rewrite Es. auto.
Qed.
Print Assumptions C33_tolerance_respected.

(** A kept vertex: three points with the middle one far off the line. *)
Example C33_nonvacuous :
  Simplify RNum 7 1%R [0; 0; 0; 1; 2; 0; 2; 0; 0]%R 0 6 1%R = Ok [0; 0; 0; 1; 2; 4; 2; 0; 0]%R.
Proof.
  assert (S : scan RNum (Z.to_nat (6 - 0)) 1%R [0; 0; 0; 1; 2; 0; 2; 0; 0]%R 0%R 0%R 2%R 0%R (0 + 3) 6 3 1%R (6 - 0) 0 = Ok (4%R, 3)).
  { change (scan RNum (Z.to_nat (6 - 0)) 1%R [0; 0; 0; 1; 2; 0; 2; 0; 0]%R 0%R 0%R 2%R 0%R (0 + 3) 6 3 1%R (6 - 0) 0) with
      (let d := GetSqSegDist RNum 1%R 1%R 2%R 0%R 0%R 2%R 0%R in
       if Rltb 1 d then Ok (d, 3) else if Reqb d 1 then Ok (1%R, 3) else Ok (1%R, 0)).
    cbv zeta. rewrite C35_nonvacuous. destruct (Rltb_spec 1 4); [reflexivity|lra]. }
  change (Simplify RNum 7 1%R [0; 0; 0; 1; 2; 0; 2; 0; 0]%R 0 6 1%R) with
    (let! r := scan RNum (Z.to_nat (6 - 0)) 1%R [0; 0; 0; 1; 2; 0; 2; 0; 0]%R 0%R 0%R 2%R 0%R (0 + 3) 6 3 1%R (6 - 0) 0 in
     let '(maxd, index) := r in
     if Rltb 1 maxd then
       let! coords := if 3 <? index - 0 then Simplify RNum 6 1%R [0; 0; 0; 1; 2; 0; 2; 0; 0]%R 0 index 1%R else Ok [0; 0; 0; 1; 2; 0; 2; 0; 0]%R in
       let! coords := set_res coords (index + 2) maxd in
       if 3 <? 6 - index then Simplify RNum 6 1%R coords index 6 1%R else Ok coords
     else Ok [0; 0; 0; 1; 2; 0; 2; 0; 0]%R).
  rewrite S. cbn [bind]. destruct (Rltb_spec 1 4); [reflexivity|lra].
Qed.

(** ** C36 *)
Lemma filter_run_spec {P C} (cell : P -> C) (ceq : C -> C -> bool) (H : forall a b, ceq a b = true <-> a = b) ps : forall seen,
  let '(bs, seen') := filter_run cell ceq seen ps in
  length bs = length ps /\
  (forall c, In c seen' <-> In c seen \/ exists p, In p ps /\ cell p = c) /\
  (forall i p, nth_error ps i = Some p ->
     nth_error bs i = Some true <-> ~ In (cell p) seen /\ forall j q, (j < i)%nat -> nth_error ps j = Some q -> cell q <> cell p).
Proof.
  induction ps as [|p ps IH]; intros seen; cbn [filter_run].
  - split; auto. split; [|intros [|i] p E; discriminate].
    intros c. split; auto. intros [?|(p & [] & _)]; auto.
  - unfold filter_point. destruct (existsb (ceq (cell p)) seen) eqn:E.
    + apply existsb_exists in E. destruct E as (x & Hx & E). apply H in E. subst x.
      specialize (IH seen). destruct (filter_run cell ceq seen ps) as [bs seen']. destruct IH as (I1 & I2 & I3).
      split; [cbn [length]; lia|]. split.
      * intros c. rewrite I2. split; intros [?|(q & Hq & <-)]; auto.
        -- right. exists q. split; [right|]; auto.
        -- destruct Hq as [<-|Hq]; auto. right. eauto.
      * intros [|i] q Hq; cbn [nth_error] in *.
        -- assert (p = q) by congruence. subst q. split; [discriminate|]. intros [Hn _]. contradiction.
        -- rewrite (I3 i q Hq). split; intros [A B]; split; auto.
           ++ intros [|j] r Hj Hr; cbn [nth_error] in Hr; [|apply (B j); auto; lia]. assert (p = r) by congruence. subst r. intros X. apply A. rewrite <- X. auto.
           ++ intros j r Hj Hr. apply (B (S j)); auto. lia.
    + assert (Hp : ~ In (cell p) seen).
      { intros X. assert (existsb (ceq (cell p)) seen = true); [|congruence]. apply existsb_exists. exists (cell p). split; auto. apply H; auto. }
      specialize (IH (cell p :: seen)). destruct (filter_run cell ceq (cell p :: seen) ps) as [bs seen']. destruct IH as (I1 & I2 & I3).
      split; [cbn [length]; lia|]. split.
      * intros c. rewrite I2. split.
        -- intros [[<-|?]|(q & Hq & <-)]; auto; right; [exists p; split; [left|]; auto|exists q; split; [right|]; auto].
        -- intros [?|(q & [<-|Hq] & <-)]; [left; right; auto|left; left; auto|right; eauto].
      * intros [|i] q Hq; cbn [nth_error] in *.
        -- assert (p = q) by congruence. subst q. split; auto. intros _. split; auto. intros j r Hj. lia.
        -- rewrite (I3 i q Hq). split; intros [A B].
           ++ split; [intros X; apply A; right; auto|]. intros [|j] r Hj Hr; cbn [nth_error] in Hr; [|apply (B j); auto; lia].
              assert (p = r) by congruence. subst r. intros X. apply A. left. auto.
           ++ split; [|intros j r Hj Hr; apply (B (S j)); auto; lia].
              intros [X|X]; auto. apply (B 0%nat p); auto. lia.
Qed.

(** C36: starting from an empty configuration, the i-th point is accepted iff no earlier point
    fell into its cell; the accepted points lie in pairwise distinct cells and every cell that
    was hit has exactly one accepted point. *)
Theorem C36_one_point_per_cell : forall (P C : Type) (cell : P -> C) (ceq : C -> C -> bool),
  (forall a b, ceq a b = true <-> a = b) -> forall ps,
  let bs := fst (filter_run cell ceq [] ps) in
  length bs = length ps /\
  (forall i p, nth_error ps i = Some p ->
     (nth_error bs i = Some true <-> forall j q, (j < i)%nat -> nth_error ps j = Some q -> cell q <> cell p)) /\
  (forall p, In p ps -> exists! i, nth_error bs i = Some true /\ exists q, nth_error ps i = Some q /\ cell q = cell p).
Proof.
  intros P C cell ceq H ps bs. subst bs. pose proof (filter_run_spec cell ceq H ps []) as HS.
  destruct (filter_run cell ceq [] ps) as [bs seen]. cbn [fst]. destruct HS as (I1 & _ & I3).
  assert (HA : forall i p, nth_error ps i = Some p ->
     (nth_error bs i = Some true <-> forall j q, (j < i)%nat -> nth_error ps j = Some q -> cell q <> cell p)).
  { intros i p Hp. rewrite (I3 i p Hp). split; [tauto|]. intros X. split; auto. }
  split; auto. split; auto. intros p Hp. apply In_nth_error in Hp. destruct Hp as (n & Hn).
  revert p Hn. induction n as [n IH] using (well_founded_induction lt_wf). intros p Hn.
  destruct (nth_error bs n) as [[|]|] eqn:EB.
  - exists n. split; [split; auto; eauto|]. intros m (Hm & q & Hq & Hc).
    destruct (Nat.lt_trichotomy n m) as [L|[->|L]]; auto.
    + apply (HA m q Hq) with (j := n) (q := p) in Hm; auto. congruence.
    + apply (HA n p Hn) with (j := m) (q := q) in EB; auto. congruence.
  - assert (HX : exists m q, (m < n)%nat /\ nth_error ps m = Some q /\ cell q = cell p).
    { destruct (existsb (ceq (cell p)) (map cell (firstn n ps))) eqn:EX.
      - apply existsb_exists in EX. destruct EX as (c & Hc & E). apply H in E. subst c. apply in_map_iff in Hc.
        destruct Hc as (q & Eq & Hq). apply In_nth_error in Hq. destruct Hq as (m & Hm).
        assert (m < n)%nat. { assert (nth_error (firstn n ps) m <> None) by congruence. apply nth_error_Some in H0. rewrite firstn_length in H0. lia. }
        exists m, q. split; auto. split; auto. rewrite <- (firstn_skipn n ps). rewrite nth_error_app1; auto.
        apply nth_error_Some. congruence.
      - exfalso. assert (nth_error bs n = Some true); [|congruence]. apply (HA n p Hn). intros j q Hj Hq E.
        assert (existsb (ceq (cell p)) (map cell (firstn n ps)) = true); [|congruence].
        apply existsb_exists. exists (cell q). split; [|apply H; auto]. apply in_map.
        apply nth_error_In with j. rewrite <- (firstn_skipn n ps) in Hq. rewrite nth_error_app1 in Hq; auto.
        rewrite firstn_length. apply Nat.min_glb_lt; auto. assert (HX : nth_error ps n <> None) by congruence. apply nth_error_Some in HX. lia. }
    destruct HX as (m & q & L & Hq & Hc). destruct (IH m L q Hq) as (i & Hi & Hu).
    exists i. rewrite <- Hc. split; auto.
  - apply nth_error_None in EB. assert (nth_error ps n <> None) by congruence. apply nth_error_Some in H0. lia.
Qed.
Print Assumptions C36_one_point_per_cell.

Example C36_nonvacuous : fst (filter_run (fun p => Z.div p 10) Z.eqb [] [11; 25; 12]) = [true; true; false].
Proof. reflexivity. Qed.
