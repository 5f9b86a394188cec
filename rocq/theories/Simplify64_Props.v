(** Property C122: line simplification in binary64 arithmetic. *)
From Coq Require Import ZArith Reals List Bool Lia Lra.
From Flocq Require Import Core BinarySingleNaN.
From Verif Require Import GoBase Num TileF64_Model F64 TileF64_Proofs ColorF64_Proofs Clip_Spec Clip_Proofs Clip64_Proofs Simplify_Model Simplify_Props Simplify64_Proofs.
Import ListNotations.
Open Scope Z_scope.

(** ** Simplify over any ordered number type *)
Section Gen.
  Context {F : Type} (N : NumOps F) (one tol : F).
  Hypothesis irr : nltb N tol tol = false.
  Hypothesis trans : forall a b, nltb N tol a = true -> nltb N a b = true -> nltb N tol b = true.
  Hypothesis eqlt : forall a b, neqb N a b = true -> nltb N tol b = true -> nltb N tol a = true.

  Definition at_ (c : list F) (i : Z) : F := nth (Z.to_nat i) c (nzero N).
  (** the third entry of the vertex at [i] is above the tolerance *)
  Definition over (c : list F) (i : Z) : bool := nltb N tol (at_ c (i + 2)).
  Definition gdist (c : list F) (i a b : Z) : F :=
    GetSqSegDist N one (at_ c i) (at_ c (i + 1)) (at_ c a) (at_ c (a + 1)) (at_ c b) (at_ c (b + 1)).

  Lemma at_res (c : list F) i : 0 <= i < zlen c -> nth_res c i = Ok (at_ c i).
  Proof. clear - N. unfold zlen. intros H. apply nth_res_ok. split; [lia|]. apply nth_error_nth'. lia. Qed.
  Lemma at_eq (c c' : list F) j : 0 <= j -> nth_res c j = nth_res c' j -> at_ c j = at_ c' j.
  Proof.
    clear - N. intros Hj E. unfold nth_res in E. unfold at_. destruct (j <? 0) eqn:EJ; [lia|].
    destruct (nth_error c (Z.to_nat j)) eqn:E1, (nth_error c' (Z.to_nat j)) eqn:E2; try discriminate.
    - apply nth_error_nth with (d := nzero N) in E1. apply nth_error_nth with (d := nzero N) in E2. congruence.
    - apply nth_error_None in E1, E2. rewrite !nth_overflow; auto.
  Qed.

  Lemma scan_gen c first last mid : 0 <= first -> last + 1 < zlen c ->
    forall fuel i maxd minpos index maxd' index', first < i ->
    scan N fuel one c (at_ c first) (at_ c (first + 1)) (at_ c last) (at_ c (last + 1)) i last mid maxd minpos index = Ok (maxd', index') ->
    (nltb N tol maxd = true -> nltb N tol maxd' = true) /\
    (maxd = tol -> nltb N tol maxd' = false -> forall k, 0 <= k -> i + 3 * k < last -> nltb N tol (gdist c (i + 3 * k) first last) = false) /\
    ((nltb N tol maxd = true -> nltb N tol (gdist c index first last) = true) -> (maxd = tol \/ nltb N tol maxd = true) ->
     nltb N tol maxd' = true -> nltb N tol (gdist c index' first last) = true).
  Proof.
    intros H0 H1. induction fuel as [|fuel IH]; intros i maxd minpos index maxd' index' Hi E; cbn [scan] in E.
    - destruct (i <? last) eqn:EL; [discriminate|]. inversion E; subst. repeat split; auto. intros; lia.
    - destruct (i <? last) eqn:EL.
      2:{ inversion E; subst. repeat split; auto. intros; lia. }
      rewrite (at_res c i), (at_res c (i + 1)) in E by lia. cbn [bind] in E.
      fold (gdist c i first last) in E.
      destruct (nltb N maxd (gdist c i first last)) eqn:EM.
      + destruct (IH (i + 3) _ _ _ _ _ ltac:(lia) E) as (I1 & I2 & I3). split; [|split].
        * intros H. apply I1. eapply trans; eauto.
        * intros -> H. rewrite (I1 EM) in H. discriminate.
        * intros _ Hm. apply I3; auto. right. destruct Hm as [->|Hm]; auto. eapply trans; eauto.
      + assert (step : forall p x, scan N fuel one c (at_ c first) (at_ c (first + 1)) (at_ c last) (at_ c (last + 1)) (i + 3) last mid maxd p x = Ok (maxd', index') ->
          (nltb N tol maxd = true -> nltb N tol (gdist c index first last) = true -> nltb N tol (gdist c x first last) = true) ->
          (nltb N tol maxd = true -> nltb N tol maxd' = true) /\
          (maxd = tol -> nltb N tol maxd' = false -> forall k, 0 <= k -> i + 3 * k < last -> nltb N tol (gdist c (i + 3 * k) first last) = false) /\
          ((nltb N tol maxd = true -> nltb N tol (gdist c index first last) = true) -> (maxd = tol \/ nltb N tol maxd = true) ->
           nltb N tol maxd' = true -> nltb N tol (gdist c index' first last) = true)).
        { intros p x E' HX. destruct (IH (i + 3) _ _ _ _ _ ltac:(lia) E') as (I1 & I2 & I3). split; [|split]; auto.
          intros -> H k Hk Hl. destruct (Z.eq_dec k 0) as [->|].
          - replace (i + 3 * 0) with i by lia. auto.
          - replace (i + 3 * k) with (i + 3 + 3 * (k - 1)) by lia. apply I2; auto; lia. }
        destruct (neqb N (gdist c i first last) maxd) eqn:EQ; [destruct (_ <? minpos)|]; eapply step; eauto.
  Qed.

  (** the vertices kept so far between vertex 0 and vertex n, and how far the others are *)
  Definition dropped_ok (c : list F) (first n : Z) : Prop :=
    forall k, 0 < k < n -> over c (first + 3 * k) = false ->
    exists ka kb, 0 <= ka < k /\ k < kb <= n /\
      (ka = 0 \/ over c (first + 3 * ka) = true) /\ (kb = n \/ over c (first + 3 * kb) = true) /\
      (forall j, ka < j < kb -> over c (first + 3 * j) = false) /\
      nltb N tol (gdist c (first + 3 * k) (first + 3 * ka) (first + 3 * kb)) = false.
  Definition kept_ok (c : list F) (first n : Z) : Prop :=
    forall k, 0 < k < n -> over c (first + 3 * k) = true ->
    exists ka kb, 0 <= ka < k /\ k < kb <= n /\
      (ka = 0 \/ over c (first + 3 * ka) = true) /\ (kb = n \/ over c (first + 3 * kb) = true) /\
      nltb N tol (gdist c (first + 3 * k) (first + 3 * ka) (first + 3 * kb)) = true.

  Definition same_xy (c c' : list F) (first n : Z) : Prop :=
    forall k, 0 <= k <= n -> at_ c' (first + 3 * k) = at_ c (first + 3 * k) /\ at_ c' (first + 3 * k + 1) = at_ c (first + 3 * k + 1).
  Lemma gdist_same c c' first n i a b : same_xy c c' first n -> 0 <= i <= n -> 0 <= a <= n -> 0 <= b <= n ->
    gdist c' (first + 3 * i) (first + 3 * a) (first + 3 * b) = gdist c (first + 3 * i) (first + 3 * a) (first + 3 * b).
  Proof. intros H Hi Ha Hb. unfold gdist. destruct (H i Hi) as [-> ->]. destruct (H a Ha) as [-> ->]. destruct (H b Hb) as [-> ->]. reflexivity. Qed.

  Lemma dropped_ext c c' first n : same_xy c c' first n -> (forall k, 0 < k < n -> over c' (first + 3 * k) = over c (first + 3 * k)) ->
    dropped_ok c first n -> dropped_ok c' first n.
  Proof.
    intros Hxy Hf HG k Hk Hl. rewrite Hf in Hl by lia. destruct (HG k Hk Hl) as (ka & kb & H1 & H2 & H3 & H4 & H5 & H6).
    exists ka, kb. split; auto. split; auto. split; [|split; [|split]].
    - destruct (Z.eq_dec ka 0); auto. destruct H3 as [|H3]; auto. right. rewrite Hf by lia. auto.
    - destruct (Z.eq_dec kb n); auto. destruct H4 as [|H4]; auto. right. rewrite Hf by lia. auto.
    - intros j Hj. rewrite Hf by lia. auto.
    - rewrite (gdist_same c c' first n) by (auto; lia). auto.
  Qed.
  Lemma kept_ext c c' first n : same_xy c c' first n -> (forall k, 0 < k < n -> over c' (first + 3 * k) = over c (first + 3 * k)) ->
    kept_ok c first n -> kept_ok c' first n.
  Proof.
    intros Hxy Hf HG k Hk Hl. rewrite Hf in Hl by lia. destruct (HG k Hk Hl) as (ka & kb & H1 & H2 & H3 & H4 & H6).
    exists ka, kb. split; auto. split; auto. split; [|split].
    - destruct (Z.eq_dec ka 0); auto. destruct H3 as [|H3]; auto. right. rewrite Hf by lia. auto.
    - destruct (Z.eq_dec kb n); auto. destruct H4 as [|H4]; auto. right. rewrite Hf by lia. auto.
    - rewrite (gdist_same c c' first n) by (auto; lia). auto.
  Qed.

  Lemma frame_over c c' first last i : 0 <= i ->
    (forall j, ~ flag_pos first last j -> nth_res c' j = nth_res c j) -> ~ flag_pos first last (i + 2) -> over c' i = over c i.
  Proof. intros H0 HJ HN. unfold over. f_equal. apply at_eq; [lia|]. auto. Qed.
  Lemma frame_same c c' first last base n : 0 <= base -> (exists q, base = first + 3 * q) ->
    (forall j, ~ flag_pos first last j -> nth_res c' j = nth_res c j) -> same_xy c c' base n.
  Proof. clear - N. intros H0 (q & Hq) HJ k Hk. split; apply at_eq; try lia; apply HJ; intros (r & Hr & E); lia. Qed.

  Lemma simplify_gen : forall fuel c first n c', 0 <= first -> 0 <= n -> first + 3 * n + 1 < zlen c ->
    (3 * n < Z.of_nat fuel)%Z -> (forall k, 0 < k < n -> over c (first + 3 * k) = false) ->
    Simplify N fuel one c first (first + 3 * n) tol = Ok c' -> dropped_ok c' first n /\ kept_ok c' first n.
  Proof.
    induction fuel as [|fuel IH]; intros c first n c' H0 Hn HL Hf Hz E; [lia|]. cbn [Simplify] in E.
    set (last := first + 3 * n) in *.
    rewrite (at_res c first), (at_res c (first + 1)), (at_res c last), (at_res c (last + 1)) in E by lia. cbn [bind] in E.
    destruct (scan_shape N one tol irr c (at_ c first) (at_ c (first + 1)) (at_ c last) (at_ c (last + 1)) first last (Z.shiftr (last - first) 1) H0 ltac:(lia)
      (Z.to_nat (last - first)) (first + 3) tol (last - first) 0) as (maxd & index & ES & Hinv); auto; try lia. { exists 1; lia. }
    rewrite ES in E. cbn [bind] in E.
    unshelve epose proof (scan_gen c first last (Z.shiftr (last - first) 1) H0 _ _ _ _ _ _ _ _ _ ES) as (_ & Hmax & Hidx); [lia..|].
    destruct (nltb N tol maxd) eqn:HM.
    2:{ assert (c = c') by congruence. subst c'. split; [|intros k Hk H; rewrite (Hz k Hk) in H; discriminate].
        intros k Hk _. exists 0, n. split; [lia|]. split; [lia|]. split; auto. split; auto.
        split; [intros; apply Hz; lia|]. replace (first + 3 * 0) with first by lia.
        specialize (Hmax eq_refl eq_refl (k - 1) ltac:(lia) ltac:(lia)). replace (first + 3 + 3 * (k - 1)) with (first + 3 * k) in Hmax by lia. auto. }
    destruct Hinv as [->|(Hi & m & Hm)]; [congruence|]. subst index.
    specialize (Hidx ltac:(rewrite irr; discriminate) (or_introl eq_refl) eq_refl).
    (* left part *)
    assert (S1 : exists c1, (if 3 <? first + 3 * m - first then Simplify N fuel one c first (first + 3 * m) tol else Ok c) = Ok c1 /\
       zlen c1 = zlen c /\ (forall j, ~ flag_pos first (first + 3 * m) j -> nth_res c1 j = nth_res c j) /\ dropped_ok c1 first m /\ kept_ok c1 first m).
    { destruct (3 <? first + 3 * m - first) eqn:E3.
      - destruct (simplify_shape N one tol irr fuel c first (first + 3 * m)) as (c1 & EC & EL & HJ); try lia.
        exists c1. split; auto. split; auto. split; auto. eapply (IH c); eauto; try lia; intros; apply Hz; lia.
      - exists c. split; auto. split; auto. split; auto. split; intros k Hk; lia. }
    destruct S1 as (c1 & EC1 & EL1 & HJ1 & G1 & K1). rewrite EC1 in E. cbn [bind] in E.
    destruct (set_res_ok c1 (first + 3 * m + 2) maxd ltac:(lia)) as (c2 & EC2 & EL2 & HV2 & HJ2). rewrite EC2 in E. cbn [bind] in E.
    assert (F2 : forall k, 0 <= k -> k <> m -> over c2 (first + 3 * k) = over c1 (first + 3 * k)).
    { intros k Hk Hkm. unfold over. f_equal. apply at_eq; [lia|]. apply HJ2. lia. }
    assert (F1 : forall k, m <= k -> over c1 (first + 3 * k) = over c (first + 3 * k)).
    { intros k Hk. apply frame_over with (first := first) (last := first + 3 * m); auto; [lia|]. intros (q & Hq & E'). lia. }
    (* right part *)
    assert (S3 : (forall j, ~ flag_pos (first + 3 * m) last j -> nth_res c' j = nth_res c2 j) /\ dropped_ok c' (first + 3 * m) (n - m) /\ kept_ok c' (first + 3 * m) (n - m)).
    { destruct (3 <? last - (first + 3 * m)) eqn:E3.
      - destruct (simplify_shape N one tol irr fuel c2 (first + 3 * m) last) as (c3 & EC & EL & HJ); try lia.
        assert (c3 = c') by congruence. subst c3. split; auto.
        replace last with (first + 3 * m + 3 * (n - m)) in EC by lia. eapply IH; eauto; try lia.
        intros k Hk. replace (first + 3 * m + 3 * k) with (first + 3 * (m + k)) by lia. rewrite F2, F1 by lia. apply Hz. lia.
      - assert (c2 = c') by congruence. subst c'. split; auto. split; intros k Hk; lia. }
    destruct S3 as (HJ3 & G3 & K3).
    assert (X3 : same_xy c1 c' first n).
    { intros k Hk. assert (A : forall e, e = 0 \/ e = 1 -> at_ c' (first + 3 * k + e) = at_ c1 (first + 3 * k + e)).
      { intros e He. transitivity (at_ c2 (first + 3 * k + e)); apply at_eq; try lia; [apply HJ3; intros (r & Hr & E'); lia|apply HJ2; lia]. }
      split; [replace (first + 3 * k) with (first + 3 * k + 0) by lia|]; apply A; auto. }
    assert (X0 : same_xy c c1 first n) by (apply frame_same with (first := first) (last := first + 3 * m); auto; exists 0; lia).
    assert (F3 : forall k, 0 <= k < m -> over c' (first + 3 * k) = over c1 (first + 3 * k)).
    { intros k Hk. rewrite <- F2 by lia. apply frame_over with (first := first + 3 * m) (last := last); auto; [lia|]. intros (q & Hq & E'). lia. }
    assert (FM : over c' (first + 3 * m) = true).
    { transitivity (over c2 (first + 3 * m)).
      - apply frame_over with (first := first + 3 * m) (last := last); auto; [lia|]. intros (q & Hq & E'). lia.
      - unfold over, at_. apply nth_res_ok in HV2. destruct HV2 as [_ HV2]. apply nth_error_nth with (d := nzero N) in HV2. rewrite HV2. auto. }
    assert (X3m : same_xy c1 c' first m) by (intros k Hk; apply X3; lia).
    assert (G1' : dropped_ok c' first m). { apply (dropped_ext c1); auto. intros; apply F3; lia. }
    assert (K1' : kept_ok c' first m). { apply (kept_ext c1); auto. intros; apply F3; lia. }
    split; intros k Hk Hl; (destruct (Z.lt_trichotomy k m) as [Hkm|[->|Hkm]]).
    - destruct (G1' k ltac:(lia) Hl) as (ka & kb & A1 & A2 & A3 & A4 & A5 & A6). exists ka, kb. split; auto. split; [lia|]. split; auto.
      split; [|auto]. destruct A4 as [->|]; auto.
    - congruence.
    - destruct (G3 (k - m) ltac:(lia)) as (ka & kb & A1 & A2 & A3 & A4 & A5 & A6).
      { replace (first + 3 * m + 3 * (k - m)) with (first + 3 * k) by lia. auto. }
      exists (ka + m), (kb + m). split; [lia|]. split; [lia|].
      replace (first + 3 * (ka + m)) with (first + 3 * m + 3 * ka) by lia. replace (first + 3 * (kb + m)) with (first + 3 * m + 3 * kb) by lia.
      replace (first + 3 * m + 3 * (k - m)) with (first + 3 * k) in A6 by lia. split; [|split; [|split; auto]].
      + destruct A3 as [->|]; auto. right. replace (first + 3 * m + 3 * 0) with (first + 3 * m) by lia. auto.
      + destruct A4 as [->|]; auto. left. lia.
      + intros j Hj. specialize (A5 (j - m) ltac:(lia)). replace (first + 3 * m + 3 * (j - m)) with (first + 3 * j) in A5 by lia. auto.
    - destruct (K1' k ltac:(lia) Hl) as (ka & kb & A1 & A2 & A3 & A4 & A5). exists ka, kb. split; auto. split; [lia|]. split; auto.
      split; [|auto]. destruct A4 as [->|]; auto.
    - exists 0, n. split; [lia|]. split; [lia|]. split; auto. split; auto.
      rewrite (gdist_same c1 c' first n), (gdist_same c c1 first n) by (auto; lia). replace (first + 3 * 0) with first by lia. exact Hidx.
    - destruct (K3 (k - m) ltac:(lia)) as (ka & kb & A1 & A2 & A3 & A4 & A5).
      { replace (first + 3 * m + 3 * (k - m)) with (first + 3 * k) by lia. auto. }
      exists (ka + m), (kb + m). split; [lia|]. split; [lia|].
      replace (first + 3 * (ka + m)) with (first + 3 * m + 3 * ka) by lia. replace (first + 3 * (kb + m)) with (first + 3 * m + 3 * kb) by lia.
      replace (first + 3 * m + 3 * (k - m)) with (first + 3 * k) in A5 by lia. split; [|split; auto].
      + destruct A3 as [->|]; auto. right. replace (first + 3 * m + 3 * 0) with (first + 3 * m) by lia. auto.
      + destruct A4 as [->|]; auto. left. lia.
  Qed.
End Gen.

(** ** binary64 *)
Lemma Bltb_trans (a b c : f64) : Bltb a b = true -> Bltb b c = true -> Bltb a c = true.
Proof.
  destruct (is_finite a) eqn:Ea, (is_finite b) eqn:Eb, (is_finite c) eqn:Ec.
  - rewrite !Bltb_correct by auto. intros H1 H2. apply Rlt_bool_true. destruct (Rlt_bool_spec (B2R a) (B2R b)), (Rlt_bool_spec (B2R b) (B2R c)); try discriminate. lra.
  - destruct a as [s|s| |s m e]; try discriminate; destruct b as [s'|s'| |s' m' e']; try discriminate; destruct c as [t|[|]| |t m'' e'']; try discriminate; intros; auto; try discriminate.
  - destruct a as [s|s| |s m e]; try discriminate; destruct b as [s'|[|]| |s' m' e']; try discriminate; destruct c as [t|t| |t m'' e'']; try discriminate; intros; auto; discriminate.
  - destruct a as [s|s| |s m e]; try discriminate; destruct b as [s'|[|]| |s' m' e']; try discriminate; destruct c as [t|[|]| |t m'' e'']; try discriminate; intros; auto; discriminate.
  - destruct a as [s|[|]| |s m e]; try discriminate; destruct b as [s'|s'| |s' m' e']; try discriminate; destruct c as [t|t| |t m'' e'']; try discriminate; intros; auto; discriminate.
  - destruct a as [s|[|]| |s m e]; try discriminate; destruct b as [s'|s'| |s' m' e']; try discriminate; destruct c as [t|[|]| |t m'' e'']; try discriminate; intros; auto; discriminate.
  - destruct a as [s|[|]| |s m e]; try discriminate; destruct b as [s'|[|]| |s' m' e']; try discriminate; destruct c as [t|t| |t m'' e'']; try discriminate; intros; auto; discriminate.
  - destruct a as [s|[|]| |s m e]; try discriminate; destruct b as [s'|[|]| |s' m' e']; try discriminate; destruct c as [t|[|]| |t m'' e'']; try discriminate; intros; auto; discriminate.
Qed.
Lemma Beqb_lt (t a b : f64) : Beqb a b = true -> Bltb t b = true -> Bltb t a = true.
Proof.
  destruct (is_finite a) eqn:Ea, (is_finite b) eqn:Eb.
  - destruct (is_finite t) eqn:Et.
    + rewrite Beqb_correct, !Bltb_correct by auto. intros H1 H2. apply Rlt_bool_true. destruct (Req_bool_spec (B2R a) (B2R b)), (Rlt_bool_spec (B2R t) (B2R b)); try discriminate. lra.
    + destruct t as [s|[|]| |s m e]; try discriminate; destruct b; try discriminate; destruct a; try discriminate; intros; auto; discriminate.
  - destruct a as [s|s| |s m e]; try discriminate; destruct b as [s'|[|]| |s' m' e']; try discriminate; intros; auto; discriminate.
  - destruct a as [s|[|]| |s m e]; try discriminate; destruct b as [s'|s'| |s' m' e']; try discriminate; intros; auto; discriminate.
  - destruct a as [s|[|]| |s m e]; try discriminate; destruct b as [s'|[|]| |s' m' e']; try discriminate; intros; auto; discriminate.
Qed.

(** The number in entry [i]. *)
Definition v64 (c : list f64) (i : Z) : R := B2R (nth (Z.to_nat i) c (B754_zero false)).
Definition pt64 (c : list f64) (i : Z) : rpt := (v64 c i, v64 c (i + 1)).
(** Entry [i] is finite, at most [2^k] in absolute value, and zero or at least [2^-400]. *)
Definition usable (k : Z) (c : list f64) (i : Z) : Prop :=
  is_finite (nth (Z.to_nat i) c (B754_zero false)) = true /\ (Rabs (v64 c i) <= bpow radix2 k)%R /\ (v64 c i = 0 \/ bpow radix2 (-400) <= Rabs (v64 c i))%R.
(** The third entry of the vertex at [i] is above the tolerance: the vertex is kept. *)
Definition kept (tol : f64) (c : list f64) (i : Z) : bool := Bltb tol (nth (Z.to_nat (i + 2)) c (B754_zero false)).

(** C122: n + 1 vertices in binary64 with no interior vertex kept beforehand, coordinates up to
    [2^k].  After Simplify every dropped vertex has a point of the segment between the nearest kept
    (or end) vertices around it at squared distance at most the tolerance plus [2^(2k-44)]; every
    kept vertex has two kept (or end) vertices around it such that all points of the segment between
    them are at squared distance more than the tolerance less [2^(2k-44)]; no other entry changes. *)
Theorem C122_simplify : forall k tol coords first n, (-350 <= k <= 40)%Z -> is_finite tol = true ->
  0 <= first -> 0 <= n -> first + 3 * n + 1 < zlen coords ->
  (forall j, 0 <= j <= n -> usable k coords (first + 3 * j) /\ usable k coords (first + 3 * j + 1)) ->
  (forall j, 0 < j < n -> kept tol coords (first + 3 * j) = false) ->
  exists c, Simplify F64Num (S (Z.to_nat (3 * n))) (fint 1) coords first (first + 3 * n) tol = Ok c /\
  (forall j, 0 <= j <= n -> pt64 c (first + 3 * j) = pt64 coords (first + 3 * j)) /\
  (forall j, 0 < j < n -> kept tol c (first + 3 * j) = false ->
   exists ja jb, 0 <= ja < j /\ j < jb <= n /\
     (ja = 0 \/ kept tol c (first + 3 * ja) = true) /\ (jb = n \/ kept tol c (first + 3 * jb) = true) /\
     (forall q, ja < q < jb -> kept tol c (first + 3 * q) = false) /\
     exists s, seg (pt64 coords (first + 3 * ja)) (pt64 coords (first + 3 * jb)) s /\
       (sqdist (pt64 coords (first + 3 * j)) s <= B2R tol + bpow radix2 (2 * k - 44))%R) /\
  (forall j, 0 < j < n -> kept tol c (first + 3 * j) = true ->
   exists ja jb, 0 <= ja < j /\ j < jb <= n /\
     (ja = 0 \/ kept tol c (first + 3 * ja) = true) /\ (jb = n \/ kept tol c (first + 3 * jb) = true) /\
     forall s, seg (pt64 coords (first + 3 * ja)) (pt64 coords (first + 3 * jb)) s ->
       (sqdist (pt64 coords (first + 3 * j)) s > B2R tol - bpow radix2 (2 * k - 44))%R).
Proof.
  intros k tol coords first n Hk Ft H0 Hn HL HU Hz.
  assert (irr : nltb F64Num tol tol = false). { cbn [F64Num nltb]. rewrite Bltb_correct by auto. apply Rlt_bool_false. lra. }
  destruct (simplify_shape F64Num (fint 1) tol irr (S (Z.to_nat (3 * n))) coords first (first + 3 * n)) as (c & E & EL & HJ); try lia.
  exists c. split; auto.
  destruct (simplify_gen F64Num (fint 1) tol irr (fun a b => Bltb_trans tol a b) (fun a b => Beqb_lt tol a b) (S (Z.to_nat (3 * n))) coords first n c H0 Hn HL ltac:(lia) Hz E) as [GD GK].
  assert (X : same_xy F64Num coords c first n) by (apply frame_same with (first := first) (last := first + 3 * n); auto; exists 0; lia).
  assert (TF : is_f tol (B2R tol)) by (split; auto).
  assert (D : forall i a b, 0 <= i <= n -> 0 <= a <= n -> 0 <= b <= n ->
    exists r, is_f (gdist F64Num (fint 1) c (first + 3 * i) (first + 3 * a) (first + 3 * b)) r /\
      (Rabs (r - GetSqSegDist RNum 1 (fst (pt64 coords (first + 3 * i))) (snd (pt64 coords (first + 3 * i))) (fst (pt64 coords (first + 3 * a))) (snd (pt64 coords (first + 3 * a)))
        (fst (pt64 coords (first + 3 * b))) (snd (pt64 coords (first + 3 * b)))) <= bpow radix2 (2 * k - 44))%R).
  { intros i a b Hi Ha Hb. rewrite (gdist_same F64Num (fint 1) coords c first n) by auto.
    destruct (HU i Hi) as [(I1 & I2 & I3) (I4 & I5 & I6)]. destruct (HU a Ha) as [(A1 & A2 & A3) (A4 & A5 & A6)]. destruct (HU b Hb) as [(B1 & B2 & B3) (B4 & B5 & B6)].
    apply (dist_near k Hk); auto; split; auto. }
  assert (LT : forall f r, is_f f r -> nltb F64Num tol f = Rlt_bool (B2R tol) r).
  { intros f r [F1 F2]. cbn [F64Num nltb]. rewrite Bltb_correct by auto. rewrite F2. reflexivity. }
  split; [|split].
  - intros j Hj. unfold pt64, v64. destruct (X j Hj) as [X1 X2]. unfold at_ in X1, X2. cbn [F64Num nzero] in X1, X2. rewrite X1, X2. reflexivity.
  - intros j Hj Hl. destruct (GD j Hj Hl) as (ja & jb & A1 & A2 & A3 & A4 & A5 & A6). exists ja, jb. repeat (split; auto).
    destruct (D j ja jb ltac:(lia) ltac:(lia) ltac:(lia)) as (r & Fr & Hr). rewrite (LT _ _ Fr) in A6. destruct (Rlt_bool_spec (B2R tol) r); [discriminate|].
    destruct (C35_distance_is_minimum (pt64 coords (first + 3 * j)) (pt64 coords (first + 3 * ja)) (pt64 coords (first + 3 * jb))) as [(s & Hs & Es) _].
    exists s. split; auto. rewrite Es. apply ab in Hr. lra.
  - intros j Hj Hl. destruct (GK j Hj Hl) as (ja & jb & A1 & A2 & A3 & A4 & A6). exists ja, jb. repeat (split; auto).
    destruct (D j ja jb ltac:(lia) ltac:(lia) ltac:(lia)) as (r & Fr & Hr). rewrite (LT _ _ Fr) in A6. destruct (Rlt_bool_spec (B2R tol) r); [|discriminate].
    destruct (C35_distance_is_minimum (pt64 coords (first + 3 * j)) (pt64 coords (first + 3 * ja)) (pt64 coords (first + 3 * jb))) as [_ Hm].
    intros s Hs. specialize (Hm s Hs). apply ab in Hr. lra.
Qed.
Print Assumptions C122_simplify.

(** The same for exact arithmetic, where nothing has to be allowed for: the vertices kept are no
    more than the tolerance demands. *)
Theorem C122_kept_exact : forall tol coords first n, 0 <= first -> 0 <= n -> first + 3 * n + 1 < zlen coords ->
  (forall j, 0 < j < n -> (flag coords (first + 3 * j) <= tol)%R) ->
  exists c, Simplify RNum (S (Z.to_nat (3 * n))) 1%R coords first (first + 3 * n) tol = Ok c /\
  forall j, 0 < j < n -> (flag c (first + 3 * j) > tol)%R ->
  exists ja jb, 0 <= ja < j /\ j < jb <= n /\
    (ja = 0 \/ (flag c (first + 3 * ja) > tol)%R) /\ (jb = n \/ (flag c (first + 3 * jb) > tol)%R) /\
    forall s, seg (xy coords (first + 3 * ja)) (xy coords (first + 3 * jb)) s -> (sqdist (xy coords (first + 3 * j)) s > tol)%R.
Proof.
  intros tol coords first n H0 Hn HL Hz.
  assert (LTB : forall a b, nltb RNum a b = true <-> (b > a)%R) by (intros a b; cbn [RNum nltb]; destruct (Rltb_spec a b); split; intros; auto; try discriminate; exfalso; lra).
  assert (irr : nltb RNum tol tol = false) by (cbn [RNum nltb]; apply Rltb_false; lra).
  destruct (simplify_shape RNum 1%R tol irr (S (Z.to_nat (3 * n))) coords first (first + 3 * n)) as (c & E & EL & HJ); try lia.
  exists c. split; auto.
  assert (TR : forall a b, nltb RNum tol a = true -> nltb RNum a b = true -> nltb RNum tol b = true) by (intros a b; rewrite !LTB; lra).
  assert (EQ : forall a b, neqb RNum a b = true -> nltb RNum tol b = true -> nltb RNum tol a = true).
  { intros a b; rewrite !LTB. cbn [RNum neqb]. destruct (Reqb_spec a b); [lra|discriminate]. }
  destruct (simplify_gen RNum 1%R tol irr TR EQ (S (Z.to_nat (3 * n))) coords first n c H0 Hn HL ltac:(lia)) as [_ GK]; auto.
  { intros j Hj. specialize (Hz j Hj). unfold over. destruct (nltb RNum tol (at_ RNum coords (first + 3 * j + 2))) eqn:E1; auto. apply LTB in E1. unfold flag in Hz. unfold at_ in E1. cbn [RNum nzero] in E1. lra. }
  assert (X : same_xy RNum coords c first n) by (apply frame_same with (first := first) (last := first + 3 * n); auto; exists 0; lia).
  intros j Hj Hl. destruct (GK j Hj) as (ja & jb & A1 & A2 & A3 & A4 & A5). { apply LTB. exact Hl. }
  exists ja, jb. split; auto. split; auto. split; [destruct A3 as [|A3]; auto; right; apply LTB in A3; exact A3|]. split; [destruct A4 as [|A4]; auto; right; apply LTB in A4; exact A4|].
  intros s Hs. rewrite (gdist_same RNum 1%R coords c first n) in A5 by (auto; lia). apply LTB in A5.
  destruct (C35_distance_is_minimum (xy coords (first + 3 * j)) (xy coords (first + 3 * ja)) (xy coords (first + 3 * jb))) as [_ Hm].
  specialize (Hm s Hs). unfold gdist, at_ in A5. unfold xy in Hm at 1 2 3 4 5 6. cbn [fst snd RNum nzero] in *. lra.
Qed.
Print Assumptions C122_kept_exact.

Definition sfs (r : res (list f64)) := match r with Ok l => Some (map B2SF l) | _ => None end.
Lemma sfs_inj r l : sfs r = Some (map B2SF l) -> r = Ok l.
Proof.
  unfold sfs. destruct r as [l'| |]; try discriminate. intros H. injection H as H. f_equal. revert l' H. induction l as [|a l IH]; intros [|b l'] H; try discriminate; auto.
  cbn [map] in H. injection H as H1 H2. f_equal; auto. apply B2SF_inj; auto.
Qed.

(** A kept vertex. *)
Example C122_nonvacuous : let c := map fint [0; 0; 0; 1; 2; 0; 2; 0; 0] in
  (forall i, 0 <= i < 9 -> usable 1 c i) /\
  Simplify F64Num 7 (fint 1) c 0 6 (fint 1) = Ok (map fint [0; 0; 0; 1; 2; 4; 2; 0; 0]) /\
  kept (fint 1) (map fint [0; 0; 0; 1; 2; 4; 2; 0; 0]) 3 = true.
Proof.
  cbv zeta. split; [|split; [apply sfs_inj; vm_compute; reflexivity|vm_compute; reflexivity]].
  assert (U : forall z, 0 <= z <= 2 -> is_finite (fint z) = true /\ (Rabs (B2R (fint z)) <= bpow radix2 1)%R /\ (B2R (fint z) = 0 \/ bpow radix2 (-400) <= Rabs (B2R (fint z)))%R).
  { intros z Hz. destruct (f_int z ltac:(lia)) as [F1 F2]. split; auto. rewrite F2. assert (C : z = 0 \/ z = 1 \/ z = 2) by lia.
    assert (bpow radix2 (-400) <= 1)%R by (change 1%R with (bpow radix2 0); apply bpow_le; lia). change (bpow radix2 1) with 2%R.
    destruct C as [->|[->| ->]]; rewrite Rabs_right by lra; split; lra. }
  intros i Hi. unfold usable, v64. assert (C : i = 0 \/ i = 1 \/ i = 2 \/ i = 3 \/ i = 4 \/ i = 5 \/ i = 6 \/ i = 7 \/ i = 8) by lia.
  decompose [or] C; subst i; cbn [Z.to_nat Pos.to_nat Pos.iter_op Init.Nat.add nth map]; apply U; lia.
Qed.

(** Without the allowance the statement is false: the vertex (1, 1 + 2^-30) between (0, 0) and
    (2, 0) is at squared distance 1 + 2^-29 + 2^-60, and is dropped at tolerance 1 + 2^-29. *)
Definition y30 : f64 := @B754_finite 53 1024 false 4503599631564800 (-52) eq_refl.
Definition tol29 : f64 := @B754_finite 53 1024 false 4503599635759104 (-52) eq_refl.
Theorem C122_exact_refuted : let c := [fint 0; fint 0; fint 0; fint 1; y30; fint 0; fint 2; fint 0; fint 0] in
  Simplify F64Num 7 (fint 1) c 0 6 tol29 = Ok c /\ kept tol29 c 3 = false /\
  forall s, seg (pt64 c 0) (pt64 c 6) s -> (sqdist (pt64 c 3) s > B2R tol29)%R.
Proof.
  cbv zeta. split; [apply sfs_inj; vm_compute; reflexivity|]. split; [vm_compute; reflexivity|].
  intros s Hs. set (c := [fint 0; fint 0; fint 0; fint 1; y30; fint 0; fint 2; fint 0; fint 0]) in *.
  assert (E0 : pt64 c 0 = (B2R (fint 0), B2R (fint 0))) by reflexivity. assert (E6 : pt64 c 6 = (B2R (fint 2), B2R (fint 0))) by reflexivity.
  assert (E3 : pt64 c 3 = (B2R (fint 1), B2R y30)) by reflexivity. rewrite E0, E6 in Hs. rewrite E3. clear c E0 E3 E6.
  assert (I : forall z, 0 <= z <= 2 -> B2R (fint z) = IZR z) by (intros z Hz; apply f_int; lia). rewrite !I in * by lia.
  assert (B : bpow radix2 (-52) = (/ 4503599627370496)%R) by (exact (bpm 52 4503599627370496 ltac:(lia) eq_refl)).
  assert (Y : B2R y30 = (4503599631564800 * / 4503599627370496)%R) by (unfold y30, B2R, F2R; cbn [Fnum Fexp cond_Zopp]; rewrite B; reflexivity).
  assert (T : B2R tol29 = (4503599635759104 * / 4503599627370496)%R) by (unfold tol29, B2R, F2R; cbn [Fnum Fexp cond_Zopp]; rewrite B; reflexivity).
  rewrite T. destruct s as [sx sy]. unfold sqdist. cbn [fst snd]. rewrite Y.
  assert (S0 : sy = 0%R). { apply seg_at in Hs. destruct Hs as (t & _ & E). injection E as _ ->. cbn [fst snd]. ring. }
  subst sy. pose proof (Rle_0_sqr (1 - sx)) as Q. unfold Rsqr in Q. lra.
Qed.
Print Assumptions C122_exact_refuted.
