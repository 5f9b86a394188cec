(** Property C124: point in polygon in binary64 arithmetic. *)
From Coq Require Import ZArith Reals List Bool Lia Lra.
From Flocq Require Import Core BinarySingleNaN.
From Verif Require Import GoBase Num TileF64_Model F64 TileF64_Proofs ColorF64_Model ColorF64_Proofs Clip_Spec Clip64_Proofs Simplify64_Proofs Cover_Spec Cover_Model Cover_Proofs Pip64_Model.
Import ListNotations.
Open Scope R_scope.

(** ** The abscissa of an edge at a height *)
Lemma quot_core a b c d e e3 h M : 0 < M -> Rabs b <= 2 * M -> c <> 0 -> 0 <= a / c <= 1 -> Rabs d <= 31 / 10 * uu -> Rabs e <= uu -> Rabs e3 <= uu ->
  Rabs h <= M * uu / 10 -> Rabs (a * b * (1 + d) / (c * (1 + e3)) * (1 + e) + h - a * b / c) <= 12 * (M * uu).
Proof.
  intros HM Hb Hc Ht Hd He He3 Hh. assert (U : uu <= / 1000000000) by (unfold uu; lra). pose proof uu_pos as UP.
  set (t := a / c) in *. apply ab in Hd, He, He3, Hh.
  assert (E0 : a * b * (1 + d) / (c * (1 + e3)) * (1 + e) = t * b * ((1 + d) * (1 + e) / (1 + e3))) by (unfold t; field; split; lra).
  assert (E1 : a * b / c = t * b) by (unfold t; field; auto). rewrite E0, E1.
  set (r := (1 + d) * (1 + e) / (1 + e3)).
  assert (Er : Rabs (r - 1) <= 55 / 10 * uu).
  { assert (X : r * (1 + e3) = (1 + d) * (1 + e)) by (unfold r; field; lra). clearbody r.
    assert (DE : - uu / 100 <= d * e <= uu / 100). { assert (Rabs (d * e) <= 31 / 10 * uu * uu). { rewrite Rabs_mult. apply Rmult_le_compat; try apply Rabs_pos; apply ab; lra. } apply ab in H. assert (31 / 10 * uu * uu <= uu / 100) by (clear - U UP; nra). lra. }
    replace (r - 1) with ((d + e + d * e - e3) / (1 + e3)) by (apply Rmult_eq_reg_r with (1 + e3); [|lra]; unfold Rdiv; rewrite Rmult_assoc, Rinv_l by lra; lra).
    unfold Rdiv. rewrite Rabs_mult, Rabs_inv, (Rabs_right (1 + e3)) by lra. apply Rmult_le_reg_r with (1 + e3); [lra|]. rewrite Rmult_assoc, Rinv_l by lra. rewrite Rmult_1_r.
    apply Rle_trans with (52 / 10 * uu); [apply ab; lra|]. clear - U UP He3. nra. }
  assert (TB : Rabs (t * b) <= 2 * M). { rewrite Rabs_mult. apply Rle_trans with (1 * (2 * M)); [|lra]. apply Rmult_le_compat; try apply Rabs_pos; auto. apply ab. lra. }
  replace (t * b * r + h - t * b) with (t * b * (r - 1) + h) by ring.
  assert (P : Rabs (t * b * (r - 1)) <= 2 * M * (55 / 10 * uu)) by (rewrite Rabs_mult; apply Rmult_le_compat; try apply Rabs_pos; auto).
  apply ab in P. apply ab. assert (0 < M * uu) by (apply Rmult_lt_0_compat; auto). lra.
Qed.

(** finite, at most [2^k], zero or at least [2^-400] *)
Definition ok_coord (k : Z) (x : f64) : Prop := is_finite x = true /\ Rabs (B2R x) <= bpow radix2 k /\ (B2R x = 0 \/ bpow radix2 (-400) <= Rabs (B2R x)).
Definition ok_pt (k : Z) (p : f64 * f64) : Prop := ok_coord k (fst p) /\ ok_coord k (snd p).
Definition val (p : f64 * f64) : R * R := (B2R (fst p), B2R (snd p)).

Lemma xint_near k (px py cx cy nx ny : f64) : (-350 <= k <= 40)%Z -> ok_coord k py -> ok_coord k cx -> ok_coord k cy -> ok_coord k nx -> ok_coord k ny ->
  B2R cy <= B2R py < B2R ny \/ B2R ny <= B2R py < B2R cy ->
  exists r, is_f (fadd (fdiv (fmul (fsub py cy) (fsub nx cx)) (fsub ny cy)) cx) r /\
    Rabs (r - ((B2R py - B2R cy) * (B2R nx - B2R cx) / (B2R ny - B2R cy) + B2R cx)) <= bpow radix2 (k - 49).
Proof.
  intros Hk (Fp & Bp & Cp) (Fc & Bc & Cc) (Fd & Bd & Cd) (Fn & Bn & Cn) (Fm & Bm & Cm) H.
  set (M := bpow radix2 k) in *. assert (Mp : 0 < M) by apply bpow_gt_0.
  assert (IF : forall x : f64, is_finite x = true -> is_f x (B2R x)) by (intros x Hx; split; auto).
  assert (Ip := IF _ Fp). assert (Ic := IF _ Fc). assert (Id := IF _ Fd). assert (In_ := IF _ Fn). assert (Im := IF _ Fm).
  set (y := B2R py) in *. set (x1 := B2R cx) in *. set (y1 := B2R cy) in *. set (x2 := B2R nx) in *. set (y2 := B2R ny) in *. clearbody y x1 y1 x2 y2.
  assert (M2 : forall j, bpow radix2 (k + j) = bpow radix2 j * M) by (intros j; rewrite bk; unfold M; ring).
  assert (UM : forall j, bpow radix2 (k + j - 53) = bpow radix2 j * (M * uu)) by (intros j; rewrite <- bp53; unfold M; rewrite <- !bpow_plus; f_equal; lia).
  assert (big1 : 1000000 * M <= bpow radix2 1000). { apply Rle_trans with (bpow radix2 (k + 20)); [rewrite M2, (bp 20 1048576) by (reflexivity || lia); lra|apply bpow_le; lia]. }
  assert (US : uu <= / 1000000000) by (unfold uu; lra). pose proof uu_pos as UP. assert (UMp : 0 < M * uu <= M * / 1000000000) by (split; [apply Rmult_lt_0_compat; auto|apply Rmult_le_compat_l; lra]).
  pose proof (is_f_fmt _ _ Ip) as Gp. pose proof (is_f_fmt _ _ Ic) as Gc. pose proof (is_f_fmt _ _ Id) as Gd. pose proof (is_f_fmt _ _ In_) as Gn. pose proof (is_f_fmt _ _ Im) as Gm.
  assert (SUB : forall fu fv u v, is_f fu u -> is_f fv v -> Rabs u <= M -> Rabs v <= M -> is_f (fsub fu fv) (rnd (u - v)) /\ Rabs (rnd (u - v)) <= 2 * M).
  { intros fu fv u v Fu Fv Hu Hv. assert (AA : Rabs (u - v) <= 2 * M) by (apply ab in Hu, Hv; apply ab; lra). assert (AB : Rabs (u - v) <= bpow radix2 (k + 1)) by (rewrite M2; change (bpow radix2 1) with 2; auto). split; [apply fsub_w; auto; lra|].
    pose proof (rnd_abs (k + 1) (u - v) ltac:(lia) AB) as R1. rewrite M2 in R1. change (bpow radix2 1) with 2 in R1. auto. }
  destruct (SUB _ _ _ _ Ip Id Bp Bd) as [S1 B1]. destruct (SUB _ _ _ _ In_ Ic Bn Bc) as [S2 B2]. destruct (SUB _ _ _ _ Im Id Bm Bd) as [S3 B3].
  destruct (prod_rel (y - y1) (x2 - x1)) as (d & Hd & Ed); [apply grid_sub; apply coarse_grid; auto..|exists y, y1; auto|exists x2, x1; auto|].
  destruct (sub_rel y2 y1 Gm Gd) as (e3 & He3 & E3).
  assert (MM : bpow radix2 (2 * k + 2) = 2 * M * (2 * M)). { replace (2 * k + 2)%Z with (k + (k + 2))%Z by lia. rewrite bpow_plus, M2. fold M. change (bpow radix2 2) with 4. ring. }
  assert (PB : Rabs (rnd (y - y1) * rnd (x2 - x1)) <= bpow radix2 1000).
  { apply Rle_trans with (bpow radix2 (2 * k + 2)); [|apply bpow_le; lia]. rewrite MM, Rabs_mult. apply Rmult_le_compat; try apply Rabs_pos; auto. }
  pose proof (fmul_w _ _ _ _ S1 S2 PB) as F4. rewrite Ed in F4. rewrite E3 in S3.
  assert (C0 : y2 - y1 <> 0) by (destruct H; lra).
  assert (T0 : 0 <= (y - y1) / (y2 - y1) <= 1).
  { destruct H.
    - assert (0 < y2 - y1) by lra. split; [apply Rmult_le_reg_r with (y2 - y1)|apply Rmult_le_reg_r with (y2 - y1)]; auto; unfold Rdiv; rewrite Rmult_assoc, Rinv_l by lra; lra.
    - replace ((y - y1) / (y2 - y1)) with ((y1 - y) / (y1 - y2)) by (field; lra). assert (0 < y1 - y2) by lra. split; apply Rmult_le_reg_r with (y1 - y2); auto; unfold Rdiv; rewrite Rmult_assoc, Rinv_l by lra; lra. }
  assert (BX : Rabs (x2 - x1) <= 2 * M) by (apply ab in Bn, Bc; apply ab; lra).
  set (Q := (y - y1) * (x2 - x1) * (1 + d) / ((y2 - y1) * (1 + e3))).
  assert (EX : Rabs ((y - y1) * (x2 - x1) / (y2 - y1)) <= 2 * M).
  { replace ((y - y1) * (x2 - x1) / (y2 - y1)) with ((y - y1) / (y2 - y1) * (x2 - x1)) by (field; auto). rewrite Rabs_mult. apply Rle_trans with (1 * (2 * M)); [|lra]. apply Rmult_le_compat; try apply Rabs_pos; auto. apply ab. lra. }
  assert (Z1 : Rabs 0 <= uu) by (rewrite Rabs_R0; lra). assert (Z2 : Rabs 0 <= M * uu / 10) by (rewrite Rabs_R0; lra).
  pose proof (quot_core (y - y1) (x2 - x1) (y2 - y1) d 0 e3 0 M Mp BX C0 T0 Hd Z1 He3 Z2) as Q0. fold Q in Q0.
  assert (QB : Rabs Q <= 1000 * M). { apply ab in Q0, EX. apply ab. lra. }
  assert (N3 : (y2 - y1) * (1 + e3) <> 0). { apply Rmult_integral_contrapositive. split; auto. apply ab in He3. lra. }
  pose proof (fdiv_w _ _ _ _ F4 S3 N3 ltac:(fold Q; lra)) as F5. fold Q in F5.
  destruct (any_rel Q) as (e & h & He & Hh & EQ).
  assert (Hh' : Rabs h <= M * uu / 10).
  { eapply Rle_trans; [exact Hh|]. apply Rle_trans with (bpow radix2 (k + -60)); [apply bpow_le; lia|]. rewrite M2. change (-60)%Z with (-53 + -7)%Z. rewrite bpow_plus, bp53. change (bpow radix2 (-7)) with (/ 128). lra. }
  pose proof (quot_core (y - y1) (x2 - x1) (y2 - y1) d e e3 h M Mp BX C0 T0 Hd He He3 Hh') as Q1. fold Q in Q1. rewrite <- EQ in Q1.
  set (q := rnd Q) in *. clearbody q. set (ex := (y - y1) * (x2 - x1) / (y2 - y1)) in *.
  assert (CV : Rabs (ex + x1) <= M).
  { assert (E : ex = (y - y1) / (y2 - y1) * (x2 - x1)) by (unfold ex; field; auto). rewrite E. apply ab in Bn, Bc. apply ab. clear - T0 Bn Bc. set (t := (y - y1) / (y2 - y1)) in *. clearbody t. nra. }
  apply ab in Q1, CV.
  assert (SB : Rabs (q + x1) <= bpow radix2 (k + 1)) by (rewrite M2; change (bpow radix2 1) with 2; apply ab; lra).
  pose proof (rnd_err (k + 1) (q + x1) ltac:(lia) SB) as R1. rewrite UM in R1. change (bpow radix2 1) with 2 in R1. apply ab in R1.
  exists (rnd (q + x1)). split; [apply fadd_w; auto; eapply Rle_trans; [exact SB|]; apply bpow_le; lia|].
  replace (bpow radix2 (k - 49)) with (16 * (M * uu)) by (replace (k - 49)%Z with (k + 4 - 53)%Z by lia; rewrite UM; reflexivity). apply ab. lra.
Qed.

(** No point of the slanted edge [a]-[b] at the height of [p] is within [2^(k-49)] of [p]. *)
Definition clear_of (k : Z) (p a b : rpt) : Prop :=
  fst a <> fst b -> snd a <> snd b -> forall q, seg a b q -> snd q = snd p -> Rabs (fst q - fst p) > bpow radix2 (k - 49).

Lemma edge_agree k (p a b : f64 * f64) : (-350 <= k <= 40)%Z -> ok_pt k p -> ok_pt k a -> ok_pt k b -> clear_of k (val p) (val a) (val b) ->
  pip_edge64 p a b = pip_edge (val p) (val a) (val b).
Proof.
  intros Hk [Op1 Op2] [Oa1 Oa2] [Ob1 Ob2] Hc. destruct p as [px py], a as [ax ay], b as [bx by_]. unfold val, clear_of in *. cbn [fst snd] in *. unfold pip_edge64, pip_edge. cbn [fst snd].
  assert (IF : forall x : f64, ok_coord k x -> is_f x (B2R x)) by (intros x [Hx _]; split; auto).
  assert (Ipx := IF _ Op1). assert (Ipy := IF _ Op2). assert (Iax := IF _ Oa1). assert (Iay := IF _ Oa2). assert (Ibx := IF _ Ob1). assert (Iby := IF _ Ob2).
  rewrite (Bleb_f _ _ _ _ Iby Iay), (Bleb_f _ _ _ _ (fmax_f _ _ _ _ Iax Ibx) Ipx), (Beqb_f _ _ _ _ Iby Iay), (Beqb_f _ _ _ _ Iax Ibx).
  assert (X : (B2R ay <= B2R py < B2R by_ \/ B2R by_ <= B2R py < B2R ay) -> 
    (negb (Reqb (B2R ax) (B2R bx)) && Bleb (fadd (fdiv (fmul (fsub py ay) (fsub bx ax)) (fsub by_ ay)) ax) px) =
    (negb (Reqb (B2R ax) (B2R bx)) && Rleb ((B2R py - B2R ay) * (B2R bx - B2R ax) / (B2R by_ - B2R ay) + B2R ax) (B2R px))).
  { intros H. destruct (Reqb_spec (B2R ax) (B2R bx)) as [E|E]; auto. cbn [negb andb].
    destruct (xint_near k px py ax ay bx by_ Hk Op2 Oa1 Oa2 Ob1 Ob2 H) as (r & Fr & Er). rewrite (Bleb_f _ _ _ _ Fr Ipx).
    set (xe := (B2R py - B2R ay) * (B2R bx - B2R ax) / (B2R by_ - B2R ay) + B2R ax) in *.
    assert (C : Rabs (xe - B2R px) > bpow radix2 (k - 49)).
    { apply (Hc E ltac:(destruct H; lra) (xe, B2R py)); [|reflexivity]. exists ((B2R py - B2R ay) / (B2R by_ - B2R ay)). cbn [fst snd]. split.
      - destruct H.
        + assert (0 < B2R by_ - B2R ay) by lra. split; apply Rmult_le_reg_r with (B2R by_ - B2R ay); auto; unfold Rdiv; rewrite Rmult_assoc, Rinv_l by lra; lra.
        + replace ((B2R py - B2R ay) / (B2R by_ - B2R ay)) with ((B2R ay - B2R py) / (B2R ay - B2R by_)) by (field; lra). assert (0 < B2R ay - B2R by_) by lra. split; apply Rmult_le_reg_r with (B2R ay - B2R by_); auto; unfold Rdiv; rewrite Rmult_assoc, Rinv_l by lra; lra.
      - assert (B2R by_ - B2R ay <> 0) by (destruct H; lra). unfold xe. split; field; auto. }
    clearbody xe. apply ab in Er. unfold Rabs in C. destruct (Rcase_abs (xe - B2R px)), (Rleb_spec r (B2R px)), (Rleb_spec xe (B2R px)); auto; exfalso; lra. }
  destruct (Rleb_spec (B2R by_) (B2R ay)) as [L|L]; cbn [fst snd].
  - rewrite (Bltb_f _ _ _ _ Ipy Iby), (Bleb_f _ _ _ _ Iay Ipy). destruct (Rltb_spec (B2R py) (B2R by_)) as [L1|L1]; auto. destruct (Rleb_spec (B2R ay) (B2R py)) as [L2|L2]; auto. cbn [orb].
    rewrite X by (right; lra). reflexivity.
  - rewrite (Bltb_f _ _ _ _ Ipy Iay), (Bleb_f _ _ _ _ Iby Ipy). destruct (Rltb_spec (B2R py) (B2R ay)) as [L1|L1]; auto. destruct (Rleb_spec (B2R by_) (B2R py)) as [L2|L2]; auto. cbn [orb].
    rewrite X by (left; lra). reflexivity.
Qed.

Lemma filter_len {A B} (f : A -> bool) (g : B -> bool) (h : A -> B) l : (forall a, In a l -> f a = g (h a)) -> length (filter f l) = length (filter g (map h l)).
Proof. induction l as [|a l IH]; intros H; auto. cbn [filter map]. rewrite (H a (or_introl eq_refl)). destruct (g (h a)); cbn [length]; rewrite IH; auto; intros; apply H; right; auto. Qed.
Lemma combine_map {A B} (h : A -> B) l : forall l', combine (map h l) (map h l') = map (fun e => (h (fst e), h (snd e))) (combine l l').
Proof. induction l as [|a l IH]; intros [|b l']; auto. cbn [map combine]. rewrite IH. reflexivity. Qed.
Lemma last_map {A B} (f : A -> B) l d : last (map f l) (f d) = f (last l d).
Proof. induction l as [|a [|b l] IH]; auto. Qed.
Lemma last_in {A} (l : list A) d : l <> [] -> In (last l d) l.
Proof. induction l as [|a [|b l] IH]; intros H; [congruence|left; auto|right; apply IH; discriminate]. Qed.

Lemma ring_agree k c p : (-350 <= k <= 40)%Z -> Forall (ok_pt k) c -> ok_pt k p -> (forall e, In e (ring_edges (map val c)) -> clear_of k (val p) (fst e) (snd e)) ->
  pip_ring64 c p = pip_ring (map val c) (val p).
Proof.
  intros Hk Oc Op Hc. destruct c as [|f l]; [reflexivity|]. unfold pip_ring64, pip_ring. cbn [map].
  rewrite Forall_forall in Oc.
  assert (Ol : ok_pt k (last (f :: l) f)) by (apply Oc, last_in; discriminate). assert (Of : ok_pt k f) by (apply Oc; left; auto).
  assert (EQ : Beqb (fst f) (fst (last (f :: l) f)) = Reqb (fst (val f)) (fst (last (val f :: map val l) (val f)))).
  { change (val f :: map val l) with (map val (f :: l)). rewrite last_map. apply Beqb_f; (split; [|reflexivity]); [apply Of|apply Ol]. }
  rewrite <- EQ. set (b := negb (Beqb (fst f) (fst (last (f :: l) f)))).
  f_equal. set (c' := if b then (f :: l) ++ [f] else f :: l).
  replace (if b then (val f :: map val l) ++ [val f] else val f :: map val l) with (map val c') by (unfold c'; destruct b; auto; rewrite map_app; reflexivity).
  replace (tl (map val c') ++ [val f]) with (map val (tl c' ++ [f])) by (rewrite map_app; unfold c'; destruct b; reflexivity).
  rewrite combine_map. apply filter_len. intros [u v] Hin. cbn [fst snd].
  assert (UV : ok_pt k u /\ ok_pt k v).
  { pose proof (in_combine_l _ _ _ _ Hin) as I1. pose proof (in_combine_r _ _ _ _ Hin) as I2. 
    assert (A : forall w, In w c' -> ok_pt k w) by (intros w Hw; unfold c' in Hw; destruct b; [apply in_app_or in Hw; destruct Hw as [Hw|[<-|[]]]|]; auto).
    split; auto. apply in_app_or in I2. destruct I2 as [I2|[<-|[]]]; auto. apply A. unfold c' in *. destruct b; right; auto. }
  destruct UV as [Ou Ov]. apply (edge_agree k); auto.
  assert (E : In (val u, val v) (ring_edges (map val (f :: l))) \/ (val u, val v) = (val f, val f)).
  { assert (I : In (val u, val v) (combine (map val c') (map val (tl c' ++ [f])))) by (rewrite combine_map; apply in_map_iff; exists (u, v); auto).
    unfold c' in I. destruct b.
    - replace (combine (map val ((f :: l) ++ [f])) (map val (tl ((f :: l) ++ [f]) ++ [f]))) with (edges ((val f :: (map val l ++ [val f])) ++ [val f])) in I
        by (rewrite <- combine_edges; cbn [app tl map]; rewrite !map_app; reflexivity).
      rewrite edges_snoc in I.
      apply in_app_or in I. destruct I as [I|[I|[]]]; [left; exact I|right].
      rewrite <- I. f_equal. change (val f :: map val l ++ [val f]) with ((val f :: map val l) ++ [val f]). rewrite last_last. reflexivity.
    - cbn [map tl] in I. rewrite map_app in I. cbn [map] in I. rewrite combine_edges in I. left. exact I. }
  destruct E as [E|E]; [apply (Hc _ E)|]. injection E as E1 E2. intros NE. exfalso. apply NE. cbn [val fst] in *. congruence.
Qed.

(** C124: on rings and a point with coordinates up to [2^k], Pip in float64 answers the even-odd
    rule exactly, unless a slanted edge passes within [2^(k-49)] of the point at its height. *)
Theorem C124_pip : forall k rings p, (-350 <= k <= 40)%Z -> Forall (Forall (ok_pt k)) rings -> ok_pt k p -> (forall c, In c rings -> c <> []) ->
  (forall e, In e (all_edges (map (map val) rings)) -> clear_of k (val p) (fst e) (snd e)) ->
  exists b, Pip64 rings p = Ok b /\ (b = true <-> inside (map (map val) rings) (val p)).
Proof.
  intros k rings p Hk Or Op Hne Hc.
  assert (E : Pip64 rings p = Pip (map (map val) rings) (val p)).
  { unfold Pip64, Pip. assert (PC : pip_count64 rings p = pip_count (map (map val) rings) (val p)); [|rewrite PC; reflexivity].
    clear Hne. induction rings as [|c rs IH]; [reflexivity|]. cbn [pip_count64 map pip_count]. inversion Or; subst.
    rewrite (ring_agree k) by (auto; intros e He; apply Hc; unfold all_edges; cbn [flat_map map]; apply in_or_app; auto).
    rewrite IH; auto. intros e He. apply Hc. unfold all_edges in *. cbn [flat_map map]. apply in_or_app. auto. }
  rewrite E. apply Pip_spec. intros c Hi. apply in_map_iff in Hi. destruct Hi as (c0 & <- & Hi). specialize (Hne c0 Hi). destruct c0; [congruence|discriminate].
Qed.
Print Assumptions C124_pip.

(** Whatever the numbers, NaN and infinities included, only an empty ring makes it panic. *)
Theorem C124_panic : forall rings p, Pip64 rings p = Panic <-> In [] rings.
Proof.
  intros rings p. unfold Pip64.
  assert (H : (pip_count64 rings p = Panic /\ In [] rings) \/ (exists n, pip_count64 rings p = Ok n /\ ~ In [] rings)).
  { induction rings as [|c rs IH]; cbn [pip_count64]; [right; exists 0%nat; split; auto|].
    destruct c as [|f l]; [left; split; [reflexivity|left; auto]|]. cbn [pip_ring64 bind].
    destruct IH as [[-> Hi]|(n & -> & Hi)]; cbn [bind]; [left; split; auto; right; auto|right; eexists; split; [reflexivity|]; intros [K|K]; [discriminate|auto]]. }
  destruct H as [[-> Hi]|(n & -> & Hi)]; cbn [bind]; split; auto; try discriminate. intros; contradiction.
Qed.
Print Assumptions C124_panic.

(** A point well inside a triangle. *)
Definition tri : list (f64 * f64) := map (fun p => (fint (fst p), fint (snd p))) [(0, 0); (13, 6); (0, 6); (0, 0)]%Z.
Lemma fint_ok n : (Z.abs n <= 16)%Z -> ok_coord 4 (fint n).
Proof.
  intros H. destruct (f_int n ltac:(lia)) as [F1 F2]. split; auto. rewrite F2, <- abs_IZR. split; [change (bpow radix2 4) with (IZR 16); apply IZR_le; auto|].
  destruct (Z.eq_dec n 0) as [->|N]; auto. right. apply Rle_trans with 1; [change 1 with (bpow radix2 0); apply bpow_le; lia|]. apply (IZR_le 1). lia.
Qed.
Lemma tri_val : map val tri = [(0, 0); (13, 6); (0, 6); (0, 0)].
Proof. unfold tri, val. cbn [map fst snd]. rewrite (proj2 (f_int 0 ltac:(lia))), (proj2 (f_int 13 ltac:(lia))), (proj2 (f_int 6 ltac:(lia))). reflexivity. Qed.
Example C124_nonvacuous : Forall (Forall (ok_pt 4)) [tri] /\ ok_pt 4 (fint 4, fint 4) /\ (forall e, In e (all_edges (map (map val) [tri])) -> clear_of 4 (val (fint 4, fint 4)) (fst e) (snd e)) /\ Pip64 [tri] (fint 4, fint 4) = Ok true.
Proof.
  split; [constructor; [|constructor]; unfold tri; cbn [map fst snd]; repeat apply Forall_cons; try apply Forall_nil; split; cbn [fst snd]; apply fint_ok; lia|]. split; [split; apply fint_ok; cbn [fst snd]; lia|]. split; [|vm_compute; reflexivity].
  cbn [map]. rewrite tri_val. unfold val. cbn [fst snd]. rewrite (proj2 (f_int 4 ltac:(lia))). intros e He. cbn in He.
  assert (B : bpow radix2 (4 - 49) < 1) by (change 1 with (bpow radix2 0); apply bpow_lt; lia).
  intros N1 N2 q Hq Eq. destruct He as [<-|[<-|[<-|[<-|[]]]]]; cbn [fst snd] in *; try lra.
  destruct Hq as (t & Ht & E1 & E2). cbn [fst snd] in *. rewrite E1. assert (t = 2 / 3) by lra. subst t. apply Rgt_lt. eapply Rlt_le_trans; [exact B|]. rewrite Rabs_right; lra.
Qed.

(** The exception is real: the float64 nearest to 13/3 is a little to the left of the edge from
    (0, 0) to (13, 6) at height 2, so the point is inside the triangle; Pip says it is not. *)
Definition x13 : f64 := @B754_finite 53 1024 false 4878899596318037 (-50) eq_refl.
Theorem C124_near_edge_refuted : ok_pt 4 (x13, fint 2) /\ inside (map (map val) [tri]) (val (x13, fint 2)) /\ Pip64 [tri] (x13, fint 2) = Ok false.
Proof.
  assert (V : B2R x13 = 4878899596318037 / 1125899906842624).
  { unfold x13, B2R, F2R. cbn [Fnum Fexp cond_Zopp]. change (bpow radix2 (-50)) with (/ 1125899906842624). reflexivity. }
  split; [split; [|apply fint_ok; cbn [snd]; lia]|split; [|vm_compute; reflexivity]].
  - split; [reflexivity|]. cbn [fst]. rewrite V. change (bpow radix2 4) with 16. rewrite Rabs_right by lra. split; [lra|]. right.
    apply Rle_trans with 1; [change 1 with (bpow radix2 0); apply bpow_le; lia|lra].
  - unfold inside. cbn [map]. rewrite tri_val. unfold val. cbn [fst snd]. rewrite (proj2 (f_int 2 ltac:(lia))), V. exists [0%nat]. split; [repeat constructor; intros []|]. split; [reflexivity|].
    intros i. split.
    + intros [<-|[]]. eexists. split; [reflexivity|]. cbn [fst snd]. split; [cbn [snd]; lra|]. exists (13 / 3, 2). split; [exists (1 / 3); cbn [fst snd]; lra|cbn [fst snd]; lra].
    + intros (e & He & (HY & q & (t & Ht & E1 & E2) & E3 & E4)). destruct i as [|[|[|[|i]]]]; cbn in He; [left; auto| | | |destruct i; discriminate]; exfalso; injection He as <-; cbn [fst snd] in *; lra.
Qed.
