(** Ring clipping preserves even-odd membership strictly inside the band. *)
From Coq Require Import ZArith Reals List Bool Lia Lra.
From Verif Require Import GoBase Num Clip_Model Clip_Spec Clip_Proofs.
Import ListNotations.
Open Scope R_scope.

Ltac bgen := repeat match goal with
  | |- context [crosses ?p ?a ?b] => generalize (crosses p a b); intro
  | |- context [parity ?p ?e] => generalize (parity p e); intro
  end.
Ltac bdestr := repeat match goal with
  | |- context [xorb ?b _] => is_var b; destruct b
  | |- context [xorb _ ?b] => is_var b; destruct b
  end; reflexivity.
Ltac bsolve := bgen; bdestr.

Lemma last_cons {A} (r : list A) : forall b a, last (b :: r) a = last r b.
Proof.
  induction r as [|x r IH]; intros; [reflexivity|]. rewrite IH.
  change (last (b :: x :: r) a) with (last (x :: r) a). apply IH.
Qed.

Lemma crosses_refl p a : crosses p a a = false.
Proof. unfold crosses. rewrite xorb_nilpotent. reflexivity. Qed.

Lemma Rleb_conv A B t x : 0 <= t <= 1 -> Rleb A x = Rleb B x -> Rleb (A + t * (B - A)) x = Rleb A x.
Proof.
  intros Ht H. destruct (Rleb_spec A x) as [HA|HA]; symmetry in H.
  - apply Rleb_true in H. apply Rleb_true. pose proof (conv_bounds A B t Ht) as C. unfold Rmax in C. destruct (Rle_dec A B); lra.
  - apply Rleb_false in H. apply Rleb_false. apply conv_gt; lra.
Qed.

Lemma crosses_split p a b s : 0 <= s <= 1 ->
  crosses p a b = xorb (crosses p a (at_ a b s)) (crosses p (at_ a b s) b).
Proof.
  intros Hs. unfold crosses. cbn [at_ fst snd].
  destruct a as [ax ay], b as [bx by_], p as [px py]. unfold at_. cbn [fst snd].
  destruct (bool_dec (Rleb ax px) (Rleb bx px)) as [E|E].
  - rewrite (Rleb_conv ax bx s px Hs E), <- E, !xorb_nilpotent. reflexivity.
  - assert (Hab : ax <> bx) by (intros ->; congruence).
    destruct (bool_dec (Rleb (ax + s * (bx - ax)) px) (Rleb ax px)) as [E1|E1].
    + rewrite E1, xorb_nilpotent. rewrite andb_false_l, xorb_false_l. do 2 f_equal.
      assert (s <> 1). { intros ->. apply E. rewrite <- E1. f_equal. lra. }
      field. split; [|lra]. replace (bx - (ax + s * (bx - ax))) with ((1 - s) * (bx - ax)) by ring.
      apply Rmult_integral_contrapositive. split; lra.
    + assert (E2 : Rleb (ax + s * (bx - ax)) px = Rleb bx px).
      { destruct (Rleb (ax + s * (bx - ax)) px), (Rleb ax px), (Rleb bx px); congruence. }
      rewrite E2, xorb_nilpotent. rewrite andb_false_l, xorb_false_r. do 2 f_equal.
      assert (s <> 0). { intros ->. apply E1. f_equal. lra. }
      field. split; [|lra]. replace (ax + s * (bx - ax) - ax) with (s * (bx - ax)) by ring.
      apply Rmult_integral_contrapositive. split; lra.
Qed.

Lemma crosses_split2 p a b s t : 0 <= s -> s <= t -> t <= 1 ->
  crosses p a b = xorb (crosses p a (at_ a b s)) (xorb (crosses p (at_ a b s) (at_ a b t)) (crosses p (at_ a b t) b)).
Proof.
  intros H0 Hst H1. rewrite (crosses_split p a b t) by lra.
  destruct (Req_dec t 0) as [->|E].
  { replace s with 0 by lra. rewrite crosses_refl. bsolve. }
  rewrite (crosses_split p a (at_ a b t) (s / t)).
  - replace (at_ a (at_ a b t) (s / t)) with (at_ a b s). { bsolve. }
    rewrite <- (at_0 a b) at 2. rewrite at_at. f_equal. field. lra.
  - assert (0 < t) by lra. split.
    + apply Rmult_le_pos; [lra|left; apply Rinv_0_lt_compat; lra].
    + apply Rmult_le_reg_r with t; auto. field_simplify; lra.
Qed.

Lemma straddle_frac px ax bx : xorb (Rleb ax px) (Rleb bx px) = true -> 0 <= (px - ax) / (bx - ax) <= 1.
Proof.
  intros H. destruct (Rleb_spec ax px), (Rleb_spec bx px); try discriminate; apply frac_bounds; lra.
Qed.

Lemma crosses_above p a b : snd p < snd a -> snd p < snd b ->
  crosses p a b = xorb (Rleb (fst a) (fst p)) (Rleb (fst b) (fst p)).
Proof.
  intros Ha Hb. unfold crosses. destruct (xorb _ _) eqn:E; auto. cbn [andb].
  apply Rltb_true. apply straddle_frac in E. apply conv_gt; auto.
Qed.
Lemma crosses_below p a b : snd a < snd p -> snd b < snd p -> crosses p a b = false.
Proof.
  intros Ha Hb. unfold crosses. destruct (xorb _ _) eqn:E; auto. cbn [andb].
  apply Rltb_false. apply straddle_frac in E.
  left. apply conv_lt; auto.
Qed.
Lemma crosses_beside p a b : fst a < fst p /\ fst b < fst p \/ fst p < fst a /\ fst p < fst b -> crosses p a b = false.
Proof.
  intros H. unfold crosses. destruct (Rleb_spec (fst a) (fst p)), (Rleb_spec (fst b) (fst p)); try reflexivity; lra.
Qed.

Section Ring.
  Variables (axis : bool) (k1 k2 : R) (p : rpt).
  Hypothesis Hp : k1 < coord axis p < k2.

  Definition side (high : bool) (u : rpt) : Prop := if high then k2 <= coord axis u else coord axis u <= k1.
  Definition out (high : bool) (u : rpt) : Prop := if high then k2 < coord axis u else coord axis u < k1.
  Definition phi (high : bool) (u : rpt) : bool := axis && high && Rleb (fst u) (fst p).

  Lemma out_side h u : out h u -> side h u.
  Proof. destruct h; unfold out, side; lra. Qed.
  Lemma out_inj h h' u : out h u -> out h' u -> h = h'.
  Proof. destruct h, h'; unfold out; auto; lra. Qed.
  Lemma out_not_in h u : out h u -> k1 <= coord axis u <= k2 -> False.
  Proof. destruct h; unfold out; lra. Qed.

  Lemma crosses_side h u v : side h u -> side h v -> crosses p u v = xorb (phi h u) (phi h v).
  Proof.
    unfold side, phi. intros Hu Hv. destruct axis, h; cbn [coord andb] in *.
    - apply crosses_above; lra.
    - apply crosses_below; lra.
    - apply crosses_beside; right; lra.
    - apply crosses_beside; left; lra.
  Qed.

  Definition chain (l : list rpt) : bool := parity p (edges l).
  Lemma chain_cons a b l : chain (a :: b :: l) = xorb (crosses p a b) (chain (b :: l)).
  Proof. reflexivity. Qed.
  Lemma chain_snoc l a b : chain (l ++ [a; b]) = xorb (chain (l ++ [a])) (crosses p a b).
  Proof.
    induction l as [|x l IH].
    - cbn [app]. rewrite chain_cons. unfold chain; cbn. bsolve.
    - destruct l as [|y l].
      + cbn [app]. rewrite !chain_cons. unfold chain; cbn. bsolve.
      + cbn [app] in *. rewrite !chain_cons, IH. unfold chain. bsolve.
  Qed.

  Definition start_ok (p0 h : rpt) (off : bool) : Prop :=
    (k1 <= coord axis p0 <= k2 /\ h = p0 /\ off = false) \/
    exists s0, out s0 p0 /\ side s0 h /\ off = xorb (phi s0 p0) (phi s0 h).

  Definition Inv (p0 a : rpt) (W : bool) (cur : list rpt) : Prop :=
    (cur = [] /\ ((k1 <= coord axis p0 <= k2 /\ a = p0 /\ W = false) \/
                  exists s0, out s0 p0 /\ out s0 a /\ W = xorb (phi s0 p0) (phi s0 a))) \/
    (exists h off c e, hd_error cur = Some h /\ cur = c ++ [e] /\ start_ok p0 h off /\
       ((k1 <= coord axis a <= k2 /\ W = xorb off (chain (cur ++ [a]))) \/
        exists s, out s a /\ side s e /\ W = xorb off (xorb (chain cur) (xorb (phi s e) (phi s a))))).

  Lemma hd_app (l r : list rpt) h : hd_error l = Some h -> hd_error (l ++ r) = Some h.
  Proof. destruct l; cbn; intros; congruence. Qed.

  Ltac contra := match goal with H : out _ ?u, H' : k1 <= coord axis ?u <= k2 |- _ => exfalso; exact (out_not_in _ _ H H') end.
  Ltac xs := unfold chain; cbn [app edges parity fold_right fst snd];
    repeat match goal with |- context [phi ?h ?u] => generalize (phi h u); intro end; bsolve.

  Lemma Inv_step p0 a b W cur em ex : Inv p0 a W cur -> emit_case axis k1 k2 a b em ex ->
    Inv p0 b (xorb W (crosses p a b)) (cur ++ em).
  Proof.
    intros HI HE. destruct HE as [H1 H2|H1 H2|s H1 H2 Hs Hl Hh|H1 H2|s em H1 H2 Hs Hl Hh Hem|s t H1 H2 Hs Hst Ht E1 E2|s t H1 H2 Hs Hst Ht E1 E2].
    - assert (Ha : out false a) by exact H1. assert (Hb : out false b) by exact H2.
      rewrite (crosses_side false a b), app_nil_r by (apply out_side; auto).
      destruct HI as [[-> [(Hi & -> & ->)|(s0 & Ho & Ha' & ->)]]|(h & off & c & e & Hh & Hce & Hst & [[Hi _]|(s & Ho & He & ->)])];
        try contra.
      + assert (s0 = false) by (eapply out_inj; eauto). subst. left. split; auto. right. exists false. repeat split; auto. xs.
      + assert (s = false) by (eapply out_inj; eauto). subst s. right. exists h, off, c, e. repeat (split; auto). right. exists false. repeat split; auto. xs.
    - assert (Ha : out true a) by (unfold out; lra). assert (Hb : out true b) by (unfold out; lra).
      rewrite (crosses_side true a b), app_nil_r by (apply out_side; auto).
      destruct HI as [[-> [(Hi & -> & ->)|(s0 & Ho & Ha' & ->)]]|(h & off & c & e & Hh & Hce & Hst & [[Hi _]|(s & Ho & He & ->)])];
        try contra.
      + assert (s0 = true) by (eapply out_inj; eauto). subst. left. split; auto. right. exists true. repeat split; auto. xs.
      + assert (s = true) by (eapply out_inj; eauto). subst s. right. exists h, off, c, e. repeat (split; auto). right. exists true. repeat split; auto. xs.
    - (* entering *)
      assert (HS : exists g, out g a /\ side g (at_ a b s)).
      { destruct H1 as [H1|H1]; [exists false|exists true]; unfold out, side.
        - rewrite (Hl H1). lra.
        - rewrite (Hh H1). lra. }
      destruct HS as (g & Hg & Hc). set (m := at_ a b s) in *.
      rewrite (crosses_split p a b s Hs). fold m. rewrite (crosses_side g a m) by (auto; apply out_side; auto).
      right. destruct HI as [[-> [(Hi & -> & ->)|(s0 & Ho & Ha' & ->)]]|(h & off & c & e & Hhd & Hce & Hst & [[Hi _]|(s' & Ho & He & ->)])];
        try contra.
      + assert (s0 = g) by (eapply out_inj; eauto). subst s0.
        exists m, (xorb (phi g p0) (phi g m)), [], m. cbn [app hd_error]. repeat (split; auto).
        * right. exists g. auto.
        * left. split; auto. xs.
      + assert (s' = g) by (eapply out_inj; eauto). subst s'.
        exists h, off, cur, m. split; [apply hd_app; auto|]. repeat (split; auto). left. split; auto.
        rewrite <- app_assoc. cbn [app]. rewrite chain_snoc. subst cur. rewrite <- app_assoc. cbn [app].
        rewrite chain_snoc, (crosses_side g e m) by auto. xs.
    - (* inside *)
      right. destruct HI as [[-> [(Hi & -> & ->)|(s0 & Ho & Ha' & ->)]]|(h & off & c & e & Hhd & Hce & Hst & [[Hi ->]|(s' & Ho & He & ->)])];
        try contra.
      + exists p0, false, [], p0. cbn [app hd_error]. repeat (split; auto). left; auto. left. split; auto. xs.
      + exists h, off, cur, a. split; [apply hd_app; auto|]. repeat (split; auto). left. split; auto.
        rewrite <- app_assoc. cbn [app]. rewrite chain_snoc. xs.
    - (* leaving *)
      assert (HS : exists g, out g b /\ side g (at_ a b s)).
      { destruct H2 as [H2|H2]; [exists false|exists true]; unfold out, side.
        - rewrite (Hl H2). lra.
        - rewrite (Hh H2). lra. }
      destruct HS as (g & Hg & Hc). set (m := at_ a b s) in *.
      rewrite (crosses_split p a b s Hs). fold m. rewrite (crosses_side g m b) by (auto; apply out_side; auto).
      assert (Hm : em = [a; m] \/ em = [a] /\ m = a).
      { destruct Hem as [Hem|[Hem Hs0]]; auto. right. split; auto. unfold m. rewrite Hs0. apply at_0. }
      clearbody m. clear Hem Hl Hh.
      right. destruct HI as [[-> [(Hi & -> & ->)|(s0 & Ho & Ha' & ->)]]|(h & off & c & e & Hhd & Hce & Hst & [[Hi ->]|(s' & Ho & He & ->)])];
        try contra.
      + destruct Hm as [-> |[-> ->]].
        * exists p0, false, [p0], m. cbn [app hd_error]. repeat (split; auto). left; auto. right. exists g. repeat (split; auto). xs.
        * exists p0, false, [], p0. cbn [app hd_error]. repeat (split; auto). left; auto. right. exists g. repeat (split; auto).
          rewrite crosses_refl. xs.
      + destruct Hm as [-> |[-> ->]].
        * exists h, off, (cur ++ [a]), m. split; [apply hd_app; auto|]. rewrite <- app_assoc. repeat (split; auto). right. exists g. repeat (split; auto).
          rewrite chain_snoc. xs.
        * exists h, off, cur, a. split; [apply hd_app; auto|]. repeat (split; auto). right. exists g. repeat (split; auto).
          rewrite crosses_refl. xs.
    - assert (Ha : out false a) by exact H1. assert (Hb : out true b) by (unfold out; lra).
      rewrite (crosses_split2 p a b s t) by auto. set (m := at_ a b s) in *. set (n := at_ a b t) in *.
      assert (Hm : side false m) by (unfold side; lra). assert (Hn : side true n) by (unfold side; lra).
      rewrite (crosses_side false a m), (crosses_side true n b) by (auto; apply out_side; auto).
      right. destruct HI as [[-> [(Hi & -> & ->)|(s0 & Ho & Ha' & ->)]]|(h & off & c & e & Hhd & Hce & Hst' & [[Hi _]|(s' & Ho & He & ->)])];
        try contra.
      + assert (s0 = false) by (eapply out_inj; eauto). subst s0.
        exists m, (xorb (phi false p0) (phi false m)), [m], n. cbn [app hd_error]. repeat (split; auto).
        * right. exists false. auto.
        * right. exists true. repeat (split; auto). xs.
      + assert (s' = false) by (eapply out_inj; eauto). subst s'.
        exists h, off, (cur ++ [m]), n. split; [apply hd_app; auto|]. rewrite <- app_assoc. repeat (split; auto). right. exists true. repeat (split; auto).
        rewrite chain_snoc. subst cur. rewrite <- app_assoc. cbn [app]. rewrite chain_snoc, (crosses_side false e m) by auto. xs.
    - assert (Ha : out true a) by (unfold out; lra). assert (Hb : out false b) by (unfold out; lra).
      rewrite (crosses_split2 p a b s t) by auto. set (m := at_ a b s) in *. set (n := at_ a b t) in *.
      assert (Hm : side true m) by (unfold side; lra). assert (Hn : side false n) by (unfold side; lra).
      rewrite (crosses_side true a m), (crosses_side false n b) by (auto; apply out_side; auto).
      right. destruct HI as [[-> [(Hi & -> & ->)|(s0 & Ho & Ha' & ->)]]|(h & off & c & e & Hhd & Hce & Hst' & [[Hi _]|(s' & Ho & He & ->)])];
        try contra.
      + assert (s0 = true) by (eapply out_inj; eauto). subst s0.
        exists m, (xorb (phi true p0) (phi true m)), [m], n. cbn [app hd_error]. repeat (split; auto).
        * right. exists true. auto.
        * right. exists false. repeat (split; auto). xs.
      + assert (s' = true) by (eapply out_inj; eauto). subst s'.
        exists h, off, (cur ++ [m]), n. split; [apply hd_app; auto|]. rewrite <- app_assoc. repeat (split; auto). right. exists false. repeat (split; auto).
        rewrite chain_snoc. subst cur. rewrite <- app_assoc. cbn [app]. rewrite chain_snoc, (crosses_side true e m) by auto. xs.
  Qed.

  Lemma clip_loop_ring p0 r : forall a W done cur,
    Inv p0 a W cur -> exists cur', clip_loop RNum axis true k1 k2 a r done cur = (done, cur', last r a) /\
      Inv p0 (last r a) (xorb W (chain (a :: r))) cur'.
  Proof.
    induction r as [|b r IH]; intros a W done cur HI; cbn [clip_loop].
    - exists cur. split; auto. cbn [last]. replace (xorb W (chain [a])) with W by (unfold chain; cbn; bsolve). auto.
    - pose proof (emit_cases axis k1 k2 a b ltac:(lra)) as HE.
      destruct (emit RNum axis k1 k2 a b) as [em ex]. cbn [fst snd] in HE. cbn [negb andb].
      destruct (IH b _ done _ (Inv_step _ _ _ _ _ _ _ HI HE)) as (cur' & E & HI').
      exists cur'. replace (last (b :: r) a) with (last r b) by (symmetry; apply last_cons).
      split; auto. rewrite chain_cons. replace (xorb W (xorb (crosses p a b) (chain (b :: r)))) with (xorb (xorb W (crosses p a b)) (chain (b :: r))); auto.
      unfold chain; bsolve.
  Qed.

  Lemma ring_parity_chain l f : hd_error l = Some f -> parity p (ring_edges l) = chain (l ++ [f]).
  Proof. destruct l; cbn [hd_error]; intros E; [discriminate|]. injection E as ->. reflexivity. Qed.

  Lemma close_parity l : parity p (ring_edges (close_slice RNum true l)) = parity p (ring_edges l).
  Proof.
    destruct l as [|f l]; auto. cbn [close_slice]. destruct (_ && _ && _); auto.
    rewrite (ring_parity_chain ((f :: l) ++ [f]) f), (ring_parity_chain (f :: l) f) by reflexivity.
    rewrite <- app_assoc. cbn [app]. change (f :: l ++ [f; f]) with ((f :: l) ++ [f; f]). rewrite chain_snoc, crosses_refl. apply xorb_false_r.
  Qed.

  Theorem clipLine_ring l f : hd_error l = Some f -> last l f = f -> exists pieces,
    clipLine RNum l k1 k2 axis true = Ok pieces /\ (length pieces <= 1)%nat /\ Forall (fun c => c <> []) pieces /\
    even_odd pieces p = parity p (ring_edges l).
  Proof.
    intros Hhd Hl. destruct l as [|p0 r]; [discriminate|]. injection Hhd as ->. cbn [clipLine].
    assert (Hz : last r f = f). { destruct r; auto. }
    assert (HI0 : Inv f f false []).
    { left. split; auto. destruct (Rlt_dec (coord axis f) k1); [right; exists false; rewrite xorb_nilpotent; auto|].
      destruct (Rlt_dec k2 (coord axis f)); [right; exists true; rewrite xorb_nilpotent; auto|]. left. repeat split; auto; lra. }
    destruct (clip_loop_ring f r f false [] [] HI0) as (cur & E & HI).
    rewrite E. rewrite Hz in *. eexists. split; [reflexivity|].
    set (cur2 := if nleb RNum k1 (coord axis f) && nleb RNum (coord axis f) k2 then cur ++ [f] else cur).
    assert (HP : parity p (ring_edges cur2) = parity p (ring_edges (f :: r))).
    { rewrite (ring_parity_chain (f :: r) f eq_refl).
      assert (EW : chain ((f :: r) ++ [f]) = chain (f :: r)).
      { destruct (@exists_last _ (f :: r) ltac:(discriminate)) as (l' & z & El). rewrite El.
        assert (z = f). { assert (last (f :: r) f = z) by (rewrite El; apply last_last). destruct r; cbn in *; congruence. }
        subst z. rewrite <- app_assoc. cbn [app]. rewrite chain_snoc, crosses_refl. apply xorb_false_r. }
      rewrite EW. rewrite xorb_false_l in HI. subst cur2. cbn [RNum nleb].
      destruct HI as [[-> [(Hi & _ & ->)|(s0 & Ho & _ & ->)]]|(h & off & c & e & Hh & Hce & Hst & [[Hi ->]|(s & Ho & He & ->)])].
      - destruct Hi as [Hi1 Hi2]. apply Rleb_true in Hi1, Hi2. rewrite Hi1, Hi2. cbn. rewrite crosses_refl. reflexivity.
      - rewrite xorb_nilpotent. unfold out in Ho.
        destruct (Rleb_spec k1 (coord axis f)), (Rleb_spec (coord axis f) k2), s0; try lra; reflexivity.
      - destruct Hi as [Hi1 Hi2]. pose proof (conj Hi1 Hi2) as Hi. apply Rleb_true in Hi1, Hi2. rewrite Hi1, Hi2. cbn [andb].
        destruct Hst as [(_ & -> & ->)|(s0 & Ho & _)]; [|contra].
        rewrite (ring_parity_chain _ f) by (apply hd_app; auto). rewrite xorb_false_l, <- app_assoc. cbn [app].
        rewrite chain_snoc, crosses_refl. apply xorb_false_r.
      - assert (Eb : (Rleb k1 (coord axis f) && Rleb (coord axis f) k2)%bool = false).
        { unfold out in Ho. destruct (Rleb_spec k1 (coord axis f)), (Rleb_spec (coord axis f) k2), s; try lra; reflexivity. }
        rewrite Eb. destruct Hst as [(Hi & _)|(s0 & Ho' & Hsh & ->)]; [contra|].
        assert (s0 = s) by (eapply out_inj; eauto). subst s0.
        rewrite (ring_parity_chain _ h) by auto. subst cur. rewrite <- app_assoc. cbn [app].
        rewrite chain_snoc, (crosses_side s e h) by auto. xs. }
    pose proof (close_parity cur2) as HC. rewrite HP in HC.
    destruct (close_slice RNum true cur2) as [|x y] eqn:Ecl.
    - cbn in *. auto.
    - cbn [app length even_odd fold_right]. rewrite HC, xorb_false_r. repeat split; auto. repeat constructor. discriminate.
  Qed.
End Ring.
