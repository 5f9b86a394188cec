From Coq Require Import ZArith Reals List Bool Lia Lra.
From Verif Require Import GoBase Num Clip_Model Clip_Spec.
Import ListNotations.
Open Scope R_scope.

(** ** Points of a segment *)
Definition at_ (a b : rpt) (t : R) : rpt := (fst a + t * (fst b - fst a), snd a + t * (snd b - snd a)).

Lemma at_0 a b : at_ a b 0 = a.
Proof. unfold at_. destruct a; simpl; f_equal; lra. Qed.
Lemma at_1 a b : at_ a b 1 = b.
Proof. unfold at_. destruct a, b; simpl; f_equal; lra. Qed.

Lemma seg_at a b p : seg a b p <-> exists t, 0 <= t <= 1 /\ p = at_ a b t.
Proof.
  unfold seg, at_. split; intros (t & Ht & H); exists t; split; auto.
  - destruct H. destruct p; simpl in *; congruence.
  - subst. simpl. auto.
Qed.

Lemma seg_l a b : seg a b a.
Proof. apply seg_at. exists 0. rewrite at_0. split; auto; lra. Qed.
Lemma seg_r a b : seg a b b.
Proof. apply seg_at. exists 1. rewrite at_1. split; auto; lra. Qed.
Lemma seg_refl a p : seg a a p <-> p = a.
Proof.
  split.
  - intros (t & _ & H1 & H2). destruct p, a; simpl in *. f_equal; lra.
  - intros ->. apply seg_l.
Qed.

Lemma at_at a b s t w : at_ (at_ a b s) (at_ a b t) w = at_ a b (s + w * (t - s)).
Proof. unfold at_; simpl; f_equal; ring. Qed.

Lemma seg_sub a b s t p : s <= t ->
  (seg (at_ a b s) (at_ a b t) p <-> exists w, s <= w <= t /\ p = at_ a b w).
Proof.
  intros Hst. rewrite seg_at. split.
  - intros (w & Hw & ->). rewrite at_at. exists (s + w * (t - s)). split; auto. nra.
  - intros (w & Hw & ->). destruct (Req_dec s t) as [E|E].
    + exists 0. split; [lra|]. rewrite at_0. f_equal. lra.
    + exists ((w - s) / (t - s)). assert (0 < t - s) by lra. split.
      * split; [apply Rmult_le_pos; [lra|left; apply Rinv_0_lt_compat; lra]|].
        apply Rmult_le_reg_r with (t - s); auto. field_simplify; lra.
      * rewrite at_at. f_equal. field. lra.
Qed.

Lemma coord_at axis a b t : coord axis (at_ a b t) = coord axis a + t * (coord axis b - coord axis a).
Proof. destruct axis; reflexivity. Qed.

Lemma in_band_coord axis k1 k2 p : in_band axis k1 k2 p <-> k1 <= coord axis p <= k2.
Proof. destruct axis; reflexivity. Qed.

Lemma seg_band axis k1 k2 a b s t p : 0 <= s -> s <= t -> t <= 1 ->
  (forall w, 0 <= w <= 1 -> (s <= w <= t <-> k1 <= coord axis (at_ a b w) <= k2)) ->
  (seg (at_ a b s) (at_ a b t) p <-> seg a b p /\ in_band axis k1 k2 p).
Proof.
  intros H0 Hst H1 Hw. rewrite seg_sub, seg_at, in_band_coord by auto. split.
  - intros (w & Hw' & ->). split; [exists w; split; auto; lra|]. apply Hw; lra.
  - intros ((w & Hw' & ->) & Hb). exists w. split; auto. apply Hw; auto.
Qed.

Lemma conv_bounds A B w : 0 <= w <= 1 -> Rmin A B <= A + w * (B - A) <= Rmax A B.
Proof. intros. unfold Rmin, Rmax. destruct (Rle_dec A B); split; nra. Qed.
Lemma conv_lt A B w k : 0 <= w <= 1 -> A < k -> B < k -> A + w * (B - A) < k.
Proof. intros H. pose proof (conv_bounds A B w H) as C. unfold Rmax in C. destruct (Rle_dec A B); lra. Qed.
Lemma conv_gt A B w k : 0 <= w <= 1 -> k < A -> k < B -> k < A + w * (B - A).
Proof. intros H. pose proof (conv_bounds A B w H) as C. unfold Rmin in C. destruct (Rle_dec A B); lra. Qed.
Lemma conv_in A B w k1 k2 : 0 <= w <= 1 -> k1 <= A <= k2 -> k1 <= B <= k2 -> k1 <= A + w * (B - A) <= k2.
Proof. intros H. pose proof (conv_bounds A B w H) as C. unfold Rmin, Rmax in C. destruct (Rle_dec A B); lra. Qed.

Lemma mono_up A B s w : A < B -> (s <= w <-> A + s * (B - A) <= A + w * (B - A)).
Proof. intros. split; intros; [nra|]. apply Rmult_le_reg_r with (B - A); lra. Qed.
Lemma mono_down A B s w : B < A -> (s <= w <-> A + w * (B - A) <= A + s * (B - A)).
Proof. intros. split; intros; [nra|]. apply Rmult_le_reg_r with (A - B); lra. Qed.

(** ** Cut points *)
Lemma cut_at axis a b v : coord axis a <> coord axis b ->
  cut RNum axis a b v = at_ a b ((v - coord axis a) / (coord axis b - coord axis a)).
Proof.
  destruct a as [ax ay], b as [bx by_]. destruct axis; cbn [coord fst snd]; intros H; unfold cut;
    cbn [RNum neqb nsub nzero nadd nmul ndiv]; unfold at_; cbn [fst snd].
  - destruct (Reqb_spec (by_ - ay) 0) as [E|E]; [lra|]. f_equal; field; lra.
  - destruct (Reqb_spec (bx - ax) 0) as [E|E]; [lra|]. f_equal; field; lra.
Qed.
Lemma cut_same axis a b : coord axis a = coord axis b -> cut RNum axis a b (coord axis a) = a.
Proof.
  destruct a as [ax ay], b as [bx by_]. destruct axis; cbn [coord fst snd]; intros <-; unfold cut;
    cbn [RNum neqb nsub nzero nadd nmul ndiv].
  - destruct (Reqb_spec (ay - ay) 0) as [E|E]; [auto|lra].
  - destruct (Reqb_spec (ax - ax) 0) as [E|E]; [auto|lra].
Qed.
Lemma cut_start axis a b : cut RNum axis a b (coord axis a) = a.
Proof.
  destruct (Req_dec (coord axis a) (coord axis b)) as [E|E]; [apply cut_same; auto|].
  rewrite cut_at by auto. replace ((coord axis a - coord axis a) / _) with 0; [apply at_0|].
  field. lra.
Qed.

(** The position of a vertex relative to the band *)
Inductive emit_case (axis : bool) (k1 k2 : R) (p q : rpt) : list rpt -> bool -> Prop :=
| EC_low : coord axis p < k1 -> coord axis q < k1 -> emit_case axis k1 k2 p q [] false
| EC_high : coord axis p > k2 -> coord axis q > k2 -> emit_case axis k1 k2 p q [] false
| EC_enter s : (coord axis p < k1 \/ coord axis p > k2) -> k1 <= coord axis q <= k2 ->
    0 <= s <= 1 -> (coord axis p < k1 -> coord axis (at_ p q s) = k1) -> (coord axis p > k2 -> coord axis (at_ p q s) = k2) ->
    emit_case axis k1 k2 p q [at_ p q s] false
| EC_in : k1 <= coord axis p <= k2 -> k1 <= coord axis q <= k2 -> emit_case axis k1 k2 p q [p] false
| EC_exit s em : k1 <= coord axis p <= k2 -> (coord axis q < k1 \/ coord axis q > k2) ->
    0 <= s <= 1 -> (coord axis q < k1 -> coord axis (at_ p q s) = k1) -> (coord axis q > k2 -> coord axis (at_ p q s) = k2) ->
    (em = [p; at_ p q s] \/ em = [p] /\ s = 0) -> emit_case axis k1 k2 p q em true
| EC_up s t : coord axis p < k1 -> coord axis q > k2 -> 0 <= s -> s <= t -> t <= 1 ->
    coord axis (at_ p q s) = k1 -> coord axis (at_ p q t) = k2 -> emit_case axis k1 k2 p q [at_ p q s; at_ p q t] true
| EC_down s t : coord axis p > k2 -> coord axis q < k1 -> 0 <= s -> s <= t -> t <= 1 ->
    coord axis (at_ p q s) = k2 -> coord axis (at_ p q t) = k1 -> emit_case axis k1 k2 p q [at_ p q s; at_ p q t] true.

Lemma frac_bounds A B v : A < v <= B \/ B <= v < A \/ A <= v < B \/ B < v <= A -> 0 <= (v - A) / (B - A) <= 1.
Proof.
  intros H. assert (E : (v - A) / (B - A) * (B - A) = v - A) by (field; lra).
  set (w := (v - A) / (B - A)) in *. destruct (Rlt_dec A B); split; nra.
Qed.
Lemma frac_coord axis a b v : coord axis a <> coord axis b ->
  coord axis (at_ a b ((v - coord axis a) / (coord axis b - coord axis a))) = v.
Proof. intros H. rewrite coord_at. field. lra. Qed.
Lemma frac_le A B u v : (A < B /\ u <= v) \/ (B < A /\ v <= u) -> (u - A) / (B - A) <= (v - A) / (B - A).
Proof.
  intros H. assert (E : (u - A) / (B - A) * (B - A) = u - A) by (field; lra).
  assert (E' : (v - A) / (B - A) * (B - A) = v - A) by (field; lra).
  set (w := (v - A) / (B - A)) in *. set (w' := (u - A) / (B - A)) in *. nra.
Qed.

Lemma emit_cases axis k1 k2 p q : k1 <= k2 ->
  emit_case axis k1 k2 p q (fst (emit RNum axis k1 k2 p q)) (snd (emit RNum axis k1 k2 p q)).
Proof.
  intros Hk. unfold emit. cbn [RNum nleb nltb fst snd]. fold RNum.
  set (A := coord axis p) in *. set (B := coord axis q) in *.
  destruct (Rleb_spec A k1), (Rleb_spec k1 B), (Rleb_spec k2 A), (Rleb_spec B k2), (Rltb_spec B k1), (Rleb_spec k1 A), (Rltb_spec k2 B), (Rleb_spec A k2); try lra; cbn [andb orb app];
  try (match goal with |- emit_case _ _ _ _ _ [] _ => (apply EC_low; fold A B; lra) || (apply EC_high; fold A B; lra) end);
  try (assert (HA1 : A = k1) by lra; assert (HS1 : cut RNum axis p q k1 = p) by (rewrite <- HA1; apply cut_start));
  try (assert (HA2 : A = k2) by lra; assert (HS2 : cut RNum axis p q k2 = p) by (rewrite <- HA2; apply cut_start));
  try (match goal with
       | |- emit_case _ _ _ _ _ [cut _ _ _ _ _] false =>
           first [rewrite HS1; apply EC_in; fold A B; lra | rewrite HS2; apply EC_in; fold A B; lra
                 | rewrite cut_at by (fold A B; lra); apply EC_enter; fold A B;
                   [lra|lra|apply frac_bounds; lra| intros; unfold A, B; rewrite frac_coord; auto; fold A B; lra
                   | intros; unfold A, B; rewrite frac_coord; auto; fold A B; lra]]
       | |- emit_case _ _ _ _ _ [p] false => apply EC_in; fold A B; lra
       end);
  try (match goal with
       | |- emit_case _ _ _ _ _ [cut _ _ _ _ _] true =>
           first [rewrite HS1 | rewrite HS2]; apply EC_exit with (s := 0); fold A B; rewrite ?at_0; fold A; [lra..|auto]
       | |- emit_case _ _ _ _ _ [p; cut _ _ _ _ ?v] true =>
           rewrite cut_at by (fold A B; lra); eapply EC_exit; fold A B;
             [ lra | lra | | | | left; reflexivity]; [apply frac_bounds; lra| |];
             (intros; unfold A, B; rewrite frac_coord; auto; fold A B; lra)
       | |- emit_case _ _ _ _ _ [cut _ _ _ _ ?u; cut _ _ _ _ ?v] true =>
           rewrite (cut_at axis p q v) by (fold A B; lra);
           first
           [ rewrite HS1; eapply EC_exit; fold A B; [ lra | lra | | | | left; reflexivity]; [apply frac_bounds; lra| |];
             (intros; unfold A, B; rewrite frac_coord; auto; fold A B; lra)
           | rewrite HS2; eapply EC_exit; fold A B; [ lra | lra | | | | left; reflexivity]; [apply frac_bounds; lra| |];
             (intros; unfold A, B; rewrite frac_coord; auto; fold A B; lra)
           | rewrite cut_at by (fold A B; lra); first
             [ apply EC_up; fold A B; solve [lra | apply frac_bounds; lra | apply frac_le; lra | unfold A, B; rewrite frac_coord; auto; fold A B; lra]
             | apply EC_down; fold A B; solve [lra | apply frac_bounds; lra | apply frac_le; lra | unfold A, B; rewrite frac_coord; auto; fold A B; lra] ] ]
       end).
Qed.

(** ** Line clipping *)
Lemma on_line_app l a r p : on_line (l ++ a :: r) p <-> on_line (l ++ [a]) p \/ on_line (a :: r) p.
Proof.
  induction l as [|x l IH]; intros.
  - cbn [app]. split; [auto|]. intros [H|H]; auto. cbn in H. subst.
    destruct r; cbn; auto. left. apply seg_l.
  - destruct l as [|y l].
    + cbn [app] in *. cbn [on_line] in *. pose proof (seg_r x a). destruct r; intuition; subst; auto.
    + cbn [app] in *. cbn [on_line] in *. tauto.
Qed.

Definition bz (axis : bool) (k1 k2 : R) (z : rpt) : list rpt :=
  if Rleb k1 (coord axis z) && Rleb (coord axis z) k2 then [z] else [].
Lemma bz_in axis k1 k2 z : k1 <= coord axis z <= k2 -> bz axis k1 k2 z = [z].
Proof. intros [H1 H2]. unfold bz. apply Rleb_true in H1, H2. rewrite H1, H2. reflexivity. Qed.
Lemma bz_out axis k1 k2 z : coord axis z < k1 \/ coord axis z > k2 -> bz axis k1 k2 z = [].
Proof.
  intros H. unfold bz. destruct (Rleb_spec k1 (coord axis z)), (Rleb_spec (coord axis z) k2); auto. lra.
Qed.

Lemma on_lines_app a b p : on_lines (a ++ b) p <-> on_lines a p \/ on_lines b p.
Proof.
  unfold on_lines. setoid_rewrite in_app_iff. split.
  - intros (l & [H|H] & H'); eauto.
  - intros [(l & H & H')|(l & H & H')]; eauto.
Qed.
Lemma on_lines_1 l p : on_lines [l] p <-> on_line l p.
Proof.
  unfold on_lines. split; [intros (x & [<-|[]] & H); auto|]. intros. exists l. split; [left|]; auto.
Qed.
Lemma on_lines_nil p : on_lines [] p <-> False.
Proof. unfold on_lines. split; [intros (x & [] & _)|tauto]. Qed.

(** What one segment contributes. *)
Lemma emit_step axis k1 k2 p q em ex cur x : k1 <= k2 -> emit_case axis k1 k2 p q em ex ->
  ((coord axis p < k1 \/ coord axis p > k2) -> cur = []) ->
  (on_line (cur ++ em ++ bz axis k1 k2 q) x <->
   on_line (cur ++ bz axis k1 k2 p) x \/ seg p q x /\ in_band axis k1 k2 x) /\ (ex = false -> (coord axis q < k1 \/ coord axis q > k2) -> em = [] /\ cur = []) /\ (ex = true -> bz axis k1 k2 q = []).
Proof.
  intros Hk H Hc. destruct H as [H1 H2|H1 H2|s H1 H2 Hs Hl Hh|H1 H2|s em H1 H2 Hs Hl Hh Hem|s t H1 H2 Hs Hst Ht E1 E2|s t H1 H2 Hs Hst Ht E1 E2].
  - rewrite !bz_out, Hc by lra. cbn [app on_line]. repeat split; auto; try tauto; try discriminate.
    intros [[]|[Hs Hb]]. apply seg_at in Hs. destruct Hs as (w & Hw & ->). rewrite in_band_coord in Hb. rewrite coord_at in Hb. pose proof (conv_lt _ _ w k1 Hw H1 H2). lra.
  - rewrite !bz_out, Hc by lra. cbn [app on_line]. repeat split; auto; try tauto; try discriminate.
    intros [[]|[Hs Hb]]. apply seg_at in Hs. destruct Hs as (w & Hw & ->). rewrite in_band_coord in Hb. rewrite coord_at in Hb. pose proof (conv_gt _ _ w k2 Hw H1 H2). lra.
  - rewrite (bz_out _ _ _ p), (bz_in _ _ _ q), Hc by lra. cbn [app on_line]. split; [|split; [lra|discriminate]].
    assert (E : seg (at_ p q s) (at_ p q 1) x <-> seg p q x /\ in_band axis k1 k2 x).
    { apply seg_band; try lra. intros w Hw. rewrite coord_at in *.
      destruct H1 as [H1|H1]; [specialize (Hl H1)|specialize (Hh H1)]; split; intros; nra. }
    rewrite at_1 in E. rewrite E. split; [|tauto].
    intros [?| ->]; auto. right. split; [apply seg_r|rewrite in_band_coord; lra].
  - rewrite !bz_in by lra. split; [|split; [lra|discriminate]].
    cbn [app]. rewrite on_line_app. cbn [on_line].
    assert (E : seg p q x -> in_band axis k1 k2 x).
    { intros Hs. apply seg_at in Hs. destruct Hs as (w & Hw & ->). rewrite in_band_coord. rewrite coord_at. apply conv_in; auto. }
    pose proof (seg_r p q). intuition; subst; auto.
  - rewrite (bz_in _ _ _ p), (bz_out _ _ _ q) by lra. rewrite app_nil_r. split; [|split; [discriminate|auto]].
    assert (E : seg p (at_ p q s) x <-> seg p q x /\ in_band axis k1 k2 x).
    { rewrite <- (at_0 p q) at 1. apply seg_band; try lra. intros w Hw. rewrite coord_at in *.
      destruct H2 as [H2|H2]; [specialize (Hl H2)|specialize (Hh H2)]; split; intros; nra. }
    destruct Hem as [-> |[-> ->]].
    + rewrite on_line_app. cbn [on_line]. rewrite <- E. clear E. pose proof (seg_r p (at_ p q s)). split; [intros [?|[?| ->]]; auto|tauto].
    + rewrite <- E. rewrite at_0, seg_refl. split; auto. intros [?| ->]; auto.
      rewrite on_line_app. right; reflexivity.
  - rewrite !bz_out, Hc by lra. cbn [app on_line]. split; [|split; [discriminate|auto]].
    assert (E : seg (at_ p q s) (at_ p q t) x <-> seg p q x /\ in_band axis k1 k2 x).
    { apply seg_band; try lra. intros w Hw. rewrite coord_at in *. rewrite (mono_up (coord axis p) (coord axis q) s w), (mono_up (coord axis p) (coord axis q) w t), E1, E2 by lra. tauto. }
    rewrite <- E. clear E. pose proof (seg_r (at_ p q s) (at_ p q t)). split; [intros [?| ->]; auto|tauto].
  - rewrite !bz_out, Hc by lra. cbn [app on_line]. split; [|split; [discriminate|auto]].
    assert (E : seg (at_ p q s) (at_ p q t) x <-> seg p q x /\ in_band axis k1 k2 x).
    { apply seg_band; try lra. intros w Hw. rewrite coord_at in *. rewrite (mono_down (coord axis p) (coord axis q) s w), (mono_down (coord axis p) (coord axis q) w t), E1, E2 by lra. tauto. }
    rewrite <- E. clear E. pose proof (seg_r (at_ p q s) (at_ p q t)). split; [intros [?| ->]; auto|tauto].
Qed.

Lemma clip_loop_line axis k1 k2 r : k1 <= k2 -> forall p done cur done' cur' z,
  ((coord axis p < k1 \/ coord axis p > k2) -> cur = []) ->
  clip_loop RNum axis false k1 k2 p r done cur = (done', cur', z) ->
  ((coord axis z < k1 \/ coord axis z > k2) -> cur' = []) /\ forall x, (on_lines done' x \/ on_line (cur' ++ bz axis k1 k2 z) x) <->
            (on_lines done x \/ on_line (cur ++ bz axis k1 k2 p) x \/ on_line (p :: r) x /\ in_band axis k1 k2 x).
Proof.
  intros Hk. induction r as [|q r IH]; intros p done cur done' cur' z Hc E; cbn [clip_loop] in E.
  - injection E as <- <- <-. split; auto. intros x. split; [tauto|].
    intros [?|[?|[H Hb]]]; auto. cbn in H. subst. right. rewrite in_band_coord in Hb.
    rewrite bz_in by auto. rewrite on_line_app. right. reflexivity.
  - pose proof (emit_cases axis k1 k2 p q Hk) as HE.
    destruct (emit RNum axis k1 k2 p q) as [em ex]. cbn [fst snd] in HE. cbn [negb andb] in E.
    destruct ex.
    + apply IH in E; auto. destruct E as [E1 E2]. split; auto. intros x. rewrite E2.
      destruct (emit_step axis k1 k2 p q em true cur x Hk HE Hc) as (S1 & _ & S3).
      rewrite (S3 eq_refl) in S1 |- *. rewrite app_nil_r in S1. rewrite on_lines_app, on_lines_1, S1. cbn [on_line app]. tauto.
    + apply IH in E.
      2:{ intros Hq. destruct (emit_step axis k1 k2 p q em false cur p Hk HE Hc) as (_ & S2 & _).
          destruct (S2 eq_refl Hq) as [-> ->]. reflexivity. }
      destruct E as [E1 E2]. split; auto. intros x. rewrite E2.
      destruct (emit_step axis k1 k2 p q em false cur x Hk HE Hc) as (S1 & _ & _).
      rewrite <- app_assoc, S1. cbn [on_line]. tauto.
Qed.

Theorem clipLine_line l k1 k2 axis : k1 <= k2 -> l <> [] -> exists pieces,
  clipLine RNum l k1 k2 axis false = Ok pieces /\ Forall (fun c => c <> []) pieces /\ forall x, on_lines pieces x <-> on_line l x /\ in_band axis k1 k2 x.
Proof.
  intros Hk Hl. destruct l as [|p r]; [congruence|]. cbn [clipLine].
  destruct (clip_loop RNum axis false k1 k2 p r [] []) as [[done cur] z] eqn:E.
  eexists. split; [reflexivity|].
  assert (EZ : (if nleb RNum k1 (coord axis z) && nleb RNum (coord axis z) k2 then cur ++ [z] else cur) = cur ++ bz axis k1 k2 z).
  { cbn [RNum nleb]. unfold bz. destruct (_ && _); auto. rewrite app_nil_r; auto. }
  rewrite EZ. clear EZ.
  assert (EC : forall c, close_slice RNum false c = c) by (intros [|? ?]; reflexivity). rewrite EC.
  split.
  - assert (HF : forall r p done cur done' cur' z, Forall (fun c => c <> []) done ->
        clip_loop RNum axis false k1 k2 p r done cur = (done', cur', z) -> Forall (fun c : list rpt => c <> []) done').
    { clear - Hk. induction r as [|q r IH]; intros p done cur done' cur' z Hd E; cbn [clip_loop] in E.
      - injection E as <- <- <-. auto.
      - pose proof (emit_cases axis k1 k2 p q Hk) as HE.
        destruct (emit RNum axis k1 k2 p q) as [em ex]. cbn [fst snd] in HE. cbn [negb andb] in E.
        destruct ex; eapply IH in E; auto. apply Forall_app. split; auto. constructor; auto.
        inversion HE; subst; try (intros X; apply app_eq_nil in X; destruct X; discriminate).
        intros X. apply app_eq_nil in X. destruct X as [_ X]. subst em. destruct H4 as [H4|[H4 _]]; discriminate. }
    apply HF in E; auto. destruct (cur ++ bz axis k1 k2 z) eqn:EQ; auto. apply Forall_app; split; auto. constructor; auto. discriminate.
  - destruct (clip_loop_line axis k1 k2 r Hk p [] [] done cur z (fun _ => eq_refl) E) as [_ HX].
    intros x.
    assert (E' : on_lines (match cur ++ bz axis k1 k2 z with [] => done | _ :: _ => done ++ [cur ++ bz axis k1 k2 z] end) x
                 <-> on_lines done x \/ on_line (cur ++ bz axis k1 k2 z) x).
    { destruct (cur ++ bz axis k1 k2 z) eqn:EQ; [cbn; tauto|]. rewrite on_lines_app, on_lines_1. tauto. }
    rewrite E', HX, on_lines_nil. cbn [app]. split.
    + intros [[]|[H|H]]; auto. unfold bz in H. destruct (Rleb_spec k1 (coord axis p)), (Rleb_spec (coord axis p) k2); cbn in H; try tauto. subst.
      split; [destruct r; cbn; auto; left; apply seg_l|rewrite in_band_coord; lra].
    + tauto.
Qed.
