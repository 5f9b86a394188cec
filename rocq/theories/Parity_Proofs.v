(** Even-odd membership does not change when the vertices of a ring move, unless the outline sweeps over
    the point. *)
From Coq Require Import Reals List Bool Lra.
From Verif Require Import GoBase Num Clip_Spec Clip_Model Clip_Proofs ClipRing_Proofs.
Import ListNotations.
Open Scope R_scope.

(** The triangle [a], [b], [c], with its interior. *)
Definition hull (a b c q : rpt) : Prop := exists u v w, 0 <= u /\ 0 <= v /\ 0 <= w /\ u + v + w = 1 /\
  fst q = u * fst a + v * fst b + w * fst c /\ snd q = u * snd a + v * snd b + w * snd c.

Lemma hull_rot a b c q : hull a b c q -> hull b c a q.
Proof. intros (u & v & w & Hu & Hv & Hw & S & E1 & E2). exists v, w, u. split; [auto|]. split; [auto|]. split; [auto|]. split; [lra|]. split; lra. Qed.
Lemma hull_seg a b c q : seg a b q -> hull a b c q.
Proof. intros (t & Ht & E1 & E2). exists (1 - t), t, 0. split; [lra|]. split; [lra|]. split; [lra|]. split; [lra|]. split; lra. Qed.
Lemma hull_conv a b c q r p : hull a b c q -> hull a b c r -> seg q r p -> hull a b c p.
Proof.
  intros (u & v & w & Hu & Hv & Hw & S & E1 & E2) (u' & v' & w' & Hu' & Hv' & Hw' & S' & E1' & E2') (t & Ht & F1 & F2).
  assert (P : forall x y, 0 <= x -> 0 <= y -> 0 <= (1 - t) * x + t * y) by (intros; apply Rplus_le_le_0_compat; apply Rmult_le_pos; lra).
  exists ((1 - t) * u + t * u'), ((1 - t) * v + t * v'), ((1 - t) * w + t * w'). split; [auto|]. split; [auto|]. split; [auto|]. split.
  - replace ((1 - t) * u + t * u' + ((1 - t) * v + t * v') + ((1 - t) * w + t * w')) with ((1 - t) * (u + v + w) + t * (u' + v' + w')) by ring. rewrite S, S'. lra.
  - rewrite F1, F2, E1, E2, E1', E2'. split; ring.
Qed.
Lemma seg_sym a b p : seg a b p -> seg b a p.
Proof. intros (t & Ht & E1 & E2). exists (1 - t). split; [lra|]. split; lra. Qed.

(** height of the edge above or below the point *)
Definition height (p a b : rpt) : R := snd a + (fst p - fst a) / (fst b - fst a) * (snd b - snd a).
Lemma height_seg p a b : xorb (Rleb (fst a) (fst p)) (Rleb (fst b) (fst p)) = true -> seg a b (fst p, height p a b).
Proof.
  intros H. exists ((fst p - fst a) / (fst b - fst a)). split; [apply straddle_frac; auto|]. cbn [fst snd]. split; [|reflexivity].
  assert (fst b <> fst a) by (intros E; rewrite E, xorb_nilpotent in H; discriminate). field. lra.
Qed.
Lemma height_sym p a b : fst a <> fst b -> height p a b = height p b a.
Proof. intros H. unfold height. field. split; lra. Qed.
Lemma crosses_height p a b : crosses p a b = xorb (Rleb (fst a) (fst p)) (Rleb (fst b) (fst p)) && Rltb (snd p) (height p a b).
Proof. reflexivity. Qed.
Lemma crosses_sym p a b : crosses p a b = crosses p b a.
Proof.
  rewrite !crosses_height, (xorb_comm (Rleb (fst b) (fst p))). destruct (xorb _ _) eqn:E; [|reflexivity]. cbn [andb]. rewrite height_sym; auto.
  intros H. rewrite H, xorb_nilpotent in E. discriminate.
Qed.

Lemma between (p : rpt) x y : (y <= snd p < x) \/ (x <= snd p < y) -> seg (fst p, x) (fst p, y) p.
Proof.
  intros H. exists ((snd p - x) / (y - x)). assert (y - x <> 0) by (destruct H; lra). cbn [fst snd]. split; [|split; [ring|field; lra]].
  apply frac_bounds. destruct H; lra.
Qed.
Lemma two_edges p a b c x y : hull a b c (fst p, x) -> hull a b c (fst p, y) -> (y <= snd p < x) \/ (x <= snd p < y) -> hull a b c p.
Proof. intros H1 H2 E. apply (hull_conv a b c _ _ p H1 H2). apply between. auto. Qed.
(** A triangle around the point contains it. *)
Lemma triangle p a b c : xorb (crosses p a b) (xorb (crosses p b c) (crosses p c a)) = true -> hull a b c p.
Proof.
  rewrite !crosses_height. intros H.
  pose proof (height_seg p a b) as Hab. pose proof (height_seg p b c) as Hbc. pose proof (height_seg p c a) as Hca.
  assert (Sab : forall q, seg a b q -> hull a b c q) by (intros; apply hull_seg; auto).
  assert (Sbc : forall q, seg b c q -> hull a b c q) by (intros q Hq; do 2 apply hull_rot; apply hull_seg; auto).
  assert (Sca : forall q, seg c a q -> hull a b c q) by (intros q Hq; apply hull_rot; apply hull_seg; auto).
  destruct (Rleb (fst a) (fst p)), (Rleb (fst b) (fst p)), (Rleb (fst c) (fst p)); cbn [xorb andb] in Hab, Hbc, Hca;
  destruct (Rltb_spec (snd p) (height p a b)), (Rltb_spec (snd p) (height p b c)), (Rltb_spec (snd p) (height p c a)); try discriminate H.
  all: first [refine (two_edges p a b c _ _ (Sbc _ (Hbc eq_refl)) (Sca _ (Hca eq_refl)) _); lra
             |refine (two_edges p a b c _ _ (Sab _ (Hab eq_refl)) (Sbc _ (Hbc eq_refl)) _); lra
             |refine (two_edges p a b c _ _ (Sab _ (Hab eq_refl)) (Sca _ (Hca eq_refl)) _); lra].
Qed.

(** The edge from [a] to [b] moves to [a'] - [b'] without touching [p]. *)
Definition misses (p a b a' b' : rpt) : Prop := ~ hull a b b' p /\ ~ hull a b' a' p.
Lemma move_edge p a b a' b' : misses p a b a' b' -> xorb (crosses p a b) (crosses p a' b') = xorb (crosses p a a') (crosses p b b').
Proof.
  intros [H1 H2]. pose proof (triangle p a b b') as T1. pose proof (triangle p a b' a') as T2.
  rewrite (crosses_sym p b' a) in T1. rewrite (crosses_sym p b' a'), (crosses_sym p a' a) in T2.
  destruct (crosses p a b), (crosses p b b'), (crosses p a b'), (crosses p a' b'), (crosses p a a'); cbn [xorb] in *; try reflexivity; exfalso; auto.
Qed.

Fixpoint moves (p : rpt) (l l' : list rpt) : Prop :=
  match l, l' with
  | a :: ((b :: _) as r), a' :: ((b' :: _) as r') => misses p a b a' b' /\ moves p r r'
  | _, _ => True
  end.
Lemma move_chain p : forall r r' a a', length r = length r' -> moves p (a :: r) (a' :: r') ->
  xorb (parity p (edges (a :: r))) (parity p (edges (a' :: r'))) = xorb (crosses p a a') (crosses p (last r a) (last r' a')).
Proof.
  induction r as [|b r IH]; intros [|b' r'] a a' HL H; try discriminate.
  - cbn. rewrite xorb_nilpotent. reflexivity.
  - destruct H as [H1 H2]. specialize (IH r' b b' ltac:(cbn in HL; congruence) H2). rewrite !last_cons.
    change (edges (a :: b :: r)) with ((a, b) :: edges (b :: r)). change (edges (a' :: b' :: r')) with ((a', b') :: edges (b' :: r')).
    cbn [parity fold_right fst snd]. fold (parity p (edges (b :: r))). fold (parity p (edges (b' :: r'))).
    pose proof (move_edge p a b a' b' H1) as M.
    revert IH M. generalize (parity p (edges (b :: r))) (parity p (edges (b' :: r'))) (crosses p a b) (crosses p a' b') (crosses p a a') (crosses p b b') (crosses p (last r b) (last r' b')).
    intros [] [] [] [] [] [] []; cbn; congruence.
Qed.
Lemma move_ring p l l' f f' : hd_error l = Some f -> hd_error l' = Some f' -> length l = length l' -> moves p (l ++ [f]) (l' ++ [f']) -> parity p (ring_edges l) = parity p (ring_edges l').
Proof.
  destruct l as [|x r], l' as [|x' r']; cbn [hd_error]; try discriminate. intros E E' HL H. injection E as ->. injection E' as ->. cbn [ring_edges app] in *.
  pose proof (move_chain p (r ++ [f]) (r' ++ [f']) f f' ltac:(rewrite !app_length; cbn in *; congruence) H) as M. rewrite !last_last, xorb_nilpotent in M.
  destruct (parity p (edges (f :: r ++ [f]))), (parity p (edges (f' :: r' ++ [f']))); cbn in M; congruence.
Qed.

(** ** The outline of a clipped ring *)
Section Outline.
  Variables (axis : bool) (k1 k2 : R) (l : list rpt).
  Hypothesis Hk : k1 <= k2.
  Definition bnd (h : bool) (u : rpt) : Prop := coord axis u = (if h then k2 else k1).
  (** on the outline of [l], or on one side of the band *)
  Definition good (u v : rpt) : Prop := (forall q, seg u v q -> on_line l q) \/ exists h, bnd h u /\ bnd h v.
  Definition inb (u : rpt) : Prop := k1 <= coord axis u <= k2.
  Definition outb (h : bool) (u : rpt) : Prop := if h then k2 < coord axis u else coord axis u < k1.

  Lemma outb_inj h h' u : outb h u -> outb h' u -> h = h'.
  Proof. destruct h, h'; unfold outb; auto; lra. Qed.
  Lemma outb_in h u : outb h u -> inb u -> False.
  Proof. destruct h; unfold outb, inb; lra. Qed.

  Definition allgood (c : list rpt) : Prop := Forall (fun e => good (fst e) (snd e)) (edges c).
  Lemma edges_snoc : forall c a b, edges (c ++ [a; b]) = edges (c ++ [a]) ++ [(a, b)].
  Proof.
    induction c as [|x c IH]; intros; [reflexivity|]. destruct c as [|y c]; [reflexivity|]. cbn [app] in *.
    change (edges (x :: y :: c ++ [a; b])) with ((x, y) :: edges (y :: c ++ [a; b])). rewrite IH. reflexivity.
  Qed.
  Lemma allgood_snoc c a b : allgood (c ++ [a; b]) <-> allgood (c ++ [a]) /\ good a b.
  Proof. unfold allgood. rewrite edges_snoc, Forall_app. split; intros [H1 H2]; (split; [auto|]). inversion H2; subst; auto. constructor; auto. Qed.

  Definition EI (p0 a : rpt) (cur : list rpt) : Prop :=
    (cur = [] /\ (inb p0 /\ a = p0 \/ exists s, outb s p0 /\ outb s a)) \/
    exists h c e, hd_error cur = Some h /\ cur = c ++ [e] /\ allgood cur /\ (inb p0 /\ h = p0 \/ exists s, outb s p0 /\ bnd s h) /\
      (inb a /\ good e a \/ exists s, outb s a /\ bnd s e).

  Lemma sub_good a b s t : 0 <= s <= 1 -> 0 <= t <= 1 -> (forall q, seg a b q -> on_line l q) -> good (at_ a b s) (at_ a b t).
  Proof.
    intros Hs Ht H. left. intros q Hq. apply H. apply seg_at in Hq. destruct Hq as (r & Hr & ->). rewrite at_at. apply seg_at. exists (s + r * (t - s)). split; [|f_equal; ring].
    replace (s + r * (t - s)) with ((1 - r) * s + r * t) by ring. nra.
  Qed.

  Ltac contra := match goal with H : outb _ ?u, H' : inb ?u |- _ => exfalso; exact (outb_in _ _ H H') end.
  Lemma EI_step p0 a b cur em ex : (forall q, seg a b q -> on_line l q) -> EI p0 a cur -> emit_case axis k1 k2 a b em ex -> EI p0 b (cur ++ em).
  Proof.
    intros HS HI HE.
    assert (G : forall s t, 0 <= s <= 1 -> 0 <= t <= 1 -> good (at_ a b s) (at_ a b t)) by (intros; apply sub_good; auto).
    assert (Ga : forall t, 0 <= t <= 1 -> good a (at_ a b t)) by (intros t Ht; rewrite <- (at_0 a b) at 1; apply G; lra).
    assert (Gb : forall t, 0 <= t <= 1 -> good (at_ a b t) b). { intros t Ht. rewrite <- (at_1 a b) at 2. apply G; lra. }
    assert (Gab : good a b) by (left; auto).
    destruct HE as [H1 H2|H1 H2|s H1 H2 Hs Hl Hh|H1 H2|s em H1 H2 Hs Hl Hh Hem|s t H1 H2 Hs Hst Ht E1 E2|s t H1 H2 Hs Hst Ht E1 E2].
    - assert (Ha : outb false a) by exact H1. assert (Hb : outb false b) by exact H2. rewrite app_nil_r.
      destruct HI as [[-> [(Hi & ->)|(s & Ho & Ho')]]|(h & c & e & Hh & Hc & HG & Hs & [[Hi _]|(s & Ho & He)])]; try contra.
      + assert (s = false) by (eapply outb_inj; eauto). subst. left. split; auto. right. exists false. auto.
      + assert (s = false) by (eapply outb_inj; eauto). subst s. right. exists h, c, e. split; [auto|]. split; [auto|]. split; [auto|]. split; [auto|]. right. exists false. auto.
    - assert (Ha : outb true a) by (unfold outb; lra). assert (Hb : outb true b) by (unfold outb; lra). rewrite app_nil_r.
      destruct HI as [[-> [(Hi & ->)|(s & Ho & Ho')]]|(h & c & e & Hh & Hc & HG & Hs & [[Hi _]|(s & Ho & He)])]; try contra.
      + assert (s = true) by (eapply outb_inj; eauto). subst. left. split; auto. right. exists true. auto.
      + assert (s = true) by (eapply outb_inj; eauto). subst s. right. exists h, c, e. split; [auto|]. split; [auto|]. split; [auto|]. split; [auto|]. right. exists true. auto.
    - assert (B : exists g, outb g a /\ bnd g (at_ a b s)).
      { destruct H1 as [H1|H1]; [exists false|exists true]; unfold outb, bnd; auto. }
      destruct B as (g & Hg & Hm). specialize (Gb s Hs). set (m := at_ a b s) in *. right.
      destruct HI as [[-> [(Hi & ->)|(s0 & Ho & Ho')]]|(h & c & e & Hhd & Hc & HG & Hst & [[Hi _]|(s0 & Ho & He)])]; try contra.
      + assert (s0 = g) by (eapply outb_inj; eauto). subst. exists m, [], m. split; [reflexivity|]. split; [reflexivity|]. split; [constructor|]. split; [right; exists g; auto|]. left. auto.
      + assert (s0 = g) by (eapply outb_inj; eauto). subst. exists h, (c ++ [e]), m. split; [apply hd_app; auto|]. split; [auto|]. split; [rewrite <- app_assoc; apply allgood_snoc; split; auto; right; exists g; auto|]. split; [auto|]. left. auto.
    - assert (Ia : inb a) by exact H1. right. destruct HI as [[-> [(Hi & ->)|(s0 & Ho & Ho')]]|(h & c & e & Hhd & Hc & HG & Hst & [[Hi Hg]|(s0 & Ho & He)])]; try contra.
      + exists p0, [], p0. split; [reflexivity|]. split; [reflexivity|]. split; [constructor|]. split; [auto|]. left. auto.
      + subst. exists h, (c ++ [e]), a. split; [apply hd_app; auto|]. split; [auto|]. split; [rewrite <- app_assoc; apply allgood_snoc; auto|]. split; [auto|]. left. auto.
    - assert (Ia : inb a) by exact H1. assert (B : exists g, outb g b /\ bnd g (at_ a b s)).
      { destruct H2 as [H2|H2]; [exists false|exists true]; unfold outb, bnd; auto. }
      destruct B as (g & Hg & Hm). specialize (Ga s Hs). set (m := at_ a b s) in *.
      assert (Hm' : em = [a; m] \/ em = [a] /\ m = a). { destruct Hem as [Hem|[Hem Hs0]]; auto. right. split; auto. unfold m. rewrite Hs0. apply at_0. }
      clearbody m. clear Hem Hl Hh. right.
      destruct HI as [[-> [(Hi & ->)|(s0 & Ho & Ho')]]|(h & c & e & Hhd & Hc & HG & Hst & [[Hi Hge]|(s0 & Ho & He)])]; try contra.
      + destruct Hm' as [->|[-> ->]].
        * exists p0, [p0], m. split; [reflexivity|]. split; [reflexivity|]. split; [constructor; [exact Ga|constructor]|]. split; [auto|]. right. exists g. auto.
        * exists p0, [], p0. split; [reflexivity|]. split; [reflexivity|]. split; [constructor|]. split; [auto|]. right. exists g. auto.
      + subst. assert (HG' : allgood ((c ++ [e]) ++ [a])) by (rewrite <- app_assoc; apply allgood_snoc; auto). destruct Hm' as [->|[-> ->]].
        * exists h, ((c ++ [e]) ++ [a]), m. split; [apply hd_app; auto|]. split; [rewrite <- (app_assoc (c ++ [e])); reflexivity|]. split; [apply allgood_snoc; auto|]. split; [auto|]. right. exists g. auto.
        * exists h, (c ++ [e]), a. split; [apply hd_app; auto|]. split; [auto|]. split; [auto|]. split; [auto|]. right. exists g. auto.
    - assert (Ha : outb false a) by exact H1. assert (Hb : outb true b) by (unfold outb; lra). assert (Hm : bnd false (at_ a b s)) by exact E1. assert (Hn : bnd true (at_ a b t)) by exact E2.
      specialize (G s t ltac:(lra) ltac:(lra)). set (m := at_ a b s) in *. set (n := at_ a b t) in *. clearbody m n. right.
      destruct HI as [[-> [(Hi & ->)|(s0 & Ho & Ho')]]|(h & c & e & Hhd & Hc & HG & Hst' & [[Hi Hge]|(s0 & Ho & He)])]; try contra.
      + assert (s0 = false) by (eapply outb_inj; eauto). subst. exists m, [m], n. split; [reflexivity|]. split; [reflexivity|]. split; [constructor; [exact G|constructor]|]. split; [right; exists false; auto|]. right. exists true. auto.
      + assert (s0 = false) by (eapply outb_inj; eauto). subst. exists h, ((c ++ [e]) ++ [m]), n. split; [apply hd_app; auto|]. split; [rewrite <- (app_assoc (c ++ [e])); reflexivity|].
        split; [apply allgood_snoc; split; auto; rewrite <- app_assoc; apply allgood_snoc; split; auto; right; exists false; auto|]. split; [auto|]. right. exists true. auto.
    - assert (Ha : outb true a) by (unfold outb; lra). assert (Hb : outb false b) by (unfold outb; lra). assert (Hm : bnd true (at_ a b s)) by exact E1. assert (Hn : bnd false (at_ a b t)) by exact E2.
      specialize (G s t ltac:(lra) ltac:(lra)). set (m := at_ a b s) in *. set (n := at_ a b t) in *. clearbody m n. right.
      destruct HI as [[-> [(Hi & ->)|(s0 & Ho & Ho')]]|(h & c & e & Hhd & Hc & HG & Hst' & [[Hi Hge]|(s0 & Ho & He)])]; try contra.
      + assert (s0 = true) by (eapply outb_inj; eauto). subst. exists m, [m], n. split; [reflexivity|]. split; [reflexivity|]. split; [constructor; [exact G|constructor]|]. split; [right; exists true; auto|]. right. exists false. auto.
      + assert (s0 = true) by (eapply outb_inj; eauto). subst. exists h, ((c ++ [e]) ++ [m]), n. split; [apply hd_app; auto|]. split; [rewrite <- (app_assoc (c ++ [e])); reflexivity|].
        split; [apply allgood_snoc; split; auto; rewrite <- app_assoc; apply allgood_snoc; split; auto; right; exists true; auto|]. split; [auto|]. right. exists false. auto.
  Qed.

  Lemma EI_loop p0 r : forall a done cur, (forall q, on_line (a :: r) q -> on_line l q) -> EI p0 a cur ->
    exists cur', clip_loop RNum axis true k1 k2 a r done cur = (done, cur', last r a) /\ EI p0 (last r a) cur'.
  Proof.
    induction r as [|b r IH]; intros a done cur HS HI; cbn [clip_loop].
    - exists cur. auto.
    - pose proof (emit_cases axis k1 k2 a b Hk) as HE. destruct (emit RNum axis k1 k2 a b) as [em ex]. cbn [fst snd] in HE. cbn [negb andb]. rewrite last_cons.
      apply IH; [intros q Hq; apply HS; right; exact Hq|]. eapply EI_step; eauto. intros q Hq. apply HS. left. exact Hq.
  Qed.

  (** Every edge of a clipped ring is part of the original outline or runs along the band. *)
  Lemma clip_outline f pieces : hd_error l = Some f -> last l f = f -> clipLine RNum l k1 k2 axis true = Ok pieces ->
    forall piece e, In piece pieces -> In e (ring_edges piece) -> good (fst e) (snd e).
  Proof.
    intros Hhd HL E. destruct l as [|p0 r] eqn:El; [discriminate|]. injection Hhd as ->. cbn [clipLine] in E. rewrite <- El in *.
    assert (Hz : last r f = f) by (rewrite El in HL; destruct r; auto).
    assert (HF : on_line l f) by (rewrite El; destruct r; [reflexivity|left; apply seg_l]).
    assert (HI0 : EI f f []).
    { left. split; auto. destruct (Rlt_dec (coord axis f) k1); [right; exists false; auto|]. destruct (Rlt_dec k2 (coord axis f)); [right; exists true; auto|]. left. split; auto. unfold inb. lra. }
    destruct (EI_loop f r f [] [] ltac:(rewrite El; auto) HI0) as (cur & EC & HI). rewrite EC, Hz in E. rewrite Hz in HI.
    set (cur2 := if nleb RNum k1 (coord axis f) && nleb RNum (coord axis f) k2 then cur ++ [f] else cur) in E.
    assert (GF : good f f). { left. intros q Hq. apply seg_at in Hq. destruct Hq as (t & Ht & ->). replace (at_ f f t) with f; auto. unfold at_. destruct f. cbn [fst snd]. f_equal; ring. }
    assert (H2 : forall h, hd_error cur2 = Some h -> allgood (cur2 ++ [h]) /\ good h h).
    { intros h Hh. unfold cur2 in *. cbn [RNum nleb] in *.
      destruct HI as [[-> [(Hi & _)|(s & Ho & _)]]|(h' & c & e & Hhd & Hce & HG & Hst & [[Hi Hg]|(s & Ho & He)])].
      - destruct Hi as [Hi1 Hi2]. apply Rleb_true in Hi1, Hi2. rewrite Hi1, Hi2 in *. cbn [andb app hd_error] in *. injection Hh as <-. split; auto. constructor; auto.
      - exfalso. destruct (Rleb_spec k1 (coord axis f)), (Rleb_spec (coord axis f) k2); cbn [andb app hd_error] in Hh; try discriminate. unfold outb in Ho. destruct s; lra.
      - pose proof Hi as [Hi1 Hi2]. apply Rleb_true in Hi1, Hi2. rewrite Hi1, Hi2 in *. cbn [andb] in *. destruct Hst as [[_ ->]|(s & Ho & _)]; [|exfalso; exact (outb_in _ _ Ho Hi)].
        rewrite (hd_app _ _ _ Hhd) in Hh. injection Hh as <-. split; auto. rewrite <- app_assoc. cbn [app]. apply allgood_snoc. split; auto. subst cur. rewrite <- app_assoc. cbn [app]. apply allgood_snoc. auto.
      - assert (Eb : (Rleb k1 (coord axis f) && Rleb (coord axis f) k2)%bool = false).
        { unfold outb in Ho. destruct (Rleb_spec k1 (coord axis f)), (Rleb_spec (coord axis f) k2), s; try lra; reflexivity. }
        rewrite Eb in *. assert (h' = h) by congruence. subst h'. destruct Hst as [[Hi _]|(s' & Ho' & Hb)]; [exfalso; exact (outb_in _ _ Ho Hi)|].
        assert (s' = s) by (eapply outb_inj; eauto). subst s'. split; [|right; exists s; auto]. subst cur. rewrite <- app_assoc. cbn [app]. apply allgood_snoc. split; auto. right. exists s. auto. }
    clearbody cur2. intros piece e Hp He. destruct cur2 as [|h c2]; [cbn [close_slice] in E; assert (pieces = []) by congruence; subst; destruct Hp|].
    destruct (H2 h eq_refl) as [G1 G2]. unfold allgood in G1. rewrite Forall_forall in G1.
    assert (P : piece = h :: c2 \/ piece = (h :: c2) ++ [h]).
    { unfold close_slice in E. destruct (true && _ && _); cbn [app] in E; injection E as <-; destruct Hp as [<-|[]]; auto. }
    destruct P as [->| ->].
    - apply G1. exact He.
    - cbn [app ring_edges] in He. change (h :: (c2 ++ [h]) ++ [h]) with ((h :: (c2 ++ [h])) ++ [h]) in He. change (h :: c2 ++ [h]) with ((h :: c2) ++ [h]) in He. rewrite <- app_assoc in He. cbn [app] in He.
      change (h :: c2 ++ [h; h]) with ((h :: c2) ++ [h; h]) in He. rewrite edges_snoc in He. apply in_app_iff in He. destruct He as [He|[<-|[]]]; auto.
  Qed.

  (** The vertices of a clipped ring lie on the original outline. *)
  Lemma emit_on a b em ex : emit_case axis k1 k2 a b em ex -> Forall (seg a b) em.
  Proof.
    assert (SA : seg a b a) by apply seg_l. assert (S : forall t, 0 <= t <= 1 -> seg a b (at_ a b t)) by (intros t Ht; apply seg_at; eauto).
    intros HE. destruct HE as [H1 H2|H1 H2|s H1 H2 Hs Hl Hh|H1 H2|s em H1 H2 Hs Hl Hh Hem|s t H1 H2 Hs Hst Ht E1 E2|s t H1 H2 Hs Hst Ht E1 E2]; auto.
    - destruct Hem as [->|[-> _]]; auto.
    - constructor; [apply S; lra|constructor; [apply S; lra|constructor]].
    - constructor; [apply S; lra|constructor; [apply S; lra|constructor]].
  Qed.
  Lemma loop_on r : forall a done cur, (forall q, on_line (a :: r) q -> on_line l q) -> Forall (on_line l) cur -> Forall (Forall (on_line l)) done ->
    let '(d, c, z) := clip_loop RNum axis true k1 k2 a r done cur in Forall (Forall (on_line l)) d /\ Forall (on_line l) c /\ on_line l z.
  Proof.
    induction r as [|b r IH]; intros a done cur HS HC HD; cbn [clip_loop].
    - split; [auto|]. split; [auto|]. apply HS. reflexivity.
    - pose proof (emit_cases axis k1 k2 a b Hk) as HE. destruct (emit RNum axis k1 k2 a b) as [em ex]. cbn [fst snd negb andb] in *. apply IH; auto.
      + intros q Hq. apply HS. right. exact Hq.
      + apply Forall_app. split; auto. eapply Forall_impl; [|exact (emit_on _ _ _ _ HE)]. intros q Hq. apply HS. left. exact Hq.
  Qed.
  Lemma clip_vertices pieces : clipLine RNum l k1 k2 axis true = Ok pieces -> Forall (Forall (on_line l)) pieces.
  Proof.
    intros E. destruct l as [|p0 r] eqn:El; [discriminate|]. cbn [clipLine] in E. rewrite <- El in *.
    pose proof (loop_on r p0 [] [] ltac:(rewrite El; auto) ltac:(constructor) ltac:(constructor)) as L.
    destruct (clip_loop RNum axis true k1 k2 p0 r [] []) as [[d c] z]. destruct L as (L1 & L2 & L3).
    set (c2 := if nleb RNum k1 (coord axis z) && nleb RNum (coord axis z) k2 then c ++ [z] else c) in E.
    assert (L4 : Forall (on_line l) c2). { unfold c2. destruct (_ && _); auto. apply Forall_app. auto. }
    clearbody c2. assert (L5 : Forall (on_line l) (close_slice RNum true c2)).
    { unfold close_slice. destruct c2 as [|h c2]; auto. destruct (_ && _ && _); auto. apply Forall_app. split; auto. constructor; auto. inversion L4; auto. }
    destruct (close_slice RNum true c2) as [|x y]; injection E as <-; auto. apply Forall_app. auto.
  Qed.
End Outline.
