(** The growing packer keeps the free rectangles and the placed blocks apart. *)
From Coq Require Import ZArith List Lia Bool Permutation.
From Verif Require Import GoBase Sprite_Model.
Import ListNotations.
Open Scope Z_scope.

(** Rectangles (x,y,w,h) *)
Notation rect := (Z * Z * Z * Z)%type (only parsing).

Definition apart (a b : rect) : Prop :=
  let '(x1, y1, w1, h1) := a in let '(x2, y2, w2, h2) := b in
  x1 + w1 <= x2 \/ x2 + w2 <= x1 \/ y1 + h1 <= y2 \/ y2 + h2 <= y1.
Definition within (a b : rect) : Prop :=
  let '(x1, y1, w1, h1) := a in let '(x2, y2, w2, h2) := b in
  x2 <= x1 /\ y2 <= y1 /\ x1 + w1 <= x2 + w2 /\ y1 + h1 <= y2 + h2.
Definition nonneg (a : rect) : Prop := let '(x, y, w, h) := a in 0 <= w /\ 0 <= h.

Fixpoint free (n : node) : list rect :=
  match n with
  | Free x y w h => [(x, y, w, h)]
  | Used _ _ _ _ r d => free r ++ free d
  end.

Lemma apart_sym a b : apart a b -> apart b a.
Proof. destruct a as [[[? ?] ?] ?], b as [[[? ?] ?] ?]. cbn. lia. Qed.
Lemma apart_within a b c : within a b -> apart b c -> apart a c.
Proof. destruct a as [[[? ?] ?] ?], b as [[[? ?] ?] ?], c as [[[? ?] ?] ?]. cbn. lia. Qed.
Lemma within_trans a b c : within a b -> within b c -> within a c.
Proof. destruct a as [[[? ?] ?] ?], b as [[[? ?] ?] ?], c as [[[? ?] ?] ?]. cbn. lia. Qed.

Definition all_apart (l : list rect) : Prop := ForallOrdPairs apart l.

Lemma all_apart_perm l l' : Permutation l l' -> all_apart l -> all_apart l'.
Proof.
  unfold all_apart. induction 1 as [|x l1 l2 HP IH|x y l1|l1 l2 l3 HP1 IH1 HP2 IH2]; intros HA; auto.
  - inversion HA; subst. constructor; auto. rewrite <- HP. auto.
  - inversion HA as [|? ? Ha Hb]; subst. inversion Hb as [|? ? Hc Hd]; subst. inversion Ha; subst.
    constructor; [constructor; [apply apart_sym; auto|auto]|constructor; auto].
Qed.

(** Replacing one rectangle by several apart rectangles inside it. *)
Lemma all_apart_split r rs l :
  all_apart (r :: l) -> all_apart rs -> Forall (fun a => within a r) rs -> all_apart (rs ++ l).
Proof.
  intros H Hr Hw. inversion H as [|? ? Ha Hb]; subst. induction rs as [|a rs IH]; cbn; auto.
  inversion Hr; subst. inversion Hw; subst. constructor; [|apply IH; auto; constructor; auto].
  apply Forall_app. split; auto. rewrite Forall_forall in *. intros b Hbb. eapply apart_within; eauto.
Qed.

Lemma place_spec n w h n' p : place n w h = Some (n', p) ->
  exists l1 l2 W H,
    free n = l1 ++ (fst p, snd p, W, H) :: l2 /\ w <= W /\ h <= H /\
    free n' = l1 ++ [(fst p + w, snd p, W - w, h); (fst p, snd p + h, W, H - h)] ++ l2 /\
    nW n' = nW n /\ nH n' = nH n.
Proof.
  revert n' p. induction n as [x y W H|x y W H r IHr d IHd]; intros n' p; cbn [place].
  - destruct (Z.leb_spec w W); cbn [andb]; [|discriminate]. destruct (Z.leb_spec h H); [|discriminate].
    intros E. injection E as <- <-. exists [], [], W, H. cbn. repeat split; auto.
  - destruct (place r w h) as [[r' q]|] eqn:Er.
    + intros E. injection E as <- <-. destruct (IHr _ _ eq_refl) as (l1 & l2 & W' & H' & E1 & Hw & Hh & E2 & _).
      exists l1, (l2 ++ free d), W', H'. cbn [free nW nH]. rewrite E1, E2. rewrite <- !app_assoc. cbn. repeat (split; auto).
    + destruct (place d w h) as [[d' q]|] eqn:Ed; [|discriminate].
      intros E. injection E as <- <-. destruct (IHd _ _ eq_refl) as (l1 & l2 & W' & H' & E1 & Hw & Hh & E2 & _).
      exists (free r ++ l1), l2, W', H'. cbn [free nW nH]. rewrite E1, E2. rewrite <- !app_assoc. repeat (split; auto).
Qed.

(** The invariant: free and placed rectangles are apart, non-negative and inside the root. *)
Record inv (root : node) (placed : list rect) : Prop := {
  inv_apart : all_apart (free root ++ placed);
  inv_in : Forall (fun r => within r (0, 0, nW root, nH root)) (free root ++ placed);
  inv_nn : Forall nonneg (free root ++ placed);
  inv_root : 0 <= nW root /\ 0 <= nH root }.

Lemma place_inv n w h n' p placed : 0 <= w -> 0 <= h -> inv n placed ->
  place n w h = Some (n', p) -> inv n' ((fst p, snd p, w, h) :: placed).
Proof.
  intros Hw Hh [I1 I2 I3 I4] E. destruct (place_spec _ _ _ _ _ E) as (l1 & l2 & W & H & E1 & Hw1 & Hh1 & E2 & EW & EH).
  set (a := fst p) in *. set (b := snd p) in *.
  assert (Hp1 : Permutation (free n ++ placed) ((a, b, W, H) :: (l1 ++ l2) ++ placed)).
  { rewrite E1. rewrite <- !app_assoc. cbn. apply Permutation_sym, Permutation_middle. }
  assert (Hp2 : Permutation (free n' ++ (a, b, w, h) :: placed)
      ([(a, b, w, h); (a + w, b, W - w, h); (a, b + h, W, H - h)] ++ (l1 ++ l2) ++ placed)).
  { rewrite E2. rewrite <- (Permutation_middle _ placed (a, b, w, h)). cbn [app]. constructor.
    rewrite <- !app_assoc. cbn [app].
    rewrite <- (Permutation_middle l1 _ (a + w, b, W - w, h)). constructor.
    rewrite <- (Permutation_middle l1 _ (a, b + h, W, H - h)). constructor. reflexivity. }
  assert (Hnn : nonneg (a, b, W, H)).
  { eapply Forall_inv. rewrite <- Hp1. exact I3. }
  assert (Hin : within (a, b, W, H) (0, 0, nW n, nH n)).
  { eapply (Forall_inv (P := fun r => within r (0, 0, nW n, nH n))). rewrite <- Hp1. exact I2. }
  cbn in Hnn, Hin.
  assert (Hsub : Forall (fun r => within r (a, b, W, H)) [(a, b, w, h); (a + w, b, W - w, h); (a, b + h, W, H - h)]).
  { repeat constructor; cbn; lia. }
  constructor.
  - eapply all_apart_perm; [apply Permutation_sym; exact Hp2|].
    eapply all_apart_split; [eapply all_apart_perm; [exact Hp1|exact I1]| |exact Hsub].
    repeat constructor; cbn; lia.
  - rewrite EW, EH. rewrite Hp2. apply Forall_app. split.
    + eapply Forall_impl; [|exact Hsub]. cbn beta. intros r Hr. eapply within_trans; eauto.
    + rewrite Hp1 in I2. inversion I2; auto.
  - rewrite Hp2. apply Forall_app. split.
    + repeat constructor; cbn; lia.
    + rewrite Hp1 in I3. inversion I3; auto.
  - rewrite EW, EH. auto.
Qed.

Lemma grow_inv root placed r W H :
  inv root placed -> nonneg r -> within r (0, 0, W, H) -> nW root <= W -> nH root <= H ->
  apart r (0, 0, nW root, nH root) ->
  all_apart (r :: free root ++ placed) /\
  Forall (fun r => within r (0, 0, W, H)) (r :: free root ++ placed) /\
  Forall nonneg (r :: free root ++ placed).
Proof.
  intros [I1 I2 I3 I4] Hn Hw HW HH Ha. repeat split.
  - constructor; auto. eapply Forall_impl; [|exact I2]. cbn beta. intros q Hq.
    apply apart_sym. eapply apart_within; [exact Hq|]. apply apart_sym; auto.
  - constructor; auto. eapply Forall_impl; [|exact I2]. cbn beta. intros q Hq. eapply within_trans; [exact Hq|]. cbn. lia.
  - constructor; auto.
Qed.

Lemma growRight_inv root w h placed n' p : 0 <= w -> 0 <= h -> inv root placed ->
  growRight root w h = Some (n', p) -> inv n' ((fst p, snd p, w, h) :: placed).
Proof.
  intros Hw Hh I. unfold growRight. intros E. refine (place_inv _ w h n' p placed Hw Hh _ E).
  destruct (inv_root _ _ I) as [IW IH].
  destruct (grow_inv root placed (nW root, 0, w, nH root) (nW root + w) (nH root) I) as (G1 & G2 & G3); cbn; try lia.
  constructor; cbn [free nW nH app]; auto. lia.
Qed.

Lemma growDown_inv root w h placed n' p : 0 <= w -> 0 <= h -> inv root placed ->
  growDown root w h = Some (n', p) -> inv n' ((fst p, snd p, w, h) :: placed).
Proof.
  intros Hw Hh I. unfold growDown. intros E. refine (place_inv _ w h n' p placed Hw Hh _ E).
  destruct (inv_root _ _ I) as [IW IH].
  destruct (grow_inv root placed (0, nH root, nW root, h) (nW root) (nH root + h) I) as (G1 & G2 & G3); cbn; try lia.
  assert (Hp : Permutation ((0, nH root, nW root, h) :: free root ++ placed) ((free root ++ [(0, nH root, nW root, h)]) ++ placed)).
  { rewrite <- app_assoc. cbn. apply Permutation_middle. }
  constructor; cbn [free nW nH].
  - eapply all_apart_perm; eauto.
  - rewrite <- Hp. auto.
  - rewrite <- Hp. auto.
  - lia.
Qed.

Lemma growNode_inv root w h placed n' p : 0 <= w -> 0 <= h -> inv root placed ->
  growNode root w h = Some (n', p) -> inv n' ((fst p, snd p, w, h) :: placed).
Proof.
  intros Hw Hh I. unfold growNode.
  repeat match goal with |- (if ?b then _ else _) = _ -> _ => destruct b end; intros E;
    try discriminate; eauto using growRight_inv, growDown_inv.
Qed.

Definition nn_sizes (bs : list (Z * Z)) : Prop := Forall (fun b => 0 <= fst b /\ 0 <= snd b) bs.

Definition rects (bs : list (Z * Z)) (ps : list (Z * Z)) : list rect :=
  map (fun bp => (fst (snd bp), snd (snd bp), fst (fst bp), snd (fst bp))) (combine bs ps).

Lemma fit_loop_inv bs : forall root placed root' ps, nn_sizes bs -> inv root placed ->
  fit_loop root bs = Ok (root', ps) ->
  length ps = length bs /\ inv root' (rev (rects bs ps) ++ placed).
Proof.
  induction bs as [|[w h] bs IH]; intros root placed root' ps Hn I; cbn [fit_loop].
  - intros E. injection E as <- <-. auto.
  - inversion Hn as [|? ? Hwh Hn']; subst. cbn in Hwh.
    destruct (match place root w h with Some x => Some x | None => growNode root w h end) as [[n' p]|] eqn:E1; cbn; [|discriminate].
    assert (I' : inv n' ((fst p, snd p, w, h) :: placed)).
    { destruct (place root w h) as [[? ?]|] eqn:E2; [injection E1 as -> ->; eapply place_inv; eauto; lia|eapply growNode_inv; eauto; lia]. }
    destruct (fit_loop n' bs) as [[root1 ps1]| |] eqn:E3; cbn; try discriminate.
    intros E. injection E as <- <-. destruct (IH _ _ _ _ Hn' I' E3) as [L I2].
    split; [cbn; lia|]. unfold rects in *. cbn. rewrite <- app_assoc. cbn. exact I2.
Qed.

Lemma inv_start w h : 0 <= w -> 0 <= h -> inv (Free 0 0 w h) [].
Proof. intros. constructor; cbn; repeat constructor; cbn; lia. Qed.

Lemma Fit_inv bs ps : nn_sizes bs -> Fit bs = Ok ps ->
  length ps = length bs /\ exists root, inv root (rects bs ps).
Proof.
  intros Hn. unfold Fit.
  destruct (match bs with [] => (0, 0) | b :: _ => b end) as [w h] eqn:Eb.
  destruct (fit_loop (Free 0 0 w h) bs) as [[root qs]| |] eqn:E; cbn; try discriminate.
  intros X. injection X as ->.
  assert (0 <= w /\ 0 <= h).
  { destruct bs as [|[? ?] ?]; injection Eb as <- <-; [lia|]. inversion Hn; auto. }
  destruct (fit_loop_inv bs _ [] _ _ Hn (inv_start w h ltac:(lia) ltac:(lia)) E) as [L I].
  split; auto. exists root. rewrite app_nil_r in I. destruct I as [I1 I2 I3 I4].
  assert (Hp : Permutation (free root ++ rev (rects bs ps)) (free root ++ rects bs ps)).
  { apply Permutation_app_head, Permutation_sym, Permutation_rev. }
  constructor; auto.
  - eapply all_apart_perm; eauto.
  - rewrite <- Hp. auto.
  - rewrite <- Hp. auto.
Qed.

Lemma all_apart_nth l : all_apart l -> forall i j a b, i <> j ->
  nth_error l i = Some a -> nth_error l j = Some b -> apart a b.
Proof.
  induction 1 as [|x l Hx Hl IH]; intros i j a b Hij Ha Hb; [destruct i; discriminate|].
  destruct i, j; cbn in *.
  - lia.
  - injection Ha as ->. rewrite Forall_forall in Hx. apply Hx. eapply nth_error_In; eauto.
  - injection Hb as ->. rewrite Forall_forall in Hx. apply apart_sym, Hx. eapply nth_error_In; eauto.
  - apply (IH i j); auto.
Qed.

Lemma all_apart_app_r l1 l2 : all_apart (l1 ++ l2) -> all_apart l2.
Proof. induction l1; cbn; auto. intros H. inversion H; auto. Qed.

Lemma rects_nth bs ps i b p : nth_error bs i = Some b -> nth_error ps i = Some p ->
  nth_error (rects bs ps) i = Some (fst p, snd p, fst b, snd b).
Proof.
  intros Hb Hp. unfold rects. rewrite nth_error_map.
  revert bs ps Hb Hp. induction i; intros [|? bs] [|? ps]; cbn; try discriminate.
  - intros [= ->] [= ->]. reflexivity.
  - apply IHi.
Qed.

(** ** Totality on area-sorted input *)

Lemma place_grow_right root w h : 0 <= w -> h <= nH root -> exists r, growRight root w h = Some r.
Proof.
  intros Hw Hh. unfold growRight. cbn [place].
  destruct (Z.leb_spec w w); [|lia]. destruct (Z.leb_spec h (nH root)); [|lia]. cbn. eauto.
Qed.
Lemma place_grow_down root w h : w <= nW root -> exists r, growDown root w h = Some r.
Proof.
  intros Hw. unfold growDown. cbn [place].
  destruct (place root w h) as [[? ?]|]; eauto.
  destruct (Z.leb_spec w (nW root)); [|lia]. destruct (Z.leb_spec h h); [|lia]. cbn. eauto.
Qed.
Lemma growNode_some root w h : 0 <= w -> (w <= nW root \/ h <= nH root) -> exists r, growNode root w h = Some r.
Proof.
  intros Hw H. unfold growNode.
  destruct (Z.leb_spec w (nW root)) as [A|A]; destruct (Z.leb_spec h (nH root)) as [B|B]; cbn [andb]; try lia;
    repeat match goal with |- context [if ?b then _ else _] => destruct b end;
    auto using place_grow_right, place_grow_down.
Qed.
Lemma growNode_none root w h : nW root < w -> nH root < h -> growNode root w h = None.
Proof.
  intros A B. unfold growNode. destruct (Z.leb_spec w (nW root)); [lia|]. destruct (Z.leb_spec h (nH root)); [lia|]. reflexivity.
Qed.

Lemma grow_dims root w h n' p : 0 <= w -> 0 <= h -> growNode root w h = Some (n', p) -> nW root <= nW n' /\ nH root <= nH n'.
Proof.
  intros Hw Hh. unfold growNode.
  assert (R : forall n' p, growRight root w h = Some (n', p) -> nW root <= nW n' /\ nH root <= nH n').
  { intros ? ? E. apply place_spec in E. destruct E as (?&?&?&?&?&?&?&?&E1&E2). cbn in E1, E2. lia. }
  assert (D : forall n' p, growDown root w h = Some (n', p) -> nW root <= nW n' /\ nH root <= nH n').
  { intros ? ? E. apply place_spec in E. destruct E as (?&?&?&?&?&?&?&?&E1&E2). cbn in E1, E2. lia. }
  repeat match goal with |- (if ?b then _ else _) = _ -> _ => destruct b end; eauto. discriminate.
Qed.

Lemma fit_loop_ok bs w0 h0 : forall root, 0 <= w0 -> 0 <= h0 -> w0 <= nW root -> h0 <= nH root ->
  nn_sizes bs -> Forall (fun b => fst b * snd b <= w0 * h0) bs ->
  exists r, fit_loop root bs = Ok r.
Proof.
  induction bs as [|[w h] bs IH]; intros root H1 H2 H3 H4 Hn Ha; cbn [fit_loop]; eauto.
  inversion Hn as [|? ? Hwh Hn']; subst. inversion Ha as [|? ? Hwa Ha']; subst. cbn in Hwh, Hwa.
  assert (Hex : exists n' p, match place root w h with Some x => Some x | None => growNode root w h end = Some (n', p)
     /\ nW root <= nW n' /\ nH root <= nH n').
  { destruct (place root w h) as [[n' p]|] eqn:E.
    - exists n', p. split; auto. apply place_spec in E. destruct E as (?&?&?&?&?&?&?&?&E1&E2). rewrite E1, E2. lia.
    - destruct (growNode_some root w h) as [[n' p] E2]; [lia| |].
      + destruct (Z_le_dec w (nW root)); auto. destruct (Z_le_dec h (nH root)); auto. exfalso.
        assert ((w0 + 1) * (h0 + 1) <= w * h) by (apply Z.mul_le_mono_nonneg; lia). nia.
      + exists n', p. split; auto. apply (grow_dims root w h n' p); auto; lia. }
  destruct Hex as (n' & p & -> & D1 & D2). cbn [deref bind fst snd].
  destruct (IH n') as [[r q] Er]; auto; try lia. rewrite Er. cbn. eauto.
Qed.

Lemma Fit_ok_head b bs : nn_sizes (b :: bs) -> Forall (fun c => fst c * snd c <= fst b * snd b) bs ->
  exists ps, Fit (b :: bs) = Ok ps.
Proof.
  intros Hn Ha. unfold Fit. destruct b as [w h]. inversion Hn; subst. cbn [fst snd] in *.
  destruct (fit_loop_ok ((w, h) :: bs) w h (Free 0 0 w h)) as [[r ps] E]; cbn [nW nH]; try lia; auto;
    [constructor; auto; cbn; lia|].
  rewrite E. cbn. eauto.
Qed.

(** ** GenerateSprite *)

Lemma fold_max_init {A} (f : A -> Z) l : forall a, a <= fold_left (fun w x => Z.max w (f x)) l a.
Proof. induction l as [|x l IH]; cbn; intros a; [lia|]. specialize (IH (Z.max a (f x))). lia. Qed.
Lemma fold_max_ge {A} (f : A -> Z) l : forall a x, In x l -> f x <= fold_left (fun w x => Z.max w (f x)) l a.
Proof.
  induction l as [|y l IH]; cbn; intros a x []; auto.
  subst. pose proof (fold_max_init f l (Z.max a (f x))). lia.
Qed.
Lemma fold_max_attained {A} (f : A -> Z) l : forall a,
  fold_left (fun w x => Z.max w (f x)) l a = a \/ exists x, In x l /\ fold_left (fun w x => Z.max w (f x)) l a = f x.
Proof.
  induction l as [|y l IH]; cbn; intros a; auto.
  destruct (IH (Z.max a (f y))) as [E|(x & Hx & E)].
  - rewrite E. destruct (Z.max_spec a (f y)) as [[_ ->]|[_ ->]]; eauto.
  - right. exists x. auto.
Qed.

Section Gen.
  Context {K : Type} (keq : K -> K -> bool) (keq_ok : forall a b, keq a b = true <-> a = b).

  Lemma keq_refl k : keq k k = true. Proof. apply keq_ok; auto. Qed.
  Lemma keq_neq a b : a <> b -> keq a b = false.
  Proof. intros H. destruct (keq a b) eqn:E; auto. apply keq_ok in E. contradiction. Qed.

  Lemma set_put_fresh k v m : ~ In k (map fst m) -> set_put keq k v m = m ++ [(k, v)].
  Proof.
    induction m as [|[k' v'] m IH]; cbn; intros H; auto.
    rewrite keq_neq by intuition. rewrite IH by intuition. auto.
  Qed.

  Definition entry0 (t : K * (Z * Z)) : K * sprite := (fst t, mkSprite (fst (snd t)) (snd (snd t)) 0 0).

  Lemma build_set_eq ts : NoDup (map fst ts) -> build_set keq ts = map entry0 ts.
  Proof.
    intros H. unfold build_set.
    assert (G : forall l m, NoDup (map fst m ++ map fst l) ->
      fold_left (fun m t => set_put keq (fst t) (mkSprite (fst (snd t)) (snd (snd t)) 0 0) m) l m = m ++ map entry0 l).
    { induction l as [|t l IH]; intros m Hm; cbn; [rewrite app_nil_r; auto|].
      cbn in Hm. rewrite set_put_fresh.
      - rewrite IH.
        + rewrite <- app_assoc. reflexivity.
        + rewrite map_app, <- app_assoc. cbn. exact Hm.
      - intros Hin. apply NoDup_remove_2 in Hm. apply Hm. apply in_or_app. auto. }
    apply (G ts []). exact H.
  Qed.

  Lemma set_pos_keys k p m : map fst (set_pos keq k p m) = map fst m.
  Proof. induction m as [|[k' v'] m IH]; cbn; auto. destruct (keq k k'); cbn; congruence. Qed.

  Lemma set_pos_other k p m k' v : k <> k' -> In (k', v) (set_pos keq k p m) <-> In (k', v) m.
  Proof.
    intros Hk. induction m as [|[k1 v1] m IH]; cbn; [tauto|].
    destruct (keq k k1) eqn:E; cbn; [|rewrite IH; tauto].
    apply keq_ok in E. subst k1. split; intros [X|X]; auto; injection X as X1 X2; congruence.
  Qed.

  Lemma set_pos_same k p m v : NoDup (map fst m) ->
    In (k, v) (set_pos keq k p m) <-> exists v0, In (k, v0) m /\ v = mkSprite (sW v0) (sH v0) (fst p) (snd p).
  Proof.
    intros Hn. induction m as [|[k1 v1] m IH]; cbn; [split; [tauto|intros (? & [] & _)]|].
    cbn in Hn. inversion Hn as [|? ? Hni Hn']; subst.
    destruct (keq k k1) eqn:E; cbn.
    - apply keq_ok in E. subst k1. split.
      + intros [X|X]; [injection X as <-; eauto|]. exfalso. apply Hni. apply (in_map fst) in X. exact X.
      + intros (v0 & [X|X] & ->); [injection X as <-; auto|]. exfalso. apply Hni. apply (in_map fst) in X. exact X.
    - rewrite IH by auto. split.
      + intros [X|(v0 & X & Y)]; [injection X as -> _; rewrite keq_refl in E; discriminate|eauto].
      + intros (v0 & [X|X] & Y); [injection X as -> _; rewrite keq_refl in E; discriminate|eauto].
  Qed.

  (** After assigning positions along [bps] (distinct keys), an entry carries the position of
      its block. *)
  Lemma positions_spec bps : forall m, NoDup (map fst m) -> NoDup (map (fun bp : (K * (Z * Z)) * (Z * Z) => fst (fst bp)) bps) ->
    forall k v, In (k, v) (fold_left (fun m bp => set_pos keq (fst (fst bp)) (snd bp) m) bps m) <->
      (exists b p v0, In (b, p) bps /\ fst b = k /\ In (k, v0) m /\ v = mkSprite (sW v0) (sH v0) (fst p) (snd p)) \/
      (~ In k (map (fun bp => fst (fst bp)) bps) /\ In (k, v) m).
  Proof.
    induction bps as [|[b p] bps IH]; intros m Hm Hb k v; cbn [fold_left map fst snd].
    - cbn. split; [auto|]. intros [(? & ? & ? & [] & _)|[_ H]]; auto.
    - cbn in Hb. inversion Hb as [|? ? Hni Hb']; subst. rewrite IH; auto; [|rewrite set_pos_keys; auto].
      split.
      + intros [(b1 & p1 & v0 & Hin & Ek & Hm0 & ->)|[Hno Hm0]].
        * left. assert (fst b <> k). { intros X. apply Hni. apply in_map_iff. exists (b1, p1). split; [cbn; congruence|exact Hin]. }
          rewrite set_pos_other in Hm0 by auto. exists b1, p1, v0. cbn. auto.
        * cbn. destruct (keq (fst b) k) eqn:E.
          -- apply keq_ok in E. subst k. apply set_pos_same in Hm0; auto. destruct Hm0 as (v0 & Hm0 & ->).
             left. exists b, p, v0. auto.
          -- assert (fst b <> k) by (intros X; subst k; rewrite keq_refl in E; discriminate).
             rewrite set_pos_other in Hm0 by auto. right. split; auto. intros [X|X]; auto.
      + intros [(b1 & p1 & v0 & [Hin|Hin] & Ek & Hm0 & ->)|[Hno Hm0]].
        * injection Hin as -> ->. subst k. right. split; auto. apply set_pos_same; eauto.
        * left. exists b1, p1, v0. repeat split; auto. apply set_pos_other; auto.
          intros X. apply Hni. apply in_map_iff. exists (b1, p1). split; [cbn; congruence|auto].
        * right. cbn in Hno. split; [tauto|]. apply set_pos_other; auto.
  Qed.

  Lemma combine_fst_keys (bs : list (K * (Z * Z))) (ps : list (Z * Z)) : length ps = length bs ->
    map (fun bp => fst (fst bp)) (combine bs ps) = map fst bs.
  Proof. revert ps. induction bs as [|b bs IH]; intros [|p ps]; cbn; intros; try lia; auto. f_equal. apply IH. lia. Qed.

  Lemma combine_in_nth {A B} (l : list A) (m : list B) a b : In (a, b) (combine l m) ->
    exists i, nth_error l i = Some a /\ nth_error m i = Some b.
  Proof.
    revert m. induction l as [|x l IH]; intros [|y m]; cbn; try tauto.
    intros [E|H]; [injection E as <- <-; exists 0%nat; auto|]. destruct (IH _ H) as [i Hi]. exists (S i). auto.
  Qed.

  Lemma combine_nth_in {A B} (l : list A) (m : list B) i a b : nth_error l i = Some a -> nth_error m i = Some b -> In (a, b) (combine l m).
  Proof.
    revert l m. induction i; intros [|x l] [|y m]; cbn; try discriminate.
    - intros [= ->] [= ->]. auto.
    - eauto.
  Qed.

  (** Each entry of the final set is a texture at its block's position. *)
  Lemma GenerateSprite_spec ts bs m size :
    NoDup (map fst ts) -> Permutation ts bs -> nn_sizes (map snd bs) ->
    GenerateSprite keq ts bs = Ok (m, size) ->
    exists ps, Fit (map snd bs) = Ok ps /\ length ps = length bs /\ size = sheet bs ps /\
      map fst m = map fst ts /\
      forall k v, In (k, v) m <->
        exists i b p, nth_error bs i = Some b /\ nth_error ps i = Some p /\ fst b = k /\
          v = mkSprite (fst (snd b)) (snd (snd b)) (fst p) (snd p).
  Proof.
    intros Hn Hp Hnn. unfold GenerateSprite. destruct (Fit (map snd bs)) as [ps| |] eqn:EF; cbn; try discriminate.
    intros E. injection E as <- <-. exists ps. destruct (Fit_inv _ _ Hnn EF) as [L _]. rewrite map_length in L.
    split; [auto|split; [auto|split; [auto|]]].
    assert (Hnb : NoDup (map fst bs)). { eapply Permutation_NoDup; [apply Permutation_map; exact Hp|auto]. }
    rewrite build_set_eq by auto.
    assert (Hk0 : map fst (map entry0 ts) = map fst ts) by (rewrite map_map; reflexivity).
    split.
    - set (f := fun m bp => set_pos keq (fst (fst bp)) (snd bp) m).
      assert (G : forall l m, map fst (fold_left f l m) = map fst m).
      { induction l as [|x l IH]; intros mm; cbn; auto. rewrite IH. apply set_pos_keys. }
      rewrite G. exact Hk0.
    - intros k v. rewrite positions_spec; [|rewrite Hk0; auto|rewrite combine_fst_keys; auto].
      rewrite combine_fst_keys by auto.
      assert (Hent : forall k v0, In (k, v0) (map entry0 ts) <-> exists b, In b bs /\ fst b = k /\ v0 = mkSprite (fst (snd b)) (snd (snd b)) 0 0).
      { intros k1 v1. rewrite in_map_iff. split.
        - intros (t & Et & Hin). unfold entry0 in Et. injection Et as <- <-. exists t. repeat split; auto. eapply Permutation_in; eauto.
        - intros (b & Hin & <- & ->). exists b. split; auto. eapply Permutation_in; [apply Permutation_sym; eauto|auto]. }
      assert (Huniq : forall b1 b2, In b1 bs -> In b2 bs -> fst b1 = fst b2 -> b1 = b2).
      { clear - Hnb. intros b1 b2 H1 H2 E. induction bs as [|b l IH]; [destruct H1|].
        cbn in Hnb. inversion Hnb as [|? ? Hni Hnb']; subst. destruct H1 as [->|H1], H2 as [->|H2]; auto.
        - exfalso. apply Hni. rewrite E. apply in_map; auto.
        - exfalso. apply Hni. rewrite <- E. apply in_map; auto. }
      split.
      + intros [(b & p & v0 & Hin & Ek & Hm & ->)|[Hno Hm]].
        * apply Hent in Hm. destruct Hm as (b' & Hb' & Ek' & ->).
          apply combine_in_nth in Hin. destruct Hin as (i & Hi1 & Hi2).
          assert (b' = b) as -> by (apply Huniq; [auto|eapply nth_error_In; eauto|congruence]).
          exists i, b, p. auto.
        * exfalso. apply Hno. apply Hent in Hm. destruct Hm as (b & Hb & <- & _). apply in_map; auto.
      + intros (i & b & p & Hi1 & Hi2 & Ek & ->). left. exists b, p, (mkSprite (fst (snd b)) (snd (snd b)) 0 0).
        repeat split; auto; [eapply combine_nth_in; eauto|]. apply Hent. exists b. repeat split; auto. eapply nth_error_In; eauto.
  Qed.
End Gen.

Lemma map_nth_error_inv {A B} (f : A -> B) l i b : nth_error (map f l) i = Some b -> exists a, nth_error l i = Some a /\ b = f a.
Proof. rewrite nth_error_map. destruct (nth_error l i); cbn; intros [= <-]; eauto. Qed.

Lemma sheet_bound {K} (bs : list (K * (Z * Z))) ps i b p : nth_error bs i = Some b -> nth_error ps i = Some p ->
  fst p + fst (snd b) <= fst (sheet bs ps) /\ snd p + snd (snd b) <= snd (sheet bs ps).
Proof.
  intros Hb Hp. pose proof (combine_nth_in _ _ _ _ _ Hb Hp) as Hin. unfold sheet. cbn [fst snd].
  pose proof (fold_max_ge (fun bp : (K * (Z * Z)) * (Z * Z) => fst (snd (fst bp)) + fst (snd bp)) _ 0 _ Hin) as H1.
  pose proof (fold_max_ge (fun bp : (K * (Z * Z)) * (Z * Z) => snd (snd (fst bp)) + snd (snd bp)) _ 0 _ Hin) as H2.
  cbn in H1, H2. cbn beta.
  destruct (Z.eqb_spec (fold_left (fun w bp => Z.max w (fst (snd (fst bp)) + fst (snd bp))) (combine bs ps) 0) 0);
  destruct (Z.eqb_spec (fold_left (fun w bp => Z.max w (snd (snd (fst bp)) + snd (snd bp))) (combine bs ps) 0) 0); lia.
Qed.

(** ** Drawing *)

Section DrawProofs.
  Context {C : Type}.
  Definition covers (s : sprite) (px py : Z) : Prop :=
    sX s <= px < sX s + sW s /\ sY s <= py < sY s + sH s.

  Lemma draw_one_out size (dst : @picture C) s px py : ~ covers (fst s) px py -> draw_one size dst s px py = dst px py.
  Proof.
    intros H. unfold draw_one, covers in *.
    destruct ((0 <=? px - sX (fst s)) && _ && _ && _ && _ && _ && _ && _) eqn:E; auto. exfalso. apply H. lia.
  Qed.
  Lemma draw_one_in size (dst : @picture C) s px py : covers (fst s) px py ->
    0 <= px < fst size -> 0 <= py < snd size -> draw_one size dst s px py = snd s (px - sX (fst s)) (py - sY (fst s)).
  Proof.
    intros H Hx Hy. unfold draw_one, covers in *.
    destruct ((0 <=? px - sX (fst s)) && _ && _ && _ && _ && _ && _ && _) eqn:E; auto. exfalso. lia.
  Qed.

  Lemma draw_all_out size l : forall (dst : @picture C) px py, (forall s, In s l -> ~ covers (fst s) px py) ->
    draw_all size dst l px py = dst px py.
  Proof.
    induction l as [|s l IH]; intros dst px py H; cbn; auto.
    unfold draw_all in *. rewrite IH by (intros; apply H; right; auto). apply draw_one_out. apply H. left; auto.
  Qed.

  Lemma draw_all_in size l : forall (dst : @picture C) s px py, In s l -> covers (fst s) px py ->
    (forall i j a b, i <> j -> nth_error l i = Some a -> nth_error l j = Some b -> ~ (covers (fst a) px py /\ covers (fst b) px py)) ->
    0 <= px < fst size -> 0 <= py < snd size ->
    draw_all size dst l px py = snd s (px - sX (fst s)) (py - sY (fst s)).
  Proof.
    induction l as [|a l IH]; intros dst s px py Hin Hc Hd Hx Hy; [destruct Hin|].
    destruct Hin as [->|Hin].
    - change (draw_all size (draw_one size dst s) l px py = snd s (px - sX (fst s)) (py - sY (fst s))).
      rewrite draw_all_out.
      + apply draw_one_in; auto.
      + intros b Hb Hcb. apply In_nth_error in Hb. destruct Hb as [j Hj]. apply (Hd 0%nat (S j) s b); auto.
    - change (draw_all size (draw_one size dst a) l px py = snd s (px - sX (fst s)) (py - sY (fst s))).
      apply IH; auto. intros i j x y Hij Hi Hj. apply (Hd (S i) (S j)); auto.
  Qed.
End DrawProofs.
