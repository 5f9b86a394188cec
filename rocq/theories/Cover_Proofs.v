(** Lemmas about tile_cover. *)
From Coq Require Import ZArith Reals List Bool Lia Lra Permutation.
From Verif Require Import GoBase Num Tileid_Model TileR_Model TileR_Proofs Clip_Model Clip_Spec Cover_Spec Cover_Model.
Import ListNotations.
Open Scope Z_scope.

Lemma upfrom_spec n : forall c x, In x (upfrom n c) <-> c < x <= c + Z.of_nat n.
Proof.
  induction n as [|n IH]; intros c x; cbn [upfrom In]; [lia|]. rewrite IH. lia.
Qed.
Lemma upfrom_len n : forall c, length (upfrom n c) = n.
Proof. induction n; intros; cbn [upfrom length]; auto. Qed.
Lemma upfrom_sorted n : forall c i a b, nth_error (upfrom n c) i = Some a -> nth_error (upfrom n c) (S i) = Some b -> b = a + 1.
Proof.
  induction n as [|n IH]; intros c i a b H1 H2; cbn [upfrom] in *; [destruct i; discriminate|].
  destruct i as [|i]; cbn [nth_error] in *; [|eapply IH; eauto].
  destruct n; cbn [upfrom nth_error] in H2; [discriminate|]. injection H1 as <-. injection H2 as <-. auto.
Qed.
Lemma upfrom_nodup n : forall c, NoDup (upfrom n c).
Proof. induction n as [|n IH]; intros c; cbn [upfrom]; constructor; auto. rewrite upfrom_spec. lia. Qed.
Lemma upfrom_nth n : forall c i, (i < n)%nat -> nth_error (upfrom n c) i = Some (c + Z.of_nat i + 1).
Proof.
  induction n as [|n IH]; intros c i Hi; [lia|]. cbn [upfrom]. destruct i as [|i]; cbn [nth_error]; [f_equal; lia|].
  rewrite IH by lia. f_equal. lia.
Qed.

Lemma tile_eqb_eq a b : tile_eqb a b = true <-> a = b.
Proof.
  unfold tile_eqb. destruct a as [x y z], b as [x' y' z']. cbn [tX tY tZ]. split.
  - intros H. f_equal; lia.
  - intros H. assert (x = x') by (apply (f_equal tX) in H; auto). assert (y = y') by (apply (f_equal tY) in H; auto).
    assert (z = z') by (apply (f_equal tZ) in H; auto). lia.
Qed.

(** ** adding tiles *)
Section Line.
  Context {P T : Type} (tile : P -> T) (teq : T -> T -> bool) (far : P -> P -> bool) (between : P -> P -> list T).
  Hypothesis teq_eq : forall a b, teq a b = true <-> a = b.

  Lemma add_tile_in ts t x : In x (add_tile teq ts t) <-> In x ts \/ x = t.
  Proof.
    unfold add_tile. destruct (existsb (teq t) ts) eqn:E.
    - apply existsb_exists in E. destruct E as (y & Hy & E). apply teq_eq in E. subst y. split; auto. intros [?| ->]; auto.
    - rewrite in_app_iff. cbn [In]. split; intros [?|?]; auto. destruct H; auto; tauto.
  Qed.
  Lemma add_tile_nodup ts t : NoDup ts -> NoDup (add_tile teq ts t).
  Proof.
    intros H. unfold add_tile. destruct (existsb (teq t) ts) eqn:E; auto.
    apply NoDup_rev in H. rewrite <- (rev_involutive (ts ++ [t])). apply NoDup_rev. rewrite rev_app_distr. cbn [rev app].
    constructor; auto. rewrite <- in_rev. intros X. assert (existsb (teq t) ts = true); [|congruence].
    apply existsb_exists. exists t. split; auto. apply teq_eq; auto.
  Qed.
  Lemma add_tile_prefix ts t : exists r, add_tile teq ts t = ts ++ r.
  Proof. unfold add_tile. destruct (existsb _ _); [exists []; rewrite app_nil_r|exists [t]]; auto. Qed.

  Lemma add_tiles_in l : forall ts x, In x (fold_left (add_tile teq) l ts) <-> In x ts \/ In x l.
  Proof.
    induction l as [|t l IH]; intros ts x; cbn [fold_left In]; [tauto|]. rewrite IH, add_tile_in.
    split; intros [H|H]; auto.
    - destruct H; auto.
    - destruct H; auto.
  Qed.
  Lemma add_tiles_nodup l : forall ts, NoDup ts -> NoDup (fold_left (add_tile teq) l ts).
  Proof. induction l as [|t l IH]; intros ts H; cbn [fold_left]; auto. apply IH. apply add_tile_nodup; auto. Qed.
  Lemma add_tiles_prefix l : forall ts, exists r, fold_left (add_tile teq) l ts = ts ++ r.
  Proof.
    induction l as [|t l IH]; intros ts; cbn [fold_left]; [exists []; rewrite app_nil_r; auto|].
    destruct (add_tile_prefix ts t) as (r1 & ->). destruct (IH (ts ++ r1)) as (r2 & ->). exists (r1 ++ r2). rewrite app_assoc. auto.
  Qed.

  (** The tiles contributed by the segments of the line. *)
  Definition consec (line : list P) (a b : P) : Prop := exists l r, line = l ++ a :: b :: r.

  Lemma line_loop_spec line : forall old ts,
    NoDup ts -> NoDup (line_loop tile teq far between old line ts) /\
    (exists r, line_loop tile teq far between old line ts = ts ++ r) /\
    (forall x, In x (line_loop tile teq far between old line ts) <->
       In x ts \/ (exists p, In p line /\ x = tile p) \/
       (exists a b, consec (old :: line) a b /\ far a b = true /\ In x (between a b))).
  Proof.
    induction line as [|p line IH]; intros old ts Hnd; cbn [line_loop].
    - split; auto. split; [exists []; rewrite app_nil_r; auto|]. intros x. split; auto.
      intros [?|[(p & [] & _)|(a & b & (l & r & E) & _)]]; auto.
      destruct l as [|? [|? l]]; discriminate.
    - set (ts' := if far old p then fold_left (add_tile teq) (between old p) ts else ts).
      assert (N' : NoDup ts') by (unfold ts'; destruct (far old p); auto using add_tiles_nodup).
      assert (P' : exists r, ts' = ts ++ r).
      { unfold ts'; destruct (far old p); [apply add_tiles_prefix|exists []; rewrite app_nil_r; auto]. }
      assert (I' : forall x, In x ts' <-> In x ts \/ (far old p = true /\ In x (between old p))).
      { intros x. unfold ts'. destruct (far old p); [rewrite add_tiles_in; tauto|]. split; [auto|]. intros [?|[? _]]; auto; discriminate. }
      destruct (IH p (add_tile teq ts' (tile p)) (add_tile_nodup _ _ N')) as (J1 & (r & J2) & J3).
      split; auto. split.
      { destruct P' as (r1 & E1), (add_tile_prefix ts' (tile p)) as (r2 & E2). exists (r1 ++ r2 ++ r). rewrite J2, E2, E1, !app_assoc. auto. }
      intros x. rewrite J3, add_tile_in, I'. split.
      + intros [[[H|[F H]]| ->]|[(q & Hq & ->)|(a & b & (l & r' & E) & F & H)]]; auto.
        * right. right. exists old, p. split; auto. exists [], line. auto.
        * right. left. exists p. split; [left|]; auto.
        * right. left. exists q. split; [right|]; auto.
        * right. right. exists a, b. split; auto. exists (old :: l), r'. rewrite E. auto.
      + intros [H|[(q & [<-|Hq] & ->)|(a & b & (l & r' & E) & F & H)]]; auto.
        * right. left. exists q. auto.
        * destruct l as [|c l]; cbn [app] in E.
          -- assert (old = a /\ p = b) as [-> ->]. { injection E. auto. } auto.
          -- right. right. exists a, b. split; auto. exists l, r'. injection E. auto.
  Qed.

  Lemma cover_rest_spec parts : forall ts r, NoDup ts -> cover_rest teq parts ts = Ok r ->
    NoDup r /\ forall x, In x r <-> In x ts \/ exists part, In (Ok part) parts /\ In x part.
  Proof.
    induction parts as [|p parts IH]; intros ts r Hnd E; cbn [cover_rest] in E.
    - assert (ts = r) by congruence. subst. split; auto. intros x. split; auto. intros [?|(q & [] & _)]; auto.
    - destruct p as [tmp| |]; cbn [bind] in E; try discriminate.
      destruct (IH _ _ (add_tiles_nodup tmp ts Hnd) E) as [J1 J2]. split; auto. intros x. rewrite J2, add_tiles_in. split.
      + intros [[?|?]|(q & Hq & ?)]; auto; right; [exists tmp; split; [left|]; auto|exists q; split; [right|]; auto].
      + intros [?|(q & [Hq|Hq] & ?)]; auto; [|right; eauto]. assert (tmp = q) by congruence. subst. auto.
  Qed.
  Lemma cover_rest_ok parts : forall ts, (forall p, In p parts -> exists l, p = Ok l) -> exists r, cover_rest teq parts ts = Ok r.
  Proof.
    induction parts as [|p parts IH]; intros ts H; cbn [cover_rest]; eauto.
    destruct (H p (or_introl eq_refl)) as (l & ->). cbn [bind]. apply IH. intros; apply H; right; auto.
  Qed.
End Line.

(** ** point in polygon *)
Open Scope R_scope.

Lemma pip_edge_spec (p a b : rpt) : pip_edge p a b = true <-> crosses_right p a b.
Proof.
  unfold pip_edge, crosses_right. destruct p as [px py], a as [ax ay], b as [bx by_]. cbn [fst snd].
  assert (HX : ((ay <= py < by_) \/ (by_ <= py < ay)) ->
    ((exists q : rpt, seg (ax, ay) (bx, by_) q /\ snd q = py /\ px < fst q) <-> px < (py - ay) * (bx - ax) / (by_ - ay) + ax)).
  { intros H. assert (Hd : by_ - ay <> 0) by lra. split.
    - intros ([qx qy] & (t & Ht & E1 & E2) & E3 & E4). cbn [fst snd] in *. subst qy.
      replace ((py - ay) * (bx - ax) / (by_ - ay) + ax) with qx; auto. rewrite E1.
      replace (py - ay) with (t * (by_ - ay)) by lra. field. auto.
    - intros H1. exists ((py - ay) * (bx - ax) / (by_ - ay) + ax, py). cbn [fst snd]. split; [|split; auto].
      exists ((py - ay) / (by_ - ay)). split; [|split; cbn [fst snd]; field; auto].
      destruct H.
      + assert (0 < by_ - ay) by lra. assert (0 < / (by_ - ay)) by (apply Rinv_0_lt_compat; auto).
        assert ((by_ - ay) * / (by_ - ay) = 1) by (field; auto). unfold Rdiv. split; nra.
      + replace ((py - ay) / (by_ - ay)) with ((ay - py) / (ay - by_)) by (field; lra).
        assert (0 < ay - by_) by lra. assert (0 < / (ay - by_)) by (apply Rinv_0_lt_compat; auto).
        assert ((ay - by_) * / (ay - by_) = 1) by (field; lra). unfold Rdiv. split; nra. }
  assert (HB : (if Rleb by_ ay then (@pair rpt rpt (bx, by_) (ax, ay)) else ((ax, ay), (bx, by_))) = (if Rleb by_ ay then ((bx, by_), (ax, ay)) else ((ax, ay), (bx, by_)))) by auto.
  assert (HC : ((ay <= py < by_) \/ (by_ <= py < ay)) -> let xint := (py - ay) * (bx - ax) / (by_ - ay) + ax in
    ((if Rleb (Rmax ax bx) px || Reqb by_ ay then false else if negb (Reqb ax bx) && Rleb xint px then false else true) = true <-> px < xint)).
  { intros H xint. assert (Hd : by_ - ay <> 0) by lra.
    assert (Hx : xint <= Rmax ax bx).
    { unfold xint. set (t := (py - ay) / (by_ - ay)). replace ((py - ay) * (bx - ax) / (by_ - ay) + ax) with (t * (bx - ax) + ax) by (unfold t; field; auto).
      assert (0 <= t <= 1).
      { destruct H.
        + assert (0 < by_ - ay) by lra. assert (0 < / (by_ - ay)) by (apply Rinv_0_lt_compat; auto).
          assert ((by_ - ay) * / (by_ - ay) = 1) by (field; auto). unfold t, Rdiv. split; nra.
        + unfold t. replace ((py - ay) / (by_ - ay)) with ((ay - py) / (ay - by_)) by (field; lra).
          assert (0 < ay - by_) by lra. assert (0 < / (ay - by_)) by (apply Rinv_0_lt_compat; auto).
          assert ((ay - by_) * / (ay - by_) = 1) by (field; lra). unfold Rdiv. split; nra. }
      pose proof (Rmax_l ax bx). pose proof (Rmax_r ax bx). nra. }
    destruct (Rleb_spec (Rmax ax bx) px); cbn [orb]. { split; [discriminate|lra]. }
    destruct (Reqb_spec by_ ay); [lra|].
    destruct (Reqb_spec ax bx) as [->|]; cbn [negb andb].
    - split; auto. intros _. unfold xint. replace ((py - ay) * (bx - bx) / (by_ - ay) + bx) with bx by (field; auto).
      rewrite Rmax_left in n by lra. lra.
    - destruct (Rleb_spec xint px); split; try lra; try discriminate; auto. }
  destruct (Rleb_spec by_ ay) as [HL|HL]; cbn [fst snd].
  - destruct (Rltb_spec py by_); cbn [orb]; [split; [discriminate|lra]|].
    destruct (Rleb_spec ay py); [split; [discriminate|lra]|].
    assert (H : by_ <= py < ay) by lra. cbv zeta in HC. rewrite HC by auto. rewrite HX by auto. tauto.
  - destruct (Rltb_spec py ay); cbn [orb]; [split; [discriminate|lra]|].
    destruct (Rleb_spec by_ py); [split; [discriminate|lra]|].
    assert (H : ay <= py < by_) by lra. cbv zeta in HC. rewrite HC by auto. rewrite HX by auto. tauto.
Qed.

Lemma pip_edge_refl p a : pip_edge p a a = false.
Proof.
  destruct (pip_edge p a a) eqn:E; auto. apply pip_edge_spec in E. destruct E as [[?|?] _]; lra.
Qed.

Lemma crosses_right_sym p a b : crosses_right p a b -> crosses_right p b a.
Proof.
  intros [H (q & (t & Ht & E1 & E2) & H1)]. split; [tauto|]. exists q. split; auto. exists (1 - t). split; [lra|]. split; lra.
Qed.
Lemma pip_edge_sym p a b : pip_edge p a b = pip_edge p b a.
Proof.
  destruct (pip_edge p a b) eqn:E1, (pip_edge p b a) eqn:E2; auto.
  - apply pip_edge_spec, crosses_right_sym, pip_edge_spec in E1. congruence.
  - apply pip_edge_spec, crosses_right_sym, pip_edge_spec in E2. congruence.
Qed.

(** number of counted edges in a list of edges *)
Definition cnt (p : rpt) (es : list (rpt * rpt)) : nat := length (filter (fun e => pip_edge p (fst e) (snd e)) es).
Lemma cnt_app p a b : cnt p (a ++ b) = (cnt p a + cnt p b)%nat.
Proof. unfold cnt. rewrite filter_app, app_length. auto. Qed.
Lemma cnt_cons p e l : cnt p (e :: l) = ((if pip_edge p (fst e) (snd e) then 1 else 0) + cnt p l)%nat.
Proof. unfold cnt. cbn [filter]. destruct (pip_edge _ _ _); cbn [length]; auto. Qed.

Lemma last_def {A} : forall (l : list A) x y z, last (x :: l) y = last (x :: l) z.
Proof. induction l as [|w l IH]; intros; auto. change (last (w :: l) y = last (w :: l) z). apply IH. Qed.

Lemma edges_snoc a : forall l (b : rpt), edges ((a :: l) ++ [b]) = edges (a :: l) ++ [(last (a :: l) a, b)].
Proof.
  intros l. revert a. induction l as [|c l IH]; intros a b; [reflexivity|].
  change (edges ((a :: c :: l) ++ [b])) with ((a, c) :: edges ((c :: l) ++ [b])). rewrite IH.
  change (edges (a :: c :: l)) with ((a, c) :: edges (c :: l)). cbn [app]. f_equal. f_equal. f_equal. f_equal.
  change (last (a :: c :: l) a) with (last (c :: l) a). apply last_def.
Qed.

Lemma combine_edges (f : rpt) : forall l a, combine (a :: l) (l ++ [f]) = edges ((a :: l) ++ [f]).
Proof.
  induction l as [|b l IH]; intros a; [reflexivity|].
  change (combine (a :: b :: l) ((b :: l) ++ [f])) with ((a, b) :: combine (b :: l) (l ++ [f])). rewrite IH. reflexivity.
Qed.

Lemma pip_ring_count c p : c <> [] -> pip_ring c p = Ok (cnt p (ring_edges c)).
Proof.
  intros H. destruct c as [|f l]; [contradiction|]. unfold pip_ring. f_equal.
  destruct (negb (Reqb (fst f) (fst (last (f :: l) f)))).
  - change (tl ((f :: l) ++ [f])) with (l ++ [f]).
    change ((f :: l) ++ [f]) with (f :: (l ++ [f])).
    rewrite combine_edges. fold (cnt p (edges ((f :: l ++ [f]) ++ [f]))). rewrite edges_snoc.
    rewrite cnt_app. change (f :: l ++ [f]) with ((f :: l) ++ [f]). rewrite last_last. cbn [ring_edges].
    rewrite (cnt_cons p (f, f) []). cbn [fst snd]. rewrite pip_edge_refl. change (cnt p []) with 0%nat. cbn [app]. lia.
  - cbn [tl]. rewrite combine_edges. reflexivity.
Qed.

Lemma pip_count_eq rings p : (forall c, In c rings -> c <> []) -> pip_count rings p = Ok (cnt p (all_edges rings)).
Proof.
  induction rings as [|c rs IH]; intros H; cbn [pip_count]; auto.
  rewrite pip_ring_count by (apply H; left; auto). cbn [bind]. rewrite IH by (intros; apply H; right; auto). cbn [bind].
  unfold all_edges. cbn [flat_map]. rewrite cnt_app. auto.
Qed.

Lemma positions {A} (f : A -> bool) (l : list A) : exists ps, NoDup ps /\ length ps = length (filter f l) /\
  forall i, In i ps <-> exists e, nth_error l i = Some e /\ f e = true.
Proof.
  induction l as [|a l IH].
  - exists []. split; [constructor|]. split; auto. intros i. split; [intros []|]. intros (e & H & _). destruct i; discriminate.
  - destruct IH as (ps & N & L & S_). destruct (f a) eqn:E.
    + exists (0%nat :: map S ps). split; [|split].
      * constructor; [intros H; apply in_map_iff in H; destruct H as (x & ? & _); discriminate|].
        apply FinFun.Injective_map_NoDup; auto. intros x y H. injection H. auto.
      * cbn [length filter]. rewrite E. cbn [length]. rewrite map_length. auto.
      * intros [|i]; cbn [In nth_error]; [split; [eauto|auto]|]. rewrite <- S_. rewrite in_map_iff. split.
        -- intros [?|(x & Hx & ?)]; [discriminate|]. injection Hx as ->. auto.
        -- intros. right. exists i. auto.
    + exists (map S ps). split; [|split].
      * apply FinFun.Injective_map_NoDup; auto. intros x y H. injection H. auto.
      * cbn [length filter]. rewrite E. rewrite map_length. auto.
      * intros [|i]; cbn [nth_error].
        -- split; [intros H; apply in_map_iff in H; destruct H as (x & ? & _); discriminate|]. intros (e & H & F). injection H as ->. congruence.
        -- rewrite <- S_. rewrite in_map_iff. split; [intros (x & Hx & ?); injection Hx as ->; auto|intros; exists i; auto].
Qed.

Lemma inside_iff rings p : inside rings p <-> Nat.odd (cnt p (all_edges rings)) = true.
Proof.
  unfold inside, cnt. destruct (positions (fun e => pip_edge p (fst e) (snd e)) (all_edges rings)) as (ps & N & L & S_). split.
  - intros (l & Nl & O & H). rewrite <- L. replace (length ps) with (length l); auto.
    apply Permutation_length. apply NoDup_Permutation; auto. intros i. rewrite H, S_. split; intros (e & A & B); exists e; split; auto; apply pip_edge_spec; auto.
  - intros H. exists ps. split; auto. split; [rewrite L; auto|]. intros i. rewrite S_. split; intros (e & A & B); exists e; split; auto; apply pip_edge_spec; auto.
Qed.

Lemma Pip_spec rings p : (forall c, In c rings -> c <> []) ->
  exists b, Pip rings p = Ok b /\ (b = true <-> inside rings p).
Proof.
  intros H. unfold Pip. rewrite pip_count_eq by auto. cbn [bind]. eexists. split; [reflexivity|]. rewrite inside_iff. tauto.
Qed.

(** the bounding box *)
Lemma bbox_step_spec b x y : let b' := bbox_step b (x, y) in
  eW b' = (if Rltb x (eW b) then x else eW b) /\
  eE b' = (if Rltb x (eW b) then eE b else if Rltb (eE b) x then x else eE b) /\
  eS b' = (if Rltb y (eS b) then y else eS b) /\
  eN b' = (if Rltb y (eS b) then eN b else if Rltb (eN b) y then y else eN b).
Proof.
  unfold bbox_step. destruct (Rltb x (eW b)), (Rltb (eE b) x), (Rltb y (eS b)), (Rltb (eN b) y); cbn; auto.
Qed.

(** one coordinate *)
Definition lo_step (s : R * R) (x : R) : R * R :=
  if Rltb x (fst s) then (x, snd s) else if Rltb (snd s) x then (fst s, x) else s.
Lemma lo_step_eq w e v : lo_step (w, e) v = if Rltb v w then (v, e) else if Rltb e v then (w, v) else (w, e).
Proof. reflexivity. Qed.
Lemma bbox_proj pts : forall b, let r := fold_left bbox_step pts b in
  (eW r, eE r) = fold_left lo_step (map fst pts) (eW b, eE b) /\ (eS r, eN r) = fold_left lo_step (map snd pts) (eS b, eN b).
Proof.
  induction pts as [|[x y] pts IH]; intros b; cbn [fold_left map fst snd]; auto.
  destruct (bbox_step_spec b x y) as (E1 & E2 & E3 & E4). specialize (IH (bbox_step b (x, y))). cbv zeta in IH.
  destruct IH as [I1 I2]. cbv zeta. rewrite I1, I2, E1, E2, E3, E4.
  assert (L : forall w e v, lo_step (w, e) v = (if Rltb v w then v else w, if Rltb v w then e else if Rltb e v then v else e)).
  { intros w e v. unfold lo_step. cbn [fst snd]. destruct (Rltb v w), (Rltb e v); auto. }
  rewrite !L. auto.
Qed.

(** The running pair: lower bound of everything seen; upper bound of everything seen that was
    not a new strict minimum. *)
Lemma lo_steps l : forall w e, let r := fold_left lo_step l (w, e) in
  fst r <= w /\ e <= snd r /\ (fst r = w \/ In (fst r) l) /\ (snd r = e \/ In (snd r) l) /\
  (forall x, In x l -> fst r <= x) /\ (forall x, In x l -> w <= x -> x <= snd r).
Proof.
  induction l as [|a l IH]; intros w e; cbn [fold_left]; cbv zeta.
  - cbn [fst snd In]. split; [lra|]. split; [lra|]. split; [auto|]. split; [auto|]. split; intros x [].
  - rewrite lo_step_eq.
    destruct (Rltb_spec a w) as [H|H]; [|destruct (Rltb_spec e a) as [H'|H']].
    + destruct (IH a e) as (I1 & I2 & I3 & I4 & I5 & I6). cbv zeta in *. repeat split; try lra.
      * right. destruct I3 as [-> |]; [left|right]; auto.
      * destruct I4; auto. right; right; auto.
      * intros x [<-|Hx]; auto.
      * intros x [<-|Hx] ?; [lra|]. apply I6; auto. lra.
    + destruct (IH w a) as (I1 & I2 & I3 & I4 & I5 & I6). cbv zeta in *. repeat split; try lra.
      * destruct I3; auto. right; right; auto.
      * destruct I4 as [-> |]; right; [left|right]; auto.
      * intros x [<-|Hx]; auto. lra.
      * intros x [<-|Hx] ?; [lra|]. apply I6; auto.
    + destruct (IH w e) as (I1 & I2 & I3 & I4 & I5 & I6). cbv zeta in *. repeat split; try lra.
      * destruct I3; auto. right; right; auto.
      * destruct I4; auto. right; right; auto.
      * intros x [<-|Hx]; auto. lra.
      * intros x [<-|Hx] ?; [lra|]. apply I6; auto.
Qed.

(** closed list: first value repeated at the end *)
Lemma lo_closed a l w0 e0 : (forall x, In x (a :: l) -> e0 <= x <= w0) ->
  let r := fold_left lo_step (a :: l ++ [a]) (w0, e0) in
  (forall x, In x (a :: l) -> fst r <= x <= snd r) /\ In (fst r) (a :: l) /\ In (snd r) (a :: l).
Proof.
  intros H. cbn [fold_left]. cbv zeta. pose proof (H a (or_introl eq_refl)) as Ha.
  rewrite lo_step_eq.
  destruct (Rltb_spec a w0) as [H1|H1]; [|assert (a = w0) by lra; subst w0; destruct (Rltb_spec e0 a) as [H2|H2]].
  - destruct (lo_steps (l ++ [a]) a e0) as (I1 & I2 & I3 & I4 & I5 & I6). cbv zeta in *.
    set (r := fold_left lo_step (l ++ [a]) (a, e0)) in *.
    assert (Hax : a <= snd r) by (apply I6; [apply in_app_iff; right; left; auto|lra]).
    assert (IL : forall x, In x (l ++ [a]) <-> In x (a :: l)) by (intros x; rewrite in_app_iff; cbn [In]; tauto).
    split; [|split].
    + intros x Hx. split; [apply I5; apply IL; auto|]. destruct (Rle_dec a x); [apply I6; [apply IL|]; auto|lra].
    + destruct I3 as [-> |I3]; [left; auto|apply IL; auto].
    + destruct I4 as [I4|I4]; [|apply IL; auto]. left. lra.
  - destruct (lo_steps (l ++ [a]) a a) as (I1 & I2 & I3 & I4 & I5 & I6). cbv zeta in *.
    set (r := fold_left lo_step (l ++ [a]) (a, a)) in *.
    assert (IL : forall x, In x (l ++ [a]) <-> In x (a :: l)) by (intros x; rewrite in_app_iff; cbn [In]; tauto).
    split; [|split].
    + intros x Hx. split; [apply I5; apply IL; auto|]. specialize (H x Hx). lra.
    + destruct I3 as [-> |I3]; [left; auto|apply IL; auto].
    + destruct I4 as [-> |I4]; [left; auto|apply IL; auto].
  - assert (a = e0) by lra. subst e0. destruct (lo_steps (l ++ [a]) a a) as (I1 & I2 & I3 & I4 & I5 & I6). cbv zeta in *.
    set (r := fold_left lo_step (l ++ [a]) (a, a)) in *.
    assert (IL : forall x, In x (l ++ [a]) <-> In x (a :: l)) by (intros x; rewrite in_app_iff; cbn [In]; tauto).
    split; [|split].
    + intros x Hx. split; [apply I5; apply IL; auto|]. specialize (H x Hx). lra.
    + destruct I3 as [-> |I3]; [left; auto|apply IL; auto].
    + destruct I4 as [-> |I4]; [left; auto|apply IL; auto].
Qed.

Lemma bbox_closed (f : rpt) l : (forall p, In p (f :: l) -> -180 <= fst p <= 180 /\ -90 <= snd p <= 90) ->
  let b := BoundingBoxPoints (f :: l ++ [f]) in
  (forall p, In p (f :: l) -> eW b <= fst p <= eE b /\ eS b <= snd p <= eN b) /\
  In (eW b) (map fst (f :: l)) /\ In (eE b) (map fst (f :: l)) /\ In (eS b) (map snd (f :: l)) /\ In (eN b) (map snd (f :: l)).
Proof.
  intros H b. destruct (bbox_proj (f :: l ++ [f]) (mkExt 180 (-180) (-90) 90)) as [E1 E2].
  fold (BoundingBoxPoints (f :: l ++ [f])) in E1, E2. fold b in E1, E2. cbn [eW eE eS eN] in E1, E2.
  cbn [map] in E1, E2. rewrite map_app in E1, E2. cbn [map] in E1, E2.
  destruct (lo_closed (fst f) (map fst l) 180 (-180)) as (A1 & A2 & A3).
  { intros x Hx. change (In x (map fst (f :: l))) in Hx. apply in_map_iff in Hx. destruct Hx as (p & <- & Hp). apply H in Hp. lra. }
  destruct (lo_closed (snd f) (map snd l) 90 (-90)) as (B1 & B2 & B3).
  { intros x Hx. change (In x (map snd (f :: l))) in Hx. apply in_map_iff in Hx. destruct Hx as (p & <- & Hp). apply H in Hp. lra. }
  rewrite <- E1 in A1, A2, A3. rewrite <- E2 in B1, B2, B3. cbn [fst snd] in *.
  split; [|repeat split; auto].
  intros p Hp. split; [apply A1|apply B1]; [change (In (fst p) (map fst (f :: l)))|change (In (snd p) (map snd (f :: l)))]; apply in_map; auto.
Qed.
