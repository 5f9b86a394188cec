(** Lemmas about clipping down the tile pyramid. *)
From Coq Require Import ZArith Reals List Bool Lia Lra Permutation.
From Verif Require Import GoBase Num Tileid_Model TileR_Model TileR_Proofs MvtGeom_Model
  Clip_Model Clip_Spec Clip_Proofs ClipRing_Proofs TileR_Props Clip_Props ClipFeature_Model.
Import ListNotations.
Open Scope R_scope.

(** ** Vertices *)
Definition verts (g : @cgeom R) : list rpt :=
  match g with CLine l => l | CMultiLine ls => concat ls | CPolygon rs => concat rs | CMultiPolygon ps => concat (concat ps) | CNone => [] end.
(** No empty line, ring or member *)
Definition wf (g : @cgeom R) : Prop :=
  match g with
  | CLine l => l <> []
  | CPolygon rs => forall r, In r rs -> r <> []
  | CMultiPolygon ps => forall m, In m ps -> m <> [] /\ forall r, In r m -> r <> []
  | _ => True
  end.
Definition convex (P : rpt -> Prop) : Prop := forall a b s, P a -> P b -> 0 <= s <= 1 -> P (at_ a b s).
Lemma in_box_convex b : convex (in_box b).
Proof.
  intros p q s [Hp1 Hp2] [Hq1 Hq2] Hs. unfold in_box, at_. cbn [fst snd]. split; apply conv_in; auto.
Qed.

Section Convex.
Context (P : rpt -> Prop) (HP : convex P) (axis : bool) (k1 k2 : R) (Hk : k1 <= k2).
Lemma emit_P p q : P p -> P q -> Forall P (fst (emit RNum axis k1 k2 p q)).
Proof.
  intros Hp Hq. pose proof (emit_cases axis k1 k2 p q Hk) as HE. destruct (emit RNum axis k1 k2 p q) as [em ex]. cbn [fst snd] in *.
  inversion HE; subst; repeat constructor; auto; try (apply HP; auto; lra).
  destruct H4 as [->|[-> _]]; repeat constructor; auto.
Qed.
Lemma loop_P ring r : forall p done cur done' cur' z, Forall P (p :: r) -> Forall (Forall P) done -> Forall P cur ->
  clip_loop RNum axis ring k1 k2 p r done cur = (done', cur', z) -> Forall (Forall P) done' /\ Forall P cur' /\ P z.
Proof.
  induction r as [|q r IH]; intros p done cur done' cur' z HS Hd Hc E; cbn [clip_loop] in E.
  - injection E as <- <- <-. inversion HS; auto.
  - inversion HS as [|? ? Hp Hr]; subst. assert (Hq : P q) by (inversion Hr; auto). pose proof (emit_P p q Hp Hq) as He. destruct (emit RNum axis k1 k2 p q) as [em ex]. cbn [fst] in He.
    assert (Forall P (cur ++ em)) by (apply Forall_app; auto). destruct (negb ring && ex); apply IH in E; auto. apply Forall_app; auto.
Qed.
Lemma clipLine_P ring l pieces : Forall P l -> clipLine RNum l k1 k2 axis ring = Ok pieces -> Forall (Forall P) pieces.
Proof.
  intros HS E. destruct l as [|p r]; [discriminate|]. cbn [clipLine] in E. destruct (clip_loop RNum axis ring k1 k2 p r [] []) as [[done cur] z] eqn:EL.
  destruct (loop_P ring r p [] [] done cur z HS) as (Hd & Hc & Hz); auto.
  assert (E' := f_equal (fun r => match r with Ok a => a | _ => [] end) E). cbv beta iota in E'. rewrite <- E'. clear E E'.
  set (c2 := if nleb RNum k1 (coord axis z) && nleb RNum (coord axis z) k2 then cur ++ [z] else cur).
  assert (H2 : Forall P c2) by (unfold c2; destruct (_ && _); auto; apply Forall_app; auto).
  clearbody c2. assert (H3 : Forall P (close_slice RNum ring c2)).
  { destruct c2 as [|f c2]; auto. cbn [close_slice]. destruct (_ && _ && _); auto. apply Forall_app; split; auto. inversion H2; auto. }
  destruct (close_slice RNum ring c2) eqn:EC; auto. apply Forall_app; split; auto.
Qed.
Lemma clipLines_P ring ls pieces : Forall (Forall P) ls -> clipLines RNum ls k1 k2 axis ring = Ok pieces -> Forall (Forall P) pieces.
Proof.
  revert pieces. induction ls as [|l ls IH]; intros pieces H E; cbn [clipLines] in E; [injection E as <-; constructor|]. inversion H; subst.
  destruct (clipLine RNum l k1 k2 axis ring) as [a| |] eqn:Ea; try discriminate. cbn [bind] in E. destruct (clipLines RNum ls k1 k2 axis ring) as [b| |]; try discriminate. cbn [bind] in E. injection E as <-.
  apply Forall_app. split; [eapply clipLine_P; eauto|eapply IH; eauto].
Qed.
Lemma LintRing_P l l' : Forall P l -> LintRing RNum Power7 l = Ok l' -> Forall P l'.
Proof.
  intros H E. destruct l as [|f l]; [discriminate|]. assert (Hf : P f) by (inversion H; auto). cbn [LintRing] in E. destruct (DeltaFirstLast _ _ _ _); injection E as <-.
  - apply (proj2 (Forall_app _ (f :: l) [f])). auto.
  - apply Forall_app. split; auto. apply Forall_forall. intros x Hx. change (In x (removelast (f :: l))) in Hx. apply In_removelast in Hx. rewrite Forall_forall in H. auto.
Qed.
Lemma map_res_Forall {A} (f : A -> res A) (Q : A -> Prop) (Hf : forall a b, Q a -> f a = Ok b -> Q b) l : forall l', Forall Q l -> map_res f l = Ok l' -> Forall Q l'.
Proof.
  induction l as [|a l IH]; intros l' H E; cbn [map_res] in E; [injection E as <-; constructor|]. inversion H; subst. destruct (f a) eqn:Ea; try discriminate. cbn [bind] in E.
  destruct (map_res f l); try discriminate. cbn [bind] in E. injection E as <-. constructor; eauto.
Qed.
Lemma Forall_concat {A} (Q : A -> Prop) ls : Forall Q (concat ls) <-> Forall (Forall Q) ls.
Proof. induction ls as [|l ls IH]; cbn [concat]; [split; constructor|]. rewrite Forall_app, IH. split; [intros []; constructor; auto|intros H; inversion H; auto]. Qed.
Lemma clip_P g h : Forall P (verts g) -> clip RNum Power7 g k1 k2 axis = Ok h -> Forall P (verts h).
Proof.
  intros H E. destruct g as [l|ls|rs|ps|]; cbn [clip verts] in *.
  - destruct (clipLine RNum l k1 k2 axis false) as [ps| |] eqn:El; try discriminate. cbn [bind] in E. pose proof (clipLine_P _ _ _ H El) as K. injection E as <-. destruct ps as [|a [|b ps]]; cbn [verts]; [constructor|inversion K; auto|apply Forall_concat; exact K].
  - injection E as <-. constructor.
  - destruct (LintPolygon RNum Power7 rs) as [rs'| |] eqn:El; try discriminate. cbn [bind] in E. destruct (clipLines RNum rs' k1 k2 axis true) as [ls| |] eqn:Ec; try discriminate. cbn [bind] in E. injection E as <-.
    cbn [verts]. apply Forall_concat. eapply clipLines_P; [|exact Ec]. eapply map_res_Forall; [|apply (proj1 (Forall_concat P rs) H)|exact El]. intros; eapply LintRing_P; eauto.
  - destruct (LintMultiPolygon RNum Power7 ps) as [ps'| |] eqn:El; try discriminate. cbn [bind] in E. destruct (clipMultiPolygon RNum ps' k1 k2 axis true) as [ms| |] eqn:Ec; try discriminate. cbn [bind] in E.
    assert (K : Forall (Forall (Forall P)) ps').
    { eapply map_res_Forall; [|apply (proj1 (Forall_concat _ ps)), (proj1 (Forall_concat P _) H)|exact El]. intros m m' Hm Em. eapply map_res_Forall; [|exact Hm|exact Em]. intros; eapply LintRing_P; eauto. }
    assert (K2 : Forall (Forall (Forall P)) ms).
    { clear - K Ec HP Hk. revert ms Ec. induction K as [|m ps' Hm K IH]; intros ms E; cbn [clipMultiPolygon] in E; [injection E as <-; constructor|]. destruct (clipLines RNum m k1 k2 axis true) as [a| |] eqn:Ea; try discriminate. cbn [bind] in E.
      destruct (clipMultiPolygon RNum ps' k1 k2 axis true) as [b| |]; try discriminate. cbn [bind] in E. pose proof (clipLines_P _ _ _ Hm Ea). destruct a; injection E as <-; auto. }
    injection E as <-. destruct ms as [|a [|b ms]]; cbn [verts]; [constructor|inversion K2; apply Forall_concat; auto|apply (proj2 (Forall_concat _ _)), (proj2 (Forall_concat _ _)); exact K2].
  - injection E as <-. constructor.
Qed.
End Convex.
(** Clipping puts every vertex in the band *)
Lemma clip_band g h k1 k2 axis : k1 <= k2 -> clip RNum Power7 g k1 k2 axis = Ok h -> Forall (in_band axis k1 k2) (verts h).
Proof.
  intros Hk E.
  assert (L1 : forall l ring ps, clipLine RNum l k1 k2 axis ring = Ok ps -> Forall (Forall (in_band axis k1 k2)) ps).
  { intros l ring ps H. apply Forall_forall. intros piece Hp. apply Forall_forall. intros p Hin. eapply C25_in_band; eauto. }
  assert (L2 : forall ls ring ps, clipLines RNum ls k1 k2 axis ring = Ok ps -> Forall (Forall (in_band axis k1 k2)) ps).
  { induction ls as [|l ls IH]; intros ring ps H; cbn [clipLines] in H; [injection H as <-; constructor|]. destruct (clipLine RNum l k1 k2 axis ring) as [a| |] eqn:Ea; try discriminate. cbn [bind] in H. destruct (clipLines RNum ls k1 k2 axis ring) as [b| |] eqn:Eb; try discriminate. cbn [bind] in H. injection H as <-. apply Forall_app. eauto. }
  destruct g as [l|ls|rs|ps|]; cbn [clip verts] in *.
  - destruct (clipLine RNum l k1 k2 axis false) as [ps| |] eqn:El; try discriminate. cbn [bind] in E. pose proof (L1 _ _ _ El) as K. injection E as <-. destruct ps as [|a [|b ps]]; cbn [verts]; [constructor|inversion K; auto|apply Forall_concat; exact K].
  - injection E as <-. constructor.
  - destruct (LintPolygon RNum Power7 rs) as [rs'| |] eqn:El; try discriminate. cbn [bind] in E. destruct (clipLines RNum rs' k1 k2 axis true) as [ls| |] eqn:Ec; try discriminate. cbn [bind] in E. injection E as <-. apply Forall_concat. eauto.
  - destruct (LintMultiPolygon RNum Power7 ps) as [ps'| |] eqn:El; try discriminate. cbn [bind] in E. destruct (clipMultiPolygon RNum ps' k1 k2 axis true) as [ms| |] eqn:Ec; try discriminate. cbn [bind] in E.
    assert (K2 : Forall (Forall (Forall (in_band axis k1 k2))) ms).
    { clear - L2 Ec. revert ms Ec. induction ps' as [|m ps' IH]; intros ms E; cbn [clipMultiPolygon] in E; [injection E as <-; constructor|]. destruct (clipLines RNum m k1 k2 axis true) as [a| |] eqn:Ea; try discriminate. cbn [bind] in E.
      destruct (clipMultiPolygon RNum ps' k1 k2 axis true) as [b| |]; try discriminate. cbn [bind] in E. pose proof (L2 _ _ _ Ea). destruct a; injection E as <-; auto. }
    injection E as <-. destruct ms as [|a [|b ms]]; cbn [verts]; [constructor|inversion K2; apply Forall_concat; auto|apply (proj2 (Forall_concat _ _)), (proj2 (Forall_concat _ _)); exact K2].
  - injection E as <-. constructor.
Qed.

(** ** Clipping never fails on well-formed geometry *)
Lemma lint_total rs : (forall r, In r rs -> r <> []) -> exists rs', LintPolygon RNum Power7 rs = Ok rs' /\ (forall r, In r rs' -> r <> []) /\ length rs' = length rs /\
  forall v r rs0, rs = (v :: r) :: rs0 -> exists r' rs0', rs' = (v :: r') :: rs0'.
Proof.
  intros H. unfold LintPolygon. induction rs as [|r rs IH]; [exists []; split; [reflexivity|]; split; [intros ? []|]; split; [reflexivity|]; discriminate|].
  destruct IH as (rs' & E & N & L & _); [intros; apply H; right; auto|]. destruct r as [|f r]; [destruct (H []); [left|]; auto|].
  destruct (C27_ring_repair (f :: r) f eq_refl) as (r' & E1 & Hh & _). exists (r' :: rs'). cbn [map_res]. rewrite E1. cbn [bind]. rewrite E. cbn [bind]. split; auto. destruct r' as [|f' r']; [discriminate|]. injection Hh as ->. split; [intros x [<-|Hx]; [discriminate|auto]|]. split; [cbn; lia|].
  intros v r1 rs0 K. injection K as -> -> ->. eauto.
Qed.
Lemma clipLine_total l k1 k2 axis ring : l <> [] -> exists ps, clipLine RNum l k1 k2 axis ring = Ok ps.
Proof. destruct l as [|p r]; [congruence|]. intros _. cbn [clipLine]. destruct (clip_loop _ _ _ _ _ _ _ _ _) as [[done cur] z]. eauto. Qed.
Lemma clipLines_total ls k1 k2 axis ring : (forall r, In r ls -> r <> []) -> exists ps, clipLines RNum ls k1 k2 axis ring = Ok ps.
Proof.
  induction ls as [|l ls IH]; intros H; cbn [clipLines]; [eauto|]. destruct (clipLine_total l k1 k2 axis ring) as [a ->]; [apply H; left; auto|]. cbn [bind]. destruct IH as [b ->]; [intros; apply H; right; auto|]. cbn [bind]. eauto.
Qed.
Lemma clip_total g k1 k2 axis : k1 <= k2 -> wf g -> exists h, clip RNum Power7 g k1 k2 axis = Ok h /\ wf h.
Proof.
  intros Hk W. destruct g as [l|ls|rs|ps|]; cbn [clip wf] in *.
  - destruct (clipLine_line l k1 k2 axis Hk W) as (ps & -> & F & _). cbn [bind]. eexists. split; [reflexivity|]. destruct ps as [|a [|b ps]]; cbn [wf]; auto. inversion F; auto.
  - eexists. split; [reflexivity|exact I].
  - destruct (clip_polygon_total rs k1 k2 axis W) as (m & E & N). cbn [clip] in E. rewrite E. eexists. split; [reflexivity|exact N].
  - cut (exists mid ms, LintMultiPolygon RNum Power7 ps = Ok mid /\ clipMultiPolygon RNum mid k1 k2 axis true = Ok ms /\ forall m, In m ms -> m <> [] /\ forall r, In r m -> r <> []).
    { intros (mid & ms & -> & E2 & N). cbn [bind]. rewrite E2. cbn [bind]. eexists. split; [reflexivity|]. destruct ms as [|a [|b ms]]; cbn [wf]; auto. intros r Hr. apply (N a); [left; auto|exact Hr]. }
    induction ps as [|m ps IH]; [exists [], []; split; [reflexivity|]; split; [reflexivity|]; intros ? []|]. destruct IH as (mid & ms & E1 & E2 & N); [intros; apply W; right; auto|].
    destruct (lint_total m) as (m' & Em & Nm & _); [apply W; left; auto|]. destruct (clipLines_total m' k1 k2 axis true Nm) as [a Ea].
    exists (m' :: mid), (match a with [] => ms | _ => a :: ms end). unfold LintMultiPolygon in *. cbn [map_res clipMultiPolygon]. rewrite Em. cbn [bind]. rewrite E1. cbn [bind]. rewrite Ea. cbn [bind]. rewrite E2. cbn [bind]. split; [reflexivity|]. split; [reflexivity|].
    intros x Hx. destruct a as [|a0 a]; [auto|]. destruct Hx as [<-|Hx]; [|auto]. split; [discriminate|]. eapply clipLines_nonempty; eauto.
  - eexists. split; [reflexivity|exact I].
Qed.

(** ** A band that holds the first vertex leaves something *)
Definition first_vertex (g : @cgeom R) (v : rpt) : Prop :=
  match g with
  | CLine (x :: _) => x = v | CPolygon ((x :: _) :: _) => x = v | CMultiPolygon (((x :: _) :: _) :: _) => x = v
  | CMultiLine _ | CNone => True | _ => False
  end.
Definition starts (v : rpt) (done : list (list rpt)) (cur : list rpt) : Prop :=
  (exists r d, done = (v :: r) :: d) \/ (done = [] /\ exists r, cur = v :: r).
Lemma clip_loop_starts axis ring k1 k2 v r : forall p done cur, starts v done cur ->
  forall d c z, clip_loop RNum axis ring k1 k2 p r done cur = (d, c, z) -> starts v d c.
Proof.
  induction r as [|q r IH]; intros p done cur H d c z E; cbn [clip_loop] in E; [injection E as <- <- <-; auto|].
  destruct (emit RNum axis k1 k2 p q) as [em ex]. destruct (negb ring && ex); eapply IH in E; eauto; clear E IH.
  - left. destruct H as [(r0 & d0 & ->)|(-> & r0 & ->)]; cbn [app]; eauto.
  - destruct H as [H|(-> & r0 & ->)]; [left; auto|right]. cbn [app]. eauto.
Qed.
Lemma clipLine_keeps v r k1 k2 axis ring : k1 <= k2 -> in_band axis k1 k2 v -> exists r' ps, clipLine RNum (v :: r) k1 k2 axis ring = Ok ((v :: r') :: ps).
Proof.
  intros Hk Hb. cbn [clipLine]. destruct (clip_loop RNum axis ring k1 k2 v r [] []) as [[done cur] z] eqn:E. rewrite in_band_coord in Hb.
  set (c2 := if nleb RNum k1 (coord axis z) && nleb RNum (coord axis z) k2 then cur ++ [z] else cur).
  assert (H2 : starts v done c2).
  { destruct r as [|q r].
    - cbn [clip_loop] in E. injection E as <- <- <-. right. split; auto. exists []. unfold c2. cbn [RNum nleb app]. destruct (Rleb_spec k1 (coord axis v)), (Rleb_spec (coord axis v) k2); cbn [andb]; auto; lra.
    - cbn [clip_loop] in E. pose proof (emit_cases axis k1 k2 v q Hk) as HE. destruct (emit RNum axis k1 k2 v q) as [em ex]. cbn [fst snd app] in *.
      assert (N : exists r', em = v :: r'). { inversion HE; subst; try lra; eauto. destruct H4 as [->|[-> _]]; eauto. }
      destruct N as (r' & ->). assert (S : starts v done cur).
      { destruct (negb ring && ex); eapply clip_loop_starts in E; eauto; [left|right]; cbn [app]; eauto. }
      clear E. unfold c2. destruct (_ && _); auto. destruct S as [S|(-> & r0 & ->)]; [left; auto|right]. cbn [app]. eauto. }
  clearbody c2. clear E. destruct H2 as [(r' & d & ->)|(-> & r' & ->)].
  - exists r'. destruct (close_slice RNum ring c2); eexists; reflexivity.
  - cbn [close_slice]. destruct (_ && _ && _); cbn [app]; eauto.
Qed.
Lemma clip_keeps g h v k1 k2 axis : k1 <= k2 -> wf g -> first_vertex g v -> in_band axis k1 k2 v -> clip RNum Power7 g k1 k2 axis = Ok h -> IsEmpty h = false /\ first_vertex h v.
Proof.
  intros Hk W F Hb E. destruct g as [l|ls|rs|ps|]; cbn [clip first_vertex wf] in *.
  - destruct l as [|x l]; [contradiction|]. subst x. destruct (clipLine_keeps v l k1 k2 axis false Hk Hb) as (r' & qs & Eq). rewrite Eq in E. cbn [bind] in E.
    injection E as <-. destruct qs; cbn [IsEmpty first_vertex]; auto.
  - injection E as <-. cbn [IsEmpty first_vertex]. auto.
  - destruct rs as [|[|x r] rs]; try contradiction. subst x. destruct (lint_total _ W) as (rs' & El & _ & _ & Hh). destruct (Hh _ _ _ eq_refl) as (r' & rs0' & ->). rewrite El in E. cbn [bind clipLines] in E.
    destruct (clipLine_keeps v r' k1 k2 axis true Hk Hb) as (q' & qs & Eq). rewrite Eq in E. cbn [bind] in E. destruct (clipLines RNum rs0' k1 k2 axis true) as [b| |]; try discriminate. cbn [bind app] in E. injection E as <-. cbn [IsEmpty first_vertex]. auto.
  - destruct ps as [|[|[|x r] rs] ps]; try contradiction. subst x. destruct (W ((v :: r) :: rs)) as [_ Wm]; [left; auto|]. destruct (lint_total _ Wm) as (rs' & El & Nr & _ & Hh). destruct (Hh _ _ _ eq_refl) as (r' & rs0' & ->).
    unfold LintMultiPolygon in E. cbn [map_res] in E. rewrite El in E. cbn [bind] in E. destruct (map_res (LintPolygon RNum Power7) ps) as [mid| |]; try discriminate. cbn [bind clipMultiPolygon clipLines] in E.
    destruct (clipLine_keeps v r' k1 k2 axis true Hk Hb) as (q' & qs & Eq). rewrite Eq in E. cbn [bind] in E. destruct (clipLines RNum rs0' k1 k2 axis true) as [b| |]; try discriminate. cbn [bind] in E.
    destruct (clipMultiPolygon RNum mid k1 k2 axis true) as [c| |]; try discriminate. cbn [bind app] in E. injection E as <-. destruct c; cbn [IsEmpty first_vertex]; auto.
  - injection E as <-. cbn [IsEmpty first_vertex]. auto.
Qed.
Lemma has_first g : wf g -> IsEmpty g = false -> exists v, first_vertex g v /\ (In v (verts g) \/ match g with CMultiLine _ | CNone => True | _ => False end).
Proof.
  intros W N. destruct g as [[|x l]|ls|[|[|x r] rs]|[|[|[|x r] rs] ps]|]; cbn [IsEmpty first_vertex verts wf] in *; try discriminate; try congruence.
  - exists x. split; auto. left. left. auto.
  - exists (0, 0). auto.
  - destruct (W []); auto; left; auto.
  - exists x. split; auto. left. left. auto.
  - destruct (W []) as [K _]; [left; auto|]. congruence.
  - destruct (W ([] :: rs)) as [_ K]; [left; auto|]. destruct (K []); [left|]; auto.
  - exists x. split; auto. left. left. auto.
  - exists (0, 0). auto.
Qed.
Lemma clip_degenerate g h k1 k2 axis : match g with CMultiLine _ | CNone => True | _ => False end -> clip RNum Power7 g k1 k2 axis = Ok h -> h = CNone.
Proof. destruct g; cbn [clip]; intros []; intros E; injection E as <-; reflexivity. Qed.

(** ** One step down *)
Definition good (g : @cgeom R) : Prop := wf g /\ IsEmpty g = false.
Definition on_map (t : TileID) : Prop := (0 <= tX t < 2 ^ tZ t /\ 0 <= tY t < 2 ^ tZ t /\ 0 <= tZ t)%Z.
Definition fits (t : TileID) (g : @cgeom R) : Prop := on_map t /\ good g /\ Forall (in_box (Bounds t)) (verts g).

Lemma makefeature_good g : good g -> makefeature g = Ok g.
Proof. intros [W N]. destruct g as [| |[|[|v r] rs]| |]; cbn [makefeature]; auto; [discriminate|]. cbn [wf] in W. destruct (W []); [left|]; auto. Qed.
Lemma on_map_range t : on_map t -> (tZ t <= 61)%Z -> (- 2 ^ 62 <= tX t < 2 ^ 62 /\ - 2 ^ 62 <= tY t < 2 ^ 62 /\ 0 <= tZ t < 2 ^ 64 - 1)%Z.
Proof.
  intros (Hx & Hy & Hz) H. assert (2 ^ tZ t <= 2 ^ 62)%Z by (apply Z.pow_le_mono_r; lia).
  assert (61 < 2 ^ 64 - 1)%Z by reflexivity. lia.
Qed.
Lemma Children_on_map t c : on_map t -> (tZ t <= 61)%Z -> In c (Children t) -> on_map c /\ tZ c = (tZ t + 1)%Z /\ Parent c = t.
Proof.
  intros Hm Hz Hc. destruct (on_map_range t Hm Hz) as (H1 & H2 & H3). destruct t as [x y z]. cbn [tX tY tZ] in *.
  assert (K : (61 < 2 ^ 63 - 1)%Z) by reflexivity.
  split; [|split; [apply (proj2 (proj2 (C06_children_distinct x y z H1 H2 H3))); auto|apply (C07_parent_of_child x y z c); auto; lia]].
  destruct Hm as (Hx & Hy & Hz0). cbn [tX tY tZ] in *. rewrite Children_eq in Hc by auto.
  unfold on_map. assert (2 ^ (z + 1) = 2 * 2 ^ z)%Z by (rewrite Z.pow_add_r by lia; lia).
  cbn [In] in Hc. destruct Hc as [<-|[<-|[<-|[<-|[]]]]]; cbn [tX tY tZ]; lia.
Qed.
Lemma child_box t : on_map t -> (tZ t <= 61)%Z -> forall v, in_box (Bounds t) v -> exists c, In c (Children t) /\ in_box (Bounds c) v.
Proof.
  intros Hm Hz v [Hv1 Hv2]. destruct (on_map_range t Hm Hz) as (H1 & H2 & H3). destruct t as [x y z]. cbn [tX tY tZ] in *. rewrite Children_eq by auto.
  destruct (child_edges x y z) as (A1 & A2 & A3 & A4). rewrite A1, A2 in Hv1. rewrite A3, A4 in Hv2.
  set (c0 := mkTile (2 * x) (2 * y) (z + 1)) in *. set (c1 := mkTile (2 * x + 1) (2 * y) (z + 1)) in *. set (c2 := mkTile (2 * x + 1) (2 * y + 1) (z + 1)) in *. set (c3 := mkTile (2 * x) (2 * y + 1) (z + 1)) in *.
  assert (X1 : eE (Bounds c0) = eW (Bounds c1)) by reflexivity. assert (Y1 : eS (Bounds c0) = eN (Bounds c3)) by reflexivity.
  assert (X2 : eE (Bounds c3) = eE (Bounds c0)) by reflexivity. assert (X3 : eW (Bounds c3) = eW (Bounds c0)) by reflexivity.
  assert (Y2 : eS (Bounds c1) = eS (Bounds c0)) by reflexivity. assert (Y3 : eN (Bounds c1) = eN (Bounds c0)) by reflexivity.
  assert (X4 : eE (Bounds c2) = eE (Bounds c1)) by reflexivity. assert (X5 : eW (Bounds c2) = eW (Bounds c1)) by reflexivity.
  assert (Y4 : eS (Bounds c2) = eS (Bounds c3)) by reflexivity. assert (Y5 : eN (Bounds c2) = eN (Bounds c3)) by reflexivity.
  unfold in_box. destruct (Rle_dec (fst v) (eE (Bounds c0))), (Rle_dec (snd v) (eS (Bounds c0))).
  - exists c3. split; [cbn; tauto|]. lra.
  - exists c0. split; [cbn; tauto|]. lra.
  - exists c2. split; [cbn; tauto|]. lra.
  - exists c1. split; [cbn; tauto|]. lra.
Qed.
Lemma child_inside t c : on_map t -> (tZ t <= 61)%Z -> In c (Children t) ->
  eW (Bounds t) <= eW (Bounds c) /\ eE (Bounds c) <= eE (Bounds t) /\ eS (Bounds t) <= eS (Bounds c) /\ eN (Bounds c) <= eN (Bounds t).
Proof.
  intros Hm Hz Hc. destruct (on_map_range t Hm Hz) as (H1 & H2 & H3). destruct t as [x y z]. cbn [tX tY tZ] in *. rewrite Children_eq in Hc by auto.
  destruct (child_edges x y z) as (A1 & A2 & A3 & A4). rewrite A1, A2, A3, A4.
  set (c0 := mkTile (2 * x) (2 * y) (z + 1)) in *. set (c1 := mkTile (2 * x + 1) (2 * y) (z + 1)) in *. set (c2 := mkTile (2 * x + 1) (2 * y + 1) (z + 1)) in *. set (c3 := mkTile (2 * x) (2 * y + 1) (z + 1)) in *.
  assert (X1 : eE (Bounds c0) = eW (Bounds c1)) by reflexivity. assert (Y1 : eS (Bounds c0) = eN (Bounds c3)) by reflexivity.
  assert (X2 : eE (Bounds c3) = eE (Bounds c0)) by reflexivity. assert (X3 : eW (Bounds c3) = eW (Bounds c0)) by reflexivity.
  assert (Y2 : eS (Bounds c1) = eS (Bounds c0)) by reflexivity. assert (Y3 : eN (Bounds c1) = eN (Bounds c0)) by reflexivity.
  assert (X4 : eE (Bounds c2) = eE (Bounds c1)) by reflexivity. assert (X5 : eW (Bounds c2) = eW (Bounds c1)) by reflexivity.
  assert (Y4 : eS (Bounds c2) = eS (Bounds c3)) by reflexivity. assert (Y5 : eN (Bounds c2) = eN (Bounds c3)) by reflexivity.
  pose proof (bounds_order c0). pose proof (bounds_order c1). pose proof (bounds_order c3).
  cbn [In] in Hc. destruct Hc as [<-|[<-|[<-|[<-|[]]]]]; lra.
Qed.
Lemma ClipDownTile_total t g : on_map t -> (tZ t <= 61)%Z -> good g -> exists m, ClipDownTile t g = Ok m.
Proof.
  intros Hm Hz [W N]. destruct (on_map_range t Hm Hz) as (H1 & H2 & H3). destruct t as [x y z]. cbn [tX tY tZ] in *.
  assert (T : exists m, (let b := Bounds (mkTile x y z) in
    match Children (mkTile x y z) with
    | [lut; rut; rdt; ldt] =>
      let cb := Bounds lut in
      let mx := eE cb in
      let my := eS cb in
      let! l := clip RNum Power7 g (eW b) mx false in
      let! r := clip RNum Power7 g mx (eE b) false in
      let! ld := clip RNum Power7 l (eS b) my true in
      let! lu := clip RNum Power7 l my (eN b) true in
      let! rd := clip RNum Power7 r (eS b) my true in
      let! ru := clip RNum Power7 r my (eN b) true in
      Ok (filter (fun e => negb (IsEmpty (snd e))) [(lut, lu); (rut, ru); (rdt, rd); (ldt, ld)])
    | _ => Panic
    end) = Ok m).
  { rewrite Children_eq by auto. cbv zeta. pose proof (child_inside (mkTile x y z) (mkTile (2 * x) (2 * y) (z + 1)) Hm Hz) as CI. rewrite Children_eq in CI by auto. specialize (CI (or_introl eq_refl)).
    pose proof (bounds_order (mkTile (2 * x) (2 * y) (z + 1))) as BO. set (b := Bounds (mkTile x y z)) in *. set (cb := Bounds (mkTile (2 * x) (2 * y) (z + 1))) in *.
    destruct (clip_total g (eW b) (eE cb) false ltac:(lra) W) as (l & -> & Wl). cbn [bind].
    destruct (clip_total g (eE cb) (eE b) false ltac:(lra) W) as (r & -> & Wr). cbn [bind].
    destruct (clip_total l (eS b) (eS cb) true ltac:(lra) Wl) as (ld & -> & _). cbn [bind].
    destruct (clip_total l (eS cb) (eN b) true ltac:(lra) Wl) as (lu & -> & _). cbn [bind].
    destruct (clip_total r (eS b) (eS cb) true ltac:(lra) Wr) as (rd & -> & _). cbn [bind].
    destruct (clip_total r (eS cb) (eN b) true ltac:(lra) Wr) as (ru & -> & _). cbn [bind]. eauto. }
  destruct T as (m & Em). exists m. unfold ClipDownTile. destruct g as [| |[|[|v r] rs]| |]; try discriminate; try exact Em.
Qed.
Lemma filter_fst_NoDup {A B} (f : A * B -> bool) l : NoDup (map fst l) -> NoDup (map fst (filter f l)).
Proof.
  induction l as [|e l IH]; cbn [map filter]; auto. intros H. inversion H as [|? ? H1 H2]; subst. destruct (f e); auto. cbn [map]. constructor; auto.
  intros K. apply H1. apply in_map_iff in K. destruct K as (x & E & Hx). apply filter_In in Hx. apply in_map_iff. exists x. tauto.
Qed.
Lemma ClipDownTile_NoDup t g m : on_map t -> (tZ t <= 61)%Z -> ClipDownTile t g = Ok m -> NoDup (map fst m).
Proof.
  intros Hm Hz E. destruct (on_map_range t Hm Hz) as (H1 & H2 & H3). destruct t as [x y z]. cbn [tX tY tZ] in *.
  destruct (C06_children_distinct x y z H1 H2 H3) as (HN & _ & _).
  assert (K : forall E0 : res (list (TileID * @cgeom R)), (let b := Bounds (mkTile x y z) in
    match Children (mkTile x y z) with
    | [lut; rut; rdt; ldt] =>
      let cb := Bounds lut in
      let mx := eE cb in
      let my := eS cb in
      let! l := clip RNum Power7 g (eW b) mx false in
      let! r := clip RNum Power7 g mx (eE b) false in
      let! ld := clip RNum Power7 l (eS b) my true in
      let! lu := clip RNum Power7 l my (eN b) true in
      let! rd := clip RNum Power7 r (eS b) my true in
      let! ru := clip RNum Power7 r my (eN b) true in
      Ok (filter (fun e => negb (IsEmpty (snd e))) [(lut, lu); (rut, ru); (rdt, rd); (ldt, ld)])
    | _ => Panic
    end) = E0 -> E0 = Ok m -> NoDup (map fst m)).
  { intros E0 <-. cbv zeta. rewrite Children_eq in * by auto. set (b := Bounds (mkTile x y z)) in *. set (cb := Bounds (mkTile (2 * x) (2 * y) (z + 1))) in *.
    destruct (clip RNum Power7 g (eW b) (eE cb) false) as [l| |]; try discriminate. cbn [bind].
    destruct (clip RNum Power7 g (eE cb) (eE b) false) as [r| |]; try discriminate. cbn [bind].
    destruct (clip RNum Power7 l (eS b) (eS cb) true) as [ld| |]; try discriminate. cbn [bind].
    destruct (clip RNum Power7 l (eS cb) (eN b) true) as [lu| |]; try discriminate. cbn [bind].
    destruct (clip RNum Power7 r (eS b) (eS cb) true) as [rd| |]; try discriminate. cbn [bind].
    destruct (clip RNum Power7 r (eS cb) (eN b) true) as [ru| |]; try discriminate. cbn [bind].
    intros Q. assert (Em := f_equal (fun r => match r with Ok a => a | _ => [] end) Q). cbv beta iota in Em. rewrite <- Em. apply filter_fst_NoDup. exact HN. }
  unfold ClipDownTile in E. destruct g as [| |[|[|v r] rs]| |]; try discriminate; eapply K; eauto.
Qed.

Lemma ClipDown_cases t g ch : ClipDown t g = Ok ch -> good g ->
  (near_square t g = true /\ ch = map (fun c => (c, CPolygon [tile_square c])) (Children t)) \/ (near_square t g = false /\ ClipDownTile t g = Ok ch).
Proof.
  intros E [W N]. unfold ClipDown in E. destruct g as [| |[|[|v r] rs]| |]; try discriminate; destruct (near_square _ _); auto; left; split; auto; congruence.
Qed.
Lemma ClipDown_good t g : good g -> ClipDown t g = if near_square t g then Ok (map (fun c => (c, CPolygon [tile_square c])) (Children t)) else ClipDownTile t g.
Proof. intros [W N]. unfold ClipDown. destruct g as [| |[|[|v r] rs]| |]; auto. Qed.
Lemma tile_square_fits c : on_map c -> fits c (CPolygon [tile_square c]).
Proof.
  intros H. split; auto. split; [split; [intros r [<-|[]]; discriminate|reflexivity]|]. pose proof (bounds_order c). cbn [verts concat]. rewrite app_nil_r. unfold tile_square. cbv zeta.
  apply Forall_forall. intros p [<-|[<-|[<-|[<-|[<-|[]]]]]]; split; cbn [fst snd]; lra.
Qed.
Lemma Children_length t : on_map t -> (tZ t <= 61)%Z -> NoDup (Children t) /\ Children t <> [].
Proof.
  intros Hm Hz. destruct (on_map_range t Hm Hz) as (H1 & H2 & H3). destruct t as [x y z]. destruct (C06_children_distinct x y z H1 H2 H3) as (HN & HL & _). split; auto. intros E. rewrite E in HL. discriminate.
Qed.
Lemma ClipDown_ok t g : fits t g -> (tZ t <= 61)%Z -> exists ch, ClipDown t g = Ok ch /\ ch <> [] /\ NoDup (map fst ch) /\
  forall c gc, In (c, gc) ch -> In c (Children t) /\ fits c gc.
Proof.
  intros (Hm & Hg & Hv) Hz. rewrite (ClipDown_good t g Hg). destruct (Children_length t Hm Hz) as [HN HL]. destruct (near_square t g) eqn:ES.
  - eexists. split; [reflexivity|]. split; [destruct (Children t); [congruence|discriminate]|]. rewrite map_map. cbn [fst]. rewrite map_id. split; auto.
    intros c gc H. apply in_map_iff in H. destruct H as (c' & E & Hc). injection E as -> <-. split; auto. apply tile_square_fits. eapply Children_on_map; eauto.
  - destruct (ClipDownTile_total t g Hm Hz Hg) as (ch & E). exists ch. split; auto.
    destruct (on_map_range t Hm Hz) as (H1 & H2 & H3).
    assert (HE : forall c gc, In (c, gc) ch <-> In c (Children t) /\ IsEmpty gc = false /\
      exists h, clip RNum Power7 g (eW (Bounds c)) (eE (Bounds c)) false = Ok h /\ clip RNum Power7 h (eS (Bounds c)) (eN (Bounds c)) true = Ok gc).
    { destruct t as [x y z]. apply C76_children_entries; auto. }
    destruct Hg as [W N].
    assert (HF : forall c gc, In (c, gc) ch -> In c (Children t) /\ fits c gc).
    { intros c gc H. apply HE in H. destruct H as (Hc & Hn & h & E1 & E2). split; auto. pose proof (bounds_order c) as [B1 B2].
      destruct (clip_total g (eW (Bounds c)) (eE (Bounds c)) false ltac:(lra) W) as (h' & E1' & Wh). rewrite E1 in E1'. injection E1' as <-.
      destruct (clip_total h (eS (Bounds c)) (eN (Bounds c)) true ltac:(lra) Wh) as (g' & E2' & Wg). rewrite E2 in E2'. injection E2' as <-.
      split; [eapply Children_on_map; eauto|]. split; [split; auto|].
      pose proof (clip_band _ _ _ _ _ (Rlt_le _ _ B1) E1) as K1. pose proof (clip_band _ _ _ _ _ (Rlt_le _ _ B2) E2) as K2.
      assert (K3 : Forall (in_band false (eW (Bounds c)) (eE (Bounds c))) (verts gc)).
      { eapply clip_P; [| |exact K1|exact E2]; [|lra]. intros a b s Ha Hb Hs. unfold in_band in *. cbn [fst at_]. apply conv_in; auto. }
      rewrite Forall_forall in *. intros p Hp. split; [apply (K3 p Hp)|apply (K2 p Hp)]. }
    split; [|split; [eapply ClipDownTile_NoDup; eauto|exact HF]].
    destruct (has_first g W N) as (v & Fv & Hin).
    assert (KC : exists c, In c (Children t) /\ (in_box (Bounds c) v \/ match g with CMultiLine _ | CNone => True | _ => False end)).
    { destruct Hin as [Hin|Hin].
      - rewrite Forall_forall in Hv. destruct (child_box t Hm Hz v (Hv v Hin)) as (c & Hc & Hb). exists c. auto.
      - destruct (Children t) as [|c l]; [congruence|]. exists c. split; [left|]; auto. }
    destruct KC as (c & Hc & Hb). pose proof (bounds_order c) as [B1 B2].
    destruct (clip_total g (eW (Bounds c)) (eE (Bounds c)) false ltac:(lra) W) as (h & E1 & Wh).
    destruct (clip_total h (eS (Bounds c)) (eN (Bounds c)) true ltac:(lra) Wh) as (g' & E2 & Wg).
    enough (IsEmpty g' = false) as K by (intros ->; apply (proj2 (HE c g')); eauto).
    destruct Hb as [[Hb1 Hb2]|Hb].
    + destruct (clip_keeps g h v _ _ false (Rlt_le _ _ B1) W Fv Hb1 E1) as [Nh Fh]. apply (clip_keeps h g' v _ _ true (Rlt_le _ _ B2) Wh Fh Hb2 E2).
    + rewrite (clip_degenerate g h _ _ _ Hb E1) in E2. injection E2 as <-. reflexivity.
Qed.

(** ** The entries reached from a tile *)
(** [reach t g n c gc]: after n steps of ClipDownTile from the geometry g in the tile t, the tile c holds gc *)
Inductive reach (t : TileID) (g : @cgeom R) : nat -> TileID -> @cgeom R -> Prop :=
| R_here : reach t g 0 t g
| R_down n k gk ch c gc : reach t g n k gk -> ClipDown k gk = Ok ch -> In (c, gc) ch -> reach t g (S n) c gc.

Lemma NoDup_key {A B} (l : list (A * B)) k a b : NoDup (map fst l) -> In (k, a) l -> In (k, b) l -> a = b.
Proof.
  induction l as [|[k' x] l IH]; cbn [map fst In]; [tauto|]. intros H. inversion H as [|? ? H1 H2]; subst.
  assert (K : forall y, In (k', y) l -> False) by (intros y Hy; apply H1; apply in_map_iff; exists (k', y); auto).
  intros [E1|E1] [E2|E2]; try congruence; auto.
  - injection E1 as -> ->. destruct (K _ E2).
  - injection E2 as -> ->. destruct (K _ E1).
Qed.

Lemma NoDup_join {A} (a b : list A) : NoDup a -> NoDup b -> (forall x, In x a -> ~ In x b) -> NoDup (a ++ b).
Proof.
  induction a as [|x a IH]; cbn [app]; auto. intros Ha Hb H. inversion Ha; subst. constructor; [|apply IH; auto; intros; apply H; right; auto].
  rewrite in_app_iff. intros [K|K]; [auto|]. apply (H x); [left|]; auto.
Qed.

Section Reach.
Context (t : TileID) (g : @cgeom R) (Hf : fits t g).
Lemma reach_fits n c gc : reach t g n c gc -> (tZ t + Z.of_nat n <= 62)%Z -> fits c gc /\ (tZ c = tZ t + Z.of_nat n)%Z.
Proof.
  intros H. induction H as [|n k gk ch c gc H IH E Hc]; intros Hz; [split; auto; lia|].
  destruct (IH ltac:(lia)) as [Fk Hl]. destruct (ClipDown_ok k gk Fk ltac:(lia)) as (ch' & E' & _ & _ & HF). rewrite E in E'. injection E' as <-.
  destruct (HF c gc Hc) as [Hi Fc]. split; auto. destruct (Children_on_map k c (proj1 Fk) ltac:(lia) Hi) as (_ & -> & _). lia.
Qed.
Lemma reach_ex n : (tZ t + Z.of_nat n <= 62)%Z -> exists c gc, reach t g n c gc.
Proof.
  induction n as [|n IH]; intros Hz; [exists t, g; constructor|]. destruct IH as (k & gk & H); [lia|]. destruct (reach_fits n k gk H ltac:(lia)) as [Fk Hl].
  destruct (ClipDown_ok k gk Fk ltac:(lia)) as (ch & E & HN & _). destruct ch as [|[c gc] ch]; [congruence|]. exists c, gc. econstructor; eauto. left. auto.
Qed.
Lemma reach_fun n : forall c g1 g2, (tZ t + Z.of_nat n <= 62)%Z -> reach t g n c g1 -> reach t g n c g2 -> g1 = g2.
Proof.
  induction n as [|n IH]; intros c g1 g2 Hz H1 H2.
  - inversion H1; inversion H2; congruence.
  - inversion H1 as [|n1 k1 gk1 ch1 c1 gc1 R1 E1 I1]; subst. inversion H2 as [|n2 k2 gk2 ch2 c2 gc2 R2 E2 I2]; subst.
    destruct (reach_fits n k1 gk1 R1 ltac:(lia)) as [F1 L1]. destruct (reach_fits n k2 gk2 R2 ltac:(lia)) as [F2 L2].
    destruct (ClipDown_ok k1 gk1 F1 ltac:(lia)) as (x1 & X1 & _ & N1 & Q1). rewrite E1 in X1. injection X1 as <-.
    destruct (ClipDown_ok k2 gk2 F2 ltac:(lia)) as (x2 & X2 & _ & N2 & Q2). rewrite E2 in X2. injection X2 as <-.
    destruct (Children_on_map k1 c (proj1 F1) ltac:(lia) (proj1 (Q1 _ _ I1))) as (_ & _ & P1).
    destruct (Children_on_map k2 c (proj1 F2) ltac:(lia) (proj1 (Q2 _ _ I2))) as (_ & _ & P2).
    subst k1 k2. assert (gk1 = gk2) by (apply (IH (Parent c)); auto; lia). subst gk2. rewrite E1 in E2. injection E2 as <-. eapply NoDup_key; eauto.
Qed.
End Reach.

(** ** The map *)
Lemma put_absent m k g : ~ In k (map fst m) -> put m k g = m ++ [(k, g)].
Proof.
  induction m as [|[k' g'] m IH]; cbn [put map fst In app]; auto. intros H. destruct (tile_eqb k k') eqn:E; [apply tile_eqb_eq in E; subst; tauto|]. rewrite IH; tauto.
Qed.
Lemma puts_absent ch : forall m, NoDup (map fst ch) -> (forall k, In k (map fst ch) -> ~ In k (map fst m)) ->
  fold_left (fun m (e : TileID * @cgeom R) => put m (fst e) (snd e)) ch m = m ++ ch.
Proof.
  induction ch as [|[k g] ch IH]; intros m HN HD; cbn [fold_left fst snd]; [rewrite app_nil_r; auto|]. cbn [map fst] in HN. inversion HN as [|? ? N1 N2]; subst.
  rewrite put_absent by (apply HD; left; auto). rewrite IH; auto.
  - rewrite <- app_assoc. reflexivity.
  - intros k' Hk'. rewrite map_app, in_app_iff. cbn [map fst In]. intros [K|[K|[]]]; [apply (HD k'); [right|]; auto|subst; auto].
Qed.
Lemma In_del m k e : In e (del m k) <-> In e m /\ fst e <> k.
Proof.
  unfold del. rewrite filter_In, negb_true_iff. split; intros [H1 H2]; split; auto.
  - intros E. assert (tile_eqb k (fst e) = true) by (apply tile_eqb_eq; auto). congruence.
  - destruct (tile_eqb k (fst e)) eqn:E; auto. apply tile_eqb_eq in E. congruence.
Qed.
Lemma last_zoom (ch : list (TileID * @cgeom R)) z : z <> 0%Z -> (forall e, In e ch -> tZ (fst e) = z) -> ch <> [] -> forall l,
  fold_left (fun l (e : TileID * @cgeom R) => if (tZ (fst e) =? 0)%Z then l else tZ (fst e)) ch l = z.
Proof.
  intros Hz. induction ch as [|e ch IH]; [congruence|]. intros H _ l. cbn [fold_left]. rewrite (H e) by (left; auto). destruct (Z.eqb_spec z 0); [congruence|].
  destruct ch as [|e2 ch]; [reflexivity|]. apply IH; [|discriminate]. intros; apply H; right; auto.
Qed.
Lemma make_all (ch : list (TileID * @cgeom R)) : (forall e, In e ch -> good (snd e)) ->
  map_res (fun e : TileID * @cgeom R => let! g := makefeature (snd e) in Ok (fst e, g)) ch = Ok ch.
Proof.
  induction ch as [|[k g] ch IH]; intros H; cbn [map_res fst snd]; auto. rewrite (makefeature_good g) by (apply (H (k, g)); left; auto). cbn [bind]. rewrite IH by (intros; apply H; right; auto). reflexivity.
Qed.

Lemma visit_spec keep cz : (0 <= cz <= 61)%Z -> forall todo m last,
  (forall k gk, In (k, gk) todo -> 0 <= tZ k <= 62)%Z ->
  (forall k gk, In (k, gk) todo -> tZ k = cz -> fits k gk) ->
  NoDup (map fst todo) -> NoDup (map fst m) ->
  (forall k gk c, In (k, gk) todo -> tZ k = cz -> In c (Children k) -> ~ In c (map fst m)) ->
  exists m' last', visit keep cz todo m last = Ok (m', last') /\ NoDup (map fst m') /\
    (forall e, In e m' <-> (In e m /\ (keep = true \/ ~ (In (fst e) (map fst todo) /\ tZ (fst e) = cz))) \/
       exists k gk ch, In (k, gk) todo /\ tZ k = cz /\ ClipDown k gk = Ok ch /\ In e ch) /\
    ((exists e, In e todo /\ tZ (fst e) = cz) -> last' = (cz + 1)%Z) /\
    ((forall e, In e todo -> tZ (fst e) <> cz) -> last' = last).
Proof.
  intros Hcz todo. induction todo as [|[k gk] todo IH]; intros m last HZ HF HN1 HN2 HD.
  { exists m, last. cbn [visit]. split; auto. split; auto. split; [|split; [intros (e & [] & _)|auto]].
    intros e. cbn [map In]. split; [intros H; left; tauto|intros [H|(k & gk & ch & [] & _)]; tauto]. }
  cbn [visit]. cbn [map fst] in HN1. inversion HN1 as [|? ? Nk N1]; subst.
  assert (Hk := HZ k gk (or_introl eq_refl)). assert (K63 : (62 < 2 ^ 63)%Z) by reflexivity. rewrite wrap64_id by (unfold in_i64; lia).
  assert (HZ' : forall k gk, In (k, gk) todo -> (0 <= tZ k <= 62)%Z) by (intros; eapply HZ; right; eauto).
  assert (HF' : forall k gk, In (k, gk) todo -> tZ k = cz -> fits k gk) by (intros; apply HF; [right|]; auto).
  destruct (Z.eqb_spec (tZ k) cz) as [Ek|Ek].
  - assert (Fk := HF k gk (or_introl eq_refl) Ek). destruct (ClipDown_ok k gk Fk ltac:(lia)) as (ch & E & Hne & Nch & HC). rewrite E. cbn [bind].
    rewrite make_all by (intros [c gc] Hc; apply (HC c gc Hc)). cbn [bind].
    assert (Cc : forall c, In c (map fst ch) -> In c (Children k)).
    { intros c Hc. apply in_map_iff in Hc. destruct Hc as ([c' gc] & <- & Hc). apply (HC c' gc Hc). }
    assert (Cz : forall c, In c (Children k) -> tZ c = (cz + 1)%Z /\ Parent c = k).
    { intros c Hc. destruct (Children_on_map k c (proj1 Fk) ltac:(lia) Hc) as (_ & Z1 & P1). split; auto. lia. }
    assert (HD' : forall c, In c (map fst ch) -> ~ In c (map fst m)) by (intros c Hc; apply (HD k gk c (or_introl eq_refl) Ek); auto).
    rewrite (puts_absent ch m Nch HD').
    assert (Hzz : forall e, In e ch -> tZ (fst e) = (cz + 1)%Z) by (intros e He; apply Cz, Cc, in_map; auto).
    rewrite (last_zoom ch (cz + 1) ltac:(lia) Hzz Hne).
    set (m2 := if keep then m ++ ch else del (m ++ ch) k).
    assert (I2 : forall e, In e m2 <-> (In e m /\ (keep = true \/ fst e <> k)) \/ In e ch).
    { intros e. unfold m2. assert (In e ch -> fst e <> k) by (intros He Ee; destruct (Cz (fst e)) as [Z1 _]; [apply Cc, in_map; auto|]; rewrite Ee in Z1; lia).
      destruct keep; [rewrite in_app_iff; tauto|]. rewrite In_del, in_app_iff. assert (false <> true) by discriminate. tauto. }
    assert (N2 : NoDup (map fst m2)).
    { assert (NoDup (map fst (m ++ ch))).
      { rewrite map_app. apply NoDup_join; auto. intros c Hc1 Hc2. apply (HD' c); auto. }
      unfold m2. destruct keep; auto. apply filter_fst_NoDup. auto. }
    destruct (IH m2 (cz + 1)%Z HZ' HF' N1 N2) as (m' & last' & Ev & Nm & Im & L1 & L2).
    { intros k' gk' c Hin Ez Hc Hm. apply in_map_iff in Hm. destruct Hm as (e & <- & He). apply I2 in He. destruct He as [[He _]|He].
      - apply (HD k' gk' (fst e)); [right| | |apply in_map]; auto.
      - assert (F' := HF' k' gk' Hin Ez). destruct (Children_on_map k' (fst e) (proj1 F') ltac:(lia) Hc) as (_ & _ & P').
        destruct (Cz (fst e)) as [_ P]; [apply Cc, in_map; auto|]. apply Nk. apply in_map_iff. exists (k', gk'). split; auto. cbn [fst]. congruence. }
    exists m', last'. split; auto. split; auto. split; [|split].
    + intros e. rewrite Im, I2. clear Im I2 Ev L1 L2. cbn [map fst In]. split.
      * intros [[[[H1 H2]|H1] H3]|(k' & gk' & ch' & H1 & H2)].
        -- left. split; auto. destruct H2 as [H2|H2]; auto. destruct H3 as [H3|H3]; auto. right. intros [[K|K] Kz]; [congruence|tauto].
        -- right. exists k, gk, ch. auto.
        -- right. exists k', gk', ch'. tauto.
      * intros [[H1 H2]|(k' & gk' & ch' & [H1|H1] & H2 & H3 & H4)].
        -- left. split; [left; split; auto|].
           ++ destruct H2 as [H2|H2]; auto. right. intros K. apply H2. split; [left; auto|]. congruence.
           ++ destruct H2 as [H2|H2]; auto. right. intros [K1 K2]. apply H2. auto.
        -- injection H1 as <- <-. rewrite E in H3. injection H3 as <-. left. split; [auto|]. right. intros [_ K]. destruct (Cz (fst e)) as [Z1 _]; [apply Cc, in_map; auto|]. lia.
        -- right. exists k', gk', ch'. auto.
    + intros _. assert (D : (exists e, In e todo /\ tZ (fst e) = cz) \/ (forall e, In e todo -> tZ (fst e) <> cz)).
      { clear. induction todo as [|e todo IH]; [right; intros ? []|]. destruct IH as [(e' & H1 & H2)|IH]; [left; exists e'; split; [right|]; auto|].
        destruct (Z.eq_dec (tZ (fst e)) cz); [left; exists e; split; [left|]; auto|]. right. intros e' [<-|H]; auto. }
      destruct D as [D|D]; auto.
    + intros H. exfalso. apply (H (k, gk)); [left|]; auto.
  - destruct (IH m last HZ' HF' N1 HN2) as (m' & last' & Ev & Nm & Im & L1 & L2); [intros; apply (HD k0 gk0); [right| |]; auto|].
    exists m', last'. split; auto. split; auto. split; [|split].
    + intros e. rewrite Im. clear Im. cbn [map fst In]. split.
      * intros [[H1 H2]|(k' & gk' & ch' & H1 & H2)].
        -- left. split; auto. destruct H2 as [H2|H2]; auto. right. intros [[K|K] Kz]; [congruence|tauto].
        -- right. exists k', gk', ch'. tauto.
      * intros [[H1 H2]|(k' & gk' & ch' & [H1|H1] & H2 & H3)].
        -- left. split; auto. destruct H2 as [H2|H2]; auto. right. intros [K1 K2]. apply H2. auto.
        -- congruence.
        -- right. exists k', gk', ch'. tauto.
    + intros (e & [<-|He] & Hz); [cbn [fst] in Hz; congruence|]. apply L1. eauto.
    + intros H. apply L2. intros e He. apply H. right. auto.
Qed.

Section Levels.
Context (order : list (TileID * @cgeom R) -> list (TileID * @cgeom R)) (Hord : forall m, Permutation (order m) m).
Context (t : TileID) (g : @cgeom R) (Hf : fits t g) (keep : bool).
Definition holds (n : nat) (m : list (TileID * @cgeom R)) : Prop :=
  NoDup (map fst m) /\ forall c gc, In (c, gc) m <-> if keep then exists j, (j <= n)%nat /\ reach t g j c gc else reach t g n c gc.
Lemma level n m : (tZ t + Z.of_nat n <= 61)%Z -> holds n m ->
  exists m', visit keep (tZ t + Z.of_nat n) (order m) m 0 = Ok (m', tZ t + Z.of_nat (S n))%Z /\ holds (S n) m'.
Proof.
  intros Hz [HN HI]. assert (H0 : (0 <= tZ t)%Z) by apply Hf.
  assert (Hm : forall k gk, In (k, gk) m -> exists j, (j <= n)%nat /\ reach t g j k gk).
  { intros k gk H. apply HI in H. destruct keep; auto. exists n. auto. }
  assert (Hm' : forall k gk, reach t g n k gk -> In (k, gk) m) by (intros k gk H; apply HI; destruct keep; eauto).
  assert (Hn : forall k gk, In (k, gk) m -> tZ k = (tZ t + Z.of_nat n)%Z -> reach t g n k gk).
  { intros k gk H Hk. destruct (Hm k gk H) as (j & Hj & R). destruct (reach_fits t g Hf j k gk R ltac:(lia)) as [_ L]. assert (j = n) by lia. subst. auto. }
  assert (Ho : forall e, In e (order m) <-> In e m) by (intros e; split; apply Permutation_in; [|apply Permutation_sym]; auto).
  assert (Hk : forall k, In k (map fst (order m)) <-> In k (map fst m)) by (intros k; split; apply Permutation_in, Permutation_map; [|apply Permutation_sym]; auto).
  destruct (visit_spec keep (tZ t + Z.of_nat n) ltac:(lia) (order m) m 0) as (m' & last' & E & N' & I' & L1 & _).
  - intros k gk H. apply Ho, Hm in H. destruct H as (j & Hj & R). destruct (reach_fits t g Hf j k gk R ltac:(lia)) as [_ L]. lia.
  - intros k gk H Hk'. apply Ho in H. apply (reach_fits t g Hf n k gk); auto. lia.
  - apply (Permutation_NoDup (l := map fst m)); auto. apply Permutation_map, Permutation_sym. auto.
  - auto.
  - intros k gk c H Hk' Hc Hm2. apply Ho in H. destruct (reach_fits t g Hf n k gk (Hn k gk H Hk') ltac:(lia)) as [[Fk _] _]. destruct (Children_on_map k c Fk ltac:(lia) Hc) as (_ & Z1 & _).
    apply in_map_iff in Hm2. destruct Hm2 as ([c' gc] & <- & Hm2). cbn [fst] in *. destruct (Hm c' gc Hm2) as (j & Hj & R). destruct (reach_fits t g Hf j c' gc R ltac:(lia)) as [_ L]. lia.
  - exists m'. assert (last' = (tZ t + Z.of_nat (S n))%Z) as ->.
    { rewrite L1; [lia|]. destruct (reach_ex t g Hf n ltac:(lia)) as (c & gc & R). exists (c, gc). split; [apply Ho; auto|]. apply (reach_fits t g Hf n c gc); auto. lia. }
    split; auto. split; auto. intros c gc. rewrite I'. cbn [fst]. clear E N' I' L1.
    assert (A : (exists k gk ch, In (k, gk) (order m) /\ tZ k = (tZ t + Z.of_nat n)%Z /\ ClipDown k gk = Ok ch /\ In (c, gc) ch) <-> reach t g (S n) c gc).
    { split.
      - intros (k & gk & ch & H1 & H2 & H3 & H4). apply Ho in H1. econstructor; eauto.
      - intros H. inversion H as [|n1 k gk ch c1 gc1 R1 E1 I1]; subst. exists k, gk, ch. split; [apply Ho; auto|]. split; auto. apply (reach_fits t g Hf n k gk); auto. lia. }
    rewrite A. clear A. destruct keep.
    + split.
      * intros [[H _]|H]; [|exists (S n); auto]. destruct (Hm c gc H) as (j & Hj & R). exists j. auto.
      * intros (j & Hj & R). destruct (Nat.eq_dec j (S n)) as [->|]; auto. left. split; auto. apply HI. exists j. split; auto. lia.
    + split; [|auto]. intros [[H [K|K]]|H]; [discriminate| |auto]. exfalso. apply K. rewrite Hk. split; [apply (in_map fst) in H; exact H|].
      apply HI in H. apply (reach_fits t g Hf n c gc); auto. lia.
Qed.
Lemma levels_spec d : forall fuel n m, (d <= fuel)%nat -> (tZ t + Z.of_nat (n + d) <= 62)%Z -> holds n m ->
  exists m', levels order fuel keep (tZ t + Z.of_nat n) (tZ t + Z.of_nat (n + d)) m = Ok m' /\ holds (n + d) m'.
Proof.
  assert (H0 : (0 <= tZ t)%Z) by apply Hf. assert (K63 : (62 < 2 ^ 63)%Z) by reflexivity.
  induction d as [|d IH]; intros fuel n m Hfu Hz Hm.
  - rewrite Nat.add_0_r. exists m. split; auto. destruct fuel; cbn [levels]; rewrite Z.leb_refl; reflexivity.
  - destruct fuel as [|fuel]; [lia|]. cbn [levels]. destruct (Z.leb_spec (tZ t + Z.of_nat (n + S d)) (tZ t + Z.of_nat n)); [lia|].
    destruct (level n m ltac:(lia) Hm) as (m1 & E1 & Hm1). rewrite E1. cbn [bind fst snd]. rewrite wrap64_id by (unfold in_i64; lia).
    destruct (IH fuel (S n) m1 ltac:(lia) ltac:(lia) Hm1) as (m' & E & Hm'). replace (S n + d)%nat with (n + S d)%nat in * by lia. eauto.
Qed.
Lemma holds_start : holds 0 [(t, g)].
Proof.
  split; [repeat constructor; intros []|]. intros c gc. cbn [In]. assert (A : reach t g 0 c gc <-> (t, g) = (c, gc)).
  { split; [intros H; inversion H; congruence|intros E; injection E as <- <-; constructor]. }
  destruct keep; [split|rewrite A; tauto].
  - intros [E|[]]. exists 0%nat. split; auto. apply A. auto.
  - intros (j & Hj & R). assert (j = 0)%nat by lia. subst. left. apply A. auto.
Qed.
End Levels.

(** ** Going up *)
Lemma up_spec d : forall fuel x y z, (d <= fuel)%nat -> (0 <= z)%Z -> (z + Z.of_nat d <= 62)%Z ->
  up fuel (mkTile x y (z + Z.of_nat d)) z = Ok (mkTile (x / 2 ^ Z.of_nat d) (y / 2 ^ Z.of_nat d) z).
Proof.
  assert (K63 : (62 < 2 ^ 63)%Z) by reflexivity. induction d as [|d IH]; intros fuel x y z Hfu Hz Hd.
  - rewrite Z.add_0_r. change (2 ^ Z.of_nat 0)%Z with 1%Z. rewrite !Z.div_1_r. destruct fuel; cbn [up tZ]; rewrite wrap64_id by (unfold in_i64; lia); rewrite Z.eqb_refl; reflexivity.
  - destruct fuel as [|fuel]; [lia|]. cbn [up tZ]. rewrite wrap64_id by (unfold in_i64; lia). destruct (Z.eqb_spec (z + Z.of_nat (S d)) z); [lia|].
    rewrite Parent_eq by (cbn [tZ]; lia). cbn [tX tY tZ]. replace (z + Z.of_nat (S d) - 1)%Z with (z + Z.of_nat d)%Z by lia. rewrite IH by lia.
    rewrite !Z.div_div by (try (apply Z.pow_pos_nonneg); lia). replace (2 ^ Z.of_nat (S d))%Z with (2 * 2 ^ Z.of_nat d)%Z; [reflexivity|]. rewrite Nat2Z.inj_succ, Z.pow_succ_r by lia. reflexivity.
Qed.
