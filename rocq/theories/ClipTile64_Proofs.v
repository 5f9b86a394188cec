(** Lemmas for C134 and C135: cutting polygons in binary64 without a condition on the ends of rings. *)
From Coq Require Import ZArith Reals Lia Lra Bool List.
From Flocq Require Import Core BinarySingleNaN.
From Verif Require Import GoBase Num MvtGeom_Model TileF64_Model TileF64_Proofs F64 ColorF64_Proofs Clip_Model Clip_Spec Clip_Proofs ClipRing_Proofs Clip_Props Clip64_Proofs Clip64_Props Parity_Proofs ClipPoly64_Props.
Import ListNotations.
Open Scope R_scope.

(** Finite, with coordinates of absolute value at most [M] *)
Definition inb (M : R) (p : f64 * f64) : Prop := fin p /\ Rabs (B2R (fst p)) <= M /\ Rabs (B2R (snd p)) <= M.
Lemma inb_upto M k p : M <= bpow radix2 k -> inb M p -> upto k p.
Proof. intros H (F & A & B). split; auto. split; eapply Rle_trans; eauto. Qed.
Lemma inb_mono M M' p : M <= M' -> inb M p -> inb M' p.
Proof. intros H (F & A & B). split; auto. split; eapply Rle_trans; eauto. Qed.
Lemma within_trans a b p q r : within a p q -> within b q r -> within (a + b) p r.
Proof. intros [A1 A2] [B1 B2]. apply ab in A1, A2, B1, B2. split; apply ab; lra. Qed.
Lemma within_mono a b p q : a <= b -> within a p q -> within b p q.
Proof. intros H [A1 A2]. split; lra. Qed.
Lemma within_refl a p : 0 <= a -> within a p p.
Proof. intros H. unfold within. rewrite !Rminus_eq_0, Rabs_R0. auto. Qed.

(** ** Chains whose vertices move by at most [e] *)
Lemma near_moves e p : forall c c', Forall2 (within e) c c' -> (forall q, on_line c q -> ~ within e p q) -> moves p c c'.
Proof.
  induction c as [|a c IH]; intros c' HF HC; inversion HF as [|? a' ? r' W1 W2]; subst; [exact I|]. destruct c as [|b c]; inversion W2 as [|? b' ? r2 W3 W4]; subst; [exact I|]. split.
  - split; intros H.
    + destruct (hull_near1 e a b b' p W3 H) as (q & Hq & W). apply (HC q); [left; auto|auto].
    + destruct (hull_near2 e a b a' b' p W1 W3 H) as (q & Hq & W). apply (HC q); [left; auto|auto].
  - apply IH; auto. intros q Hq. apply HC. right. auto.
Qed.
Lemma near_line e q : forall c c', Forall2 (within e) c c' -> on_line c' q -> exists q', on_line c q' /\ within e q q'.
Proof.
  induction c as [|a c IH]; intros c' HF Hq; inversion HF as [|? a' ? r' W1 W2]; subst; [destruct Hq|]. destruct c as [|b c]; inversion W2 as [|? b' ? r2 W3 W4]; subst.
  - cbn [on_line] in *. subst q. exists a. split; auto. apply within_sym. auto.
  - destruct Hq as [Hq|Hq].
    + apply seg_at in Hq. destruct Hq as (t & Ht & ->). exists (at_ a b t). split; [left; apply seg_at; eauto|]. apply within_at; auto; apply within_sym; auto.
    + destruct (IH _ W2 Hq) as (q' & Q1 & Q2). exists q'. split; [right; auto|auto].
Qed.
Lemma F2_refl e (l : list rpt) : 0 <= e -> Forall2 (within e) l l.
Proof. intros H. induction l; constructor; auto. apply within_refl; auto. Qed.

(** ** Ring repair *)
Lemma lint64u k eps r : (-900 <= k <= 90)%Z -> is_finite eps = true -> 0 <= B2R eps -> r <> [] -> Forall (upto k) r ->
  exists r' f, LintRing F64Num eps r = Ok r' /\ hd_error r' = Some f /\ val (last r' f) = val f /\ (forall v, In v r' -> In v r) /\
    (forall q, on_line (map val r') q -> exists q', on_ring (map val r) q' /\ within (2 * B2R eps) q q') /\
    forall p, (forall q, on_ring (map val r) q -> ~ within (2 * B2R eps) p q) -> parity p (ring_edges (map val r')) = parity p (ring_edges (map val r)).
Proof.
  intros Hk Fe He HN HU. destruct r as [|f r]; [congruence|]. set (l := f :: r) in *.
  destruct (@exists_last _ l ltac:(discriminate)) as (l0 & z & El).
  assert (Ez : last l f = z) by (rewrite El; apply last_last). assert (Er : removelast l = l0) by (rewrite El; apply removelast_last).
  assert (Uf : upto k f) by (inversion HU; auto). assert (Uz : upto k z) by (rewrite Forall_forall in HU; apply HU; rewrite El; apply in_app_iff; right; left; auto).
  destruct (delta64 k eps f z Hk Fe He Uf Uz) as [_ D2]. unfold LintRing, l. fold l. rewrite Ez, Er.
  assert (OR : forall q, on_ring (map val l) q = on_line (map val l ++ [val f]) q) by reflexivity.
  assert (inl : forall v, In v l0 \/ v = z -> In v l) by (intros v Hv; rewrite El; apply in_app_iff; cbn [In]; destruct Hv as [Hv|Hv]; auto).
  destruct (DeltaFirstLast F64Num eps f z) eqn:D.
  - exists (l ++ [f]), f. split; [reflexivity|]. split; [reflexivity|]. split; [rewrite last_last; auto|].
    split; [intros v Hv; apply in_app_iff in Hv; destruct Hv as [Hv|[<-|[]]]; auto; left; auto|]. rewrite map_app. cbn [map]. split.
    + intros q Hq. exists q. split; [rewrite OR; auto|]. apply within_refl. lra.
    + intros p _. apply (ring_hd (map val l) (val f) (map val r)). reflexivity.
  - assert (W : within (2 * B2R eps) (val z) (val f)).
    { split; rewrite Rabs_minus_sym; apply Rnot_lt_le; intros H; [specialize (D2 false)|specialize (D2 true)]; cbn [along] in D2; specialize (D2 H); congruence. }
    exists (l0 ++ [f]), f. split; [reflexivity|]. assert (Hh : hd_error (l0 ++ [f]) = Some f) by (destruct l0 as [|y l0]; [reflexivity|]; unfold l in El; injection El as -> _; reflexivity).
    split; [exact Hh|]. split; [rewrite last_last; auto|].
    split; [intros v Hv; apply in_app_iff in Hv; destruct Hv as [Hv|[<-|[]]]; auto; left; auto|].
    assert (EM : map val l = map val l0 ++ [val z]) by (rewrite El, map_app; reflexivity). rewrite map_app. cbn [map].
    assert (F2 : Forall2 (within (2 * B2R eps)) (map val l) (map val l0 ++ [val f])) by (rewrite EM; apply Forall2_app; [apply F2_refl; lra|constructor; [auto|constructor]]).
    split.
    + intros q Hq. destruct (near_line _ q _ _ F2 Hq) as (q' & Q1 & Q2). exists q'. split; auto. rewrite OR, EM, <- app_assoc. cbn [app]. apply on_line_app. left. rewrite <- EM. auto.
    + intros p HC. symmetry. apply (move_ring p _ _ (val f) (val f)); [reflexivity| |rewrite EM, !app_length; reflexivity|].
      * destruct l0 as [|y l0]; [reflexivity|]. cbn in Hh |- *. congruence.
      * apply near_moves with (e := 2 * B2R eps); [apply Forall2_app; auto; constructor; [apply within_refl; lra|constructor]|]. intros q Hq. apply HC. rewrite OR. auto.
Qed.

(** ** One ring *)
Lemma ring64v k l f (k1 k2 : f64) axis M : (-900 <= k <= 90)%Z -> hd_error l = Some f -> val (last l f) = val f -> Forall (inb M) l -> M <= bpow radix2 k ->
  is_finite k1 = true -> is_finite k2 = true -> B2R k1 <= B2R k2 ->
  forall pieces piece, clipLine F64Num l k1 k2 axis true = Ok pieces -> In piece pieces -> Forall (inb (M + bpow radix2 (k - 49))) piece.
Proof.
  intros Hk Hf Hl HB HM F1 F2 Hle pieces piece0 E0 Hin.
  assert (HU : Forall (upto k) l) by (eapply Forall_impl; [|exact HB]; intros; eapply inb_upto; eauto).
  assert (Hn : l <> []) by (destruct l; [discriminate|congruence]).
  destruct (C121_ring k l k1 k2 axis Hk Hn HU F1 F2) as (ps & ps' & E & E' & H). rewrite E in E0. injection E0 as ->.
  pose proof (clip_vertices axis (B2R k1) (B2R k2) (map val l) Hle ps' E') as HV.
  destruct H as [[-> ->]|(c & c' & piece & piece' & -> & -> & R & R' & HC)]; [destruct Hin|]. destruct Hin as [<-|[]].
  assert (U : Forall (inb (M + bpow radix2 (k - 49))) c).
  { inversion HV as [|? ? HV1 _]; subst. assert (HV2 : Forall (on_line (map val l)) c') by (destruct R' as [_ [->|(f0 & r0 & -> & -> & _)]]; auto; apply Forall_app in HV1; tauto).
    assert (BX : forall ax q, on_line (map val l) q -> - M <= coord ax q <= M).
    { intros ax q Hq. apply (on_line_conv ax _ _ (map val l)); auto. intros q' Hq'. apply in_map_iff in Hq'. destruct Hq' as (x & <- & Hx). rewrite Forall_forall in HB. destruct (HB x Hx) as (_ & B1 & B2). apply ab in B1, B2. destruct ax; unfold coord, val; cbn [fst snd]; lra. }
    clear - HC HV2 BX. induction HC as [|x y xs ys (A & B & W) H IH]; constructor; inversion HV2; subst; auto.
    split; auto. destruct W as [W1 W2]. pose proof (BX false y ltac:(auto)) as X1. pose proof (BX true y ltac:(auto)) as X2. unfold coord in X1, X2. unfold val in W1, W2. cbn [fst snd] in *. apply ab in W1, W2. split; apply ab; lra. }
  destruct R as [_ [->|(f0 & r0 & -> & -> & _)]]; [auto|]. apply Forall_app. split; auto. inversion U; auto.
Qed.

(** ** A polygon *)
Lemma polygon64u k rings eps (k1 k2 : f64) axis M : (-900 <= k <= 90)%Z -> is_finite eps = true -> 0 <= B2R eps -> M <= bpow radix2 k ->
  (forall r, In r rings -> r <> [] /\ Forall (inb M) r) -> is_finite k1 = true -> is_finite k2 = true -> B2R k1 <= B2R k2 ->
  let d := 2 * B2R eps + bpow radix2 (k - 49) in
  exists rings', clip F64Num eps (CPolygon rings) k1 k2 axis = Ok (CPolygon rings') /\
    (forall r, In r rings' -> r <> [] /\ Forall (inb (M + bpow radix2 (k - 49))) r) /\
    (forall r q, In r rings' -> on_ring (map val r) q -> (exists r' q', In r' rings /\ on_ring (map val r') q' /\ within d q q') \/ along axis q = B2R k1 \/ along axis q = B2R k2) /\
    (forall p, B2R k1 < along axis p < B2R k2 -> clear_by d (map (map val) rings) p ->
       even_odd (map (map val) rings') p = even_odd (map (map val) rings) p).
Proof.
  intros Hk Fe He HM HR F1 F2 Hle d. pose proof (bpow_gt_0 radix2 (k - 49)) as B0.
  cut (exists mid rings', LintPolygon F64Num eps rings = Ok mid /\ clipLines F64Num mid k1 k2 axis true = Ok rings' /\
    (forall r, In r rings' -> r <> [] /\ Forall (inb (M + bpow radix2 (k - 49))) r) /\
    (forall r q, In r rings' -> on_ring (map val r) q -> (exists r' q', In r' rings /\ on_ring (map val r') q' /\ within d q q') \/ along axis q = B2R k1 \/ along axis q = B2R k2) /\
    (forall p, B2R k1 < along axis p < B2R k2 -> clear_by d (map (map val) rings) p ->
       even_odd (map (map val) rings') p = even_odd (map (map val) rings) p)).
  { intros (mid & rings' & E1 & E2 & H). exists rings'. unfold clip. rewrite E1. cbn [bind]. rewrite E2. auto. }
  induction rings as [|r rs IH].
  - exists [], []. split; [reflexivity|]. split; [reflexivity|]. split; [intros ? []|]. split; [intros ? ? []|]. reflexivity.
  - destruct IH as (mid & rs' & E1 & E2 & E3 & E4 & E5). { intros; apply HR; right; auto. }
    destruct (HR r (or_introl eq_refl)) as [HN HB].
    assert (HU : Forall (upto k) r) by (eapply Forall_impl; [|exact HB]; intros; eapply inb_upto; eauto).
    destruct (lint64u k eps r Hk Fe He HN HU) as (r' & f & L1 & L2 & L3 & L4 & L5 & L6).
    assert (HB' : Forall (inb M) r') by (rewrite Forall_forall in *; auto).
    assert (HU' : Forall (upto k) r') by (eapply Forall_impl; [|exact HB']; intros; eapply inb_upto; eauto).
    destruct (ring64 k r' f k1 k2 axis Hk L2 L3 HU' F1 F2 Hle) as (ps & P1 & P2 & P3 & P4).
    exists (r' :: mid), (ps ++ rs'). split; [unfold LintPolygon in *; cbn [map_res]; rewrite L1; cbn [bind]; rewrite E1; reflexivity|].
    split; [cbn [clipLines]; rewrite P1; cbn [bind]; rewrite E2; reflexivity|]. split; [|split].
    + intros x Hx. apply in_app_iff in Hx. destruct Hx as [Hx|Hx]; auto. split; [apply P2; auto|]. eapply (ring64v k r' f k1 k2 axis M); eauto.
    + intros x q Hx Hq. apply in_app_iff in Hx. destruct Hx as [Hx|Hx].
      * destruct (P3 x q Hx Hq) as [(q' & Q1 & Q2)|Q]; [|right; destruct axis; auto]. left. destruct (L5 q' Q1) as (q2 & Q3 & Q4). exists r, q2. split; [left; auto|]. split; auto.
        unfold d. rewrite Rplus_comm. eapply within_trans; eauto.
      * destruct (E4 x q Hx Hq) as [(y & q' & Q0 & Q1 & Q2)|Q]; auto. left. exists y, q'. split; [right; auto|auto].
    + intros p Hp HC. rewrite map_app, even_odd_app. cbn [map]. rewrite even_odd_cons. f_equal.
      * rewrite <- L6. 2:{ intros q Hq W. apply (HC (map val r) q); [left; auto|auto|]. eapply within_mono; [|exact W]. unfold d. lra. }
        apply P4; [destruct axis; auto|]. intros q Hq W. destruct (L5 q Hq) as (q2 & Q3 & Q4). apply (HC (map val r) q2); [left; auto|auto|]. unfold d. rewrite Rplus_comm. eapply within_trans; eauto.
      * apply E5; auto. intros x q Hx. apply HC. right. auto.
Qed.

(** ** Both cuts *)
Lemma cut_twice k rings eps (w e s n : f64) M : (-900 <= k <= 90)%Z -> is_finite eps = true -> 0 <= B2R eps -> M + bpow radix2 (k - 49) <= bpow radix2 k ->
  (forall r, In r rings -> r <> [] /\ Forall (inb M) r) ->
  is_finite w = true -> is_finite e = true -> is_finite s = true -> is_finite n = true -> B2R w <= B2R e -> B2R s <= B2R n ->
  let d := 2 * B2R eps + bpow radix2 (k - 49) in
  exists mid rings', clip F64Num eps (CPolygon rings) w e false = Ok (CPolygon mid) /\ clip F64Num eps (CPolygon mid) s n true = Ok (CPolygon rings') /\
    (forall r, In r rings' -> r <> [] /\ Forall (inb (M + 2 * bpow radix2 (k - 49))) r) /\
    (forall r q, In r rings' -> on_ring (map val r) q -> (exists r' q', In r' rings /\ on_ring (map val r') q' /\ within (2 * d) q q') \/
       Rabs (fst q - B2R w) <= d \/ Rabs (fst q - B2R e) <= d \/ snd q = B2R s \/ snd q = B2R n) /\
    (forall p, B2R w + d < fst p < B2R e - d -> B2R s < snd p < B2R n -> clear_by (2 * d) (map (map val) rings) p ->
       even_odd (map (map val) rings') p = even_odd (map (map val) rings) p).
Proof.
  intros Hk Fe He HM HR Fw Fe' Fs Fn Hx Hy d. pose proof (bpow_gt_0 radix2 (k - 49)) as B0. assert (D0 : 0 <= d) by (unfold d; lra).
  destruct (polygon64u k rings eps w e false M Hk Fe He ltac:(lra) HR Fw Fe' Hx) as (mid & E1 & N1 & O1 & P1). fold d in O1, P1.
  destruct (polygon64u k mid eps s n true (M + bpow radix2 (k - 49)) Hk Fe He HM N1 Fs Fn Hy) as (fi & E2 & N2 & O2 & P2). fold d in O2, P2.
  exists mid, fi. split; auto. split; auto. split; [|split].
  - intros r Hr. destruct (N2 r Hr) as [A B]. split; auto. eapply Forall_impl; [|exact B]. intros a. apply inb_mono. lra.
  - intros r q Hr Hq. destruct (O2 r q Hr Hq) as [(r' & q' & Q1 & Q2 & Q3)|[Q|Q]]; [|unfold along in Q; auto..].
    destruct (O1 r' q' Q1 Q2) as [(r2 & q2 & Q4 & Q5 & Q6)|Q].
    + left. exists r2, q2. split; auto. split; auto. replace (2 * d) with (d + d) by ring. eapply within_trans; eauto.
    + right. unfold along in Q. destruct Q3 as [Q3 _]. destruct Q as [Q|Q]; rewrite Q in Q3; auto.
  - intros p Hpx Hpy HC.
    assert (C1 : clear_by d (map (map val) rings) p) by (intros r q Hr Hq W; apply (HC r q Hr Hq); eapply within_mono; [|exact W]; lra).
    assert (C2 : clear_by d (map (map val) mid) p).
    { intros r q Hr Hq W. apply in_map_iff in Hr. destruct Hr as (y & <- & Hy'). destruct (O1 y q Hy' Hq) as [(r' & q' & R1 & R2 & V)|R].
      - apply (HC (map val r') q'); [apply in_map; auto|auto|]. replace (2 * d) with (d + d) by ring. eapply within_trans; eauto.
      - unfold along in R. destruct W as [W _]. apply ab in W. lra. }
    rewrite <- (P1 p), <- (P2 p); auto; unfold along; lra.
Qed.
