(** C129: clipping polygons in binary64 arithmetic (mvt/clip.go, model in Clip_Model.v). *)
From Coq Require Import ZArith Reals Lia Lra Bool List.
From Flocq Require Import Core BinarySingleNaN.
From Verif Require Import GoBase Num MvtGeom_Model TileF64_Model TileF64_Proofs F64 ColorF64_Proofs Clip_Model Clip_Spec Clip_Proofs ClipRing_Proofs Clip_Props Clip64_Proofs Clip64_Props Parity_Proofs.
Import ListNotations.
Open Scope R_scope.

(** ** Specification *)
(** The outline of a ring as a set of points, the last vertex joined to the first. *)
Definition on_ring (l : list rpt) (q : rpt) : Prop := match l with [] => False | f :: _ => on_line (l ++ [f]) q end.
Definition along (axis : bool) (q : rpt) : R := if axis then snd q else fst q.
(** No point of the outlines is within [e] of [p] in both coordinates. *)
Definition clear_by (e : R) (rings : list (list rpt)) (p : rpt) : Prop := forall r q, In r rings -> on_ring r q -> ~ within e p q.
(** Equal ends, or ends further apart than twice the tolerance of the ring repair. *)
Definition ends64 (eps : f64) (r : list (f64 * f64)) : Prop :=
  exists f, hd_error r = Some f /\ (val (last r f) = val f \/ exists b, 2 * B2R eps < Rabs (along b (val f) - along b (val (last r f)))).

(** ** Moving edges a little *)
Lemma mix_near e x y d : 0 <= x -> x <= 1 -> Rabs (y - d) <= e -> Rabs (x * (d - y)) <= e.
Proof. intros H0 H1 H. rewrite Rabs_mult, (Rabs_right x) by lra. rewrite Rabs_minus_sym. pose proof (Rabs_pos (y - d)). apply Rle_trans with (1 * Rabs (y - d)); [apply Rmult_le_compat_r; lra|lra]. Qed.
Lemma hull_near1 e u v v' p : within e v v' -> hull u v v' p -> exists q, seg u v q /\ within e p q.
Proof.
  intros [W1 W2] (a & b & c & Ha & Hb & Hc & S & E1 & E2). exists (at_ u v (b + c)). split; [apply seg_at; exists (b + c); split; [lra|reflexivity]|].
  unfold within, at_. cbn [fst snd]. rewrite E1, E2. assert (a = 1 - b - c) by lra. subst a. split.
  - match goal with |- Rabs ?x <= _ => replace x with (c * (fst v' - fst v)) by ring end. apply mix_near; lra.
  - match goal with |- Rabs ?x <= _ => replace x with (c * (snd v' - snd v)) by ring end. apply mix_near; lra.
Qed.
Lemma hull_near2 e u v u' v' p : within e u u' -> within e v v' -> hull u v' u' p -> exists q, seg u v q /\ within e p q.
Proof.
  intros [V1 V2] [W1 W2] (a & b & c & Ha & Hb & Hc & S & E1 & E2). exists (at_ u v b). split; [apply seg_at; exists b; split; [lra|reflexivity]|].
  unfold within, at_. cbn [fst snd]. rewrite E1, E2. assert (a = 1 - b - c) by lra. subst a.
  assert (M : forall x y x' y', Rabs (x - x') <= e -> Rabs (y - y') <= e -> Rabs (b * (y' - y) + c * (x' - x)) <= e).
  { intros x y x' y' X Y. rewrite Rabs_minus_sym in X, Y. apply Rle_trans with (b * e + c * e); [|assert (0 <= e) by (pose proof (Rabs_pos (x' - x)); lra); nra].
    eapply Rle_trans; [apply Rabs_triang|]. rewrite !Rabs_mult, (Rabs_right b), (Rabs_right c) by lra. apply Rplus_le_compat; apply Rmult_le_compat_l; lra. }
  split.
  - match goal with |- Rabs ?x <= _ => replace x with (b * (fst v' - fst v) + c * (fst u' - fst u)) by ring end. auto.
  - match goal with |- Rabs ?x <= _ => replace x with (b * (snd v' - snd v) + c * (snd u' - snd u)) by ring end. auto.
Qed.
Lemma hull_coord axis a b c q k : coord axis a = k -> coord axis b = k -> coord axis c = k -> hull a b c q -> coord axis q = k.
Proof.
  intros Ha Hb Hc (x & y & z & _ & _ & _ & S & E1 & E2). assert (E : coord axis q = x * coord axis a + y * coord axis b + z * coord axis c) by (destruct axis; auto).
  rewrite E, Ha, Hb, Hc. replace (x * k + y * k + z * k) with ((x + y + z) * k) by ring. rewrite S. ring.
Qed.

Section Moved.
  Variables (axis : bool) (k1 k2 e : R) (l : list rpt).
  (** [u'] is [u] moved by at most [e] along the band *)
  Definition moved (u' u : rpt) : Prop := coord axis u' = coord axis u /\ within e u' u.
  Lemma good_misses p u v u' v' : k1 < coord axis p < k2 -> (forall q, on_line l q -> ~ within e p q) -> moved u' u -> moved v' v -> good axis k1 k2 l u v -> misses p u v u' v'.
  Proof.
    intros Hp HC [U1 U2] [V1 V2] [G|(h & Gu & Gv)].
    - apply within_sym in U2, V2. split; intros H.
      + destruct (hull_near1 e u v v' p V2 H) as (q & Hq & W). apply (HC q); auto.
      + destruct (hull_near2 e u v u' v' p U2 V2 H) as (q & Hq & W). apply (HC q); auto.
    - unfold bnd in *. split; intros H; apply (hull_coord axis _ _ _ _ (if h then k2 else k1)) in H; try congruence; destruct h; lra.
  Qed.
  Lemma good_moves p : forall c c', k1 < coord axis p < k2 -> (forall q, on_line l q -> ~ within e p q) -> Forall2 moved c' c -> allgood axis k1 k2 l c -> moves p c c'.
  Proof.
    induction c as [|a c IH]; intros c' Hp HC HF HG; inversion HF as [|a' ? r' ? M1 M2]; subst; [exact I|]. destruct c as [|b c]; inversion M2 as [|b' ? r2 ? M3 M4]; subst; [exact I|].
    inversion HG as [|? ? G1 G2]; subst. split; [apply good_misses; auto|]. apply IH; auto.
  Qed.
  Lemma on_moved q : forall c c', Forall2 moved c' c -> allgood axis k1 k2 l c -> (2 <= length c)%nat -> on_line c' q -> (exists q', on_line l q' /\ within e q q') \/ coord axis q = k1 \/ coord axis q = k2.
  Proof.
    induction c as [|a c IH]; intros c' HF HG HL Hq; [cbn in HL; lia|]. inversion HF as [|a' ? r' ? M1 M2]; subst. destruct c as [|b c]; [cbn in HL; lia|]. inversion M2 as [|b' ? r2 ? M3 M4]; subst.
    inversion HG as [|? ? G1 G2]; subst. cbn [fst snd] in G1. destruct M1 as [U1 U2], M3 as [V1 V2].
    assert (S : seg a' b' q -> (exists q', on_line l q' /\ within e q q') \/ coord axis q = k1 \/ coord axis q = k2).
    { intros S. apply seg_at in S. destruct S as (t & Ht & ->). destruct G1 as [G|(h & Gu & Gv)].
      - left. exists (at_ a b t). split; [apply G; apply seg_at; eauto|apply within_at; auto].
      - right. unfold bnd in *. rewrite coord_at, U1, V1, Gu, Gv. destruct h; [right|left]; ring. }
    destruct Hq as [Hq|Hq]; auto. destruct c as [|c0 c].
    - inversion M4; subst. cbn [on_line] in Hq. subst q. apply S. apply seg_r.
    - apply IH with (c' := b' :: r2); auto. cbn. lia.
  Qed.
End Moved.

(** ** One ring *)
Lemma ring_hd (c : list rpt) f r : c = f :: r -> forall p, parity p (ring_edges (c ++ [f])) = parity p (ring_edges c).
Proof.
  intros -> p. rewrite (ring_parity_chain p ((f :: r) ++ [f]) f), (ring_parity_chain p (f :: r) f) by reflexivity.
  rewrite <- app_assoc. cbn [app]. change (f :: r ++ [f; f]) with ((f :: r) ++ [f; f]). rewrite chain_snoc, crosses_refl. apply xorb_false_r.
Qed.
Lemma ring_of_parity c piece p : ring_of c piece -> parity p (ring_edges piece) = parity p (ring_edges c).
Proof. intros [_ [->|(f & r & Hc & -> & _)]]; auto. apply (ring_hd c f r); auto. Qed.
Lemma hd_some {A} (l : list A) : l <> [] -> exists h, hd_error l = Some h.
Proof. destruct l; [congruence|]. eexists; reflexivity. Qed.
Lemma ring_edges_hd (c : list rpt) h : hd_error c = Some h -> ring_edges c = edges (c ++ [h]).
Proof. destruct c; cbn; intros E; [discriminate|]. injection E as ->. reflexivity. Qed.
Lemma on_ring_hd (c : list rpt) h q : hd_error c = Some h -> on_ring c q = on_line (c ++ [h]) q.
Proof. destruct c; cbn; intros E; [discriminate|]. injection E as ->. reflexivity. Qed.
Lemma ring_of_hd {A} (c piece : list A) h : ring_of c piece -> hd_error c = Some h -> hd_error piece = Some h.
Proof. intros [_ [->|(f & r & -> & -> & _)]]; auto. Qed.
Lemma ring_of_map c piece : ring_of c piece -> ring_of (map val c) (map val piece).
Proof.
  intros [H [->|(f & r & -> & -> & L)]]; (split; [intros E; apply map_eq_nil in E; auto|]); auto. right. exists (val f), (map val r). split; [reflexivity|]. split; [rewrite map_app; reflexivity|]. rewrite map_length. auto.
Qed.
Lemma ring_of_on c piece h q : ring_of c piece -> hd_error c = Some h -> on_ring piece q -> on_line (c ++ [h]) q.
Proof.
  intros R Hh. rewrite (on_ring_hd piece h) by (eapply ring_of_hd; eauto). destruct R as [_ [->|(f & r & -> & -> & _)]]; auto. injection Hh as ->.
  rewrite <- app_assoc. cbn [app]. change (h :: r ++ [h; h]) with ((h :: r) ++ h :: [h]). rewrite on_line_app. intros [H|H]; auto.
  change (h :: r ++ [h]) with ((h :: r) ++ [h]). assert (q = h). { cbn [on_line] in H. destruct H as [H|H]; auto. apply seg_refl in H. auto. }
  subst q. apply on_line_vertex. apply in_app_iff. right. left. auto.
Qed.

Lemma F2_length {A B} (P : A -> B -> Prop) l l' : Forall2 P l l' -> length l = length l'.
Proof. induction 1; cbn; congruence. Qed.

Lemma ring64 k l f (k1 k2 : f64) axis : (-900 <= k <= 90)%Z -> hd_error l = Some f -> val (last l f) = val f -> Forall (upto k) l ->
  is_finite k1 = true -> is_finite k2 = true -> B2R k1 <= B2R k2 ->
  exists pieces, clipLine F64Num l k1 k2 axis true = Ok pieces /\
    (forall piece, In piece pieces -> piece <> [] /\ Forall (upto (k + 1)) piece) /\
    (forall piece q, In piece pieces -> on_ring (map val piece) q -> (exists q', on_line (map val l) q' /\ within (bpow radix2 (k - 49)) q q') \/ coord axis q = B2R k1 \/ coord axis q = B2R k2) /\
    (forall p, B2R k1 < coord axis p < B2R k2 -> (forall q, on_line (map val l) q -> ~ within (bpow radix2 (k - 49)) p q) ->
       even_odd (map (map val) pieces) p = parity p (ring_edges (map val l))).
Proof.
  intros Hk Hf Hl HU F1 F2 Hle.
  assert (Hn : l <> []) by (destruct l; [discriminate|congruence]).
  assert (Hf' : hd_error (map val l) = Some (val f)) by (destruct l; cbn in *; congruence).
  assert (Hl' : last (map val l) (val f) = val f).
  { rewrite <- Hl. clear. revert f. induction l as [|a l IH]; intros; [reflexivity|]. destruct l as [|b l]; [reflexivity|]. exact (IH f). }
  destruct (C121_ring k l k1 k2 axis Hk Hn HU F1 F2) as (ps & ps' & E & E' & H). exists ps. split; auto.
  pose proof (clip_outline axis (B2R k1) (B2R k2) (map val l) Hle (val f) ps' Hf' Hl' E') as HO.
  pose proof (clip_vertices axis (B2R k1) (B2R k2) (map val l) Hle ps' E') as HV.
  destruct H as [[-> ->]|(c & c' & piece & piece' & -> & -> & R & R' & HC)].
  - split; [intros ? []|]. split; [intros ? ? []|]. intros p Hp HC. cbn [map]. 
    destruct (clipLine_ring axis (B2R k1) (B2R k2) p Hp (map val l) (val f) Hf' Hl') as (x & Ex & _ & _ & P). rewrite E' in Ex. injection Ex as <-. exact P.
  - pose proof (proj1 R) as NC. pose proof (proj1 R') as NC'. pose proof (ring_of_map _ _ R) as RM.
    destruct (hd_some c NC) as (h & Hh). destruct (hd_some c' NC') as (h' & Hh').
    assert (MV : Forall2 (moved axis (bpow radix2 (k - 49))) (map val c) c').
    { clear - HC. induction HC as [|x y xs ys (A & B & W) H IH]; cbn [map]; constructor; auto. split; auto. rewrite <- B. destruct axis; reflexivity. }
    assert (Hv : hd_error (map val c) = Some (val h)) by (destruct c; cbn in *; congruence).
    assert (MV1 : Forall2 (moved axis (bpow radix2 (k - 49))) (map val c ++ [val h]) (c' ++ [h'])).
    { apply Forall2_app; auto. constructor; [|constructor]. clear - MV Hv Hh'. inversion MV; subst; rewrite <- H in Hv || rewrite <- H0 in Hv; cbn in *; try discriminate. injection Hv as <-. injection Hh' as <-. auto. }
    assert (AG : allgood axis (B2R k1) (B2R k2) (map val l) (c' ++ [h'])).
    { apply Forall_forall. intros e He. apply (HO piece' e (or_introl eq_refl)). rewrite (ring_edges_hd piece' h') by (eapply ring_of_hd; eauto).
      destruct R' as [_ [->|(f0 & r0 & -> & -> & _)]]; auto. injection Hh' as ->. rewrite <- app_assoc. cbn [app]. change (h' :: r0 ++ [h'; h']) with ((h' :: r0) ++ [h'; h']). rewrite edges_snoc. apply in_app_iff. left. exact He. }
    split; [|split].
    + intros pc [<-|[]]. assert (U : Forall (upto (k + 1)) c).
      { inversion HV as [|? ? HV1 _]; subst. assert (HV2 : Forall (on_line (map val l)) c') by (destruct R' as [_ [->|(f0 & r0 & -> & -> & _)]]; auto; apply Forall_app in HV1; tauto).
        assert (BX : forall ax q, on_line (map val l) q -> - bpow radix2 k <= coord ax q <= bpow radix2 k).
        { intros ax q Hq. apply (on_line_conv ax _ _ (map val l)); auto. intros q' Hq'. apply in_map_iff in Hq'. destruct Hq' as (x & <- & Hx). rewrite Forall_forall in HU. destruct (HU x Hx) as (_ & B1 & B2). apply ab in B1, B2. destruct ax; unfold coord, val; cbn [fst snd]; lra. }
        assert (BB : bpow radix2 (k + 1) = 2 * bpow radix2 k) by (rewrite bpow_plus; change (bpow radix2 1) with 2; ring).
        assert (BS : bpow radix2 (k - 49) <= bpow radix2 k) by (apply bpow_le; lia).
        clear - HC HV2 BX BB BS. induction HC as [|x y xs ys (A & B & W) H IH]; constructor; inversion HV2; subst; auto.
        split; auto. destruct W as [W1 W2]. pose proof (BX false y ltac:(auto)) as X1. pose proof (BX true y ltac:(auto)) as X2. unfold coord in X1, X2. unfold val in W1, W2. cbn [fst snd] in *. apply ab in W1, W2. rewrite BB. split; apply ab; lra. }
      destruct R as [_ [->|(f0 & r0 & -> & -> & _)]]; [auto|]. split; [discriminate|]. apply Forall_app. split; auto. inversion U; auto.
    + intros pc q [<-|[]] Hq. apply (on_moved axis (B2R k1) (B2R k2) _ (map val l) q (c' ++ [h']) (map val c ++ [val h])); auto.
      * rewrite app_length. cbn. destruct c'; [congruence|cbn; lia].
      * eapply ring_of_on; eauto.
    + intros p Hp HCl. destruct (clipLine_ring axis (B2R k1) (B2R k2) p Hp (map val l) (val f) Hf' Hl') as (x & Ex & _ & _ & P). rewrite E' in Ex. injection Ex as <-.
      rewrite <- P. cbn [map even_odd fold_right]. rewrite (ring_of_parity _ _ p RM), (ring_of_parity _ _ p R'). f_equal. symmetry.
      apply (move_ring p c' (map val c) h' (val h)); auto; [symmetry; eapply F2_length; eauto|]. apply (good_moves axis (B2R k1) (B2R k2) (bpow radix2 (k - 49)) (map val l)); auto.
Qed.

(** ** Ring repair *)
Lemma Babs_f x v : is_f x v -> is_f (Babs x) (Rabs v).
Proof. intros [H1 H2]. split; [rewrite is_finite_Babs; auto|rewrite B2R_Babs, H2; auto]. Qed.
Lemma last_map {A B} (g : A -> B) l d : last (map g l) (g d) = g (last l d).
Proof. induction l as [|a l IH]; [reflexivity|]. destruct l as [|b l]; [reflexivity|]. exact IH. Qed.
Lemma map_removelast_last l (f : f64 * f64) : l <> [] -> val (last l f) = val f -> map val (removelast l ++ [f]) = map val l.
Proof. intros H E. rewrite map_app. cbn [map]. rewrite <- E. rewrite (app_removelast_last f H) at 3. rewrite map_app. reflexivity. Qed.

Lemma delta64 k (eps : f64) f g : (-900 <= k <= 90)%Z -> is_finite eps = true -> 0 <= B2R eps -> upto k f -> upto k g ->
  (val g = val f -> DeltaFirstLast F64Num eps f g = false) /\
  (forall b, 2 * B2R eps < Rabs (along b (val f) - along b (val g)) -> DeltaFirstLast F64Num eps f g = true).
Proof.
  intros Hk Fe He ([Ff1 Ff2] & Bf1 & Bf2) ([Fg1 Fg2] & Bg1 & Bg2). unfold DeltaFirstLast. cbn [F64Num nabs nsub nltb]. fold F64Num.
  change (@Bminus 53 1024 _ _ mode_NE) with fsub.
  assert (L100 : 4 * bpow radix2 k <= bpow radix2 100). { apply Rle_trans with (bpow radix2 (k + 2)); [rewrite bpow_plus; change (bpow radix2 2) with 4; lra|apply bpow_le; lia]. }
  pose proof (bpow_gt_0 radix2 k) as Mp. assert (IF : forall x : f64, is_finite x = true -> is_f x (B2R x)) by (intros x Hx; split; auto).
  assert (S : forall x y : f64, is_finite x = true -> is_finite y = true -> Rabs (B2R x) <= bpow radix2 k -> Rabs (B2R y) <= bpow radix2 k ->
    Bltb eps (Babs (fsub x y)) = Rltb (B2R eps) (Rabs (rnd (B2R x - B2R y)))).
  { intros x y Fx Fy Bx By. apply Bltb_f; [auto|]. apply Babs_f. apply fsub_f; auto. apply ab in Bx, By. apply ab. lra. }
  rewrite (S _ _ Ff1 Fg1 Bf1 Bg1), (S _ _ Ff2 Fg2 Bf2 Bg2). split.
  - intros E. unfold val in E. injection E as E1 E2. rewrite E1, E2. unfold Rminus. rewrite !Rplus_opp_r, (rnd_id 0 fmt_0), Rabs_R0.
    destruct (Rltb_spec (B2R eps) 0); [lra|reflexivity].
  - intros b Hb.
    assert (D : forall x y : f64, is_finite x = true -> is_finite y = true -> 2 * B2R eps < Rabs (B2R x - B2R y) -> Rltb (B2R eps) (Rabs (rnd (B2R x - B2R y))) = true).
    { intros x y Fx Fy H. apply Rltb_true. destruct (sub_rel (B2R x) (B2R y)) as (d & Hd & E); try (eapply is_f_fmt; apply IF; auto; fail).
      rewrite E, Rabs_mult. apply ab in Hd. assert (uu <= / 4) by (unfold uu; lra). rewrite (Rabs_right (1 + d)) by lra. set (D := Rabs (B2R x - B2R y)) in *. clearbody D. nra. }
    apply orb_true_iff. destruct b; unfold along, val in Hb; cbn [fst snd] in Hb; [right|left]; apply D; auto.
Qed.

Lemma lint64 k eps r : (-900 <= k <= 90)%Z -> is_finite eps = true -> 0 <= B2R eps -> Forall (upto k) r -> ends64 eps r ->
  exists r' f, LintRing F64Num eps r = Ok r' /\ hd_error r' = Some f /\ val (last r' f) = val f /\ Forall (upto k) r' /\
    (forall q, on_line (map val r') q -> on_ring (map val r) q) /\ forall p, parity p (ring_edges (map val r')) = parity p (ring_edges (map val r)).
Proof.
  intros Hk Fe He HU (f & Hf & HE). destruct r as [|x r]; [discriminate|]. injection Hf as ->. set (l := f :: r) in *.
  assert (Uf : upto k f) by (inversion HU; auto). assert (Ul : upto k (last l f)). { rewrite Forall_forall in HU. apply HU. destruct (@exists_last _ l ltac:(discriminate)) as (l' & z & E). rewrite E, last_last. apply in_app_iff. right. left. auto. }
  destruct (delta64 k eps f (last l f) Hk Fe He Uf Ul) as [D1 D2]. unfold LintRing, l. fold l. cbn [hd_error].
  assert (OR : forall q, on_ring (map val l) q = on_line (map val l ++ [val f]) q) by reflexivity.
  destruct (DeltaFirstLast F64Num eps f (last l f)) eqn:D.
  - exists (l ++ [f]), f. split; [reflexivity|]. split; [reflexivity|]. split; [rewrite last_last; auto|]. split; [apply Forall_app; auto|]. rewrite map_app. cbn [map]. split; [auto|].
    intros p. apply (ring_hd (map val l) (val f) (map val r)). reflexivity.
  - assert (E : val (last l f) = val f). { destruct HE as [HE|(b & HE)]; auto. exfalso. specialize (D2 b HE). discriminate. }
    exists (removelast l ++ [f]), f. split; [reflexivity|]. split.
    { destruct r as [|y r]; [reflexivity|]. reflexivity. }
    split; [rewrite last_last; auto|]. split.
    { apply Forall_app. split; auto. rewrite Forall_forall in *. intros z Hz. apply HU. rewrite (app_removelast_last f (l := l)) by discriminate. apply in_app_iff. auto. }
    rewrite map_removelast_last by (auto; discriminate). split; [|reflexivity]. intros q Hq. rewrite OR.
    destruct (@exists_last _ (map val l) ltac:(discriminate)) as (l' & z & Ez). rewrite Ez in *. rewrite <- app_assoc. cbn [app]. apply on_line_app. auto.
Qed.

(** ** Theorems *)
Lemma even_odd_cons r rs p : even_odd (r :: rs) p = xorb (parity p (ring_edges r)) (even_odd rs p). Proof. reflexivity. Qed.

Lemma polygon64 k rings eps (k1 k2 : f64) axis : (-900 <= k <= 90)%Z -> is_finite eps = true -> 0 <= B2R eps ->
  (forall r, In r rings -> Forall (upto k) r /\ ends64 eps r) -> is_finite k1 = true -> is_finite k2 = true -> B2R k1 <= B2R k2 ->
  exists rings', clip F64Num eps (CPolygon rings) k1 k2 axis = Ok (CPolygon rings') /\
    (forall r, In r rings' -> r <> [] /\ Forall (upto (k + 1)) r) /\
    (forall r q, In r rings' -> on_ring (map val r) q -> (exists r' q', In r' rings /\ on_ring (map val r') q' /\ within (bpow radix2 (k - 49)) q q') \/ along axis q = B2R k1 \/ along axis q = B2R k2) /\
    (forall p, B2R k1 < along axis p < B2R k2 -> clear_by (bpow radix2 (k - 49)) (map (map val) rings) p ->
       even_odd (map (map val) rings') p = even_odd (map (map val) rings) p).
Proof.
  intros Hk Fe He HR F1 F2 Hle.
  cut (exists mid rings', LintPolygon F64Num eps rings = Ok mid /\ clipLines F64Num mid k1 k2 axis true = Ok rings' /\
    (forall r, In r rings' -> r <> [] /\ Forall (upto (k + 1)) r) /\
    (forall r q, In r rings' -> on_ring (map val r) q -> (exists r' q', In r' rings /\ on_ring (map val r') q' /\ within (bpow radix2 (k - 49)) q q') \/ along axis q = B2R k1 \/ along axis q = B2R k2) /\
    (forall p, B2R k1 < along axis p < B2R k2 -> clear_by (bpow radix2 (k - 49)) (map (map val) rings) p ->
       even_odd (map (map val) rings') p = even_odd (map (map val) rings) p)).
  { intros (mid & rings' & E1 & E2 & H). exists rings'. unfold clip. rewrite E1. cbn [bind]. rewrite E2. auto. }
  induction rings as [|r rs IH].
  - exists [], []. split; [reflexivity|]. split; [reflexivity|]. split; [intros ? []|]. split; [intros ? ? []|]. reflexivity.
  - destruct IH as (mid & rs' & E1 & E2 & E3 & E4 & E5). { intros; apply HR; right; auto. }
    destruct (HR r (or_introl eq_refl)) as [HU HE]. destruct (lint64 k eps r Hk Fe He HU HE) as (r' & f & L1 & L2 & L3 & L4 & L5 & L6).
    destruct (ring64 k r' f k1 k2 axis Hk L2 L3 L4 F1 F2 Hle) as (ps & P1 & P2 & P3 & P4).
    exists (r' :: mid), (ps ++ rs'). split; [unfold LintPolygon in *; cbn [map_res]; rewrite L1; cbn [bind]; rewrite E1; reflexivity|].
    split; [cbn [clipLines]; rewrite P1; cbn [bind]; rewrite E2; reflexivity|]. split; [|split].
    + intros x Hx. apply in_app_iff in Hx. destruct Hx; auto.
    + intros x q Hx Hq. apply in_app_iff in Hx. destruct Hx as [Hx|Hx].
      * destruct (P3 x q Hx Hq) as [(q' & Q1 & Q2)|Q]; [left; exists r, q'; split; [left; auto|]; auto|right; destruct axis; auto].
      * destruct (E4 x q Hx Hq) as [(y & q' & Q0 & Q1 & Q2)|Q]; auto. left. exists y, q'. split; [right; auto|auto].
    + intros p Hp HC. rewrite map_app, even_odd_app. cbn [map]. rewrite even_odd_cons. f_equal.
      * rewrite <- L6. apply P4; [destruct axis; auto|]. intros q Hq. apply (HC (map val r)); [left; auto|auto].
      * apply E5; auto. intros x q Hx. apply HC. right. auto.
Qed.

(** Clipping a polygon to a band keeps the membership of every point strictly inside the band that no
    point of the outline is close to; no result ring is empty, and coordinates stay finite. *)
Theorem C129_band : forall k rings eps k1 k2 axis, (-900 <= k <= 90)%Z -> is_finite eps = true -> 0 <= B2R eps ->
  (forall r, In r rings -> Forall (upto k) r /\ ends64 eps r) -> is_finite k1 = true -> is_finite k2 = true -> B2R k1 <= B2R k2 ->
  exists rings', clip F64Num eps (CPolygon rings) k1 k2 axis = Ok (CPolygon rings') /\
    (forall r, In r rings' -> r <> [] /\ Forall fin r) /\
    forall p, B2R k1 < along axis p < B2R k2 -> clear_by (bpow radix2 (k - 49)) (map (map val) rings) p ->
      even_odd (map (map val) rings') p = even_odd (map (map val) rings) p.
Proof.
  intros k rings eps k1 k2 axis Hk Fe He HR F1 F2 Hle. destruct (polygon64 k rings eps k1 k2 axis Hk Fe He HR F1 F2 Hle) as (rs & E & H1 & _ & H2).
  exists rs. split; auto. split; auto. intros r Hr. destruct (H1 r Hr) as [A B]. split; auto. eapply upto_fin; eauto.
Qed.
Print Assumptions C129_band.

(** Clipping to a tile: the same for points a little inside the tile, provided the ring repair before the
    second cut moves nothing; a polygon without any part in the tile panics. *)
Theorem C129_tile : forall k rings eps w e s n p, (-900 <= k <= 89)%Z -> is_finite eps = true -> 0 <= B2R eps ->
  (forall r, In r rings -> Forall (upto k) r /\ ends64 eps r) ->
  is_finite w = true -> is_finite e = true -> is_finite s = true -> is_finite n = true ->
  B2R w + bpow radix2 (k - 48) < fst p < B2R e - bpow radix2 (k - 48) -> B2R s < snd p < B2R n ->
  clear_by (bpow radix2 (k - 47)) (map (map val) rings) p ->
  (forall mid r, clip F64Num eps (CPolygon rings) w e false = Ok (CPolygon mid) -> In r mid -> ends64 eps r) ->
  (exists rings', ClipTileB F64Num eps w e s n (CPolygon rings) = Ok (CPolygon rings') /\ even_odd (map (map val) rings') p = even_odd (map (map val) rings) p) \/
  (ClipTileB F64Num eps w e s n (CPolygon rings) = Panic /\ even_odd (map (map val) rings) p = false).
Proof.
  intros k rings eps w e s n p Hk Fe He HR Fw Fe' Fs Fn Hx Hy HC HM.
  pose proof (bpow_gt_0 radix2 (k - 48)) as D0. pose proof (bpow_gt_0 radix2 (k - 49)) as D1.
  assert (D2 : bpow radix2 (k - 48) = 2 * bpow radix2 (k - 49)). { replace (k - 48)%Z with ((k - 49) + 1)%Z by lia. rewrite bpow_plus. change (bpow radix2 1) with 2. ring. }
  assert (D3 : bpow radix2 (k - 47) = 2 * bpow radix2 (k - 48)). { replace (k - 47)%Z with ((k - 48) + 1)%Z by lia. rewrite bpow_plus. change (bpow radix2 1) with 2. ring. }
  assert (MO : forall d q, d <= bpow radix2 (k - 47) -> within d p q -> within (bpow radix2 (k - 47)) p q) by (intros d q Hd [A B]; split; lra).
  destruct (polygon64 k rings eps w e false ltac:(lia) Fe He HR Fw Fe' ltac:(lra)) as (mid & E1 & N1 & O1 & P1).
  destruct (polygon64 (k + 1) mid eps s n true ltac:(lia) Fe He (fun r H => conj (proj2 (N1 r H)) (HM mid r E1 H)) Fs Fn ltac:(lra)) as (fi & E2 & N2 & _ & P2).
  specialize (P1 p ltac:(unfold along; lra)). specialize (P2 p ltac:(unfold along; lra)). replace (k + 1 - 49)%Z with (k - 48)%Z in P2 by lia.
  assert (C1 : clear_by (bpow radix2 (k - 49)) (map (map val) rings) p). { intros r q Hr Hq W. apply (HC r q Hr Hq). apply (MO (bpow radix2 (k - 49))); auto. lra. }
  assert (C2 : clear_by (bpow radix2 (k - 48)) (map (map val) mid) p).
  { intros r q Hr Hq [W1 W2]. apply in_map_iff in Hr. destruct Hr as (y & <- & Hy'). destruct (O1 y q Hy' Hq) as [(r' & q' & R1 & R2 & [V1 V2])|R].
    - apply (HC (map val r') q'); [apply in_map; auto|auto|]. apply ab in W1, W2, V1, V2. split; apply ab; lra.
    - unfold along in R. apply ab in W1. lra. }
  unfold ClipTileB. rewrite E1. cbn [bind]. rewrite E2. cbn [bind]. rewrite <- (P1 C1), <- (P2 C2).
  destruct fi as [|f fi]; [right; auto|]. left. exists (f :: fi). split; auto. cbn [makefeature]. destruct f; auto. destruct (N2 [] (or_introl eq_refl)) as [X _]. congruence.
Qed.
Print Assumptions C129_tile.

(** The distance cannot be dropped: next to the hypotenuse of a triangle, membership changes. *)
Definition sf_poly (g : res (@cgeom f64)) := match g with Ok (CPolygon [l]) => Some (map sf2 l) | _ => None end.
Lemma sf_poly_inj g l : sf_poly g = Some (map sf2 l) -> g = Ok (CPolygon [l]).
Proof.
  destruct g as [[| |[|x [|y ys]]| |]| |]; try discriminate. cbn [sf_poly]. intros H. injection H as H.
  assert (K : sf_line (Ok (CLine x)) = Some (map sf2 l)) by (cbn [sf_line]; congruence). apply sf_line_inj in K. congruence.
Qed.
Definition third : f64 := @B754_finite 53 1024 false 6004799503160661 (-54) eq_refl.
Definition two_thirds : f64 := @B754_finite 53 1024 false 6004799503160661 (-53) eq_refl.
Definition tri64 : list (f64 * f64) := [(fint 0, fint 0); (fint 3, fint 1); (fint 0, fint 1); (fint 0, fint 0)].
Ltac crosscalc := rewrite ?Rminus_0_r; replace (0 - 3) with (-3) by lra; replace (2 - 1) with 1 by lra; replace (1 - 2) with (-1) by lra; repeat (match goal with
   | |- context [Rleb ?a ?b] => destruct (Rleb_spec a b); try lra
   | |- context [Rltb ?a ?b] => destruct (Rltb_spec a b); try lra end).
Lemma small_int n : (Z.abs n <= 16)%Z -> is_finite (fint n) = true /\ B2R (fint n) = IZR n.
Proof. intros Hn. apply f_int. lia. Qed.
Lemma tri64_val : map val tri64 = [(0, 0); (3, 1); (0, 1); (0, 0)].
Proof. unfold tri64, val. cbn [map fst snd]. destruct (small_int 0 ltac:(lia)) as [_ ->], (small_int 1 ltac:(lia)) as [_ ->], (small_int 3 ltac:(lia)) as [_ ->]. reflexivity. Qed.
Theorem C129_outline_refuted : exists rings' p, Forall (upto 2) tri64 /\ ends64 (fint 0) tri64 /\
  clip F64Num (fint 0) (CPolygon [tri64]) (fint 1) (fint 2) false = Ok (CPolygon rings') /\ 1 < fst p < 2 /\
  even_odd [map val tri64] p = false /\ even_odd (map (map val) rings') p = true.
Proof.
  exists [[(fint 1, third); (fint 2, two_thirds); (fint 2, fint 1); (fint 1, fint 1); (fint 1, third)]], (3 / 2, 1 / 2 - / 72057594037927936).
  assert (U : forall a b, (Z.abs a <= 4)%Z -> (Z.abs b <= 4)%Z -> upto 2 (fint a, fint b)).
  { intros a b Ha Hb. destruct (small_int a ltac:(lia)) as [A1 A2], (small_int b ltac:(lia)) as [B1 B2]. unfold upto, fin. cbn [fst snd]. rewrite A2, B2. change (bpow radix2 2) with 4. split; [auto|]. split; rewrite <- abs_IZR; apply IZR_le; lia. }
  split; [unfold tri64; repeat apply Forall_cons; try apply Forall_nil; apply U; lia|].
  split; [exists (fint 0, fint 0); split; [reflexivity|left; reflexivity]|].
  split; [apply sf_poly_inj; vm_compute; reflexivity|]. split; [cbn [fst]; lra|].
  assert (T1 : B2R third = 6004799503160661 / 18014398509481984). { unfold third, B2R, F2R. cbn [Fnum Fexp cond_Zopp]. change (bpow radix2 (-54)) with (bpow radix2 (- (54))). rewrite (bpm 54 18014398509481984) by (reflexivity || lia). lra. }
  assert (T2 : B2R two_thirds = 6004799503160661 / 9007199254740992). { unfold two_thirds, B2R, F2R. cbn [Fnum Fexp cond_Zopp]. change (bpow radix2 (-53)) with (bpow radix2 (- (53))). rewrite (bpm 53 9007199254740992) by (reflexivity || lia). lra. }
  split.
  - rewrite tri64_val. cbn [even_odd fold_right ring_edges edges app parity fst snd]. unfold crosses. cbn [fst snd]. crosscalc; reflexivity.
  - unfold val. cbn [map fst snd]. rewrite T1, T2. destruct (small_int 1 ltac:(lia)) as [_ ->], (small_int 2 ltac:(lia)) as [_ ->].
    cbn [even_odd fold_right ring_edges edges app parity fst snd]. unfold crosses. cbn [fst snd]. crosscalc; reflexivity.
Qed.
Print Assumptions C129_outline_refuted.

(** The hypotheses hold for that triangle and the point (3/2, 3/4). *)
Example C129_nonvacuous : clear_by (bpow radix2 (2 - 47)) [map val tri64] (3 / 2, 3 / 4) /\ even_odd [map val tri64] (3 / 2, 3 / 4) = true.
Proof.
  rewrite tri64_val. split.
  - assert (B : bpow radix2 (2 - 47) < / 100). { apply Rlt_trans with (bpow radix2 (- (7))); [apply bpow_lt; lia|]. rewrite (bpm 7 128) by (reflexivity || lia). lra. }
    intros r q [<-|[]] Hq [W1 W2]. apply ab in W1, W2. cbn [fst snd] in *. cbn [on_ring on_line app] in Hq.
    destruct Hq as [(t & Ht & E1 & E2)|[(t & Ht & E1 & E2)|[(t & Ht & E1 & E2)|[(t & Ht & E1 & E2)|Hq]]]]; try (cbn [fst snd] in *; lra). subst q. cbn [fst snd] in *. lra.
  - cbn [even_odd fold_right ring_edges edges app parity fst snd]. unfold crosses. cbn [fst snd]. crosscalc; reflexivity.
Qed.
