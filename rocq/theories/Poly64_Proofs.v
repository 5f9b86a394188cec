(** The even-odd rule does not change along a vertical move that meets no edge. *)
From Coq Require Import ZArith Reals List Lia Lra Bool.
From Verif Require Import GoBase Num Clip_Spec Cover_Spec Cover_Model Cover_Proofs.
Import ListNotations.
Open Scope R_scope.

Lemma pip_no (x h : R) (a b : rpt) : ~ (snd a <= h < snd b \/ snd b <= h < snd a) -> pip_edge (x, h) a b = false.
Proof. intros H. destruct (pip_edge (x, h) a b) eqn:E; auto. apply pip_edge_spec in E. destruct E as [E _]. cbn [snd] in E. contradiction. Qed.
Lemma pip_at (x h : R) (a b : rpt) : snd a <= h < snd b \/ snd b <= h < snd a ->
  exists t, 0 <= t <= 1 /\ snd a + t * (snd b - snd a) = h /\ (pip_edge (x, h) a b = true <-> x < fst a + t * (fst b - fst a)).
Proof.
  intros H. assert (D : snd b - snd a <> 0) by lra. exists ((h - snd a) / (snd b - snd a)). assert (E : (h - snd a) / (snd b - snd a) * (snd b - snd a) = h - snd a) by (field; auto). set (t := (h - snd a) / (snd b - snd a)) in *. clearbody t.
  assert (T : 0 <= t <= 1) by (destruct H; nra). split; [exact T|]. split; [lra|]. rewrite pip_edge_spec. unfold crosses_right. cbn [fst snd]. split.
  - intros [_ (q & (s & Hs & E1 & E2) & E3 & E4)]. rewrite E1 in E4. replace t with s; auto. apply Rmult_eq_reg_r with (snd b - snd a); auto. lra.
  - intros L. split; [exact H|]. exists (fst a + t * (fst b - fst a), snd a + t * (snd b - snd a)). cbn [fst snd]. split; [exists t; cbn [fst snd]; auto|]. split; [lra|auto].
Qed.

Section Move.
Variables (x y y' : R).
Hypothesis Hy : y <= y'.
(** the edge does not meet the vertical segment from (x, y) to (x, y') *)
Definition avoids (a b : rpt) : Prop := forall q, seg a b q -> ~ (fst q = x /\ y <= snd q <= y').
Lemma side (a b : rpt) s t : avoids a b -> 0 <= s <= 1 -> 0 <= t <= 1 -> y <= snd a + s * (snd b - snd a) <= y' -> y <= snd a + t * (snd b - snd a) <= y' ->
  x < fst a + s * (fst b - fst a) -> x < fst a + t * (fst b - fst a).
Proof.
  intros A Hs Ht Ys Yt L. destruct (Rlt_le_dec x (fst a + t * (fst b - fst a))) as [K|K]; auto. exfalso. set (ps := fst a + s * (fst b - fst a)) in *. set (pt := fst a + t * (fst b - fst a)) in *.
  assert (D : 0 < ps - pt) by lra. set (l := (ps - x) / (ps - pt)). assert (El : l * (ps - pt) = ps - x) by (unfold l; field; lra). assert (Hl : 0 <= l <= 1) by (clearbody l; nra).
  set (r := s + l * (t - s)). assert (Hr : 0 <= r <= 1) by (unfold r; clear - Hl Hs Ht; nra).
  apply (A (fst a + r * (fst b - fst a), snd a + r * (snd b - snd a))). 1:{ exists r. cbn [fst snd]. auto. } cbn [fst snd]. split.
  - unfold r. replace (fst a + (s + l * (t - s)) * (fst b - fst a)) with (ps - l * (ps - pt)) by (unfold ps, pt; ring). lra.
  - set (qs := snd a + s * (snd b - snd a)) in *. set (qt := snd a + t * (snd b - snd a)) in *. replace (snd a + r * (snd b - snd a)) with (qs + l * (qt - qs)) by (unfold qs, qt, r; ring). clearbody qs qt l. clear - Hl Ys Yt. nra.
Qed.
Lemma side_iff (a b : rpt) s t : avoids a b -> 0 <= s <= 1 -> 0 <= t <= 1 -> y <= snd a + s * (snd b - snd a) <= y' -> y <= snd a + t * (snd b - snd a) <= y' ->
  (x < fst a + s * (fst b - fst a) <-> x < fst a + t * (fst b - fst a)).
Proof. intros. split; intros; [apply (side a b s t)|apply (side a b t s)]; auto. Qed.

Definition strip (v : rpt) : bool := Rltb y (snd v) && Rleb (snd v) y' && Rltb x (fst v).
Lemma edge_move (a b : rpt) : avoids a b -> xorb (pip_edge (x, y) a b) (pip_edge (x, y') a b) = xorb (strip a) (strip b).
Proof.
  intros A. unfold strip.
  assert (EA : fst a + 0 * (fst b - fst a) = fst a) by ring. assert (EB : fst a + 1 * (fst b - fst a) = fst b) by ring. assert (FA : snd a + 0 * (snd b - snd a) = snd a) by ring. assert (FB : snd a + 1 * (snd b - snd a) = snd b) by ring.
  assert (BE : forall (p q : bool), (p = true <-> q = true) -> p = q) by (intros p q [H1 H2]; destruct p, q; auto; symmetry; auto).
  assert (LT : forall u v, Rltb u v = true <-> u < v) by (intros; apply Rltb_true).
  destruct (Rltb_spec y (snd a)) as [A1|A1], (Rleb_spec (snd a) y') as [A2|A2]; try lra; destruct (Rltb_spec y (snd b)) as [B1|B1], (Rleb_spec (snd b) y') as [B2|B2]; try lra; cbn [andb].
  - (* both in the strip *) rewrite (pip_no x y), (pip_no x y') by lra. cbn [xorb]. rewrite (BE (Rltb x (fst a)) (Rltb x (fst b))); [rewrite xorb_nilpotent; reflexivity|]. rewrite !LT. pose proof (side_iff a b 0 1 A ltac:(lra) ltac:(lra) ltac:(lra) ltac:(lra)) as K. rewrite EA, EB in K. exact K.
  - (* a in the strip, b above *) rewrite (pip_no x y) by lra. destruct (pip_at x y' a b ltac:(lra)) as (t & T & E & P). rewrite xorb_false_r, xorb_false_l. apply BE. rewrite P, LT. pose proof (side_iff a b t 0 A ltac:(lra) ltac:(lra) ltac:(lra) ltac:(lra)) as K. rewrite EA in K. exact K.
  - (* b below *) rewrite (pip_no x y') by lra. destruct (pip_at x y a b ltac:(lra)) as (t & T & E & P). rewrite !xorb_false_r. apply BE. rewrite P, LT. pose proof (side_iff a b t 0 A ltac:(lra) ltac:(lra) ltac:(lra) ltac:(lra)) as K. rewrite EA in K. exact K.
  - (* a above, b in the strip *) rewrite (pip_no x y) by lra. destruct (pip_at x y' a b ltac:(lra)) as (t & T & E & P). rewrite !xorb_false_l. apply BE. rewrite P, LT. pose proof (side_iff a b t 1 A ltac:(lra) ltac:(lra) ltac:(lra) ltac:(lra)) as K. rewrite EB in K. exact K.
  - rewrite (pip_no x y), (pip_no x y') by lra. reflexivity.
  - destruct (pip_at x y a b ltac:(lra)) as (t & T & E & P). destruct (pip_at x y' a b ltac:(lra)) as (s & S & E' & P'). rewrite (BE (pip_edge (x, y) a b) (pip_edge (x, y') a b)); [apply xorb_nilpotent|]. rewrite P, P'. apply (side_iff a b t s A); lra.
  - (* a below *) rewrite (pip_no x y') by lra. destruct (pip_at x y a b ltac:(lra)) as (t & T & E & P). rewrite xorb_false_r, xorb_false_l. apply BE. rewrite P, LT. pose proof (side_iff a b t 1 A ltac:(lra) ltac:(lra) ltac:(lra) ltac:(lra)) as K. rewrite EB in K. exact K.
  - destruct (pip_at x y a b ltac:(lra)) as (t & T & E & P). destruct (pip_at x y' a b ltac:(lra)) as (s & S & E' & P'). rewrite (BE (pip_edge (x, y) a b) (pip_edge (x, y') a b)); [apply xorb_nilpotent|]. rewrite P, P'. apply (side_iff a b t s A); lra.
  - rewrite (pip_no x y), (pip_no x y') by lra. reflexivity.
Qed.
Lemma odd_cons p (e : rpt * rpt) l : Nat.odd (cnt p (e :: l)) = xorb (pip_edge p (fst e) (snd e)) (Nat.odd (cnt p l)).
Proof. rewrite cnt_cons. rewrite Nat.odd_add. destruct (pip_edge p (fst e) (snd e)); reflexivity. Qed.
Lemma path_move l : forall (a : rpt), (forall e, In e (edges (a :: l)) -> avoids (fst e) (snd e)) ->
  xorb (Nat.odd (cnt (x, y) (edges (a :: l)))) (Nat.odd (cnt (x, y') (edges (a :: l)))) = xorb (strip a) (strip (last (a :: l) a)).
Proof.
  induction l as [|b l IH]; intros a H; [cbn; symmetry; apply xorb_nilpotent|].
  change (edges (a :: b :: l)) with ((a, b) :: edges (b :: l)) in *. rewrite !odd_cons. specialize (IH b (fun e He => H e (or_intror He))). pose proof (edge_move a b (H (a, b) (or_introl eq_refl))) as E. cbn [fst snd] in *.
  change (last (a :: b :: l) a) with (last (b :: l) a). rewrite (last_def l b a b). destruct (pip_edge (x, y) a b), (pip_edge (x, y') a b), (Nat.odd (cnt (x, y) (edges (b :: l)))), (Nat.odd (cnt (x, y') (edges (b :: l)))), (strip a), (strip b), (strip (last (b :: l) b)); cbn [xorb] in *; congruence.
Qed.
Lemma odd_app p l l' : Nat.odd (cnt p (l ++ l')) = xorb (Nat.odd (cnt p l)) (Nat.odd (cnt p l')).
Proof. rewrite cnt_app. apply Nat.odd_add. Qed.
Lemma rings_move rings : (forall e, In e (all_edges rings) -> avoids (fst e) (snd e)) -> (inside rings (x, y) <-> inside rings (x, y')).
Proof.
  intros H. rewrite !inside_iff. replace (Nat.odd (cnt (x, y') (all_edges rings))) with (Nat.odd (cnt (x, y) (all_edges rings))); [tauto|].
  induction rings as [|r rs IH]; [reflexivity|]. unfold all_edges in *. cbn [flat_map] in *. rewrite !odd_app. rewrite IH by (intros; apply H, in_or_app; auto). f_equal.
  destruct r as [|f l]; [reflexivity|]. cbn [ring_edges] in *. change ((f :: l) ++ [f]) with (f :: (l ++ [f])) in *. assert (K := path_move (l ++ [f]) f (fun e He => H e (in_or_app _ _ _ (or_introl He)))). assert (LL : last (f :: (l ++ [f])) f = f) by (change (f :: (l ++ [f])) with ((f :: l) ++ [f]); apply last_last). rewrite LL, xorb_nilpotent in K. apply Bool.xorb_eq in K. exact K.
Qed.
End Move.

(** Two points one above the other, no edge meeting the segment between them *)
Lemma inside_move rings (p q : rpt) : fst p = fst q -> (forall e r, In e (all_edges rings) -> seg (fst e) (snd e) r -> fst r = fst p -> ~ (Rmin (snd p) (snd q) <= snd r <= Rmax (snd p) (snd q))) ->
  (inside rings p <-> inside rings q).
Proof.
  destruct p as [x y], q as [x' y']. cbn [fst snd]. intros <- H. destruct (Rle_dec y y') as [L|L].
  - apply rings_move; auto. intros e He r Hr [E1 E2]. apply (H e r He Hr E1). rewrite Rmin_left, Rmax_right by lra. auto.
  - symmetry. apply rings_move; [lra|]. intros e He r Hr [E1 E2]. apply (H e r He Hr E1). rewrite Rmin_right, Rmax_left by lra. auto.
Qed.
