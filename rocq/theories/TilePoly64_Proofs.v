(** Lemmas for C148: even-odd membership in rings whose vertices move, repeat, or run the other way. *)
From Coq Require Import ZArith List Lia Bool Reals Lra.
From Flocq Require Import Core BinarySingleNaN.
From Verif Require Import GoBase Num MvtGeom_Model Tileid_Model TileR_Model TileR_Proofs F64 Clip_Model Clip_Spec Clip_Proofs ClipRing_Proofs Clip_Props Clip64_Proofs Clip64_Props Parity_Proofs ClipPoly64_Props.
From Verif Require MvtGeo_Props.
Import ListNotations.
Open Scope R_scope.

(** ** Moved rings *)
Lemma near_moves p d : forall c c', Forall2 (within d) c c' -> (forall q, on_line c q -> ~ within d p q) -> moves p c c'.
Proof.
  induction c as [|a c IH]; intros c' HF HC; inversion HF as [|? a' ? r' W1 H1]; subst; [exact I|]. destruct c as [|b c]; inversion H1 as [|? b' ? r2 W2 H2]; subst; [exact I|]. split.
  - split; intros H.
    + destruct (hull_near1 d a b b' p W2 H) as (q & Hq & W). apply (HC q); [left; exact Hq|exact W].
    + destruct (hull_near2 d a b a' b' p W1 W2 H) as (q & Hq & W). apply (HC q); [left; exact Hq|exact W].
  - apply IH; [exact H1|]. intros q Hq. apply HC. right. exact Hq.
Qed.
Lemma moved_ring p d l l' : Forall2 (within d) l l' -> (forall q, on_ring l q -> ~ within d p q) -> parity p (ring_edges l) = parity p (ring_edges l').
Proof.
  intros HF HC. destruct HF as [|f f' l l' W H]; [reflexivity|]. apply (move_ring p _ _ f f'); [reflexivity|reflexivity|cbn [length]; f_equal; exact (F2_length _ _ _ H)|].
  apply (near_moves p d); [|exact HC]. apply Forall2_app; [constructor; assumption|constructor; [exact W|constructor]].
Qed.
Lemma ring_within d l l' q : Forall2 (within d) l l' -> on_ring l q -> exists q', on_ring l' q' /\ within d q q'.
Proof. intros HF. destruct HF as [|f f' l l' W H]; [intros []|]. apply on_line_within. apply Forall2_app; [constructor; assumption|constructor; [exact W|constructor]]. Qed.

(** ** Repeated vertices *)
Section Squeezed.
Context {A : Type} (f : A -> rpt).
Lemma sq_head (l l' : list A) : MvtGeo_Props.squeezed l l' -> match l, l' with [], [] => True | p :: _, q :: _ => p = q | _, _ => False end.
Proof. induction 1; auto. Qed.
Lemma sq_parity x p l l' : MvtGeo_Props.squeezed l l' -> parity p (edges (map f l ++ [x])) = parity p (edges (map f l' ++ [x])).
Proof.
  induction 1 as [|a|a l l' H IH|a b l l' Hn H IH]; try reflexivity.
  - rewrite <- IH. cbn [map app edges parity fold_right fst snd]. rewrite crosses_refl. apply xorb_false_l.
  - pose proof (sq_head _ _ H) as Hh. destruct l' as [|b' l']; [destruct Hh|]. subst b'. cbn [map app edges parity fold_right fst snd] in *. f_equal. exact IH.
Qed.
Lemma sq_ring p l l' : MvtGeo_Props.squeezed l l' -> parity p (ring_edges (map f l)) = parity p (ring_edges (map f l')).
Proof. intros H. pose proof (sq_head _ _ H) as Hh. destruct l as [|a l], l' as [|a' l']; try destruct Hh; [reflexivity|]. exact (sq_parity (f a) p _ _ H). Qed.
Lemma sq_on x q l l' : MvtGeo_Props.squeezed l l' -> on_line (map f l' ++ [x]) q -> on_line (map f l ++ [x]) q.
Proof.
  induction 1 as [|a|a l l' H IH|a b l l' Hn H IH]; auto; intros K.
  - specialize (IH K). cbn [map app] in *. right. exact IH.
  - pose proof (sq_head _ _ H) as Hh. destruct l' as [|b' l']; [destruct Hh|]. subst b'. cbn [map app] in *. destruct K as [K|K]; [left; exact K|right; apply IH, K].
Qed.
Lemma sq_on_ring q l l' : MvtGeo_Props.squeezed l l' -> on_ring (map f l') q -> on_ring (map f l) q.
Proof. intros H. pose proof (sq_head _ _ H) as Hh. destruct l as [|a l], l' as [|a' l']; try destruct Hh; [auto|]. exact (sq_on (f a) q _ _ H). Qed.
End Squeezed.

(** ** The other way around *)
Lemma parity_app p a b : parity p (a ++ b) = xorb (parity p a) (parity p b).
Proof. induction a as [|e a IH]; [symmetry; apply xorb_false_l|]. change (xorb (crosses p (fst e) (snd e)) (parity p (a ++ b)) = xorb (xorb (crosses p (fst e) (snd e)) (parity p a)) (parity p b)). rewrite IH, xorb_assoc. reflexivity. Qed.
Lemma edges_two l : forall a b : rpt, edges (l ++ [a; b]) = edges (l ++ [a]) ++ [(a, b)].
Proof. induction l as [|x l IH]; intros a b; [reflexivity|]. destruct l as [|y l]; [reflexivity|]. cbn [app edges] in *. f_equal. apply IH. Qed.
Lemma chain_rev p l : parity p (edges (rev l)) = parity p (edges l).
Proof.
  induction l as [|a l IH]; [reflexivity|]. destruct l as [|b l]; [reflexivity|]. cbn [rev] in *. rewrite <- app_assoc. cbn [app]. rewrite edges_two, parity_app, IH.
  cbn [edges parity fold_right fst snd]. rewrite xorb_false_r, (crosses_sym p b a), xorb_comm. reflexivity.
Qed.
Lemma ring_rev p l : parity p (ring_edges (rev l)) = parity p (ring_edges l).
Proof.
  destruct l as [|f r]; [reflexivity|]. destruct (exists_last (l := f :: r) ltac:(discriminate)) as (k & z & E).
  assert (A : forall x : rpt, parity p (edges (k ++ [z; x])) = xorb (parity p (edges (k ++ [z]))) (crosses p z x)) by (intros x; rewrite edges_two, parity_app; cbn [parity fold_right fst snd]; rewrite xorb_false_r; reflexivity).
  assert (B : parity p (ring_edges (f :: r)) = xorb (parity p (edges (f :: r))) (crosses p z f)) by (cbn [ring_edges]; rewrite E, <- app_assoc; cbn [app]; apply A).
  rewrite B. assert (C : hd_error (rev (f :: r)) = Some z) by (rewrite E, rev_app_distr; reflexivity). rewrite (ring_edges_hd _ z C). cbn [rev]. rewrite <- app_assoc. cbn [app]. rewrite edges_two, parity_app.
  change (rev r ++ [f]) with (rev (f :: r)). rewrite chain_rev. cbn [parity fold_right fst snd]. rewrite xorb_false_r, (crosses_sym p f z). reflexivity.
Qed.

(** ** The first vertex repeated at the end *)
Lemma closed_on (l : list rpt) f q : hd_error l = Some f -> on_ring (l ++ [f]) q -> on_ring l q.
Proof.
  destruct l as [|h r]; [discriminate|]. intros E. injection E as ->. cbn [on_ring app]. rewrite <- app_assoc. cbn [app]. change (f :: r ++ [f; f]) with ((f :: r) ++ f :: [f]). rewrite on_line_app. intros [H|H]; auto.
  change (f :: r ++ [f]) with ((f :: r) ++ [f]). assert (q = f). { cbn [on_line] in H. destruct H as [H|H]; auto. apply seg_refl in H. auto. } subst q. apply on_line_vertex. apply in_app_iff. right. left. auto.
Qed.
