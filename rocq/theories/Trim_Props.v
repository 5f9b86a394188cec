(** Closing rings in the memory of the caller (C115). *)
From Coq Require Import ZArith List Lia Bool Arith.
From Verif Require Import GoBase GoArr MvtGeom_Model Trim_Model.
Import ListNotations.
Open Scope nat_scope.

(** A slice lies in its array *)
Definition valid {P} (h : list (list P)) (s : slice) : Prop := sArr s < length h /\ sOff s + sCap s <= length (nth (sArr s) h []) /\ sLen s <= sCap s.
(** Two slices that cannot be extended into each other *)
Definition apart (s t : slice) : Prop := sArr s <> sArr t \/ sOff s + sCap s <= sOff t \/ sOff t + sCap t <= sOff s.
Definition separate (rings : list slice) : Prop := ForallOrdPairs apart rings.
(** [t] has no point in the room behind [s] *)
Definition clear_of (t s : slice) : Prop := sArr t <> sArr s \/ sOff t + sLen t <= sOff s + sLen s \/ sOff s + sCap s <= sOff t.

Lemma apart_clear s t : apart s t -> sLen t <= sCap t -> sLen s <= sCap s -> clear_of t s.
Proof. unfold apart, clear_of. intros [H|[H|H]] K K'; [left; congruence|right; right; lia|right; left; lia]. Qed.
Lemma apart_sym s t : apart s t -> apart t s.
Proof. unfold apart. intros [H|[H|H]]; auto. Qed.

Section Closing.
Context {P : Type} (peq : P -> P -> bool) (grow : nat -> nat) (zero : P).
(** [c] is the ring [r] with its first point at the end *)
Definition closed_of (r c : list P) : Prop :=
  exists f, nth_error r 0 = Some f /\ ((peq f (last r f) = true /\ c = r) \/ (peq f (last r f) = false /\ c = r ++ [f])).
Notation heap := (@Trim_Model.heap P).

Lemma firstn_upd_ge (l : list P) : forall i n p, n <= i -> firstn n (upd l i p) = firstn n l.
Proof. induction l as [|a l IH]; intros [|i] [|n] p H; cbn [upd firstn]; try lia; auto. rewrite IH by lia. reflexivity. Qed.
Lemma skipn_upd_lt (l : list P) : forall i n p, i < n -> skipn n (upd l i p) = skipn n l.
Proof. induction l as [|a l IH]; intros [|i] [|n] p H; cbn [upd skipn]; try lia; auto; try (rewrite IH by lia; reflexivity); destruct n, i; reflexivity. Qed.
Lemma skipn_upd_ge (l : list P) : forall i n p, n <= i -> skipn n (upd l i p) = upd (skipn n l) (i - n) p.
Proof. induction l as [|a l IH]; intros [|i] [|n] p H; cbn [upd skipn]; try lia; auto; try (rewrite IH by lia; reflexivity); destruct n, i; reflexivity. Qed.
Lemma firstn_upd_here (l : list P) : forall n p, n < length l -> firstn (S n) (upd l n p) = firstn n l ++ [p].
Proof. induction l as [|a l IH]; intros [|n] p H; cbn [upd length] in *; try lia; [reflexivity|]. cbn [app]. change (firstn (S (S n)) (a :: upd l n p)) with (a :: firstn (S n) (upd l n p)). rewrite IH by lia. reflexivity. Qed.
Lemma nth_upd_same {A} (l : list A) : forall i x d, i < length l -> nth i (upd l i x) d = x.
Proof. intros. rewrite nth_upd by auto. rewrite Nat.eqb_refl. reflexivity. Qed.
Lemma nth_upd_other {A} (l : list A) : forall i j x d, i <> j -> nth j (upd l i x) d = nth j l d.
Proof. induction l as [|a l IH]; intros [|i] [|j] x d H; cbn; try lia; auto. Qed.
Lemma contents_len (h : heap) s : valid h s -> length (contents h s) = sLen s.
Proof. intros (_ & H & K). unfold contents. rewrite firstn_length, skipn_length. lia. Qed.

(** append *)
Lemma append1_spec (h : heap) s p : valid h s -> let '(h1, s1) := append1 grow zero h s p in
  contents h1 s1 = contents h s ++ [p] /\ valid h1 s1 /\ length h <= length h1 /\
  (forall t, valid h t -> valid h1 t) /\ (forall t, valid h t -> clear_of t s -> contents h1 t = contents h t) /\
  (forall t, sArr t < length h -> apart s t -> apart s1 t).
Proof.
  intros (V1 & V2 & V3). unfold append1. destruct (Nat.ltb_spec (sLen s) (sCap s)) as [L|L].
  - assert (Len : forall t, length (nth (sArr t) (upd h (sArr s) (upd (nth (sArr s) h []) (sOff s + sLen s) p)) []) = length (nth (sArr t) h [])).
    { intros t. destruct (Nat.eq_dec (sArr s) (sArr t)) as [E|E]; [rewrite <- E, nth_upd_same by auto; apply upd_length|rewrite nth_upd_other by auto; reflexivity]. }
    split; [|split; [|split; [|split; [|split]]]].
    + unfold contents. cbn [sArr sOff sLen]. rewrite nth_upd_same by auto. rewrite skipn_upd_ge by lia. replace (sOff s + sLen s - sOff s) with (sLen s) by lia. apply firstn_upd_here. rewrite skipn_length. lia.
    + split; cbn [sArr sOff sLen sCap]; [rewrite upd_length; auto|]. rewrite (Len s). lia.
    + rewrite upd_length. lia.
    + intros t (T1 & T2 & T3). split; [rewrite upd_length; auto|]. rewrite Len. auto.
    + intros t (T1 & T2 & T3) C. unfold contents. destruct (Nat.eq_dec (sArr s) (sArr t)) as [E|E]; [|rewrite nth_upd_other by auto; reflexivity]. rewrite <- E, nth_upd_same by auto.
      destruct C as [C|[C|C]]; [congruence| |].
      * destruct (Nat.le_gt_cases (sOff t) (sOff s + sLen s)); [rewrite skipn_upd_ge by auto; apply firstn_upd_ge; lia|rewrite skipn_upd_lt by auto; reflexivity].
      * rewrite skipn_upd_lt by lia. reflexivity.
    + intros t _ H. exact H.
  - split; [|split; [|split; [|split; [|split]]]].
    + unfold contents at 1. cbn [sArr sOff sLen]. rewrite app_nth2, Nat.sub_diag by lia. cbn [nth skipn]. change (p :: repeat zero (grow (S (sLen s)))) with ([p] ++ repeat zero (grow (S (sLen s)))). rewrite app_assoc.
      assert (K : length (contents h s ++ [p]) = S (sLen s)) by (rewrite app_length, contents_len by (split; auto); cbn; lia). rewrite <- K at 1. rewrite firstn_app, Nat.sub_diag, firstn_all. cbn [firstn]. apply app_nil_r.
    + split; cbn [sArr sOff sLen sCap]; [rewrite app_length; cbn; lia|]. rewrite app_nth2, Nat.sub_diag by lia. cbn [nth]. rewrite app_length, contents_len by (split; auto). cbn [length]. rewrite repeat_length. lia.
    + rewrite app_length. lia.
    + intros t (T1 & T2 & T3). split; [rewrite app_length; lia|]. rewrite app_nth1 by auto. auto.
    + intros t (T1 & T2 & T3) _. unfold contents. rewrite app_nth1 by auto. reflexivity.
    + intros t T _. left. cbn [sArr]. lia.
Qed.

(** One ring *)
Notation trim1 := (close_slice peq grow zero).
Lemma trim1_spec h s f r : valid h s -> contents h s = f :: r -> let '(h1, s1) := trim1 h s f r in
  closed_of (contents h s) (contents h1 s1) /\ valid h1 s1 /\ length h <= length h1 /\
  (forall t, valid h t -> valid h1 t) /\ (forall t, valid h t -> clear_of t s -> contents h1 t = contents h t) /\
  (forall t, sArr t < length h -> apart s t -> apart s1 t).
Proof.
  intros V E. unfold close_slice. destruct (peq f (last (f :: r) f)) eqn:Q.
  - split; [exists f; rewrite E; split; [reflexivity|left; auto]|]. auto.
  - pose proof (append1_spec h s f V) as A. destruct (append1 grow zero h s f) as [h1 s1]. destruct A as (A1 & A2). split; [|exact A2]. exists f. rewrite A1, E. split; [reflexivity|right; auto].
Qed.
(** Rings that are apart are closed, and nothing changes but the room behind them. *)
Lemma trim_spec rings : forall h, Forall (valid h) rings -> separate rings -> Forall (fun s => sLen s <> 0) rings ->
  exists h' rings', TrimPolygon peq grow zero h rings = Ok (h', rings') /\ Forall2 (fun s s' => closed_of (contents h s) (contents h' s')) rings rings' /\
    Forall (valid h') rings' /\ separate rings' /\ length h <= length h' /\ (forall t, valid h t -> valid h' t) /\
    (forall t, valid h t -> Forall (clear_of t) rings -> contents h' t = contents h t) /\
    (forall t, sArr t < length h -> Forall (fun s => apart s t) rings -> Forall (fun s => apart s t) rings').
Proof.
  induction rings as [|s rings IH]; intros h V S N.
  - exists h, []. cbn [TrimPolygon]. split; [reflexivity|]. split; [constructor|]. split; [constructor|]. split; [constructor|]. auto.
  - inversion V as [|? ? V1 V2]; subst. inversion S as [|? ? S1 S2]; subst. inversion N as [|? ? N1 N2]; subst. cbn [TrimPolygon].
    destruct (contents h s) as [|f r] eqn:E. { pose proof (contents_len h s V1) as L. rewrite E in L. cbn in L. lia. }
    pose proof (trim1_spec h s f r V1 E) as A.  destruct (trim1 h s f r) as [h1 s1]. destruct A as (A1 & A2 & A3 & A4 & A5 & A6).
    assert (V2' : Forall (valid h1) rings) by (eapply Forall_impl; [|exact V2]; auto).
    destruct (IH h1 V2' S2 N2) as (h' & rings' & B1 & B2 & B3 & B4 & B5 & B6 & B7 & B8). rewrite B1. cbn [bind]. exists h', (s1 :: rings'). split; [reflexivity|].
    assert (Ap : Forall (fun t => apart t s1) rings).
    { rewrite Forall_forall in *. intros t Ht. apply apart_sym. apply A6; [apply V2, Ht|auto]. }
    assert (K1 : contents h' s1 = contents h1 s1).
    { apply B7; [exact A2|]. rewrite Forall_forall in *. intros t Ht. apply apart_clear; [apply Ap, Ht|apply A2|]. apply V2'. exact Ht. }
    split; [|split; [|split; [|split; [|split; [|split]]]]].
    + constructor; [rewrite K1, E in *; exact A1|]. clear - peq grow zero B2 V2 S1 A5 V1. revert B2. generalize rings'. induction rings as [|t rings IH]; intros rs B; inversion B as [|? t' ? rs' C1 C2]; subst; constructor.
      * inversion V2; subst. inversion S1; subst. rewrite (A5 t) in C1; auto. apply apart_clear; auto; [apply H1|apply V1].
      * apply IH; auto; [inversion V2; auto|inversion S1; auto].
    + constructor; [apply B6, A2|exact B3].
    + constructor; [|exact B4]. assert (G := B8 s1 (proj1 A2) Ap). eapply Forall_impl; [|exact G]. intros t Ht. apply apart_sym, Ht.
    + lia.
    + intros t T. apply B6, A4, T.
    + intros t T C. inversion C; subst. rewrite B7; auto.
    + intros t T C. inversion C; subst. constructor; [auto|]. apply B8; [lia|auto].
Qed.
Theorem C115_closed : forall h rings, Forall (valid h) rings -> separate rings -> Forall (fun s => sLen s <> 0) rings ->
  exists h' rings', TrimPolygon peq grow zero h rings = Ok (h', rings') /\ Forall (valid h') rings' /\ separate rings' /\
    Forall2 (fun s s' => closed_of (contents h s) (contents h' s')) rings rings' /\
    (forall t, valid h t -> Forall (clear_of t) rings -> contents h' t = contents h t) /\
    (forall s, In s rings -> contents h' s = contents h s).
Proof.
  intros h rings V S N. destruct (trim_spec rings h V S N) as (h' & rings' & A & B & C & D & _ & _ & F & _). exists h', rings'. repeat (split; auto).
  intros s Hs. rewrite Forall_forall in V. apply F; [apply V, Hs|]. clear - peq grow zero S Hs V. apply Forall_forall. intros t Ht. destruct (In_nth_error _ _ Hs) as (i & Hi). destruct (In_nth_error _ _ Ht) as (j & Hj).
  destruct (Nat.eq_dec i j) as [E|E]; [subst; rewrite Hi in Hj; injection Hj as ->; right; left; lia|].
  destruct (ForallOrdPairs_In S s t Hs Ht) as [->|[A|A]]; [right; left; lia| |]; (apply apart_clear; [|apply V; auto|apply V; auto]); auto using apart_sym.
Qed.
Print Assumptions C115_closed.

(** It panics exactly on an empty ring, whatever the rings share. *)
Theorem C115_panic : forall rings h, Forall (valid h) rings ->
  (TrimPolygon peq grow zero h rings = Panic <-> Exists (fun s => sLen s = 0) rings) /\ TrimPolygon peq grow zero h rings <> NoFuel.
Proof.
  induction rings as [|s rings IH]; intros h V.
  - cbn [TrimPolygon]. split; [split; [discriminate|intros H; inversion H]|discriminate].
  - inversion V as [|? ? V1 V2]; subst. cbn [TrimPolygon]. pose proof (contents_len h s V1) as L. destruct (contents h s) as [|f r] eqn:E.
    { split; [|discriminate]. split; [intros _; left; symmetry; exact L|reflexivity]. }
    pose proof (trim1_spec h s f r V1 E) as A.  destruct (trim1 h s f r) as [h1 s1]. destruct A as (_ & _ & _ & A4 & _).
    assert (V2' : Forall (valid h1) rings) by (eapply Forall_impl; [|exact V2]; auto). destruct (IH h1 V2') as [I1 I2].
    destruct (TrimPolygon peq grow zero h1 rings) as [[h2 rs]| |]; cbn [bind]; split; try discriminate; try congruence.
    + split; [discriminate|]. intros H. inversion H as [? ? X|? ? X]; subst; [cbn in L; lia|]. apply I1 in X. discriminate.
    + split; [intros _; right; apply I1; reflexivity|reflexivity].
Qed.
Print Assumptions C115_panic.

(** Closing a second time changes nothing, when first points equal themselves. *)
Lemma closed_twice r c : (forall p, In p r -> peq p p = true) -> closed_of r c -> exists f c', c = f :: c' /\ peq f (last (f :: c') f) = true.
Proof.
  intros Hr (f & H & [[Q ->]|[Q ->]]); destruct r as [|g r]; try discriminate; cbn [nth_error] in H; injection H as ->.
  - eauto.
  - exists f, (r ++ [f]). split; [reflexivity|]. change (f :: r ++ [f]) with ((f :: r) ++ [f]). rewrite last_last. apply Hr. left. reflexivity.
Qed.
Theorem C115_twice : (forall p, peq p p = true) -> forall h rings h' rings', Forall (valid h) rings -> separate rings ->
  TrimPolygon peq grow zero h rings = Ok (h', rings') -> TrimPolygon peq grow zero h' rings' = Ok (h', rings').
Proof.
  intros R h rings h' rings' V S E. assert (N : Forall (fun s => sLen s <> 0) rings).
  { apply Forall_forall. intros s Hs Z. destruct (C115_panic rings h V) as [[_ Q] _]. rewrite E in Q. discriminate Q. apply Exists_exists. eauto. }
  destruct (C115_closed h rings V S N) as (h0 & rs & A & _ & _ & B & _). rewrite E in A. injection A as <- <-. clear - peq grow zero B R. induction B as [|s s' rings rings' H _ IH]; [reflexivity|]. cbn [TrimPolygon].
  destruct (closed_twice _ _ (fun p _ => R p) H) as (f & c' & -> & Q). unfold close_slice. rewrite Q, IH. reflexivity.
Qed.
Print Assumptions C115_twice.
(** A ring whose first point does not equal itself (NaN) is extended every time. *)
Theorem C115_nan_refuted : forall h s f r, valid h s -> contents h s = f :: r -> peq f (last (f :: r) f) = false -> peq f f = false ->
  exists h1 s1 h2 s2, TrimPolygon peq grow zero h [s] = Ok (h1, [s1]) /\ TrimPolygon peq grow zero h1 [s1] = Ok (h2, [s2]) /\ contents h2 s2 = contents h s ++ [f; f].
Proof.
  intros h s f r V E Q N. cbn [TrimPolygon]. rewrite E. unfold close_slice. rewrite Q. pose proof (append1_spec h s f V) as A. destruct (append1 grow zero h s f) as [h1 s1]. destruct A as (A1 & A2 & _). cbn [bind].
  exists h1, s1. rewrite A1, E. cbn [app]. change (f :: r ++ [f]) with ((f :: r) ++ [f]). unfold close_slice. rewrite last_last, N. pose proof (append1_spec h1 s1 f A2) as B. destruct (append1 grow zero h1 s1 f) as [h2 s2]. destruct B as (B1 & _). cbn [bind].
  exists h2, s2. split; [reflexivity|]. split; [reflexivity|]. rewrite B1, A1, E. cbn [app]. rewrite <- app_assoc. reflexivity.
Qed.
Print Assumptions C115_nan_refuted.

(** An open ring that is directly followed by another one in the same array, with room, takes the first point of the other. *)
Theorem C115_adjacent_refuted : forall h s t f r g q, valid h s -> valid h t -> sArr s = sArr t -> sOff t = sOff s + sLen s -> sLen s < sCap s ->
  contents h s = f :: r -> contents h t = g :: q -> peq f (last (f :: r) f) = false -> sLen t <> 0 ->
  exists h' s' t', TrimPolygon peq grow zero h [s; t] = Ok (h', [s'; t']) /\ closed_of (f :: q) (contents h' t').
Proof.
  intros h s t f r g q V T Ea Eo L Es Et Q N. cbn [TrimPolygon]. rewrite Es. unfold close_slice at 1. rewrite Q. unfold append1 at 1. destruct (Nat.ltb_spec (sLen s) (sCap s)); [|lia].
  set (h1 := upd h (sArr s) (upd (nth (sArr s) h []) (sOff s + sLen s) f)).
  assert (V1 : valid h1 t). { destruct T as (T1 & T2 & T3). split; [unfold h1; rewrite upd_length; auto|]. split; [|exact T3]. unfold h1. rewrite <- Ea, nth_upd_same by (apply V). rewrite upd_length, Ea. exact T2. }
  assert (C : contents h1 t = f :: q).
  { unfold contents in *. unfold h1. rewrite <- Ea, nth_upd_same by (apply V). rewrite Eo in *. rewrite skipn_upd_ge, Nat.sub_diag by lia. rewrite <- Ea in Et. destruct (skipn (sOff s + sLen s) (nth (sArr s) h [])) as [|a l]; [destruct (sLen t); discriminate|].
    destruct (sLen t); [congruence|]. cbn [upd firstn] in *. congruence. }
  rewrite C. pose proof (trim1_spec h1 t f q V1 C) as A.  destruct (trim1 h1 t f q) as [h2 t']. cbn [bind]. eexists. eexists. eexists. split; [reflexivity|]. rewrite <- C. apply A.
Qed.
Print Assumptions C115_adjacent_refuted.

(** An open ring without room moves to a new array, and has all of that as its capacity: the next append writes there. *)
Theorem C115_moved : forall h s f r, valid h s -> contents h s = f :: r -> peq f (last (f :: r) f) = false -> sLen s = sCap s ->
  exists a s', TrimPolygon peq grow zero h [s] = Ok (h ++ [a], [s']) /\ sArr s' = length h /\ sOff s' = 0 /\ sCap s' = length a /\ sCap s' = sLen s' + grow (sLen s').
Proof.
  intros h s f r V E Q L. cbn [TrimPolygon]. rewrite E. unfold close_slice. rewrite Q. unfold append1. destruct (Nat.ltb_spec (sLen s) (sCap s)); [lia|]. cbn [bind]. eexists. eexists. split; [reflexivity|]. cbn [sArr sOff sCap sLen].
  assert (LC : length (contents h s) = sLen s). { unfold contents. destruct V as (V1 & V2 & V3). rewrite firstn_length, skipn_length. lia. }
  rewrite app_length, LC. cbn [length]. rewrite repeat_length. lia.
Qed.
Print Assumptions C115_moved.

Definition cursor_after {A} (r : res (A * cursor)) : res cursor := match r with Ok (_, c) => Ok c | Panic => Panic | NoFuel => NoFuel end.
Lemma closed_ring r c : closed_of r c -> TrimRing peq r = Ok c.
Proof. intros (f & H & D). destruct r as [|g r]; [discriminate|]. cbn [nth_error] in H. injection H as ->. unfold TrimRing. destruct D as [[-> ->]|[-> ->]]; reflexivity. Qed.
Lemma map_closed h h' rings rings' : Forall2 (fun s s' => closed_of (contents h s) (contents h' s')) rings rings' -> map_res (TrimRing peq) (map (contents h) rings) = Ok (map (contents h') rings').
Proof. induction 1 as [|s s' rings rings' H _ IH]; [reflexivity|]. cbn [map map_res]. rewrite (closed_ring _ _ H). cbn [bind]. rewrite IH. reflexivity. Qed.
Lemma map_panic h rings : Forall (valid h) rings -> Exists (fun s => sLen s = 0) rings -> map_res (TrimRing peq) (map (contents h) rings) = Panic.
Proof.
  intros V H. induction H as [s rings H|s rings H IH]; inversion V as [|? ? V1 V2]; subst; cbn [map map_res].
  - assert (E : contents h s = []) by (pose proof (contents_len h s V1) as L; destruct (contents h s); [reflexivity|cbn in L; lia]). rewrite E. reflexivity.
  - rewrite (IH V2). destruct (contents h s) as [|f r]; [reflexivity|]. unfold TrimRing. destruct (peq f (last (f :: r) f)); reflexivity.
Qed.
Lemma written enc polys : forall h c, Forall (valid h) (concat polys) -> separate (concat polys) ->
  cursor_after (MakeMultiPolygonMem peq grow zero enc h c polys) = fold_res (fun c coords => let! trimmed := map_res (TrimRing peq) coords in enc c trimmed) (map (map (contents h)) polys) c.
Proof.
  induction polys as [|p polys IH]; intros h c V S; [reflexivity|]. cbn [concat] in *. apply Forall_app in V as [V1 V2].
  assert (S1 : separate p /\ separate (concat polys) /\ forall s t, In s p -> In t (concat polys) -> apart s t).
  { clear - peq grow zero S. induction p as [|s p IH]; [split; [constructor|split; [exact S|intros s t []]]|]. inversion S as [|? ? A B]; subst. apply Forall_app in A as [A1 A2]. destruct (IH B) as (I1 & I2 & I3).
    split; [constructor; auto|]. split; [exact I2|]. intros u t [<-|Hu] Ht; [rewrite Forall_forall in A2; auto|auto]. }
  destruct S1 as (S1 & S2 & S3). cbn [MakeMultiPolygonMem map]. cbn [fold_res]. unfold MakePolygonMem.
  destruct (Exists_dec (fun s => sLen s = 0) p (fun s => Nat.eq_dec (sLen s) 0)) as [X|X].
  { rewrite (proj2 (proj1 (C115_panic p h V1)) X), (map_panic h p V1 X). reflexivity. }
  assert (N : Forall (fun s => sLen s <> 0) p) by (apply Forall_forall; intros s Hs Z; apply X, Exists_exists; eauto).
  destruct (trim_spec p h V1 S1 N) as (h1 & p1 & A & B & C & D & _ & F & G & _). rewrite A. cbn [bind]. rewrite (map_closed _ _ _ _ B). cbn [bind].
  destruct (enc c (map (contents h1) p1)) as [c1| |]; cbn [bind]; try reflexivity.
  assert (M : map (map (contents h1)) polys = map (map (contents h)) polys).
  { apply map_ext_in. intros q Hq. apply map_ext_in. intros t Ht. assert (K : In t (concat polys)) by (apply in_concat; eauto). rewrite Forall_forall in V2. apply G; [apply V2, K|]. apply Forall_forall. intros s Hs. rewrite Forall_forall in V1. apply apart_clear; [apply S3; auto|apply V2, K|apply V1, Hs]. }
  rewrite <- M. rewrite <- (IH h1 c1); [|eapply Forall_impl; [|exact V2]; auto|exact S2].
  destruct (MakeMultiPolygonMem peq grow zero enc h1 c1 polys) as [[[h2 rest1] c2]| |]; reflexivity.
Qed.
(** TrimMultiPolygon: the same for several polygons *)
Theorem C115_multi : forall polys h, Forall (valid h) (concat polys) -> separate (concat polys) -> Forall (fun s => sLen s <> 0) (concat polys) ->
  exists h' polys', TrimMultiPolygon peq grow zero h polys = Ok (h', polys') /\ Forall2 (Forall2 (fun s s' => closed_of (contents h s) (contents h' s'))) polys polys'.
Proof.
  intros polys h V S N. enough (K : exists h' rings', TrimPolygon peq grow zero h (concat polys) = Ok (h', rings') /\ forall h1 rs, TrimPolygon peq grow zero h (concat polys) = Ok (h1, rs) -> exists polys', TrimMultiPolygon peq grow zero h polys = Ok (h1, polys') /\ concat polys' = rs /\ Forall2 (fun p p' => length p = length p') polys polys').
  { destruct K as (h' & rings' & K1 & K2). destruct (K2 _ _ K1) as (polys' & M1 & M2 & M3). exists h', polys'. split; [exact M1|]. destruct (C115_closed h (concat polys) V S N) as (h0 & rs & A & _ & _ & B & _). rewrite K1 in A. injection A as <- <-. rewrite <- M2 in B.
    clear - peq grow zero B M3. induction M3 as [|p p' polys polys' L _ IH]; [constructor|]. cbn [concat] in B. assert (G : Forall2 (fun s s' => closed_of (contents h s) (contents h' s')) p p' /\ Forall2 (fun s s' => closed_of (contents h s) (contents h' s')) (concat polys) (concat polys')).
    { clear IH. revert p' L B. induction p as [|a p IH]; intros [|b p'] L B; try discriminate; [split; [constructor|exact B]|]. cbn [app] in B. inversion B; subst. cbn [length] in L. injection L as L. destruct (IH p' L) as [I1 I2]; [assumption|]. split; [constructor; auto|exact I2]. }
    destruct G as [G1 G2]. constructor; auto. }
  destruct (C115_closed h (concat polys) V S N) as (h' & rings' & A & _). exists h', rings'. split; [exact A|]. clear - peq grow zero h polys.
  assert (App : forall a b h h1 rs, TrimPolygon peq grow zero h (a ++ b) = Ok (h1, rs) -> exists h0 ra rb, TrimPolygon peq grow zero h a = Ok (h0, ra) /\ TrimPolygon peq grow zero h0 b = Ok (h1, rb) /\ rs = ra ++ rb /\ length a = length ra).
  { induction a as [|s a IH]; intros b g h1 rs E; cbn [app TrimPolygon] in *; [exists g, [], rs; auto|]. destruct (contents g s) as [|f r]; [discriminate|]. destruct (trim1 g s f r) as [h2 s2].
    destruct (TrimPolygon peq grow zero h2 (a ++ b)) as [[h3 rs3]| |] eqn:E3; cbn [bind] in E; try discriminate. injection E as <- <-. destruct (IH b h2 h3 rs3 E3) as (h0 & ra & rb & I1 & I2 & -> & I4). rewrite I1. cbn [bind]. exists h0, (s2 :: ra), rb. cbn [length app]. auto. }
  revert h. induction polys as [|p polys IH]; intros h h1 rs E; cbn [concat TrimMultiPolygon] in *; [cbn in E; injection E as <- <-; exists []; auto|].
  destruct (App _ _ _ _ _ E) as (h0 & ra & rb & E1 & E2 & -> & L). rewrite E1. cbn [bind]. destruct (IH _ _ _ E2) as (polys' & I1 & I2 & I3). rewrite I1. cbn [bind]. exists (ra :: polys'). split; [reflexivity|]. cbn [concat]. rewrite I2. auto.
Qed.
Print Assumptions C115_multi.
End Closing.
(** What is written is what the encoders of MvtGeom_Model write for the points of the rings. *)
Theorem C115_written : forall grow,
  (forall P (peq : P -> P -> bool) zero proj polys h c, Forall (valid h) (concat polys) -> separate (concat polys) ->
     cursor_after (MakeMultiPolygonMem peq grow zero (encode_float proj) h c polys) = MakeMultiPolygonFloat proj peq c (map (map (contents h)) polys)) /\
  (forall zero polys h c, Forall (valid h) (concat polys) -> separate (concat polys) ->
     cursor_after (MakeMultiPolygonMem pt_eqb grow zero encode_int h c polys) = MakeMultiPolygon c (map (map (contents h)) polys)) /\
  (forall zero rings h c, Forall (valid h) rings -> separate rings ->
     cursor_after (MakePolygonMem pt_eqb grow zero encode_int h c rings) = MakePolygon c (map (contents h) rings)) /\
  (forall P (peq : P -> P -> bool) zero proj rings h c, Forall (valid h) rings -> separate rings ->
     cursor_after (MakePolygonMem peq grow zero (encode_float proj) h c rings) = MakePolygonFloat proj peq c (map (contents h) rings)).
Proof.
  intros grow.
  assert (One : forall P (peq : P -> P -> bool) zero enc rings h c, Forall (valid h) rings -> separate rings ->
     cursor_after (MakePolygonMem peq grow zero enc h c rings) = let! trimmed := map_res (TrimRing peq) (map (contents h) rings) in enc c trimmed).
  { intros P peq zero enc rings h c V S. pose proof (written peq grow zero enc [rings] h c) as W. cbn [concat] in W. rewrite app_nil_r in W. specialize (W V S). cbn [map fold_res MakeMultiPolygonMem] in W.
    destruct (MakePolygonMem peq grow zero enc h c rings) as [[[h1 p1] c1]| |]; cbn [bind cursor_after] in *; destruct (let! trimmed := map_res (TrimRing peq) (map (contents h) rings) in enc c trimmed) as [c2| |]; cbn [bind] in W; congruence. }
  split; [|split; [|split]]; intros.
  - exact (written peq grow zero (encode_float proj) polys h c H H0).
  - exact (written pt_eqb grow zero encode_int polys h c H H0).
  - exact (One _ pt_eqb zero encode_int rings h c H H0).
  - exact (One _ peq zero (encode_float proj) rings h c H H0).
Qed.
Print Assumptions C115_written.

(** Three open rings of three points: one with room, one without, and one cut from the array of the first. *)
Definition ex_heap : list (list (Z * Z)) := [[(0, 0); (4, 0); (4, 4); (9, 9); (8, 8); (8, 9)]; [(1, 1); (2, 1); (2, 2)]]%Z.
Definition ring_a := mkSlice 0 0 3 3.
Definition ring_b := mkSlice 1 0 3 3.
Definition ring_c := mkSlice 0 3 3 3.
(** What a[0:3] is without a capacity *)
Definition ring_a6 := mkSlice 0 0 3 6.
Example C115_nonvacuous :
  Forall (valid ex_heap) [ring_a; ring_b; ring_c] /\ separate [ring_a; ring_b; ring_c] /\ Forall (fun s => sLen s <> 0) [ring_a; ring_b; ring_c] /\
  match TrimPolygon pt_eqb (fun n => n) (0, 0)%Z ex_heap [ring_a; ring_b; ring_c] with
  | Ok (h, rs) => map (contents h) rs = [[(0, 0); (4, 0); (4, 4); (0, 0)]; [(1, 1); (2, 1); (2, 2); (1, 1)]; [(9, 9); (8, 8); (8, 9); (9, 9)]]%Z
  | _ => False
  end /\
  match TrimPolygon pt_eqb (fun n => n) (0, 0)%Z ex_heap [ring_a6; ring_c] with
  | Ok (h, rs) => map (contents h) rs = [[(0, 0); (4, 0); (4, 4); (0, 0)]; [(0, 0); (8, 8); (8, 9); (0, 0)]]%Z
  | _ => False
  end.
Proof.
  split; [repeat constructor|]. split; [|split; [repeat constructor; discriminate|split; vm_compute; reflexivity]].
  constructor; [|constructor; [|constructor; [constructor|constructor]]]; repeat constructor; unfold apart; cbn; lia.
Qed.
