(** How encoding/json decodes a document, as seen from the outside: which part of the document decides. *)
From Coq Require Import String ZArith Reals List Lia Lra Bool.
From Verif Require Import GoBase Num TileR_Model Raster_Model Json Style_Model Regex Color_Model StyleJson_Model.
Import ListNotations.
Open Scope Z_scope.

(** * Specification *)
(** Two names a JSON key may be written with *)
Definition same_key (name key : gstr) : Prop := fold_key name = fold_key key.
Definition field_of (fs : list (gstr * ty)) (k : gstr) : option (gstr * ty) := find (fun nt => keyeq (fst nt) k) fs.
(** Decoding a document [j] as a [t] means decoding the part of it at position [p] as a [t'] *)
Inductive reach : ty -> json -> list nat -> ty -> json -> Prop :=
| reach_here t j : reach t j [] t j
| reach_ptr t j p t' j' : j <> JNull -> reach t j p t' j' -> reach (TPtr t) j p t' j'
| reach_elem t l i x p t' j' : nth_error l i = Some x -> reach t x p t' j' -> reach (TSlice t) (JArr l) (i :: p) t' j'
| reach_item n t l i x p t' j' : (i < n)%nat -> nth_error l i = Some x -> reach t x p t' j' -> reach (TArray n t) (JArr l) (i :: p) t' j'
| reach_entry t l i k x p t' j' : nth_error l i = Some (k, x) -> reach t x p t' j' -> reach (TMap t) (JObj l) (i :: p) t' j'
| reach_field fs l i k x n t p t' j' : nth_error l i = Some (k, x) -> field_of fs k = Some (n, t) -> reach t x p t' j' ->
    reach (TStruct fs) (JObj l) (i :: p) t' j'.
(** Document order of positions *)
Inductive before : list nat -> list nat -> Prop :=
| before_nil i q : before [] (i :: q)
| before_hd i j p q : (i < j)%nat -> before (i :: p) (j :: q)
| before_tl i p q : before p q -> before (i :: p) (i :: q).
(** A value of the wrong kind for its type *)
Definition mismatch (t : ty) (j : json) : Prop :=
  j <> JNull /\
  match t with
  | TString => forall s, j <> JStr s
  | TFloat => forall r, j <> JNum r
  | TInt lo hi => forall n, lo <= n < hi -> j <> JNum (IZR n)
  | TIface => True
  | TSlice _ | TArray _ _ => forall l, j <> JArr l
  | TMap _ | TStruct _ => forall l, j <> JObj l
  | TPtr _ | TAny | TCustom _ => False
  end.

(** * Proofs *)
Section TyInd.
  Variable P : ty -> Prop.
  Hypothesis HS : P TString. Hypothesis HF : P TFloat. Hypothesis HI : forall lo hi, P (TInt lo hi). Hypothesis HA : P TAny. Hypothesis HIf : P TIface.
  Hypothesis HP : forall t, P t -> P (TPtr t). Hypothesis HSl : forall t, P t -> P (TSlice t). Hypothesis HM : forall t, P t -> P (TMap t).
  Hypothesis HSt : forall fs, Forall (fun nt => P (snd nt)) fs -> P (TStruct fs). Hypothesis HC : forall c, P (TCustom c).
  Hypothesis HAr : forall n t, P t -> P (TArray n t).
  Fixpoint ty_ind' (t : ty) : P t :=
    match t with
    | TString => HS | TFloat => HF | TInt lo hi => HI lo hi | TAny => HA | TIface => HIf
    | TPtr t => HP t (ty_ind' t) | TSlice t => HSl t (ty_ind' t) | TMap t => HM t (ty_ind' t)
    | TStruct fs => HSt fs ((fix go fs : Forall (fun nt => P (snd nt)) fs :=
        match fs with [] => Forall_nil _ | nt :: fs' => Forall_cons nt (ty_ind' (snd nt)) (go fs') end) fs)
    | TCustom c => HC c | TArray n t => HAr n t (ty_ind' t)
    end.
End TyInd.

Lemma keyeq_spec n k : keyeq n k = true <-> same_key n k.
Proof. unfold keyeq, same_key. destruct (seqb_spec (fold_key n) (fold_key k)); intuition congruence. Qed.

Lemma before_total p : forall q, before p q \/ p = q \/ before q p.
Proof.
  induction p as [|i p IH]; intros [|j q]; [auto|left; constructor|right; right; constructor|].
  destruct (Nat.lt_total i j) as [|[<-|]]; [left; constructor; auto| |right; right; constructor; auto].
  destruct (IH q) as [|[<-|]]; [left|right; left|right; right]; try reflexivity; apply before_tl; auto.
Qed.
Lemma before_inv p i q : before p (i :: q) -> p = [] \/ exists j r, p = j :: r /\ ((j < i)%nat \/ (j = i /\ before r q)).
Proof. intros H. inversion H; subst; [auto|right; eauto 6|right; eauto 6]. Qed.

Lemma reach_custom_det t : forall j p c x c' x', reach t j p (TCustom c) x -> reach t j p (TCustom c') x' -> c = c' /\ x = x'.
Proof.
  induction t as [| |lo hi| | |t IH|t IH|t IH|fs IH|c0|n0 t IH] using ty_ind'; intros j p c x c' x' H1 H2;
    inversion H1; subst; inversion H2; subst; auto.
  - eauto.
  - match goal with A : nth_error ?l ?i = Some ?a, B : nth_error ?l ?i = Some ?b |- _ => rewrite A in B; inversion B; subst end. eauto.
  - match goal with A : nth_error ?l ?i = Some ?a, B : nth_error ?l ?i = Some ?b |- _ => rewrite A in B; inversion B; subst end. eauto.
  - match goal with A : nth_error ?l ?i = Some ?a, B : nth_error ?l ?i = Some ?b |- _ => rewrite A in B; inversion B; subst end.
    match goal with A : field_of ?l ?i = Some ?a, B : field_of ?l ?i = Some ?b |- _ => rewrite A in B; inversion B; subst; rename A into Hf end.
    apply find_some in Hf. rewrite Forall_forall in IH. eapply (IH _ (proj1 Hf)); cbn; eauto.
  - match goal with A : nth_error ?l ?i = Some ?a, B : nth_error ?l ?i = Some ?b |- _ => rewrite A in B; inversion B; subst end. eauto.
Qed.

(** Sequencing *)
Lemma seqm_cases {A X} (f : X -> list (out (A * bool))) (Hf : forall x, f x = [] \/ exists r, f x = [r]) (l : list X) :
  match seqm (flat_map f l) with
  | Val (vs, b) => Forall (fun x => f x = [] \/ exists a c, f x = [Val (a, c)]) l /\ (b = true <-> exists x a, In x l /\ f x = [Val (a, true)])
      /\ map Val vs = map (fun r => match r with Val (a, _) => Val a | Err => Err | Crash => Crash end) (flat_map f l)
  | Err => exists pre x post, l = pre ++ x :: post /\ f x = [Err] /\ Forall (fun x => f x = [] \/ exists a c, f x = [Val (a, c)]) pre
  | Crash => exists pre x post, l = pre ++ x :: post /\ f x = [Crash] /\ Forall (fun x => f x = [] \/ exists a c, f x = [Val (a, c)]) pre
  end.
Proof.
  induction l as [|x l IH]; cbn.
  - split; [constructor|split; [|reflexivity]]. split; [discriminate|intros (? & ? & [] & _)].
  - destruct (Hf x) as [Hx|[r Hx]]; rewrite Hx; cbn.
    + destruct (seqm (flat_map f l)) as [[vs b]| |].
      * destruct IH as (I1 & I2 & I3). split; [constructor; auto|]. split; [|exact I3].
        rewrite I2. split; [intros (y & a & Hy & He); exists y, a; auto|intros (y & a & [->|Hy] & He); [congruence|exists y, a; auto]].
      * destruct IH as (pre & y & post & -> & H1 & H2). exists (x :: pre), y, post. split; [reflexivity|split; [exact H1|constructor; auto]].
      * destruct IH as (pre & y & post & -> & H1 & H2). exists (x :: pre), y, post. split; [reflexivity|split; [exact H1|constructor; auto]].
    + destruct r as [[a c]| |]; cbn [obind].
      * destruct (seqm (flat_map f l)) as [[vs b]| |]; cbn [obind].
        -- destruct IH as (I1 & I2 & I3). split; [constructor; eauto|]. split; [|cbn; f_equal; exact I3].
           rewrite orb_true_iff, I2. split.
           ++ intros [->|(y & a' & Hy & He)]; [exists x, a; auto|exists y, a'; auto].
           ++ intros (y & a' & [->|Hy] & He); [left; congruence|right; exists y, a'; auto].
        -- destruct IH as (pre & y & post & -> & H1 & H2). exists (x :: pre), y, post. split; [reflexivity|split; [exact H1|constructor; eauto]].
        -- destruct IH as (pre & y & post & -> & H1 & H2). exists (x :: pre), y, post. split; [reflexivity|split; [exact H1|constructor; eauto]].
      * exists [], x, l. auto.
      * exists [], x, l. auto.
Qed.
Lemma map_flat {A C} (g : A -> C) l : map g l = flat_map (fun x => [g x]) l.
Proof. induction l; cbn; congruence. Qed.

Lemma nth_error_firstn_iff {A} (l : list A) n : forall i x, nth_error (firstn n l) i = Some x <-> (i < n)%nat /\ nth_error l i = Some x.
Proof.
  revert l. induction n as [|n IH]; intros l i x; cbn [firstn].
  - destruct i; cbn; split; [discriminate|lia|discriminate|lia].
  - destruct l as [|a l]; [destruct i; cbn; split; intuition discriminate|]. destruct i as [|i]; cbn [nth_error]; [split; [intros H; split; [lia|exact H]|intuition]|].
    rewrite IH. intuition lia.
Qed.

Section Decode.
Variable custom : cty -> json -> out gv.
Notation dec := (decode custom).
(** The first part of the document, in document order, whose UnmarshalJSON fails, fails with [o] *)
Definition first_failure (t : ty) (j : json) (o : out gv) : Prop :=
  exists p c x, reach t j p (TCustom c) x /\ custom c x = o /\
    forall p' c' x', reach t j p' (TCustom c') x' -> before p' p -> exists g, custom c' x' = Val g.
Definition all_fine (t : ty) (j : json) : Prop := forall p c x, reach t j p (TCustom c) x -> exists g, custom c x = Val g.
Definition some_mismatch (t : ty) (j : json) : Prop := exists p t' x, reach t j p t' x /\ mismatch t' x.

Definition classified (t : ty) (j : json) : Prop :=
  match dec t j with
  | Crash => first_failure t j Crash
  | Err => first_failure t j Err
  | Val (v, b) => all_fine t j /\ (b = true <-> some_mismatch t j)
  end.

Lemma is_int_spec lo hi r : is_int lo hi r = true <-> exists n, lo <= n < hi /\ r = IZR n.
Proof.
  unfold is_int. rewrite !andb_true_iff, Reqb_true, Z.leb_le, Z.ltb_lt. split.
  - intros [[H1 H2] H3]. eauto.
  - intros (n & Hn & ->). replace (Int_part (IZR n)) with n; [split; [split|]; (reflexivity || lia)|].
    unfold Int_part. destruct (archimed (IZR n)) as [A1 A2].
    assert (IZR n < IZR (up (IZR n)))%R as A3 by exact A1. apply lt_IZR in A3.
    assert (IZR (up (IZR n)) <= IZR (n + 1))%R as A4 by (rewrite plus_IZR; lra). apply le_IZR in A4. lia.
Qed.

Lemma leaf t j (H : forall p t' x, reach t j p t' x -> p = [] /\ t' = t /\ x = j) (Hc : forall c, t <> TCustom c) v b :
  dec t j = Val (v, b) -> (b = true <-> mismatch t j) -> classified t j.
Proof.
  intros Hd Hb. unfold classified. rewrite Hd. split.
  - intros p c x Hr. destruct (H _ _ _ Hr) as (_ & E & _). exfalso. eapply Hc. eauto.
  - rewrite Hb. split; [intros M; exists [], t, j; split; [constructor|auto]|].
    intros (p & t' & x & Hr & M). destruct (H _ _ _ Hr) as (_ & -> & ->). exact M.
Qed.

(** The three kinds of containers, at once *)
Lemma container {A X} (t : ty) (j : json) (L : list X) (sub : X -> option (ty * json)) (wr : X -> gv -> A) (g : X -> list (out (A * bool))) (W : list A -> gv) :
  (forall x, match sub x with Some (t', y) => g x = [obind (dec t' y) (fun '(v, b) => Val (wr x v, b))] | None => g x = [] end) ->
  dec t j = obind (seqm (flat_map g L)) (fun '(vs, b) => Val (W vs, b)) ->
  (forall p t' z, reach t j p t' z <-> (p = [] /\ t' = t /\ z = j) \/
     exists i x q t1 y, p = i :: q /\ nth_error L i = Some x /\ sub x = Some (t1, y) /\ reach t1 y q t' z) ->
  ~ mismatch t j -> (forall c, t <> TCustom c) ->
  (forall x t1 y, In x L -> sub x = Some (t1, y) -> classified t1 y) ->
  classified t j.
Proof.
  intros Hg Hd Hr Hm Hc IH.
  assert (G : forall x, g x = [] \/ exists r, g x = [r]).
  { intros x. specialize (Hg x). destruct (sub x) as [[t1 y]|]; rewrite Hg; eauto. }
  assert (Fine : forall x t1 y a c, sub x = Some (t1, y) -> g x = [Val (a, c)] -> In x L -> all_fine t1 y /\ (c = true <-> some_mismatch t1 y)).
  { intros x t1 y a c Hs Hx Hin. specialize (IH x t1 y Hin Hs). specialize (Hg x). rewrite Hs in Hg. rewrite Hg in Hx.
    unfold classified in IH. destruct (dec t1 y) as [[v b]| |]; cbn [obind] in Hx; inversion Hx; subst. exact IH. }
  assert (Fail : forall pre x post (o : out gv), L = pre ++ x :: post -> (forall t1 y, sub x = Some (t1, y) -> first_failure t1 y o) -> sub x <> None ->
    Forall (fun x => g x = [] \/ exists a c, g x = [Val (a, c)]) pre -> first_failure t j o).
  { intros pre x post o -> Hf Hs Hpre. destruct (sub x) as [[t1 y]|] eqn:Es; [|congruence]. destruct (Hf t1 y eq_refl) as (p & c & z & H1 & H2 & H3).
    exists (length pre :: p), c, z. split; [|split; [exact H2|]].
    - apply Hr. right. exists (length pre), x, p, t1, y. repeat split; auto. rewrite nth_error_app2, Nat.sub_diag by lia. reflexivity.
    - intros p' c' z' Hr' Hb. apply Hr in Hr'. destruct Hr' as [(-> & E & _)|(i & x' & q & t2 & y' & -> & Hn & Hs' & Hq)]; [exfalso; eapply Hc; eauto|].
      apply before_inv in Hb. destruct Hb as [E|(i' & r & E & Hb)]; [discriminate|]. inversion E; subst i' r.
      destruct Hb as [Hlt|[-> Hb]].
      + rewrite nth_error_app1 in Hn by exact Hlt. apply nth_error_In in Hn. rewrite Forall_forall in Hpre.
        destruct (Hpre _ Hn) as [E0|(a & cc & E0)].
        * specialize (Hg x'). rewrite Hs', E0 in Hg. discriminate.
        * eapply Fine; eauto. apply in_or_app. auto.
      + rewrite nth_error_app2, Nat.sub_diag in Hn by lia. cbn in Hn. inversion Hn; subst x'. rewrite Es in Hs'. inversion Hs'; subst. eauto. }
  unfold classified. rewrite Hd. pose proof (seqm_cases g G L) as S.
  destruct (seqm (flat_map g L)) as [[vs b]| |]; cbn [obind].
  - destruct S as (S1 & S2 & _). rewrite Forall_forall in S1. split.
    + intros p c z Hz. apply Hr in Hz. destruct Hz as [(-> & E & _)|(i & x & q & t1 & y & -> & Hn & Hs & Hq)]; [exfalso; eapply Hc; eauto|].
      apply nth_error_In in Hn. destruct (S1 _ Hn) as [E0|(a & cc & E0)].
      * specialize (Hg x). rewrite Hs, E0 in Hg. discriminate.
      * eapply Fine; eauto.
    + rewrite S2. split.
      * intros (x & a & Hin & E0). specialize (Hg x). destruct (sub x) as [[t1 y]|] eqn:Es; [|congruence].
        destruct (Fine x t1 y a true Es E0 Hin) as [_ F]. destruct (proj1 F eq_refl) as (p & t' & z & F1 & F2).
        apply In_nth_error in Hin. destruct Hin as [i Hi]. exists (i :: p), t', z. split; [|exact F2]. apply Hr. right. exists i, x, p, t1, y. auto.
      * intros (p & t' & z & Hz & M). apply Hr in Hz. destruct Hz as [(-> & -> & ->)|(i & x & q & t1 & y & -> & Hn & Hs & Hq)]; [contradiction|].
        apply nth_error_In in Hn. destruct (S1 _ Hn) as [E0|(a & cc & E0)].
        -- specialize (Hg x). rewrite Hs, E0 in Hg. discriminate.
        -- destruct (Fine x t1 y a cc Hs E0 Hn) as [_ F]. exists x, a. split; [exact Hn|]. replace true with cc; [exact E0|]. apply F. exists q, t', z. auto.
  - destruct S as (pre & x & post & E & E0 & Hpre). eapply Fail; eauto.
    + intros t1 y Hs. assert (In x L) as Hin by (rewrite E; apply in_or_app; right; left; reflexivity).
      specialize (IH x t1 y Hin Hs). specialize (Hg x). rewrite Hs, E0 in Hg. unfold classified in IH. destruct (dec t1 y) as [[v b]| |]; cbn [obind] in Hg; congruence || exact IH.
    + intros Hs. specialize (Hg x). rewrite Hs in Hg. congruence.
  - destruct S as (pre & x & post & E & E0 & Hpre). eapply Fail; eauto.
    + intros t1 y Hs. assert (In x L) as Hin by (rewrite E; apply in_or_app; right; left; reflexivity).
      specialize (IH x t1 y Hin Hs). specialize (Hg x). rewrite Hs, E0 in Hg. unfold classified in IH. destruct (dec t1 y) as [[v b]| |]; cbn [obind] in Hg; congruence || exact IH.
    + intros Hs. specialize (Hg x). rewrite Hs in Hg. congruence.
Qed.

Lemma find_field fs k : find (fun nd => keyeq (fst nd) k) (map (fun '(n, t') => (n, dec t')) fs) =
  match field_of fs k with Some (n, t') => Some (n, dec t') | None => None end.
Proof. unfold field_of. induction fs as [|[n t'] fs IH]; cbn [map find fst]; [reflexivity|]. destruct (keyeq n k); [reflexivity|exact IH]. Qed.

Ltac leafy := intros p t' x Hr; inversion Hr; subst; auto.
Lemma decode_classified t : forall j, classified t j.
Proof.
  induction t as [| |lo hi| | |t IH|t IH|t IH|fs IH|c0|n0 t IH] using ty_ind'; intros j.
  - destruct j; (eapply leaf; [leafy|discriminate|reflexivity|]); unfold mismatch; split; try discriminate; try (intros [H1 H2]; exfalso; solve [eapply H2; reflexivity | apply H1; reflexivity]);
      intros _; split; discriminate.
  - destruct j; (eapply leaf; [leafy|discriminate|reflexivity|]); unfold mismatch; split; try discriminate; try (intros [H1 H2]; exfalso; solve [eapply H2; reflexivity | apply H1; reflexivity]);
      intros _; split; discriminate.
  - destruct j as [|b|r|s|l|l]; try ((eapply leaf; [leafy|discriminate|reflexivity|]); unfold mismatch; split; try discriminate; try (intros [H1 H2]; exfalso; solve [eapply H2; reflexivity | apply H1; reflexivity]);
      intros _; split; discriminate).
    pose proof (is_int_spec lo hi r) as E. destruct (is_int lo hi r) eqn:Ei.
    + eapply leaf; [leafy|discriminate|cbn [decode]; rewrite Ei; reflexivity|]. split; [discriminate|].
      intros [_ H]. destruct (proj1 E eq_refl) as (n & Hn & ->). exfalso. eapply H; eauto.
    + eapply leaf; [leafy|discriminate|cbn [decode]; rewrite Ei; reflexivity|]. split; [|reflexivity]. intros _. split; [discriminate|].
      intros n Hn Hj. inversion Hj; subst. assert (false = true) by (apply E; eauto). discriminate.
  - destruct j; (eapply leaf; [leafy|discriminate|reflexivity|]); unfold mismatch; split; try discriminate; intros [H1 H2]; exfalso; solve [exact H2 | apply H1; reflexivity].
  - destruct j; (eapply leaf; [leafy|discriminate|reflexivity|]); unfold mismatch; split; try discriminate; try (intros [H1 H2]; exfalso; solve [eapply H2; reflexivity | apply H1; reflexivity]);
      intros _; split; auto; discriminate.
  - (* pointer *)
    assert (N : j = JNull \/ j <> JNull) by (destruct j; [left; reflexivity|right; discriminate..]).
    destruct N as [->|N].
    + unfold classified. cbn [decode]. split.
      * intros p c x Hr. inversion Hr; subst. contradiction.
      * split; [discriminate|]. intros (p & t' & x & Hr & M). inversion Hr; subst; [destruct M as [M _]|]; contradiction.
    + assert (D : dec (TPtr t) j = obind (dec t j) (fun '(v, b) => Val (GPtr v, b))) by (cbn [decode]; destruct j; [contradiction|reflexivity..]).
      assert (RC : forall p c x, reach (TPtr t) j p (TCustom c) x <-> reach t j p (TCustom c) x).
      { intros p c x. split; [intros Hr; inversion Hr; subst; auto|intros Hr; apply reach_ptr; auto]. }
      specialize (IH j). unfold classified in *. rewrite D.
      assert (FF : forall o, first_failure t j o -> first_failure (TPtr t) j o).
      { intros o (p & c & x & H1 & H2 & H3). exists p, c, x. rewrite RC. split; [exact H1|split; [exact H2|]]. intros p' c' x' Hr'. rewrite RC in Hr'. eauto. }
      destruct (dec t j) as [[v b]| |]; cbn [obind]; [|apply FF; exact IH|apply FF; exact IH].
      destruct IH as [I1 I2]. split; [intros p c x Hr; rewrite RC in Hr; eauto|].
      rewrite I2. split; intros (p & t' & x & Hr & M); exists p, t', x; (split; [|exact M]).
      * apply reach_ptr; auto.
      * inversion Hr; subst; [destruct M as [_ []]|auto].
  - (* slice *)
    destruct j as [|b|r|s|l|l]; try ((eapply leaf; [leafy|discriminate|reflexivity|]); unfold mismatch; split; try discriminate; try (intros [H1 H2]; exfalso; solve [eapply H2; reflexivity | apply H1; reflexivity]);
      intros _; split; discriminate).
    apply (container (TSlice t) (JArr l) l (fun x => Some (t, x)) (fun _ v => v) (fun x => [dec t x]) (fun vs => GSlice vs)).
    + intros x. destruct (dec t x) as [[v b]| |]; reflexivity.
    + cbn [decode]. rewrite map_flat. reflexivity.
    + intros p t' z. split.
      * intros Hr. inversion Hr; subst; [left; auto|right]. do 5 eexists. repeat split; eauto.
      * intros [(-> & -> & ->)|(i & x & q & t1 & y & -> & Hn & Hs & Hq)]; [constructor|]. inversion Hs; subst. econstructor; eauto.
    + intros [_ M]. eapply M; eauto.
    + discriminate.
    + intros x t1 y _ E. inversion E; subst. apply IH.
  - (* map *)
    destruct j as [|b|r|s|l|l]; try ((eapply leaf; [leafy|discriminate|reflexivity|]); unfold mismatch; split; try discriminate; try (intros [H1 H2]; exfalso; solve [eapply H2; reflexivity | apply H1; reflexivity]);
      intros _; split; discriminate).
    apply (container (TMap t) (JObj l) l (fun kx => Some (t, snd kx)) (fun kx v => (fst kx, v)) (fun kx => [tag (fst kx) (dec t (snd kx))]) (fun vs => GMap vs)).
    + intros [k x]. reflexivity.
    + cbn [decode]. rewrite map_flat. f_equal. f_equal. apply flat_map_ext. intros [k x]. reflexivity.
    + intros p t' z. split.
      * intros Hr. inversion Hr; subst; [left; auto|right]. do 5 eexists. repeat split; eauto.
      * intros [(-> & -> & ->)|(i & [k x] & q & t1 & y & -> & Hn & Hs & Hq)]; [constructor|]. inversion Hs; subst. econstructor; eauto.
    + intros [_ M]. eapply M; eauto.
    + discriminate.
    + intros x t1 y _ E. inversion E; subst. apply IH.
  - (* struct *)
    destruct j as [|b|r|s|l|l]; try ((eapply leaf; [leafy|discriminate|reflexivity|]); unfold mismatch; split; try discriminate; try (intros [H1 H2]; exfalso; solve [eapply H2; reflexivity | apply H1; reflexivity]);
      intros _; split; discriminate).
    apply (container (TStruct fs) (JObj l) l (fun kx => match field_of fs (fst kx) with Some (_, t) => Some (t, snd kx) | None => None end)
      (fun kx v => (match field_of fs (fst kx) with Some (n, _) => n | None => [] end, v))
      (fun kx => match field_of fs (fst kx) with Some (n, t) => [tag n (dec t (snd kx))] | None => [] end) (fun vs => GStruct vs)).
    + intros [k x]. cbn [fst snd]. destruct (field_of fs k) as [[n t]|]; reflexivity.
    + cbn [decode]. unfold field_results. f_equal. f_equal. apply flat_map_ext. intros [k x]. cbn [fst snd]. rewrite find_field.
      destruct (field_of fs k) as [[n t]|]; reflexivity.
    + intros p t' z. split.
      * intros Hr. inversion Hr as [|?|?|?|?|fs0 l0 i k x n t p0 t0 j0 A1 A2 A3]; subst; [left; auto|right]. exists i, (k, x), p0, t, x. cbn [fst snd].
        rewrite A2. auto.
      * intros [(-> & -> & ->)|(i & [k x] & q & t1 & y & -> & Hn & Hs & Hq)]; [constructor|]. cbn [fst snd] in Hs.
        destruct (field_of fs k) as [[n t]|] eqn:Ef; inversion Hs; subst. econstructor; eauto.
    + intros [_ M]. eapply M; eauto.
    + discriminate.
    + intros [k x] t1 y _ E. cbn [fst snd] in E. destruct (field_of fs k) as [[n t]|] eqn:Ef; inversion E; subst.
      apply find_some in Ef. rewrite Forall_forall in IH. apply (IH _ (proj1 Ef)).
  - (* custom *)
    unfold classified. cbn [decode]. destruct (custom c0 j) as [g| |] eqn:E; cbn [obind].
    + split.
      * intros p c x Hr. inversion Hr; subst. eauto.
      * split; [discriminate|]. intros (p & t' & x & Hr & M). inversion Hr; subst. destruct M as [_ []].
    + exists [], c0, j. split; [constructor|split; [exact E|]]. intros p' c' x' Hr Hb. inversion Hb.
    + exists [], c0, j. split; [constructor|split; [exact E|]]. intros p' c' x' Hr Hb. inversion Hb.
  - (* array *)
    destruct j as [|b|r|s|l|l]; try ((eapply leaf; [leafy|discriminate|reflexivity|]); unfold mismatch; split; try discriminate; try (intros [H1 H2]; exfalso; solve [eapply H2; reflexivity | apply H1; reflexivity]);
      intros _; split; discriminate).
    apply (container (TArray n0 t) (JArr l) (firstn n0 l) (fun x => Some (t, x)) (fun _ v => v) (fun x => [dec t x]) (fun vs => GSlice vs)).
    + intros x. destruct (dec t x) as [[v b]| |]; reflexivity.
    + cbn [decode]. rewrite map_flat. reflexivity.
    + intros p t' z. split.
      * intros Hr. inversion Hr; subst; [left; auto|right]. do 5 eexists. repeat split; eauto. apply nth_error_firstn_iff. auto.
      * intros [(-> & -> & ->)|(i & x & q & t1 & y & -> & Hn & Hs & Hq)]; [constructor|]. inversion Hs; subst. apply nth_error_firstn_iff in Hn.
        destruct Hn. econstructor; eauto.
    + intros [_ M]. eapply M; eauto.
    + discriminate.
    + intros x t1 y _ E. inversion E; subst. apply IH.
Qed.

Lemma failure_unique t j o o' : first_failure t j o -> first_failure t j o' -> (forall g, o <> Val g) -> (forall g, o' <> Val g) -> o = o'.
Proof.
  intros (p & c & x & H1 & H2 & H3) (p' & c' & x' & H1' & H2' & H3') No No'.
  destruct (before_total p p') as [L|[<-|L]].
  - destruct (H3' _ _ _ H1 L) as [g Hg]. congruence.
  - destruct (reach_custom_det _ _ _ _ _ _ _ H1 H1'). subst. congruence.
  - destruct (H3 _ _ _ H1' L) as [g Hg]. congruence.
Qed.
Lemma failure_not_fine t j o : first_failure t j o -> (forall g, o <> Val g) -> ~ all_fine t j.
Proof. intros (p & c & x & H1 & H2 & H3) No F. destruct (F _ _ _ H1). congruence. Qed.

(** The outcome of json.Unmarshal *)
Lemma unmarshal_outcome t j :
  (Unmarshal custom t j = Crash <-> first_failure t j Crash) /\
  (Unmarshal custom t j = Err <-> first_failure t j Err \/ (all_fine t j /\ some_mismatch t j)) /\
  ((exists v, Unmarshal custom t j = Val v) <-> all_fine t j /\ ~ some_mismatch t j).
Proof.
  pose proof (decode_classified t j) as H. unfold classified, Unmarshal in *. destruct (dec t j) as [[v b]| |]; cbn [obind].
  - destruct H as [F M]. assert (NF : forall o, (forall g, o <> Val g) -> ~ first_failure t j o) by (intros o Ho Hf; eapply failure_not_fine; eauto).
    assert (~ first_failure t j Crash) by (apply NF; discriminate). assert (~ first_failure t j Err) by (apply NF; discriminate).
    destruct b.
    + assert (some_mismatch t j) by (apply M; reflexivity). intuition (try discriminate);
      match goal with H : exists v, _ |- _ => destruct H as [? ?]; discriminate end.
    + assert (~ some_mismatch t j) by (intros X; apply M in X; discriminate). intuition (try discriminate); eauto.
  - assert (~ all_fine t j) by (eapply failure_not_fine; eauto; discriminate).
    assert (~ first_failure t j Crash) by (intros X; pose proof (failure_unique _ _ _ _ H X ltac:(discriminate) ltac:(discriminate)); discriminate).
    intuition (try discriminate); match goal with H : exists v, _ |- _ => destruct H as [? ?]; discriminate end.
  - assert (~ all_fine t j) by (eapply failure_not_fine; eauto; discriminate).
    assert (~ first_failure t j Err) by (intros X; pose proof (failure_unique _ _ _ _ H X ltac:(discriminate) ltac:(discriminate)); discriminate).
    intuition (try discriminate); match goal with H : exists v, _ |- _ => destruct H as [? ?]; discriminate end.
Qed.
End Decode.

(** * What a successful decoding yields *)
Lemma seqm_good {A} (rs : list (out (A * bool))) vs : seqm rs = Val (vs, false) <-> Forall2 (fun r v => r = Val (v, false)) rs vs.
Proof.
  revert vs. induction rs as [|r rs IH]; intros vs; cbn [seqm].
  - split; [intros H; inversion H; constructor|intros H; inversion H; reflexivity].
  - split.
    + destruct r as [[a b]| |]; cbn [obind]; try discriminate. destruct (seqm rs) as [[l b']| |]; cbn [obind]; try discriminate.
      intros H. inversion H as [[H1 H2]]. apply orb_false_iff in H2. destruct H2 as [-> ->]. constructor; [reflexivity|]. apply IH. reflexivity.
    + intros H. inversion H as [|? v ? vs' -> H2]; subst. apply IH in H2. cbn [obind]. rewrite H2. reflexivity.
Qed.
Lemma unmarshal_good custom t j v : Unmarshal custom t j = Val v <-> decode custom t j = Val (v, false).
Proof.
  unfold Unmarshal. destruct (decode custom t j) as [[a b]| |]; cbn [obind]; [destruct b|..]; split; intros H; inversion H; reflexivity.
Qed.
Lemma Forall2_imp {X Y} (P Q : X -> Y -> Prop) l vs : (forall x y, P x y -> Q x y) -> Forall2 P l vs -> Forall2 Q l vs.
Proof. intros H F. induction F; constructor; auto. Qed.
Lemma Forall2_map_l {X Y Z0} (P : Y -> Z0 -> Prop) (f : X -> Y) l vs : Forall2 P (map f l) vs <-> Forall2 (fun x v => P (f x) v) l vs.
Proof.
  revert vs. induction l as [|x l IH]; intros vs; split; intros H; inversion H; subst; constructor; auto; apply IH; auto.
Qed.
Lemma slice_good custom t j v : Unmarshal custom (TSlice t) j = Val v <->
  (j = JNull /\ v = GZero) \/ exists l vs, j = JArr l /\ v = GSlice vs /\ Forall2 (fun x y => Unmarshal custom t x = Val y) l vs.
Proof.
  rewrite unmarshal_good. split.
  - destruct j as [|b|r|s|l|l]; cbn [decode]; try discriminate; [intros H; inversion H; auto|]. intros H. right.
    destruct (seqm (map (decode custom t) l)) as [[vs b]| |] eqn:E; cbn [obind] in H; try discriminate. inversion H; subst.
    exists l, vs. split; [reflexivity|split; [reflexivity|]]. apply seqm_good in E. apply Forall2_map_l in E.
    eapply Forall2_imp; [|exact E]. cbn beta. intros. apply unmarshal_good. auto.
  - intros [[-> ->]|(l & vs & -> & -> & H)]; cbn [decode]; [reflexivity|].
    assert (E : seqm (map (decode custom t) l) = Val (vs, false)); [|rewrite E; reflexivity]. apply seqm_good, Forall2_map_l.
    eapply Forall2_imp; [|exact H]. cbn beta. intros. apply unmarshal_good. auto.
Qed.
Lemma ptr_good custom t j v : Unmarshal custom (TPtr t) j = Val v <->
  (j = JNull /\ v = GZero) \/ (j <> JNull /\ exists w, v = GPtr w /\ Unmarshal custom t j = Val w).
Proof.
  rewrite unmarshal_good. assert (N : j = JNull \/ j <> JNull) by (destruct j; [left; reflexivity|right; discriminate..]).
  destruct N as [->|N].
  - cbn [decode]. split; [intros H; inversion H; auto|intros [[_ ->]|[E _]]; [reflexivity|contradiction]].
  - assert (D : decode custom (TPtr t) j = obind (decode custom t j) (fun '(v, b) => Val (GPtr v, b))) by (cbn [decode]; destruct j; [contradiction|reflexivity..]).
    rewrite D. split.
    + destruct (decode custom t j) as [[a b]| |] eqn:E; cbn [obind]; try discriminate. intros H. inversion H; subst. right. split; [exact N|].
      exists a. split; [reflexivity|]. apply unmarshal_good. exact E.
    + intros [[E _]|(_ & w & -> & H)]; [contradiction|]. apply unmarshal_good in H. rewrite H. reflexivity.
Qed.
Lemma custom_good custom c j v : Unmarshal custom (TCustom c) j = Val v <-> custom c j = Val v.
Proof. unfold Unmarshal. cbn [decode]. destruct (custom c j); cbn [obind]; split; intros H; inversion H; reflexivity. Qed.
Lemma string_good custom j v : Unmarshal custom TString j = Val v <-> (j = JNull /\ v = GZero) \/ exists s, j = JStr s /\ v = GString s.
Proof.
  unfold Unmarshal. destruct j as [|b|r|s|l|l]; cbn [decode obind]; split; intros H; try discriminate; try (inversion H; eauto; fail);
    destruct H as [[E E']|(s' & E & E')]; try discriminate; subst; try reflexivity; inversion E; reflexivity.
Qed.
Lemma float_good custom j v : Unmarshal custom TFloat j = Val v <-> (j = JNull /\ v = GZero) \/ exists s, j = JNum s /\ v = GFloat s.
Proof.
  unfold Unmarshal. destruct j as [|b|r|s|l|l]; cbn [decode obind]; split; intros H; try discriminate; try (inversion H; eauto; fail);
    destruct H as [[E E']|(s' & E & E')]; try discriminate; subst; try reflexivity; inversion E; reflexivity.
Qed.

(** No object in the document has two members whose keys only differ in case *)
Inductive uniq : json -> Prop :=
| uniq_null : uniq JNull | uniq_bool b : uniq (JBool b) | uniq_num r : uniq (JNum r) | uniq_str s : uniq (JStr s)
| uniq_arr l : Forall uniq l -> uniq (JArr l)
| uniq_obj l : NoDup (map (fun m => fold_key (fst m)) l) -> Forall (fun m => uniq (snd m)) l -> uniq (JObj l).
(** The member of an object with a given name; an absent one counts as null *)
Definition doc_field (n : gstr) (j : json) : json :=
  match j with JObj l => match find (fun m => keyeq n (fst m)) l with Some m => snd m | None => JNull end | _ => JNull end.
Definition has_field (n : gstr) (j : json) : Prop := exists l k x, j = JObj l /\ In (k, x) l /\ same_key n k.

Lemma uniq_field n j : uniq j -> uniq (doc_field n j).
Proof.
  intros H. destruct H as [| | | |l H|l H1 H2]; cbn [doc_field]; try constructor.
  destruct (find _ l) as [m|] eqn:E; [|constructor]. apply find_some in E. rewrite Forall_forall in H2. apply H2. tauto.
Qed.
Lemma nodup_key (l : list (gstr * json)) k x k' x' : NoDup (map (fun m => fold_key (fst m)) l) -> In (k, x) l -> In (k', x') l ->
  fold_key k = fold_key k' -> (k, x) = (k', x').
Proof.
  induction l as [|m l IH]; intros N H1 H2 E; [destruct H1|]. cbn [map] in N. inversion N as [|? ? N1 N2]; subst.
  destruct H1 as [->|H1], H2 as [H2|H2].
  - auto.
  - exfalso. apply N1. cbn [fst]. rewrite E. apply (in_map (fun m => fold_key (fst m)) _ _ H2).
  - subst m. exfalso. apply N1. cbn [fst]. rewrite <- E. apply (in_map (fun m => fold_key (fst m)) _ _ H1).
  - auto.
Qed.
(** No two members of the object itself whose keys only differ in case *)
Definition flat (j : json) : Prop := match j with JObj l => NoDup (map (fun m => fold_key (fst m)) l) | _ => True end.
Lemma uniq_flat j : uniq j -> flat j.
Proof. destruct 1; cbn; auto. Qed.
Lemma doc_field_in n l k x : flat (JObj l) -> In (k, x) l -> same_key n k -> doc_field n (JObj l) = x.
Proof.
  intros N H S. cbn [flat] in N. cbn [doc_field]. destruct (find (fun m => keyeq n (fst m)) l) as [[k' x']|] eqn:E.
  - apply find_some in E. destruct E as [E1 E2]. cbn [fst snd] in *. apply keyeq_spec in E2. unfold same_key in *.
    pose proof (nodup_key l k x k' x' N H E1). rewrite <- S, <- E2 in H0. specialize (H0 eq_refl). congruence.
  - exfalso. apply (find_none _ _ E) in H. cbn [fst] in H. apply keyeq_spec in S. congruence.
Qed.
Lemma doc_field_none n l : (forall k x, In (k, x) l -> ~ same_key n k) -> doc_field n (JObj l) = JNull.
Proof.
  intros H. cbn [doc_field]. destruct (find _ l) as [[k x]|] eqn:E; [|reflexivity]. apply find_some in E. destruct E as [E1 E2].
  exfalso. apply (H k x E1). apply keyeq_spec. exact E2.
Qed.

(** Field names of a struct, pairwise different up to case *)
Definition distinct (fs : list (gstr * ty)) : Prop := NoDup (map (fun nt => fold_key (fst nt)) fs).
Lemma field_of_in fs n t k : distinct fs -> (field_of fs k = Some (n, t) <-> In (n, t) fs /\ same_key n k).
Proof.
  intros D. unfold field_of. split.
  - intros H. apply find_some in H. cbn [fst] in H. rewrite keyeq_spec in H. exact H.
  - intros [H1 H2]. unfold distinct in D. induction fs as [|[n0 t0] fs IH]; [destruct H1|]. cbn [find fst]. cbn [map] in D. inversion D as [|? ? D1 D2]; subst.
    destruct (keyeq n0 k) eqn:E.
    + destruct H1 as [H1|H1]; [congruence|]. exfalso. apply D1. cbn [fst]. apply keyeq_spec in E. unfold same_key in *. rewrite E, <- H2.
      apply (in_map (fun nt => fold_key (fst nt)) _ _ H1).
    + destruct H1 as [H1|H1]; [|auto]. inversion H1; subst. apply keyeq_spec in H2. congruence.
Qed.

Lemma field_results_good custom fs l vs :
  Forall2 (fun r v => r = Val (v, false)) (field_results (map (fun '(n, t') => (n, decode custom t')) fs) l) vs ->
  forall n v, In (n, v) vs <-> exists k x t, In (k, x) l /\ field_of fs k = Some (n, t) /\ decode custom t x = Val (v, false).
Proof.
  revert vs. induction l as [|[k x] l IH]; intros vs H n v.
  - inversion H; subst. split; [intros []|intros (? & ? & ? & [] & _)].
  - unfold field_results in H. cbn [flat_map] in H. rewrite find_field in H. fold (field_results (map (fun '(n, t') => (n, decode custom t')) fs) l) in H.
    destruct (field_of fs k) as [[n0 t0]|] eqn:Ef; cbn [app] in H.
    + inversion H as [|? [n1 v1] ? vs' H1 H2]; subst. unfold tag in H1. destruct (decode custom t0 x) as [[a b]| |] eqn:Ed; cbn [obind] in H1; try discriminate.
      inversion H1; subst. cbn [In]. rewrite (IH _ H2). split.
      * intros [E|(k' & x' & t' & A1 & A2 & A3)]; [inversion E; subst; exists k, x, t0; auto|exists k', x', t'; auto].
      * intros (k' & x' & t' & [A1|A1] & A2 & A3); [left|right; eauto 6]. inversion A1; subst. rewrite Ef in A2. inversion A2; subst. congruence.
    + rewrite (IH _ H). split.
      * intros (k' & x' & t' & A1 & A2 & A3). exists k', x', t'. auto with datatypes.
      * intros (k' & x' & t' & [A1|A1] & A2 & A3); [inversion A1; subst; congruence|eauto 6].
Qed.

(** A decoded struct holds, field by field, what its member decodes to *)
Lemma struct_field custom fs j v n t : flat j -> distinct fs -> In (n, t) fs -> Unmarshal custom (TStruct fs) j = Val v ->
  (has_field n j -> Unmarshal custom t (doc_field n j) = Val (gfield n v)) /\ (~ has_field n j -> gfield n v = GZero).
Proof.
  intros U D Hn H. apply unmarshal_good in H. destruct j as [|b|r|s|l|l]; cbn [decode] in H; try discriminate.
  - inversion H; subst. split; [intros (l & k & x & E & _); discriminate|reflexivity].
  - destruct (seqm _) as [[vs b]| |] eqn:E; cbn [obind] in H; try discriminate. inversion H; subst. apply seqm_good in E.
    pose proof (field_results_good _ _ _ _ E) as F. split.
    + intros (l' & k & x & El & Hx & Sk). inversion El; subst l'. rewrite (doc_field_in n l k x U Hx Sk). apply unmarshal_good.
      cbn [gfield]. destruct (find (fun e => seqb n (fst e)) (rev vs)) as [[n' y]|] eqn:Ef.
      * apply find_some in Ef. destruct Ef as [E1 E2]. cbn [fst] in E2. destruct (seqb_spec n n'); [subst n'|discriminate].
        apply in_rev in E1. apply F in E1. destruct E1 as (k' & x' & t' & A1 & A2 & A3). apply field_of_in in A2; [|exact D].
        cbn [flat] in U. unfold same_key in *.
        assert (E' : (k, x) = (k', x')) by (apply (nodup_key l); auto; rewrite <- Sk; tauto). inversion E'; subst x' k'.
        assert (t' = t); [|subst; exact A3]. assert (field_of fs k = Some (n, t)) as B1 by (apply field_of_in; auto).
        assert (field_of fs k = Some (n, t')) as B2 by (apply field_of_in; auto). congruence.
      * exfalso. assert (B1 : field_of fs k = Some (n, t)) by (apply field_of_in; auto).
        assert (exists w, decode custom t x = Val (w, false)) as [w Hw].
        { clear -E Hx B1. unfold field_results in E. apply in_split in Hx. destruct Hx as (l1 & l2 & ->). rewrite flat_map_app in E.
          apply Forall2_app_inv_l in E. destruct E as (v1 & v2 & _ & E & _). cbn [flat_map] in E. rewrite find_field, B1 in E. inversion E as [|? y ? ? E1 _]; subst.
          unfold tag in E1. destruct (decode custom t x) as [[a b]| |]; cbn [obind] in E1; inversion E1; subst. eauto. }
        assert (In (n, w) vs) as Hin by (apply F; exists k, x, t; auto). apply in_rev in Hin. apply (find_none _ _ Ef) in Hin. cbn [fst] in Hin.
        rewrite seqb_refl in Hin. discriminate.
    + intros Hno. cbn [gfield]. destruct (find (fun e => seqb n (fst e)) (rev vs)) as [[n' y]|] eqn:Ef; [|reflexivity].
      apply find_some in Ef. destruct Ef as [E1 E2]. cbn [fst] in E2. destruct (seqb_spec n n'); [subst n'|discriminate].
      apply in_rev in E1. apply F in E1. destruct E1 as (k' & x' & t' & A1 & A2 & A3). apply field_of_in in A2; [|exact D].
      exfalso. apply Hno. exists l, k', x'. tauto.
Qed.
(** It decodes iff all the members that name fields do *)
Lemma struct_ok custom fs l : distinct fs ->
  ((exists v, Unmarshal custom (TStruct fs) (JObj l) = Val v) <->
   forall k x n t, In (k, x) l -> In (n, t) fs -> same_key n k -> exists w, Unmarshal custom t x = Val w).
Proof.
  intros D. split.
  - intros [v H] k x n t Hx Hn Sk. apply unmarshal_good in H. cbn [decode] in H. destruct (seqm _) as [[vs b]| |] eqn:E; cbn [obind] in H; try discriminate.
    inversion H; subst. apply seqm_good in E. assert (B1 : field_of fs k = Some (n, t)) by (apply field_of_in; auto).
    unfold field_results in E. apply in_split in Hx. destruct Hx as (l1 & l2 & ->). rewrite flat_map_app in E.
    apply Forall2_app_inv_l in E. destruct E as (v1 & v2 & _ & E & _). cbn [flat_map] in E. rewrite find_field, B1 in E. inversion E as [|? y ? ? E1 _]; subst.
    unfold tag in E1. destruct (decode custom t x) as [[a b]| |] eqn:Ed; cbn [obind] in E1; inversion E1; subst. exists a. apply unmarshal_good. exact Ed.
  - intros H. assert (exists vs, seqm (field_results (map (fun '(n, t') => (n, decode custom t')) fs) l) = Val (vs, false)) as [vs E].
    { induction l as [|[k x] l IH]; [exists []; reflexivity|]. unfold field_results. cbn [flat_map]. rewrite find_field.
      fold (field_results (map (fun '(n, t') => (n, decode custom t')) fs) l). destruct IH as [vs IH]; [intros; eapply H; eauto; right; auto|].
      destruct (field_of fs k) as [[n t]|] eqn:Ef; cbn [app]; [|eauto]. apply field_of_in in Ef; [|exact D].
      destruct (H k x n t (or_introl eq_refl) (proj1 Ef) (proj2 Ef)) as [w Hw]. apply unmarshal_good in Hw. cbn [seqm]. unfold tag. rewrite Hw. cbn [obind].
      rewrite IH. cbn [obind]. eauto. }
    exists (GStruct vs). apply unmarshal_good. cbn [decode]. rewrite E. reflexivity.
Qed.
Lemma absent n l : ~ has_field n (JObj l) -> doc_field n (JObj l) = JNull.
Proof. intros H. apply doc_field_none. intros k x Hx Sk. apply H. exists l, k, x. auto. Qed.
Lemma has_dec n j : has_field n j \/ ~ has_field n j.
Proof.
  destruct j as [| | | | |l]; try (right; intros (l' & k & x & E & _); discriminate).
  destruct (find (fun m => keyeq n (fst m)) l) as [[k x]|] eqn:E.
  - left. apply find_some in E. exists l, k, x. rewrite <- keyeq_spec. tauto.
  - right. intros (l' & k & x & El & Hx & Sk). inversion El; subst l'. apply (find_none _ _ E) in Hx. cbn [fst] in Hx. apply keyeq_spec in Sk. congruence.
Qed.

(** A field whose null decodes to the zero value *)
Lemma field_value_flat custom fs j v n t : flat j -> distinct fs -> In (n, t) fs -> Unmarshal custom (TStruct fs) j = Val v ->
  Unmarshal custom t JNull = Val GZero -> Unmarshal custom t (doc_field n j) = Val (gfield n v).
Proof.
  intros U D Hn H Hz. destruct (struct_field custom fs j v n t U D Hn H) as [H1 H2]. destruct (has_dec n j) as [Hy|Hno]; [auto|].
  rewrite (H2 Hno). destruct j as [| | | | |l]; try exact Hz. rewrite absent by exact Hno. exact Hz.
Qed.
(** Members by name and by position *)
Lemma by_name_flat custom fs l : flat (JObj l) -> distinct fs ->
  ((exists v, Unmarshal custom (TStruct fs) (JObj l) = Val v) <->
   forall n t, In (n, t) fs -> has_field n (JObj l) -> exists w, Unmarshal custom t (doc_field n (JObj l)) = Val w).
Proof.
  intros U D. rewrite struct_ok by exact D. split.
  - intros H n t Hn (l' & k & x & E & Hx & Sk). inversion E; subst l'. rewrite (doc_field_in n l k x U Hx Sk). eauto.
  - intros H k x n t Hx Hn Sk. rewrite <- (doc_field_in n l k x U Hx Sk). apply H; [exact Hn|]. exists l, k, x. auto.
Qed.

