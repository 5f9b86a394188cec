(** Encoding and decoding documents, type by type. *)
From Coq Require Import String ZArith Reals List Lia Lra Bool.
From Verif Require Import GoBase Num Json StyleJson_Model StyleJson_Proofs Docs_Model.
Import ListNotations.
Open Scope Z_scope.

(** * Specification: which values a type reads *)
Definition str_doc (x : json) : Prop := x = JNull \/ exists s, x = JStr s.
Definition num_doc (x : json) : Prop := x = JNull \/ exists r, x = JNum r.
Definition int_doc (lo hi : Z) (x : json) : Prop := x = JNull \/ exists n, lo <= n < hi /\ x = JNum (IZR n).
Definition arr_doc (P : json -> Prop) (x : json) : Prop := x = JNull \/ exists l, x = JArr l /\ Forall P l.
(** An array of which only the first n elements count *)
Definition fixed_doc (n : nat) (P : json -> Prop) (x : json) : Prop := x = JNull \/ exists l, x = JArr l /\ forall i y, (i < n)%nat -> nth_error l i = Some y -> P y.
Definition map_doc (P : json -> Prop) (x : json) : Prop := x = JNull \/ exists l, x = JObj l /\ forall k y, In (k, y) l -> P y.
(** An object whose members of the given names are as they should; other members do not matter *)
Definition obj_doc (names : list (gstr * (json -> Prop))) (x : json) : Prop :=
  x = JNull \/ exists l, x = JObj l /\ forall k y n P, In (k, y) l -> In (n, P) names -> same_key n k -> P y.
Definition any_doc (x : json) : Prop := True.

(** * Proofs *)
Section Reads.
Variable custom : cty -> json -> out gv.
Definition reads (t : ty) (P : json -> Prop) : Prop := forall x, (exists v, Unmarshal custom t x = Val v) <-> P x.

Lemma reads_str : reads TString str_doc.
Proof. intros x. split; [intros [v H]; apply string_good in H; destruct H as [[-> _]|(s & -> & _)]; [left; auto|right; eauto]|intros [->|[s ->]]; eexists; reflexivity]. Qed.
Lemma reads_float : reads TFloat num_doc.
Proof. intros x. split; [intros [v H]; apply float_good in H; destruct H as [[-> _]|(s & -> & _)]; [left; auto|right; eauto]|intros [->|[s ->]]; eexists; reflexivity]. Qed.
Lemma reads_any : reads TAny any_doc.
Proof. intros x. split; [exact (fun _ => I)|intros _]. destruct x; eexists; reflexivity. Qed.
Lemma int_good lo hi n : lo <= n < hi -> Unmarshal custom (TInt lo hi) (JNum (IZR n)) = Val (GInt n).
Proof.
  intros H. unfold Unmarshal. cbn [decode]. assert (E : is_int lo hi (IZR n) = true) by (apply is_int_spec; eauto). rewrite E. cbn [obind].
  apply f_equal, f_equal. unfold Int_part. destruct (archimed (IZR n)) as [A1 A2].
  apply lt_IZR in A1. assert (IZR (up (IZR n)) <= IZR (n + 1))%R as A4 by (rewrite plus_IZR; lra). apply le_IZR in A4. lia.
Qed.
Lemma int_good_inv lo hi x v : Unmarshal custom (TInt lo hi) x = Val v -> (x = JNull /\ v = GZero) \/ exists n, lo <= n < hi /\ x = JNum (IZR n) /\ v = GInt n.
Proof.
  intros H. destruct x as [|b|r|s|l|l]; unfold Unmarshal in H; cbn [decode obind] in H; try discriminate; [injection H as <-; auto|].
  destruct (is_int lo hi r) eqn:E; cbn [obind] in H; [|discriminate]. apply is_int_spec in E. destruct E as (n & Hn & ->). right. exists n. split; [exact Hn|split; [reflexivity|]].
  assert (E : Unmarshal custom (TInt lo hi) (JNum (IZR n)) = Val v).
  { unfold Unmarshal. cbn [decode]. assert (E : is_int lo hi (IZR n) = true) by (apply is_int_spec; eauto). rewrite E. exact H. }
  rewrite int_good in E by exact Hn. congruence.
Qed.
Lemma reads_int lo hi : reads (TInt lo hi) (int_doc lo hi).
Proof.
  intros x. split.
  - intros [v H]. apply int_good_inv in H. destruct H as [[-> _]|(n & Hn & -> & _)]; [left; auto|right; eauto].
  - intros [->|(n & Hn & ->)]; [exists GZero; reflexivity|]. exists (GInt n). apply int_good. exact Hn.
Qed.
Lemma reads_ptr t (P : json -> Prop) : P JNull -> reads t P -> reads (TPtr t) P.
Proof.
  intros N R x. split.
  - intros [v H]. apply ptr_good in H. destruct H as [[-> _]|(_ & w & _ & H)]; [exact N|]. apply R. eauto.
  - intros H. apply R in H. destruct H as [w H]. destruct x as [|b|r|s|l|l]; [exists GZero; reflexivity|..]; (exists (GPtr w); apply ptr_good; right; split; [discriminate|eauto]).
Qed.
Lemma reads_list t (P : json -> Prop) (R : reads t P) l : Forall P l <-> exists vs, Forall2 (fun x y => Unmarshal custom t x = Val y) l vs.
Proof.
  split.
  - induction 1 as [|x l Hx F [vs IH]]; [exists []; constructor|]. apply R in Hx. destruct Hx as [v Hv]. exists (v :: vs). constructor; auto.
  - intros [vs F]. induction F as [|x y l vs Hx F IH]; constructor; auto. apply R. eauto.
Qed.
Lemma reads_slice t (P : json -> Prop) : reads t P -> reads (TSlice t) (arr_doc P).
Proof.
  intros R x. split.
  - intros [v H]. apply slice_good in H. destruct H as [[-> _]|(l & vs & -> & _ & F)]; [left; auto|right]. exists l. split; [reflexivity|]. apply (reads_list t P R). eauto.
  - intros [->|(l & -> & F)]; [exists GZero; reflexivity|]. apply (reads_list t P R) in F. destruct F as [vs F]. exists (GSlice vs). apply slice_good. right. eauto.
Qed.
Lemma array_slice n t l : Unmarshal custom (TArray n t) (JArr l) = Unmarshal custom (TSlice t) (JArr (firstn n l)).
Proof. reflexivity. Qed.
Lemma reads_array n t (P : json -> Prop) : reads t P -> reads (TArray n t) (fixed_doc n P).
Proof.
  intros R x. split.
  - intros [v H]. destruct x as [|b|r|s|l|l]; [left; reflexivity|discriminate|discriminate|discriminate| |discriminate]. right. exists l. split; [reflexivity|].
    rewrite array_slice in H. assert (Hp : arr_doc P (JArr (firstn n l))) by (apply (reads_slice t P R); eauto). destruct Hp as [Hp|(l' & Hp & F)]; [discriminate|].
    injection Hp as <-. intros i y Hi Hy. rewrite Forall_forall in F. apply F. apply (nth_error_In _ i). apply nth_error_firstn_iff. auto.
  - intros [->|(l & -> & H)]; [exists GZero; reflexivity|]. rewrite array_slice. apply (reads_slice t P R). right. eexists. split; [reflexivity|].
    apply Forall_forall. intros y Hy. apply In_nth_error in Hy. destruct Hy as [i Hi]. apply nth_error_firstn_iff in Hi. destruct Hi. eauto.
Qed.
Lemma map_good t j v : Unmarshal custom (TMap t) j = Val v <->
  (j = JNull /\ v = GZero) \/ exists l vs, j = JObj l /\ v = GMap vs /\ Forall2 (fun x y => fst x = fst y /\ Unmarshal custom t (snd x) = Val (snd y)) l vs.
Proof.
  rewrite unmarshal_good. assert (T : forall (kx : gstr * json) (y : gstr * gv), (let '(k, v) := kx in tag k (decode custom t v)) = Val (y, false) <-> fst kx = fst y /\ Unmarshal custom t (snd kx) = Val (snd y)).
  { intros [k x] [k' y]. cbn [fst snd]. rewrite unmarshal_good. unfold tag. destruct (decode custom t x) as [[a b]| |]; cbn [obind]; split; intros H; try discriminate; try (apply proj2 in H; discriminate).
    - inversion H; subst. auto.
    - destruct H as [-> H]. inversion H; subst. reflexivity. }
  split.
  - destruct j as [|b|r|s|l|l]; cbn [decode]; try discriminate; [intros H; inversion H; auto|]. intros H. right.
    destruct (seqm _) as [[vs b]| |] eqn:E; cbn [obind] in H; try discriminate. inversion H; subst.
    exists l, vs. split; [reflexivity|split; [reflexivity|]]. apply seqm_good in E. apply Forall2_map_l in E.
    eapply Forall2_imp; [|exact E]. cbn beta. intros x y. apply T.
  - intros [[-> ->]|(l & vs & -> & -> & H)]; cbn [decode]; [reflexivity|].
    assert (E : seqm (map (fun '(k, v) => tag k (decode custom t v)) l) = Val (vs, false)); [|rewrite E; reflexivity]. apply seqm_good, Forall2_map_l.
    eapply Forall2_imp; [|exact H]. cbn beta. intros x y. apply T.
Qed.
Lemma reads_map t (P : json -> Prop) : reads t P -> reads (TMap t) (map_doc P).
Proof.
  intros R x. split.
  - intros [v H]. apply map_good in H. destruct H as [[-> _]|(l & vs & -> & _ & F)]; [left; auto|right]. exists l. split; [reflexivity|].
    induction F as [|[k x] [k' y] l vs [_ Hx] F IH]; intros k0 y0 H0; [destruct H0|]. destruct H0 as [E|Hi]; [injection E as -> ->; apply R; eauto|eauto].
  - intros [->|(l & -> & F)]; [exists GZero; reflexivity|]. assert (exists vs, Forall2 (fun x y => fst x = fst y /\ Unmarshal custom t (snd x) = Val (snd y)) l vs) as [vs H].
    { induction l as [|[k x] l IH]; [exists []; constructor|]. destruct IH as [vs IH]; [intros; eapply F; right; eauto|].
      assert (P x) as Hx by (eapply F; left; reflexivity). apply R in Hx. destruct Hx as [v Hv]. exists ((k, v) :: vs). constructor; auto. }
    exists (GMap vs). apply map_good. right. eauto.
Qed.
Lemma reads_struct fs names : distinct fs -> Forall2 (fun nt nP => fst nt = fst nP /\ reads (snd nt) (snd nP)) fs names -> reads (TStruct fs) (obj_doc names).
Proof.
  intros D F x. assert (G : forall n P, In (n, P) names -> exists t, In (n, t) fs /\ reads t P).
  { clear D. induction F as [|[n t] [n' P] fs names [E R] F IH]; cbn [fst snd] in *; intros n0 P0 H; [destruct H|]; destruct H as [H|H]; [injection H as <- <-; subst; exists t; auto with datatypes|].
    destruct (IH _ _ H) as (t' & Ht & Rt). exists t'. auto with datatypes. }
  assert (G' : forall n t, In (n, t) fs -> exists P, In (n, P) names /\ reads t P).
  { clear D G. induction F as [|[n t] [n' P] fs names [E R] F IH]; cbn [fst snd] in *; intros n0 t0 H; [destruct H|]; destruct H as [H|H]; [injection H as <- <-; subst; exists P; auto with datatypes|].
    destruct (IH _ _ H) as (t' & Ht & Rt). exists t'. auto with datatypes. }
  split.
  - intros [v H]. destruct x as [|b|r|s|l|l]; [left; reflexivity|discriminate|discriminate|discriminate|discriminate|]. right. exists l. split; [reflexivity|].
    intros k y n P Hy Hn S. destruct (G _ _ Hn) as (t & Ht & R). apply R. exact (proj1 (struct_ok custom fs l D) (ex_intro _ v H) k y n t Hy Ht S).
  - intros [->|(l & -> & H)]; [exists GZero; reflexivity|]. apply struct_ok; [exact D|]. intros k y n t Hy Hn S. destruct (G' _ _ Hn) as (P & HP & R). apply R. exact (H k y n P Hy HP S).
Qed.

(** Reading back what was emitted *)
Definition value (x : option json) : json := match x with Some j => j | None => JNull end.
Definition back (t : ty) (x : option json) (P : gv -> Prop) : Prop := Unmarshal custom t JNull = Val GZero /\ exists v, Unmarshal custom t (value x) = Val v /\ P v.
Record item := mkItem { iName : gstr; iTy : ty; iDoc : option json; iP : gv -> Prop }.
Definition item_fs (l : list item) : list (gstr * ty) := map (fun i => (iName i, iTy i)) l.
Definition item_docs (l : list item) : list (gstr * option json) := map (fun i => (iName i, iDoc i)) l.

Lemma emit_keys (fields : list (gstr * option json)) k j : In (k, j) (flat_map (fun '(n, x) => match x with Some j => [(n, j)] | None => [] end) fields) <-> In (k, Some j) fields.
Proof.
  rewrite in_flat_map. split.
  - intros ([n [x|]] & H1 & H2); [|destruct H2]. destruct H2 as [H2|[]]. injection H2 as -> ->. exact H1.
  - intros H. exists (k, Some j). split; [exact H|left; reflexivity].
Qed.
Lemma emit_flat (fields : list (gstr * option json)) : NoDup (map (fun m => fold_key (fst m)) fields) -> flat (emit fields).
Proof.
  cbn [flat emit]. induction fields as [|[n [x|]] fields IH]; cbn [map flat_map app fst]; intros N; [constructor|..]; inversion N as [|? ? N1 N2]; subst; [|auto].
  constructor; [|auto]. intros Hin. apply N1. apply in_map_iff in Hin. destruct Hin as ([k j] & E & Hin). apply emit_keys in Hin. cbn [fst] in E. rewrite <- E.
  apply (in_map (fun m => fold_key (fst m)) _ _ Hin).
Qed.
Lemma emit_field (fields : list (gstr * option json)) n x : NoDup (map (fun m => fold_key (fst m)) fields) -> In (n, x) fields -> doc_field n (emit fields) = value x.
Proof.
  intros N H. destruct x as [j|]; cbn [value].
  - apply (doc_field_in n _ n j (emit_flat _ N)); [apply emit_keys; exact H|reflexivity].
  - apply doc_field_none. intros k y Hy S. apply emit_keys in Hy. unfold same_key in S. clear -N H Hy S.
    induction fields as [|[n0 x0] fields IH]; [destruct H|]. cbn [map] in N. inversion N as [|? ? N1 N2]; subst. destruct H as [H|H], Hy as [Hy|Hy].
    + congruence.
    + injection H as -> ->. apply N1. cbn [fst]. rewrite S. apply (in_map (fun m => fold_key (fst m)) _ _ Hy).
    + injection Hy as -> ->. apply N1. cbn [fst]. rewrite <- S. apply (in_map (fun m => fold_key (fst m)) _ _ H).
    + auto.
Qed.
Lemma back_struct (l : list item) : NoDup (map (fun i => fold_key (iName i)) l) -> Forall (fun i => back (iTy i) (iDoc i) (iP i)) l ->
  exists v, Unmarshal custom (TStruct (item_fs l)) (emit (item_docs l)) = Val v /\ Forall (fun i => iP i (gfield (iName i) v)) l.
Proof.
  intros N F. assert (D : distinct (item_fs l)) by (unfold distinct, item_fs; rewrite map_map; exact N).
  assert (ND : NoDup (map (fun m => fold_key (fst m)) (item_docs l))) by (unfold item_docs; rewrite map_map; exact N).
  pose proof (emit_flat _ ND) as Fl. rewrite Forall_forall in F.
  assert (E : exists v, Unmarshal custom (TStruct (item_fs l)) (emit (item_docs l)) = Val v).
  { unfold emit in *. apply by_name_flat; auto. intros n t Hn _. apply in_map_iff in Hn. destruct Hn as (i & Hi & Hin). injection Hi as <- <-.
    fold (emit (item_docs l)). rewrite (emit_field (item_docs l) (iName i) (iDoc i) ND); [|apply (in_map (fun i => (iName i, iDoc i)) _ _ Hin)].
    destruct (F _ Hin) as (_ & v & Hv & _). eauto. }
  destruct E as [v Hv]. exists v. split; [exact Hv|]. apply Forall_forall. intros i Hin. destruct (F _ Hin) as (Hz & w & Hw & HP).
  pose proof (field_value_flat custom (item_fs l) _ v (iName i) (iTy i) Fl D (in_map (fun i => (iName i, iTy i)) _ _ Hin) Hv Hz) as K.
  rewrite (emit_field (item_docs l) (iName i) (iDoc i) ND) in K; [|apply (in_map (fun i => (iName i, iDoc i)) _ _ Hin)]. congruence.
Qed.

Lemma back_str s : back TString (Some (estr s)) (fun v => string_of v = s).
Proof. split; [reflexivity|]. eexists. split; reflexivity. Qed.
Lemma back_ostr s : back TString (ostr s) (fun v => string_of v = s).
Proof. split; [reflexivity|]. destruct s; eexists; split; reflexivity. Qed.
Lemma back_int lo hi n : lo <= n < hi -> back (TInt lo hi) (Some (eint n)) (fun v => int_of v = n).
Proof. intros H. split; [reflexivity|]. exists (GInt n). split; [apply int_good; exact H|reflexivity]. Qed.
Lemma back_oint lo hi n : lo <= n < hi -> back (TInt lo hi) (oint n) (fun v => int_of v = n).
Proof. intros H. unfold oint. destruct (Z.eqb_spec n 0) as [->|]; [split; [reflexivity|]; exists GZero; split; reflexivity|apply back_int; exact H]. Qed.
Lemma back_strptr o : back (TPtr TString) (Some (eptr estr o)) (fun v => string_ptr v = o).
Proof. split; [reflexivity|]. destruct o; eexists; split; reflexivity. Qed.
Definition elem {A} (t : ty) (e : A -> json) (f : gv -> A) (g : A -> A) (x : A) : Prop := exists v, Unmarshal custom t (e x) = Val v /\ f v = g x.
Lemma back_list {A} (t : ty) (e : A -> json) (f : gv -> A) (g : A -> A) l : Forall (elem t e f g) l -> exists vs, Unmarshal custom (TSlice t) (JArr (map e l)) = Val (GSlice vs) /\ map f vs = map g l.
Proof.
  intros F. assert (exists vs, Forall2 (fun x y => Unmarshal custom t x = Val y) (map e l) vs /\ map f vs = map g l) as (vs & H1 & H2).
  { induction F as [|x l (v & H1 & H2) F (vs & IH1 & IH2)]; [exists []; split; constructor|]. exists (v :: vs). cbn [map]. split; [constructor; auto|congruence]. }
  exists vs. split; [|exact H2]. apply slice_good. right. eauto.
Qed.
Lemma back_slice {A} (t : ty) (e : A -> json) (f : gv -> A) (g : A -> A) o : (forall l, o = Some l -> Forall (elem t e f g) l) ->
  back (TSlice t) (Some (eslice e o)) (fun v => option_map (map f) (slice_opt v) = option_map (map g) o).
Proof.
  intros F. split; [reflexivity|]. destruct o as [l|]; [|exists GZero; split; reflexivity]. destruct (back_list t e f g l (F l eq_refl)) as (vs & H1 & H2).
  exists (GSlice vs). split; [exact H1|]. cbn [slice_opt option_map]. congruence.
Qed.
(** Empty slices come back nil under omitempty *)
Definition non_empty {A} (o : option (list A)) : option (list A) := match o with Some [] => None | _ => o end.
Lemma back_oslice {A} (t : ty) (e : A -> json) (f : gv -> A) (g : A -> A) o : (forall l, o = Some l -> Forall (elem t e f g) l) ->
  back (TSlice t) (oslice e o) (fun v => option_map (map f) (slice_opt v) = option_map (map g) (non_empty o)).
Proof.
  intros F. destruct o as [[|x l]|]; try (split; [reflexivity|]; exists GZero; split; reflexivity).
  apply (back_slice t e f g (Some (x :: l)) F).
Qed.
Lemma back_map {A} (t : ty) (e : A -> json) (f : gv -> A) o : (forall l, o = Some l -> Forall (fun kx => elem t e f (fun x => x) (snd kx)) l) ->
  back (TMap t) (Some (emap e o)) (fun v => option_map (map (fun kx => (fst kx, f (snd kx)))) (map_opt v) = o).
Proof.
  intros F. split; [reflexivity|]. destruct o as [l|]; [|exists GZero; split; reflexivity]. specialize (F l eq_refl).
  assert (exists vs, Forall2 (fun x y => fst x = fst y /\ Unmarshal custom t (snd x) = Val (snd y)) (map (fun kx => (fst kx, e (snd kx))) l) vs /\ map (fun kx => (fst kx, f (snd kx))) vs = l) as (vs & H1 & H2).
  { induction F as [|[k x] l (v & H1 & H2) F (vs & IH1 & IH2)]; [exists []; split; constructor|]. exists ((k, v) :: vs). cbn [map fst snd] in *. split; [constructor; auto|congruence]. }
  exists (GMap vs). split; [apply map_good; right; cbn [value emap]; eauto|]. cbn [map_opt option_map]. congruence.
Qed.
Lemma back_array n l : length l = n -> back (TArray n TFloat) (Some (JArr (map JNum l))) (fun v => floats_of n v = l).
Proof.
  intros L. split; [reflexivity|]. exists (GSlice (map GFloat l)). split.
  - cbn [value]. rewrite array_slice. rewrite firstn_all2 by (rewrite map_length; lia). apply slice_good. right. do 2 eexists. split; [reflexivity|]. split; [reflexivity|].
    clear. induction l; constructor; auto.
  - unfold floats_of. cbn [slice_of]. subst n. clear. induction l as [|x l IH]; [reflexivity|]. cbn [length seq map nth]. f_equal. rewrite <- seq_shift, map_map. exact IH.
Qed.
End Reads.

(** Types without UnmarshalJSON methods never panic *)
Fixpoint plain (t : ty) : bool :=
  match t with
  | TCustom _ => false
  | TPtr t | TSlice t | TMap t | TArray _ t => plain t
  | TStruct fs => forallb (fun nt => plain (snd nt)) fs
  | _ => true
  end.
Lemma plain_reach t j p t' x : reach t j p t' x -> plain t = true -> plain t' = true.
Proof.
  induction 1 as [| | | | |fs l i k x n t p t' j' H1 H2 H3 IH]; auto. cbn [plain]. intros H. apply IH. rewrite forallb_forall in H. apply find_some in H2. apply (H _ (proj1 H2)).
Qed.
Lemma plain_no_crash custom t j : plain t = true -> Unmarshal custom t j <> Crash.
Proof.
  intros P H. apply unmarshal_outcome in H. destruct H as (p & c & x & H & _). apply plain_reach in H; [discriminate|exact P].
Qed.
