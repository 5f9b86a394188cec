(** C72: struct field schemas and properties. *)
From Coq Require Import String ZArith List Lia Bool.
From Verif Require Import GoBase Json Tilejson_Model.
Import ListNotations.
Open Scope Z_scope.

(** ** Tags *)

(** A conventional struct tag: pairs of a key and a quoted string, each after any number of spaces *)
Inductive body_ok : gstr -> Prop :=
| body_nil : body_ok []
| body_plain c b : c <> 34 -> c <> 92 -> body_ok b -> body_ok (c :: b)
| body_esc c b : body_ok b -> body_ok (92 :: c :: b).
Definition key_ok (k : gstr) : Prop := k <> [] /\ Forall (fun c => 32 < c /\ c <> 58 /\ c <> 34 /\ c <> 127) k.
Definition pair_text (e : nat * gstr * gstr) : gstr := let '(n, k, b) := e in repeat 32 n ++ k ++ B ":""" ++ b ++ B """".
Definition tag_text (l : list (nat * gstr * gstr)) (n : nat) : gstr := concat (map pair_text l) ++ repeat 32 n.

Lemma skip_repeat n s : skip_spaces (repeat 32 n ++ s) = skip_spaces s.
Proof. induction n; cbn; auto. Qed.
Lemma key_byte_true c : 32 < c /\ c <> 58 /\ c <> 34 /\ c <> 127 -> key_byte c = true.
Proof. intros H. unfold key_byte. repeat (apply andb_true_intro; split); try apply negb_true_iff; try apply Z.eqb_neq; try apply Z.ltb_lt; tauto. Qed.
Lemma scan_key_app k r : Forall (fun c => 32 < c /\ c <> 58 /\ c <> 34 /\ c <> 127) k -> scan_key (k ++ 58 :: r) = (k, 58 :: r).
Proof.
  induction 1 as [|c k H F IH]; cbn [app scan_key]; [reflexivity|]. rewrite key_byte_true by auto. rewrite IH. reflexivity.
Qed.
Lemma scan_quoted_app b r : body_ok b -> scan_quoted (b ++ 34 :: r) = Some (b, r).
Proof.
  induction 1 as [|c b N34 N92 H IH|c b H IH]; cbn [app]; [reflexivity| |cbn [scan_quoted]; rewrite IH; reflexivity].
  assert (scan_quoted (c :: b ++ 34 :: r) = option_map (fun '(b, r) => (c :: b, r)) (scan_quoted (b ++ 34 :: r))) as ->; [|rewrite IH; reflexivity].
  generalize (b ++ 34 :: r). intros s. clear - N34 N92. cbn [scan_quoted].
  repeat match goal with |- context[match ?x with _ => _ end] => is_var x; destruct x; try reflexivity; try congruence end.
Qed.
Lemma skip_key k s : key_ok k -> skip_spaces (k ++ s) = k ++ s.
Proof.
  intros [N F]. destruct k as [|c k]; [congruence|]. inversion F as [|? ? H _]; subst. cbn [app]. destruct H as [H _].
  cbn [skip_spaces]. repeat match goal with |- context[match ?x with _ => _ end] => is_var x; destruct x; try reflexivity; try lia end.
Qed.
Section Tags.
Context (Unquote : gstr -> option gstr).
(** The value of the first pair with the key *)
Fixpoint first_pair (l : list (nat * gstr * gstr)) (key : gstr) : option gstr :=
  match l with [] => None | (_, k, b) :: l' => if seqb key k then Unquote (B """" ++ b ++ B """") else first_pair l' key end.
Theorem C72_tags : forall l n key, Forall (fun '(_, k, b) => key_ok k /\ body_ok b) l -> TagLookup Unquote (tag_text l n) key = first_pair l key.
Proof.
  intros l n key F. unfold TagLookup.
  assert (G : forall fuel, (length l < fuel)%nat -> Lookup Unquote fuel (tag_text l n) key = first_pair l key).
  { induction F as [|[[m k] b] l [Hk Hb] F IH]; intros fuel Hf; cbn [length] in Hf; (destruct fuel as [|fuel]; [lia|]); cbn [Lookup].
    - unfold tag_text. cbn [map concat app]. replace (repeat 32 n) with (repeat 32 n ++ []) by apply app_nil_r. rewrite skip_repeat. reflexivity.
    - assert (E : tag_text ((m, k, b) :: l) n = repeat 32 m ++ k ++ 58 :: 34 :: b ++ 34 :: tag_text l n).
      { unfold tag_text. cbn [map concat pair_text]. rewrite <- !app_assoc. reflexivity. }
      rewrite E, skip_repeat, skip_key by auto. destruct Hk as [Nk Fk]. destruct k as [|c k]; [congruence|]. cbn [app]. change (c :: k ++ 58 :: 34 :: b ++ 34 :: tag_text l n) with ((c :: k) ++ 58 :: 34 :: b ++ 34 :: tag_text l n). rewrite scan_key_app by auto. rewrite scan_quoted_app by auto.
      cbn [first_pair]. destruct (seqb key (c :: k)); [reflexivity|]. apply IH. lia. }
  apply G. apply Nat.lt_succ_r. clear G. unfold tag_text. rewrite app_length. induction F as [|[[m k] b] l [Hk Hb] F IH]; cbn [length map concat]; [lia|].
  rewrite app_length. enough (1 <= length (pair_text (m, k, b)))%nat by lia. cbn [pair_text]. rewrite !app_length. cbn. lia.
Qed.
(** A control character or a blank other than the space ends the search *)
Theorem C72_bad_key : forall c rest key, c <= 31 -> TagLookup Unquote (c :: rest) key = None.
Proof.
  intros c rest key H. unfold TagLookup. cbn [Lookup]. assert (E : skip_spaces (c :: rest) = c :: rest).
  { cbn [skip_spaces]. repeat match goal with |- context [match ?x with _ => _ end] => destruct x; try reflexivity end. lia. }
  rewrite E. cbn [scan_key]. unfold key_byte. replace (32 <? c) with false by lia. reflexivity.
Qed.

(** ** Maps *)
Lemma mget_mset {V} (m : list (gstr * V)) k v k' : mget (mset m k v) k' = if seqb k' k then Some v else mget m k'.
Proof.
  induction m as [|[j w] m IH]; cbn [mset mget]; [reflexivity|]. destruct (seqb_spec k j) as [->|N]; cbn [mget].
  - destruct (seqb k' j); reflexivity.
  - rewrite IH. destruct (seqb_spec k' j) as [->|]; [|reflexivity]. destruct (seqb_spec j k); [congruence|reflexivity].
Qed.

(** ** Structs *)
(** The schema type of a kind *)
Definition schema (k : kind) (t : FieldType) : Prop :=
  (t = FieldTypeNumber /\ In k [KInt; KInt8; KInt16; KInt32; KInt64; KUint; KUint8; KUint16; KUint32; KUint64; KFloat32; KFloat64]) \/
  (t = FieldTypeString /\ k = KString) \/ (t = FieldTypeBoolean /\ k = KBool).
Lemma kindType_schema k t : kindType k = Some t <-> schema k t.
Proof.
  unfold schema. split.
  - destruct k; cbn [kindType]; intros E; try discriminate; injection E as <-; cbn [In]; tauto.
  - intros [[-> H]|[[-> ->]|[-> ->]]]; try reflexivity. cbn [In] in H. repeat destruct H as [<-|H]; try reflexivity. contradiction.
Qed.
Definition named (name : gstr) (f : field) : Prop := TagLookup Unquote (fTag f) (B "name") = Some name.
Lemma named_dec name f : named name f \/ ~ named name f.
Proof. unfold named. destruct (TagLookup Unquote (fTag f) (B "name")) as [s|]; [destruct (seqb_spec s name) as [->|N]; [auto|right; congruence]|right; discriminate]. Qed.
(** The last element of a list with a property *)
Definition last_with {X} (P : X -> Prop) (l : list X) (x : X) : Prop := exists l1 l2, l = l1 ++ x :: l2 /\ P x /\ forall y, In y l2 -> ~ P y.
Lemma last_with_snoc {X} (P : X -> Prop) l x y : last_with P (l ++ [x]) y <-> (P x /\ y = x) \/ (~ P x /\ last_with P l y).
Proof.
  split.
  - intros (l1 & l2 & E & Py & U). destruct l2 as [|z l2 _] using rev_ind.
    + change (l1 ++ [y]) with (l1 ++ [y]) in E. apply app_inj_tail in E. destruct E as [El Ex]. subst. left. auto.
    + replace (l1 ++ y :: l2 ++ [z]) with ((l1 ++ y :: l2) ++ [z]) in E by (rewrite <- app_assoc; reflexivity). apply app_inj_tail in E. destruct E as [El Ex]. subst. right. split; [apply U, in_app_iff; right; left; auto|].
      exists l1, l2. split; auto. split; auto. intros w Hw. apply U, in_app_iff. auto.
  - intros [[Px ->]|[N (l1 & l2 & -> & Py & U)]].
    + exists l, []. split; [reflexivity|]. split; [exact Px|]. intros w [].  
    + exists l1, (l2 ++ [x]). split; [rewrite <- app_assoc; reflexivity|]. split; auto. intros w Hw. apply in_app_iff in Hw. destruct Hw as [Hw|[<-|[]]]; auto.
Qed.
Lemma last_with_nil {X} (P : X -> Prop) y : ~ last_with P [] y.
Proof. intros (l1 & l2 & E & _). destruct l1; discriminate. Qed.
Context {A : Type}.
Notation StructToFields := (StructToFields Unquote (A := A)).
Notation StructToProperties := (StructToProperties Unquote (A := A)).
Definition fields_fold fs := fold_left (fun fields ft =>
          match TagLookup Unquote (fTag ft) (B "name") with
          | Some name => match kindType (fKind ft) with Some t => mset fields name t | None => fields end
          | None => fields
          end) fs [].
Lemma fields_fold_get fs name t : mget (fields_fold fs) name = Some t <-> exists f, last_with (fun f => named name f /\ exists t, schema (fKind f) t) fs f /\ schema (fKind f) t.
Proof.
  induction fs as [|f fs IH] using rev_ind.
  - split; [discriminate|]. intros (f & H & _). destruct (last_with_nil _ _ H).
  - assert (S : fields_fold (fs ++ [f]) = match TagLookup Unquote (fTag f) (B "name") with Some name => match kindType (fKind f) with Some t => mset (fields_fold fs) name t | None => fields_fold fs end | None => fields_fold fs end).
    { unfold fields_fold. rewrite fold_left_app. reflexivity. }
    rewrite S. assert (K : forall g, last_with (fun f => named name f /\ exists t, schema (fKind f) t) (fs ++ [f]) g <-> _) by (intros g; apply last_with_snoc).
    assert (Same : (forall t', ~ (named name f /\ schema (fKind f) t')) -> (mget (fields_fold fs) name = Some t <-> exists g, last_with (fun f => named name f /\ exists t, schema (fKind f) t) (fs ++ [f]) g /\ schema (fKind g) t)).
    { intros N. rewrite IH. split; intros (g & H & E); exists g; (split; [|auto]).
      - apply K. right. split; [intros [Nm [t' Sc]]; apply (N t'); auto|exact H].
      - apply K in H. destruct H as [[[Nm [t' Sc]] ->]|[_ H]]; auto. destruct (N t'); auto. }
    unfold named in Same. destruct (TagLookup Unquote (fTag f) (B "name")) as [nm|] eqn:L; [|apply Same; intros t' [? _]; discriminate].
    destruct (kindType (fKind f)) as [t0|] eqn:Kt; [|apply Same; intros t' [_ Sc]; apply kindType_schema in Sc; congruence].
    rewrite mget_mset. destruct (seqb_spec name nm) as [->|N]; [|apply Same; intros t' [? _]; congruence].
    split.
    + intros E. injection E as ->. exists f. apply kindType_schema in Kt. split; [|auto]. apply K. left. split; [|reflexivity]. split; [exact L|exists t; auto].
    + intros (g & H & Sc). apply K in H. destruct H as [[_ ->]|[N _]]; [apply kindType_schema in Sc; congruence|]. destruct N. split; [exact L|exists t0; apply kindType_schema; auto].
Qed.
Lemma Deref_iter n t : Deref (Nat.iter n TPtr t) = Deref t.
Proof. induction n; cbn; auto. Qed.
Lemma Deref_struct t fs : Deref t = TStruct fs -> exists n, t = Nat.iter n TPtr (TStruct fs).
Proof.
  induction t as [gs|t IH|k]; cbn; intros E; try discriminate; [exists 0%nat; exact E|]. destruct (IH E) as [n ->]. exists (S n). reflexivity.
Qed.
(** A nil interface panics; a struct, or pointers to one (nil or not), gives the last supported field of every name; anything
    else gives the nil map. *)
Theorem C72_fields :
  StructToFields None = Panic /\
  (forall v n fs, typeOf v = Nat.iter n TPtr (TStruct fs) ->
     exists m, StructToFields (Some v) = Ok (Some m) /\
       forall name t, mget m name = Some t <-> exists f, last_with (fun f => named name f /\ exists t, schema (fKind f) t) fs f /\ schema (fKind f) t) /\
  (forall v, (forall n fs, typeOf v <> Nat.iter n TPtr (TStruct fs)) -> StructToFields (Some v) = Ok None).
Proof.
  split; [reflexivity|]. split.
  - intros v n fs E. unfold Tilejson_Model.StructToFields. rewrite E, Deref_iter. cbn [Deref]. eexists. split; [reflexivity|]. intros name t. apply (fields_fold_get fs).
  - intros v N. unfold Tilejson_Model.StructToFields. destruct (Deref (typeOf v)) as [fs|t|k] eqn:E; auto. destruct (Deref_struct _ _ E) as [n E']. destruct (N n fs E').
Qed.
Definition props_fold (fs : list (field * A)) := fold_left (fun acc fa =>
        let! props := acc in
        match TagLookup Unquote (fTag (fst fa)) (B "name") with
        | Some name => if fExported (fst fa) then Ok (mset props name (snd fa)) else Panic
        | None => Ok props
        end) fs (Ok []).
Definition readable (fs : list (field * A)) : Prop := forall f a name, In (f, a) fs -> named name f -> fExported f = true.
Lemma props_fold_get fs : match props_fold fs with
  | Ok m => readable fs /\ forall name a, mget m name = Some a <-> exists f, last_with (fun fa => named name (fst fa)) fs (f, a)
  | Panic => ~ readable fs | NoFuel => False end.
Proof.
  induction fs as [|[f x] fs IH] using rev_ind.
  - cbn. split; [intros ? ? ? []|]. intros name a. split; [discriminate|]. intros [f H]. destruct (last_with_nil _ _ H).
  - assert (S : props_fold (fs ++ [(f, x)]) = let! props := props_fold fs in match TagLookup Unquote (fTag f) (B "name") with Some name => if fExported f then Ok (mset props name x) else Panic | None => Ok props end).
    { unfold props_fold. rewrite fold_left_app. reflexivity. }
    rewrite S. clear S. destruct (props_fold fs) as [m| |]; cbn [bind]; auto.
    2:{ intros Rd. apply IH. intros g a name H. apply (Rd g a name). apply in_app_iff. auto. }
    destruct IH as [Rd IH]. assert (K : forall name g, last_with (fun fa => named name (fst fa)) (fs ++ [(f, x)]) g <-> _) by (intros name g; apply last_with_snoc). cbn [fst] in K. unfold named in K at 2 3.
    destruct (TagLookup Unquote (fTag f) (B "name")) as [nm|] eqn:L.
    + destruct (fExported f) eqn:Ex.
      * split. { intros g a name H N. apply in_app_iff in H. destruct H as [H|[H|[]]]; [eapply Rd; eauto|]. injection H as -> ->. auto. }
        intros name a. rewrite mget_mset. destruct (seqb_spec name nm) as [->|N].
        -- split; [intros E; injection E as ->; exists f; apply K; left; auto|]. intros [g H]. apply K in H. destruct H as [[_ E]|[N _]]; congruence.
        -- rewrite IH. split; intros [g H]; exists g; [apply K; right; split; auto; congruence|]. apply K in H. destruct H as [[E _]|[_ H]]; [congruence|auto].
      * intros Rd'. specialize (Rd' f x nm). rewrite Ex in Rd'. discriminate Rd'; [apply in_app_iff; right; left; auto|exact L].
    + split. { intros g a name H N. apply in_app_iff in H. destruct H as [H|[H|[]]]; [eapply Rd; eauto|]. injection H as -> ->. unfold named in N. congruence. }
      intros name a. rewrite IH. split; intros [g H]; exists g; [apply K; right; split; auto; congruence|]. apply K in H. destruct H as [[E _]|[_ H]]; [congruence|auto].
Qed.
Lemma Indirect_iter n (v : gval A) : Indirect (Nat.iter n VPtr v) = Indirect v.
Proof. induction n; cbn; auto. Qed.
Lemma Indirect_struct (v : gval A) fs : Indirect v = Some (VStruct fs) -> exists n, v = Nat.iter n VPtr (VStruct fs).
Proof.
  induction v as [gs|v IH|t|k]; cbn; intros E; try discriminate; [exists 0%nat; injection E as ->; reflexivity|]. destruct (IH E) as [n ->]. exists (S n). reflexivity.
Qed.
Lemma Indirect_not_ptr (v w : gval A) : Indirect v <> Some (VPtr w).
Proof. induction v; cbn; congruence. Qed.
(** Properties: the last tagged field of every name, whatever its kind; an unexported tagged field panics; a nil interface, a
    nil pointer or no struct gives the nil map. *)
Theorem C72_properties :
  StructToProperties None = Ok None /\
  (forall n fs, (readable fs <-> StructToProperties (Some (Nat.iter n VPtr (VStruct fs))) <> Panic) /\
     (readable fs -> exists m, StructToProperties (Some (Nat.iter n VPtr (VStruct fs))) = Ok (Some m) /\
        forall name a, mget m name = Some a <-> exists f, last_with (fun fa => named name (fst fa)) fs (f, a))) /\
  (forall v, (forall n fs, v <> Nat.iter n VPtr (VStruct fs)) -> StructToProperties (Some v) = Ok None).
Proof.
  split; [reflexivity|]. split.
  - intros n fs. unfold Tilejson_Model.StructToProperties. rewrite Indirect_iter. cbn [Indirect]. fold (props_fold fs). pose proof (props_fold_get fs) as K. destruct (props_fold fs) as [m| |]; cbn [bind]; [|tauto|contradiction].
    destruct K as [Rd K]. split; [split; [discriminate|auto]|]. intros _. exists m. auto.
  - intros v N. unfold Tilejson_Model.StructToProperties. destruct (Indirect v) as [[fs|w|t|k]|] eqn:E; auto. destruct (Indirect_struct _ _ E) as [n E']. destruct (N n fs E').
Qed.
Lemma last_with_ex {X} (P : X -> Prop) (dec : forall x, P x \/ ~ P x) l x : In x l -> P x -> exists y, last_with P l y.
Proof.
  induction l as [|z l IH] using rev_ind; [contradiction|]. intros H Px. destruct (dec z) as [Pz|Nz]; [exists z; apply last_with_snoc; auto|].
  apply in_app_iff in H. destruct H as [H|[->|[]]]; [|contradiction]. destruct (IH H Px) as [y Hy]. exists y. apply last_with_snoc. auto.
Qed.
Lemma iter_typeOf n (v : gval A) : typeOf (Nat.iter n VPtr v) = Nat.iter n TPtr (typeOf v).
Proof. induction n as [|n IH]; [reflexivity|]. change (TPtr (typeOf (Nat.iter n VPtr v)) = TPtr (Nat.iter n TPtr (typeOf v))). rewrite IH. reflexivity. Qed.
(** The two agree: every name of the schema is a property, and a property whose field has a supported kind has that kind's
    schema type. *)
Theorem C72_agree : forall n fs m p, StructToFields (Some (Nat.iter n VPtr (VStruct fs))) = Ok (Some m) -> StructToProperties (Some (Nat.iter n VPtr (VStruct fs))) = Ok (Some p) ->
  (forall name t, mget m name = Some t -> mget p name <> None) /\
  (forall name f a t, last_with (fun fa => named name (fst fa)) fs (f, a) -> schema (fKind f) t -> mget p name = Some a /\ mget m name = Some t).
Proof.
  intros n fs m p E1 E2. destruct C72_fields as (_ & F & _). destruct (F (Nat.iter n VPtr (VStruct fs)) n (map fst fs)) as (m' & E1' & Gm); [rewrite iter_typeOf; reflexivity|].
  rewrite E1 in E1'. injection E1' as <-. destruct C72_properties as (_ & P & _). destruct (P n fs) as [Rd P'].
  destruct P' as (p' & E2' & Gp); [apply Rd; congruence|]. rewrite E2 in E2'. injection E2' as <-. split.
  - intros name t H. apply Gm in H. destruct H as (f & (l1 & l2 & E & [Nm _] & _) & _). assert (In f (map fst fs)) by (rewrite E; apply in_app_iff; right; left; auto). apply in_map_iff in H. destruct H as ([f' a] & Ef & Hf). cbn in Ef. subst f'.
    destruct (last_with_ex (fun fa => named name (fst fa)) (fun x => named_dec name (fst x)) fs (f, a) Hf Nm) as [[g b] Hg].
    intros K. assert (mget p name = Some b) by (apply Gp; exists g; auto). congruence.
  - intros name f a t H Sc. split; [apply Gp; exists f; auto|]. apply Gm. exists f. split; [|auto]. destruct H as (l1 & l2 & -> & Nm & U). exists (map fst l1), (map fst l2). split; [rewrite map_app; reflexivity|]. split; [split; [exact Nm|exists t; auto]|].
    intros y Hy [Ny _]. apply in_map_iff in Hy. destruct Hy as (fa & <- & Hy). apply (U fa Hy Ny).
Qed.
End Tags.
Print Assumptions C72_tags.
Print Assumptions C72_fields.
Print Assumptions C72_properties.
Print Assumptions C72_agree.

Definition unquote0 (s : gstr) : option gstr := Some (removelast (tl s)).
(** A later field of an unsupported kind takes over the property but not the schema entry, so the schema can be wrong: here
    "a" is declared a String and its property comes from a slice. *)
Theorem C72_shadow_refuted : exists (fs : list (field * Z)) m p,
  StructToFields unquote0 (Some (VStruct fs)) = Ok (Some m) /\ StructToProperties unquote0 (Some (VStruct fs)) = Ok (Some p) /\
  mget m (B "a") = Some FieldTypeString /\ mget p (B "a") = Some 2 /\ (forall f, In (f, 2) fs -> fKind f = KSlice) /\ mget m (B "b") = None /\ mget p (B "b") = Some 3.
Proof.
  exists [(mkField (B "name:""a""") KString true, 1); (mkField (B "json:""x"" name:""a""") KSlice true, 2); (mkField (B "name:""b""") KUintptr true, 3)].
  do 2 eexists. split; [vm_compute; reflexivity|]. split; [vm_compute; reflexivity|]. split; [reflexivity|]. split; [reflexivity|]. split; [|split; reflexivity].
  intros f H. cbn in H. destruct H as [H|[H|[H|[]]]]; try discriminate. injection H as <-. reflexivity.
Qed.
Print Assumptions C72_shadow_refuted.
Example C72_nonvacuous :
  StructToFields unquote0 (Some (VPtr (VStruct [(mkField (B "name:""a""") KString true, 1); (mkField (B "json:""a""") KInt true, 2); (mkField (B "json:""q""  name:""c""") KUint8 false, 2)]))) = Ok (Some [(B "a", FieldTypeString); (B "c", FieldTypeNumber)]) /\
  StructToProperties unquote0 (Some (VPtr (VStruct [(mkField (B "name:""a""") KString true, 1); (mkField (B "json:""a""") KInt true, 2)]))) = Ok (Some [(B "a", 1)]) /\
  StructToProperties unquote0 (Some (VStruct [(mkField (B "name:""a""") KString false, 1)])) = Panic /\
  StructToProperties (A := Z) unquote0 (Some (VNilPtr (TStruct []))) = Ok None /\ StructToFields (A := Z) unquote0 (Some (VNilPtr (TStruct []))) = Ok (Some []) /\
  key_ok (B "json") /\ body_ok (B "a\""b").
Proof.
  repeat (split; [vm_compute; reflexivity|]). split.
  - split; [discriminate|]. let x := eval vm_compute in (B "json") in change (B "json") with x. repeat (apply Forall_cons; [lia|]). constructor.
  - apply body_plain; try discriminate. apply body_esc. apply body_plain; try discriminate. constructor.
Qed.
