(** Properties C100-C104: what style documents decode to, and when decoding fails. *)
From Coq Require Import String ZArith Reals List Lia Lra Bool.
From Verif Require Import GoBase Num TileR_Model Raster_Model Json Style_Model Regex Color_Model StyleJson_Model StyleJson_Proofs.
Import ListNotations.
Open Scope Z_scope.

(** * Specification *)
(** A JSON stop [zoom, value] (further elements are ignored) and the stop it stands for *)
Definition num_stop_doc (j : json) (s : numStop) : Prop := exists rest, j = JArr (JNum (nsZoom s) :: JNum (nsValue s) :: rest).
Definition col_stop_doc (j : json) (s : option colStop) : Prop :=
  match s with
  | None => j = JNull
  | Some s => exists c rest, j = JArr (JNum (csZoom s) :: JStr c :: rest) /\ strToColor c 255 = Val (csColor s)
  end.
(** A "base" member: absent or null for none *)
Definition base_doc (j : json) (base : option R) : Prop := match base with None => j = JNull | Some r => j = JNum r end.
(** A "stops" member *)
Definition stops_doc {S} (stop : json -> S -> Prop) (j : json) (stops : list S) : Prop :=
  (j = JNull /\ stops = []) \/ exists docs, j = JArr docs /\ Forall2 stop docs stops.
Definition string_or_null (j : json) : Prop := j = JNull \/ exists s, j = JStr s.
Definition float_or_null (j : json) : Prop := j = JNull \/ exists r, j = JNum r.

(** * Numbers *)
Lemma distinct_num : distinct [(B "type", TString); (B "base", TPtr TFloat); (B "stops", TSlice (TCustom KNumStop))].
Proof. unfold distinct. vm_compute. repeat constructor; cbn; intuition discriminate. Qed.
Lemma distinct_col : distinct [(B "stops", TSlice (TPtr (TCustom KColStop))); (B "base", TPtr TFloat)].
Proof. unfold distinct. vm_compute. repeat constructor; cbn; intuition discriminate. Qed.

Lemma num_stop_unmarshal x v : stop_custom KNumStop x = Val v <-> exists s, v = GNumStop s /\ num_stop_doc x s.
Proof.
  unfold stop_custom, numericStopUnmarshal, num_stop_doc. split.
  - destruct x as [|b|r|s|[|a [|b l]]|l]; cbn [unmarshal_pair obind]; try discriminate.
    + destruct a; cbn [obind]; discriminate.
    + destruct a; cbn [obind]; try discriminate. destruct b; cbn [obind]; try discriminate. intros H. inversion H; subst. eexists. split; [reflexivity|]. cbn. eauto.
  - intros ([z w] & -> & rest & ->). reflexivity.
Qed.
Lemma col_stop_unmarshal x v : stop_custom KColStop x = Val v <-> exists s, v = GColStop s /\ col_stop_doc x (Some s).
Proof.
  unfold stop_custom, colorStopUnmarshal, col_stop_doc. split.
  - destruct x as [|b|r|s|[|a [|b l]]|l]; cbn [unmarshal_pair obind]; try discriminate.
    + destruct a; cbn [obind]; discriminate.
    + destruct a; cbn [obind]; try discriminate. destruct b; cbn [obind]; try discriminate.
      destruct (strToColor s 255) as [c| |] eqn:E; cbn [obind]; try discriminate. intros H. inversion H; subst. eexists. split; [reflexivity|]. cbn. eauto.
  - intros ([z c0] & -> & c & rest & -> & E). cbn [unmarshal_pair obind csZoom]. rewrite E. reflexivity.
Qed.

Lemma field_value custom fs j v n t : uniq j -> distinct fs -> In (n, t) fs -> Unmarshal custom (TStruct fs) j = Val v ->
  Unmarshal custom t JNull = Val GZero -> Unmarshal custom t (doc_field n j) = Val (gfield n v).
Proof. intros U. apply field_value_flat. apply uniq_flat. exact U. Qed.
Lemma by_name custom fs l : uniq (JObj l) -> distinct fs ->
  ((exists v, Unmarshal custom (TStruct fs) (JObj l) = Val v) <->
   forall n t, In (n, t) fs -> has_field n (JObj l) -> exists w, Unmarshal custom t (doc_field n (JObj l)) = Val w).
Proof. intros U. apply by_name_flat. apply uniq_flat. exact U. Qed.
Lemma base_value custom j v : Unmarshal custom (TPtr TFloat) j = Val v -> base_doc j (float_ptr v).
Proof.
  intros H. apply ptr_good in H. destruct H as [[-> ->]|(N & w & -> & H)]; [reflexivity|]. apply float_good in H.
  destruct H as [[-> _]|(r & -> & ->)]; [contradiction|reflexivity].
Qed.
Lemma base_unmarshal custom j : (exists v, Unmarshal custom (TPtr TFloat) j = Val v) <-> exists b, base_doc j b.
Proof.
  split.
  - intros [v H]. eexists. eapply base_value; eauto.
  - intros [[r|] E]; cbn in E; subst j; eexists; reflexivity.
Qed.
Lemma base_doc_fun j b b' : base_doc j b -> base_doc j b' -> b = b'.
Proof. destruct b, b'; cbn; intros; congruence. Qed.
Lemma num_stops_value j v : Unmarshal stop_custom (TSlice (TCustom KNumStop)) j = Val v -> stops_doc num_stop_doc j (map num_stop_of (slice_of v)).
Proof.
  intros H. apply slice_good in H. destruct H as [[-> ->]|(l & vs & -> & -> & F)]; [left; auto|]. right. exists l. split; [reflexivity|]. cbn [slice_of].
  induction F as [|x y l vs Hx F IH]; constructor; [|exact IH]. apply custom_good in Hx. apply num_stop_unmarshal in Hx. destruct Hx as (s & -> & Hx). exact Hx.
Qed.
Lemma col_stops_value j v : Unmarshal stop_custom (TSlice (TPtr (TCustom KColStop))) j = Val v -> stops_doc col_stop_doc j (map col_stop_of (slice_of v)).
Proof.
  intros H. apply slice_good in H. destruct H as [[-> ->]|(l & vs & -> & -> & F)]; [left; auto|]. right. exists l. split; [reflexivity|]. cbn [slice_of].
  induction F as [|x y l vs Hx F IH]; constructor; [|exact IH]. apply ptr_good in Hx. destruct Hx as [[-> ->]|(N & w & -> & Hx)]; [reflexivity|].
  apply custom_good in Hx. apply col_stop_unmarshal in Hx. destruct Hx as (s & -> & Hx). exact Hx.
Qed.
Lemma num_stops_unmarshal j stops : stops_doc num_stop_doc j stops -> exists v, Unmarshal stop_custom (TSlice (TCustom KNumStop)) j = Val v.
Proof.
  intros [[-> ->]|(docs & -> & F)]; [eexists; reflexivity|]. exists (GSlice (map GNumStop stops)). apply slice_good. right. exists docs, (map GNumStop stops).
  split; [reflexivity|split; [reflexivity|]]. induction F; constructor; auto. apply custom_good, num_stop_unmarshal. eauto.
Qed.
Lemma col_stops_unmarshal j stops : stops_doc col_stop_doc j stops -> exists v, Unmarshal stop_custom (TSlice (TPtr (TCustom KColStop))) j = Val v.
Proof.
  intros [[-> ->]|(docs & -> & F)]; [eexists; reflexivity|].
  exists (GSlice (map (fun s => match s with Some s => GPtr (GColStop s) | None => GZero end) stops)). apply slice_good. right. do 2 eexists.
  split; [reflexivity|split; [reflexivity|]]. induction F as [|x s l stops Hx F IH]; constructor; auto. destruct s as [s|].
  - apply ptr_good. right. split; [destruct Hx as (c & rest & -> & _); discriminate|]. eexists. split; [reflexivity|]. apply custom_good, col_stop_unmarshal. eauto.
  - cbn in Hx. subst x. reflexivity.
Qed.
Lemma num_stop_fun j s s' : num_stop_doc j s -> num_stop_doc j s' -> s = s'.
Proof. destruct s, s'. intros [r ->] [r' E]. cbn in E. inversion E; subst; reflexivity. Qed.
Lemma col_stop_fun j s s' : col_stop_doc j s -> col_stop_doc j s' -> s = s'.
Proof.
  destruct s as [[z c]|], s' as [[z' c']|]; cbn; auto.
  - intros (a & r & -> & E) (a' & r' & E1 & E'). inversion E1; subst. congruence.
  - intros (a & r & -> & E) E1. discriminate.
  - intros -> (a & r & E1 & E). discriminate.
Qed.
Lemma stops_doc_fun {S} (stop : json -> S -> Prop) (Hf : forall j s s', stop j s -> stop j s' -> s = s') j l l' : stops_doc stop j l -> stops_doc stop j l' -> l = l'.
Proof.
  intros [[-> ->]|(d & -> & F)] [[E ->]|(d' & E & F')]; try discriminate; [reflexivity|]. inversion E; subst d'. clear E.
  revert l' F'. induction F; intros l2 F'; inversion F'; subst; [reflexivity|]. f_equal; eauto.
Qed.
Theorem C100_reads : forall l base stops, uniq (JObj l) ->
  (numberUnmarshal (JObj l) = Val (NumFunction base stops) <->
   base_doc (doc_field (B "base") (JObj l)) base /\ stops_doc num_stop_doc (doc_field (B "stops") (JObj l)) stops /\
   string_or_null (doc_field (B "type") (JObj l))).
Proof.
  intros l base stops U. unfold numberUnmarshal.
  assert (V : forall v, Unmarshal stop_custom NumericFunctionT (JObj l) = Val v ->
    base_doc (doc_field (B "base") (JObj l)) (float_ptr (gfield (B "base") v)) /\
    stops_doc num_stop_doc (doc_field (B "stops") (JObj l)) (map num_stop_of (slice_of (gfield (B "stops") v))) /\ string_or_null (doc_field (B "type") (JObj l))).
  { intros v H. split; [|split].
    - eapply base_value. eapply field_value; [exact U|exact distinct_num| |exact H|reflexivity]. right; left; reflexivity.
    - apply num_stops_value. eapply field_value; [exact U|exact distinct_num| |exact H|reflexivity]. right; right; left; reflexivity.
    - assert (T : Unmarshal stop_custom TString (doc_field (B "type") (JObj l)) = Val (gfield (B "type") v))
        by (eapply field_value; [exact U|exact distinct_num| |exact H|reflexivity]; left; reflexivity).
      apply string_good in T. destruct T as [[E _]|(s & E & _)]; [left|right]; eauto. }
  split.
  - destruct (Unmarshal stop_custom NumericFunctionT (JObj l)) as [v| |] eqn:E; cbn [obind]; try discriminate. intros H. inversion H; subst. apply V. reflexivity.
  - intros (H1 & H2 & H3).
    assert (exists v, Unmarshal stop_custom NumericFunctionT (JObj l) = Val v) as [v Hv].
    { apply (by_name stop_custom _ l U distinct_num). intros n t [E|[E|[E|[]]]] _; inversion E; subst.
      - destruct H3 as [->|[s ->]]; eexists; reflexivity.
      - apply base_unmarshal. eauto.
      - eapply num_stops_unmarshal. eauto. }
    rewrite Hv. cbn [obind]. destruct (V v Hv) as (V1 & V2 & _). rewrite (base_doc_fun _ _ _ V1 H1), (stops_doc_fun _ num_stop_fun _ _ _ V2 H2). reflexivity.
Qed.

(** Where a function object can fail: at its stops *)
Section Stops.
  Variable custom : cty -> json -> out gv.
  Variable fs : list (gstr * ty).
  Variable te : ty. Variable kind : cty.
  Hypothesis D : distinct fs.
  Hypothesis Hs : In (B "stops", TSlice te) fs.
  Hypothesis Hte : te = TCustom kind \/ te = TPtr (TCustom kind).
  Hypothesis Hother : forall n t, In (n, t) fs -> n = B "stops" \/ t = TString \/ t = TPtr TFloat.

  Lemma te_reach y q c x : reach te y q (TCustom c) x <-> q = [] /\ c = kind /\ x = y /\ (te <> TCustom kind -> y <> JNull).
  Proof.
    destruct Hte as [->| ->]; split.
    - intros H. inversion H; subst. repeat split; auto.
    - intros (-> & -> & -> & _). constructor.
    - intros H. inversion H as [|? ? ? ? ? N H1| | | |]; subst. inversion H1; subst. repeat split; auto.
    - intros (-> & -> & -> & N). apply reach_ptr; [apply N; discriminate|constructor].
  Qed.
  Lemma stops_reach l p c x : uniq (JObj l) -> reach (TStruct fs) (JObj l) p (TCustom c) x <->
    exists i m k docs, p = [i; m] /\ nth_error l i = Some (k, JArr docs) /\ same_key (B "stops") k /\ nth_error docs m = Some x /\ c = kind /\ (te <> TCustom kind -> x <> JNull).
  Proof.
    intros U. split.
    - intros H. inversion H as [|?|?|?|?|fs0 l0 i k y n t p0 t0 j0 A1 A2 A3]; subst. apply field_of_in in A2; [|exact D]. destruct A2 as [A2 Sk].
      destruct (Hother n t A2) as [->|[->| ->]].
      + assert (t = TSlice te) as ->.
        { assert (field_of fs k = Some (B "stops", t)) by (apply field_of_in; auto).
          assert (field_of fs k = Some (B "stops", TSlice te)) by (apply field_of_in; auto). congruence. }
        inversion A3 as [|?|t1 docs m z q t2 j2 B1 B2|?|?|?]; subst. apply te_reach in B2. destruct B2 as (-> & -> & -> & N). exists i, m, k, docs. auto 8.
      + inversion A3.
      + inversion A3 as [|? ? ? ? ? ? A4|?|?|?|?]; subst. inversion A4.
    - intros (i & m & k & docs & -> & Hi & Sk & Hm & -> & N). eapply reach_field; [exact Hi|apply field_of_in; [exact D|split; [exact Hs|exact Sk]]|].
      eapply reach_elem; [exact Hm|]. apply te_reach. auto.
  Qed.
  Lemma stops_failure l o : uniq (JObj l) ->
    (first_failure custom (TStruct fs) (JObj l) o <->
     exists pre x post, doc_field (B "stops") (JObj l) = JArr (pre ++ x :: post) /\ custom kind x = o /\ (te <> TCustom kind -> x <> JNull) /\
       Forall (fun y => (te <> TCustom kind /\ y = JNull) \/ exists g, custom kind y = Val g) pre).
  Proof.
    intros U. split.
    - intros (p & c & x & H1 & H2 & H3). apply stops_reach in H1; [|exact U]. destruct H1 as (i & m & k & docs & -> & Hi & Sk & Hm & -> & N).
      rewrite (doc_field_in _ l k (JArr docs) (uniq_flat _ U) (nth_error_In _ _ Hi) Sk).
      destruct (nth_error_split docs m Hm) as (pre & post & -> & Hl). exists pre, x, post. split; [reflexivity|split; [exact H2|split; [exact N|]]].
      apply Forall_forall. intros y Hy. apply In_nth_error in Hy. destruct Hy as [m' Hm'].
      assert (m' < length pre)%nat as Hlt by (apply nth_error_Some; congruence).
      assert (NJ : y = JNull \/ y <> JNull) by (destruct y; [left; reflexivity|right; discriminate..]).
      assert (R : (te <> TCustom kind -> y <> JNull) -> exists g, custom kind y = Val g).
      { intros Ny. apply (H3 [i; m'] kind y); [|apply before_tl; constructor; lia]. apply stops_reach; [exact U|].
        exists i, m', k, (pre ++ x :: post). rewrite nth_error_app1 by exact Hlt. auto 8. }
      destruct Hte as [Et|Et].
      + right. apply R. intros F. exfalso. apply F. exact Et.
      + destruct NJ as [->|NJ]; [left; split; [rewrite Et; discriminate|reflexivity]|right; apply R; auto].
    - intros (pre & x & post & Hd & H2 & N & F).
      destruct (has_dec (B "stops") (JObj l)) as [(l' & k & y & E & Hy & Sk)|No]; [|rewrite absent in Hd by exact No; discriminate].
      inversion E; subst l'. rewrite (doc_field_in _ l k y (uniq_flat _ U) Hy Sk) in Hd. subst y. apply In_nth_error in Hy. destruct Hy as [i Hi].
      exists [i; length pre], kind, x. split; [|split; [exact H2|]].
      + apply stops_reach; [exact U|]. exists i, (length pre), k, (pre ++ x :: post). rewrite nth_error_app2, Nat.sub_diag by lia. cbn. auto 8.
      + intros p' c' x' H1' Hb. apply stops_reach in H1'; [|exact U]. destruct H1' as (i' & m' & k' & docs & -> & Hi' & Sk' & Hm' & -> & N').
        assert (i' = i).
        { inversion U as [| | | | |? ND _]; subst. unfold same_key in *. apply (proj1 (NoDup_nth_error _) ND).
          - apply nth_error_Some. rewrite nth_error_map, Hi'. discriminate.
          - rewrite !nth_error_map, Hi, Hi'. cbn. congruence. }
        subst i'. rewrite Hi in Hi'. inversion Hi'; subst k' docs.
        inversion Hb as [|? ? ? ? Hlt|? ? ? Hb']; subst; [lia|]. inversion Hb' as [|? ? ? ? Hlt|? ? ? Hb'']; subst; [|inversion Hb''].
        rewrite nth_error_app1 in Hm' by exact Hlt. apply nth_error_In in Hm'. rewrite Forall_forall in F. destruct (F _ Hm') as [[Nt ->]|G]; [|exact G].
        exfalso. apply N'; auto.
  Qed.
End Stops.

(** A stop that makes the decoder panic: null, or an array that does not start with two numbers *)
Definition num_stop_panics (j : json) : Prop := (j = JNull \/ exists l, j = JArr l) /\ forall s, ~ num_stop_doc j s.
Lemma num_stop_crash x : stop_custom KNumStop x = Crash <-> num_stop_panics x.
Proof.
  unfold num_stop_panics. split.
  - intros H. split.
    + destruct x as [|b|r|s|l|l]; try (cbn in H; discriminate); eauto.
    + intros s Hs. assert (stop_custom KNumStop x = Val (GNumStop s)) by (apply num_stop_unmarshal; eauto). congruence.
  - intros [H1 H2]. destruct (stop_custom KNumStop x) as [v| |] eqn:E; [|exfalso|reflexivity].
    + apply num_stop_unmarshal in E. destruct E as (s & _ & E). exfalso. eapply H2; eauto.
    + unfold stop_custom, numericStopUnmarshal in E. destruct H1 as [->|[l ->]]; [discriminate|]. destruct l as [|a [|b l]]; cbn [unmarshal_pair obind] in E; try discriminate;
        destruct a; try discriminate. destruct b; discriminate.
Qed.
Lemma num_fs_other n t : In (n, t) [(B "type", TString); (B "base", TPtr TFloat); (B "stops", TSlice (TCustom KNumStop))] -> n = B "stops" \/ t = TString \/ t = TPtr TFloat.
Proof. intros [E|[E|[E|[]]]]; inversion E; auto. Qed.

Theorem C100_outcomes :
  (forall r, numberUnmarshal (JNum r) = Val (PlainNumber r)) /\
  (forall j, (forall r, j <> JNum r) -> (forall l, j <> JObj l) -> numberUnmarshal j = Crash) /\
  (forall l, uniq (JObj l) ->
    (numberUnmarshal (JObj l) = Crash <->
     exists pre x post, doc_field (B "stops") (JObj l) = JArr (pre ++ x :: post) /\ num_stop_panics x /\ Forall (fun y => exists s, num_stop_doc y s) pre)).
Proof.
  split; [reflexivity|split].
  - intros j H1 H2. destruct j as [| |r| | |l]; try reflexivity; [exfalso; eapply H1|exfalso; eapply H2]; eauto.
  - intros l U. unfold numberUnmarshal.
    assert (E : obind (Unmarshal stop_custom NumericFunctionT (JObj l)) (fun v => Val (NumFunction (float_ptr (gfield (B "base") v)) (map num_stop_of (slice_of (gfield (B "stops") v))))) = Crash
      <-> Unmarshal stop_custom NumericFunctionT (JObj l) = Crash) by (destruct (Unmarshal stop_custom NumericFunctionT (JObj l)); cbn [obind]; split; congruence).
    rewrite E. clear E. rewrite (proj1 (unmarshal_outcome stop_custom NumericFunctionT (JObj l))). unfold NumericFunctionT.
    rewrite (stops_failure stop_custom _ (TCustom KNumStop) KNumStop distinct_num (or_intror (or_intror (or_introl eq_refl))) (or_introl eq_refl) num_fs_other l Crash U).
    split; intros (pre & x & post & H1 & H2 & H3).
    + destruct H3 as [_ H3]. exists pre, x, post. rewrite <- num_stop_crash. split; [exact H1|split; [exact H2|]]. eapply Forall_impl; [|exact H3]. cbn beta.
      intros y [[F _]|[g Hg]]; [contradiction|]. apply num_stop_unmarshal in Hg. destruct Hg as (s & _ & Hg). eauto.
    + exists pre, x, post. rewrite num_stop_crash. split; [exact H1|split; [exact H2|split; [intros F; contradiction|]]]. eapply Forall_impl; [|exact H3]. cbn beta.
      intros y [s Hs]. right. exists (GNumStop s). apply num_stop_unmarshal. eauto.
Qed.
(** Evaluating what was read *)
Theorem C100_evaluates : forall j n z, uniq j -> numberUnmarshal j = Val n ->
  (NumberAtZoom (Some n) z = Panic <-> exists l, j = JObj l /\ (doc_field (B "stops") j = JNull \/ doc_field (B "stops") j = JArr [])) /\
  (forall r, j = JNum r -> NumberAtZoom (Some n) z = Ok r) /\
  (forall s0 rest, stops_doc num_stop_doc (doc_field (B "stops") j) (s0 :: rest) -> (z < nsZoom s0)%R -> NumberAtZoom (Some n) z = Ok 0%R) /\
  NumberAtZoom None z = Ok 0%R.
Proof.
  intros j n z U H. destruct j as [| |r| | |l]; try discriminate.
  - inversion H; subst. split; [split; [discriminate|intros (l & E & _); discriminate]|]. split; [intros r' E; inversion E; reflexivity|].
    split; [|reflexivity]. intros s0 rest [[_ E]|(d & E & _)] _; discriminate.
  - assert (exists b st, n = NumFunction b st) as (b & st & ->).
    { unfold numberUnmarshal in H. destruct (Unmarshal _ _ _); cbn [obind] in H; inversion H. eauto. }
    apply C100_reads in H; [|exact U]. destruct H as (_ & H & _). cbn [NumberAtZoom]. split; [|split; [discriminate|split; [|reflexivity]]].
    + split.
      * intros E. exists l. split; [reflexivity|]. destruct st as [|s0 st]; [|cbn [NumGet] in E; destruct (Rltb z (nsZoom s0)); discriminate].
        destruct H as [[H _]|(d & H & F)]; [left; exact H|right]. inversion F; subst. exact H.
      * intros (l' & _ & [E|E]).
        -- destruct H as [[_ ->]|(d & H & _)]; [reflexivity|congruence].
        -- destruct H as [[H _]|(d & H & F)]; [congruence|]. rewrite E in H. inversion H; subst. inversion F; subst. reflexivity.
    + intros s0 rest Hd Hz. rewrite (stops_doc_fun _ num_stop_fun _ _ _ H Hd). cbn [NumGet]. destruct (Rltb_spec z (nsZoom s0)); [reflexivity|lra].
Qed.
(** The type and the property of a function are ignored: an interval function is interpolated *)
Definition interval_doc : json := JObj [(B "type", JStr (B "interval")); (B "stops", JArr [JArr [JNum 0; JNum 0]; JArr [JNum 10; JNum 10]])].
Theorem C100_type_ignored_refuted :
  ~ (forall l a b z n, doc_field (B "type") (JObj l) = JStr (B "interval") -> stops_doc num_stop_doc (doc_field (B "stops") (JObj l)) [a; b] ->
      numberUnmarshal (JObj l) = Val n -> (nsZoom a <= z < nsZoom b)%R -> NumberAtZoom (Some n) z = Ok (nsValue a)).
Proof.
  intros F. specialize (F [(B "type", JStr (B "interval")); (B "stops", JArr [JArr [JNum 0; JNum 0]; JArr [JNum 10; JNum 10]])] (mkNS 0 0) (mkNS 10 10) 5%R
    (NumFunction None [mkNS 0 0; mkNS 10 10]) eq_refl).
  assert (H : NumberAtZoom (Some (NumFunction None [mkNS 0 0; mkNS 10 10])) 5 = Ok 0%R).
  { apply F; [right; eexists; split; [reflexivity|]; repeat constructor; eexists; reflexivity|reflexivity|cbn; lra]. }
  cbn [NumberAtZoom NumGet nsZoom nsValue num_loop] in H. destruct (Rltb_spec 5 0); [lra|]. destruct (Rleb_spec 10 5); [lra|]. inversion H as [E].
  unfold getNumericValueBetweenStops, getExponentialPercentage in E. cbn [nsZoom nsValue the_base] in E.
  destruct (Reqb_spec (10 - 0) 0); [lra|]. destruct (Reqb_spec 1 1); [|lra]. rewrite (Rabs_right (10 - 0)) in E by lra. lra.
Qed.
Ltac uniq_tac := repeat (constructor; cbn -[B fold_key]; try (vm_compute; intuition discriminate)).
Example C100_nonvacuous :
  uniq interval_doc /\ numberUnmarshal interval_doc = Val (NumFunction None [mkNS 0 0; mkNS 10 10]) /\
  numberUnmarshal (JObj [(B "STOPS", JArr [JArr [JNum 3; JNum 4; JNull]]); (B "Base", JNum 2)]) = Val (NumFunction (Some 2%R) [mkNS 3 4]) /\
  numberUnmarshal (JObj [(B "stops", JArr [JArr [JNum 3]])]) = Crash /\ numberUnmarshal (JObj [(B "stops", JArr [JNum 3; JArr [JNum 3]])]) = Err.
Proof. split; [unfold interval_doc; uniq_tac|repeat split; reflexivity]. Qed.
Print Assumptions C100_reads.

(** * Colours *)
Lemma col_fs_other n t : In (n, t) [(B "stops", TSlice (TPtr (TCustom KColStop))); (B "base", TPtr TFloat)] -> n = B "stops" \/ t = TString \/ t = TPtr TFloat.
Proof. intros [E|[E|[]]]; inversion E; auto. Qed.
Theorem C101_reads : forall l base stops, uniq (JObj l) ->
  (colorUnmarshal (JObj l) = Val (ColorStops base stops) <->
   base_doc (doc_field (B "base") (JObj l)) base /\ stops_doc col_stop_doc (doc_field (B "stops") (JObj l)) stops).
Proof.
  intros l base stops U. unfold colorUnmarshal.
  assert (V : forall v, Unmarshal stop_custom ColorStopsT (JObj l) = Val v ->
    base_doc (doc_field (B "base") (JObj l)) (float_ptr (gfield (B "base") v)) /\
    stops_doc col_stop_doc (doc_field (B "stops") (JObj l)) (map col_stop_of (slice_of (gfield (B "stops") v)))).
  { intros v H. split.
    - eapply base_value. eapply field_value; [exact U|exact distinct_col| |exact H|reflexivity]. right; left; reflexivity.
    - apply col_stops_value. eapply field_value; [exact U|exact distinct_col| |exact H|reflexivity]. left; reflexivity. }
  split.
  - destruct (Unmarshal stop_custom ColorStopsT (JObj l)) as [v| |] eqn:E; cbn [obind]; try discriminate. intros H. inversion H; subst. apply V. reflexivity.
  - intros (H1 & H2).
    assert (exists v, Unmarshal stop_custom ColorStopsT (JObj l) = Val v) as [v Hv].
    { apply (by_name stop_custom _ l U distinct_col). intros n t [E|[E|[]]] _; inversion E; subst.
      - eapply col_stops_unmarshal. eauto.
      - apply base_unmarshal. eauto. }
    rewrite Hv. cbn [obind]. destruct (V v Hv) as (V1 & V2). rewrite (base_doc_fun _ _ _ V1 H1), (stops_doc_fun _ col_stop_fun _ _ _ V2 H2). reflexivity.
Qed.
(** A colour stop that makes the decoder panic: an array that does not start with a number and a string, or whose
    string makes the colour parser panic *)
Definition col_stop_panics (j : json) : Prop :=
  exists l, j = JArr l /\ forall z c rest, l = JNum z :: JStr c :: rest -> strToColor c 255 = Crash.
Lemma col_stop_crash x : (stop_custom KColStop x = Crash /\ x <> JNull) <-> col_stop_panics x.
Proof.
  unfold col_stop_panics, stop_custom, colorStopUnmarshal. split.
  - intros [H N]. destruct x as [|b|r|s|l|l]; try (cbn in H; discriminate); [contradiction|]. exists l. split; [reflexivity|].
    intros z c rest ->. cbn [unmarshal_pair obind] in H. destruct (strToColor c 255); cbn [obind] in H; congruence.
  - intros (l & -> & H). split; [|discriminate]. destruct l as [|a [|b l]]; cbn [unmarshal_pair obind]; try reflexivity; destruct a; try reflexivity.
    destruct b; try reflexivity. rewrite (H _ _ _ eq_refl). reflexivity.
Qed.
Theorem C101_outcomes :
  (forall s c, colorUnmarshal (JStr s) = Val c <-> exists c0, strToColor s 255 = Val c0 /\ c = PlainColor c0) /\
  (forall s, colorUnmarshal (JStr s) = Crash <-> strToColor s 255 = Crash) /\
  (forall j, (forall s, j <> JStr s) -> (forall l, j <> JObj l) -> colorUnmarshal j = Crash) /\
  (forall l, uniq (JObj l) ->
    (colorUnmarshal (JObj l) = Crash <->
     exists pre x post, doc_field (B "stops") (JObj l) = JArr (pre ++ x :: post) /\ col_stop_panics x /\ Forall (fun y => exists s, col_stop_doc y s) pre)).
Proof.
  split; [|split; [|split]].
  - intros s c. cbn [colorUnmarshal]. destruct (strToColor s 255) as [c0| |]; cbn [obind]; split; try discriminate; try (intros (? & E & _); discriminate).
    + intros H. inversion H. eauto.
    + intros (c1 & E & ->). inversion E. reflexivity.
  - intros s. cbn [colorUnmarshal]. destruct (strToColor s 255) as [c0| |]; cbn [obind]; split; congruence.
  - intros j H1 H2. destruct j as [| |r|s| |l]; try reflexivity; [exfalso; eapply H1|exfalso; eapply H2]; eauto.
  - intros l U. unfold colorUnmarshal.
    assert (E : obind (Unmarshal stop_custom ColorStopsT (JObj l)) (fun v => Val (ColorStops (float_ptr (gfield (B "base") v)) (map col_stop_of (slice_of (gfield (B "stops") v))))) = Crash
      <-> Unmarshal stop_custom ColorStopsT (JObj l) = Crash) by (destruct (Unmarshal stop_custom ColorStopsT (JObj l)); cbn [obind]; split; congruence).
    rewrite E. clear E. rewrite (proj1 (unmarshal_outcome stop_custom ColorStopsT (JObj l))). unfold ColorStopsT.
    rewrite (stops_failure stop_custom _ (TPtr (TCustom KColStop)) KColStop distinct_col (or_introl eq_refl) (or_intror eq_refl) col_fs_other l Crash U).
    split; intros (pre & x & post & H1 & H2 & H3).
    + destruct H3 as [N H3]. exists pre, x, post. rewrite <- col_stop_crash. split; [exact H1|split; [split; [exact H2|apply N; discriminate]|]].
      eapply Forall_impl; [|exact H3]. cbn beta.
      intros y [[_ ->]|[g Hg]]; [exists None; reflexivity|]. apply col_stop_unmarshal in Hg. destruct Hg as (s & _ & Hg). eauto.
    + apply col_stop_crash in H2. exists pre, x, post. split; [exact H1|split; [apply H2|split; [intros _; apply H2|]]]. eapply Forall_impl; [|exact H3]. cbn beta.
      intros y [[s|] Hs]; [right; exists (GColStop s); apply col_stop_unmarshal; eauto|left; split; [discriminate|exact Hs]].
Qed.
Lemma colp_some base z pre : forall this, colp_loop base z this (map Some pre) = col_loop base z this pre.
Proof. induction pre as [|n pre IH]; intros this; cbn [map colp_loop col_loop]; [reflexivity|]. destruct (Rleb (csZoom n) z); auto. Qed.
Lemma colp_nil base z pre post : forall this,
  colp_loop base z this (map Some pre ++ None :: post) = if forallb (fun s => Rleb (csZoom s) z) pre then Panic else col_loop base z this pre.
Proof.
  induction pre as [|n pre IH]; intros this; cbn [map app colp_loop col_loop forallb]; [reflexivity|].
  destruct (Rleb (csZoom n) z); cbn [andb]; [apply IH|reflexivity].
Qed.
(** Evaluation: a null stop panics exactly at the zooms that reach it; the rest is as for the stops without it *)
Theorem C101_evaluates : forall base pre z,
  ColorAtZoom (Some (ColorStops base (map Some pre))) z = ColGet base pre z /\
  (forall post, (forall s, In s pre -> (csZoom s <= z)%R) -> ColorAtZoom (Some (ColorStops base (map Some pre ++ None :: post))) z = Panic) /\
  (forall post, (exists s, In s pre /\ (z < csZoom s)%R) -> ColorAtZoom (Some (ColorStops base (map Some pre ++ None :: post))) z = ColGet base pre z) /\
  (forall c, ColorAtZoom (Some (PlainColor c)) z = Ok c) /\ ColorAtZoom None z = Ok CNil.
Proof.
  intros base pre z. cbn [ColorAtZoom]. split; [|split; [|split; [|split; reflexivity]]].
  - destruct pre as [|s0 pre]; [reflexivity|]. cbn [map ColGetP ColGet]. destruct (Rltb z (csZoom s0)); [reflexivity|apply colp_some].
  - intros post H. destruct pre as [|s0 pre]; [reflexivity|]. cbn [map app ColGetP]. destruct (Rltb_spec z (csZoom s0)) as [L|_]; [specialize (H s0 (or_introl eq_refl)); lra|].
    rewrite colp_nil. replace (forallb _ pre) with true; [reflexivity|]. symmetry. apply forallb_forall. intros s Hs.
    destruct (Rleb_spec (csZoom s) z) as [|L]; [reflexivity|]. specialize (H s (or_intror Hs)). lra.
  - intros post (s & Hs & Hz). destruct pre as [|s0 pre]; [destruct Hs|]. cbn [map app ColGetP ColGet]. destruct (Rltb_spec z (csZoom s0)) as [_|L]; [reflexivity|].
    destruct Hs as [->|Hs]; [lra|]. rewrite colp_nil. replace (forallb _ pre) with false; [reflexivity|]. symmetry. apply not_true_is_false. intros F.
    rewrite forallb_forall in F. specialize (F s Hs). destruct (Rleb_spec (csZoom s) z); [lra|discriminate].
Qed.
Definition ramp_doc : json := JObj [(B "base", JNum 2); (B "stops", JArr [JArr [JNum 5; JStr (B "#000")]; JNull])].
Example C101_nonvacuous :
  uniq ramp_doc /\ colorUnmarshal ramp_doc = Val (ColorStops (Some 2%R) [Some (mkCS 5 (CRGBA 0 0 0 255)); None]) /\
  colorUnmarshal (JStr (B "#fff")) = Val (PlainColor (CRGBA 255 255 255 255)) /\ colorUnmarshal (JStr (B "red")) = Err /\
  colorUnmarshal (JObj [(B "stops", JArr [JArr [JNum 5]])]) = Crash /\ colorUnmarshal (JObj [(B "stops", JArr [JArr [JNum 5; JStr (B "red")]; JArr []])]) = Err.
Proof. split; [unfold ramp_doc; uniq_tac|repeat split; vm_compute; reflexivity]. Qed.

(** * The style *)
Ltac distinct_tac := unfold distinct; vm_compute; repeat (constructor; [cbn; intuition discriminate|]); constructor.
Definition style_fields := match StyleT with TStruct fs => fs | _ => [] end.
Definition layer_fields := match LayerT with TStruct fs => fs | _ => [] end.
Definition paint_fields := match PaintT with TStruct fs => fs | _ => [] end.
Definition layout_fields := match LayoutT with TStruct fs => fs | _ => [] end.
Lemma distinct_style : distinct style_fields. Proof. distinct_tac. Qed.
Lemma distinct_layer : distinct layer_fields. Proof. distinct_tac. Qed.
Lemma distinct_paint : distinct paint_fields. Proof. distinct_tac. Qed.
Lemma distinct_layout : distinct layout_fields. Proof. distinct_tac. Qed.

Definition string_doc (j : json) : gstr := match j with JStr s => s | _ => [] end.
Definition doc_layers (j : json) : list json := match doc_field (B "layers") j with JArr l => l | _ => [] end.

Lemma string_value custom fs j v n : uniq j -> distinct fs -> In (n, TString) fs -> Unmarshal custom (TStruct fs) j = Val v ->
  string_of (gfield n v) = string_doc (doc_field n j) /\ string_or_null (doc_field n j).
Proof.
  intros U D Hn H. assert (T : Unmarshal custom TString (doc_field n j) = Val (gfield n v)) by (eapply field_value; eauto).
  apply string_good in T. destruct T as [[E1 E2]|(s & E1 & E2)]; rewrite E1, E2; split; try reflexivity; [left; auto|right; eauto].
Qed.
Lemma ptr_value custom fs j v n t : uniq j -> distinct fs -> In (n, TPtr t) fs -> Unmarshal custom (TStruct fs) j = Val v ->
  match ptr_of (gfield n v) with
  | None => doc_field n j = JNull
  | Some w => gfield n v = GPtr w /\ doc_field n j <> JNull /\ Unmarshal custom t (doc_field n j) = Val w
  end.
Proof.
  intros U D Hn H. assert (T : Unmarshal custom (TPtr t) (doc_field n j) = Val (gfield n v)) by (eapply field_value; eauto; reflexivity).
  apply ptr_good in T. destruct T as [[E1 ->]|(N & w & -> & E2)]; cbn [ptr_of]; auto.
Qed.
Lemma float_value custom fs j v n : uniq j -> distinct fs -> In (n, TPtr TFloat) fs -> Unmarshal custom (TStruct fs) j = Val v ->
  base_doc (doc_field n j) (float_ptr (gfield n v)).
Proof. intros U D Hn H. eapply base_value. eapply field_value; eauto. Qed.
Lemma color_value fs j v n : uniq j -> distinct fs -> In (n, ColorT) fs -> Unmarshal style_custom (TStruct fs) j = Val v ->
  match color_of (gfield n v) with None => doc_field n j = JNull | Some c => colorUnmarshal (doc_field n j) = Val c end.
Proof.
  intros U D Hn H. pose proof (ptr_value _ _ _ _ _ _ U D Hn H) as P. unfold color_of.
  destruct (gfield n v) as [| | | | |w| | | | | | | | |]; cbn [ptr_of] in P; try exact P. destruct P as (_ & N & P). apply custom_good in P. cbn [style_custom] in P.
  destruct (colorUnmarshal (doc_field n j)) as [c| |]; cbn [obind] in P; inversion P; subst. reflexivity.
Qed.
Lemma number_value fs j v n : uniq j -> distinct fs -> In (n, NumberT) fs -> Unmarshal style_custom (TStruct fs) j = Val v ->
  match number_of (gfield n v) with None => doc_field n j = JNull | Some c => numberUnmarshal (doc_field n j) = Val c end.
Proof.
  intros U D Hn H. pose proof (ptr_value _ _ _ _ _ _ U D Hn H) as P. unfold number_of.
  destruct (gfield n v) as [| | | | |w| | | | | | | | |]; cbn [ptr_of] in P; try exact P. destruct P as (_ & N & P). apply custom_good in P. cbn [style_custom] in P.
  destruct (numberUnmarshal (doc_field n j)) as [c| |]; cbn [obind] in P; inversion P; subst. reflexivity.
Qed.
Lemma filter_value fs j v n : uniq j -> distinct fs -> In (n, TCustom KFilter) fs -> Unmarshal style_custom (TStruct fs) j = Val v ->
  match filter_of (gfield n v) with None => ~ has_field n j | Some f => has_field n j /\ unmarshalFilter (doc_field n j) = Val f end.
Proof.
  intros U D Hn H. destruct (struct_field _ _ _ _ _ _ (uniq_flat _ U) D Hn H) as [H1 H2]. destruct (has_dec n j) as [Hy|Hno].
  - specialize (H1 Hy). apply custom_good in H1. cbn [style_custom] in H1. destruct (unmarshalFilter (doc_field n j)) as [f| |]; cbn [obind] in H1; inversion H1. cbn [filter_of]. auto.
  - rewrite (H2 Hno). exact Hno.
Qed.
Ltac infield := vm_compute; repeat first [left; reflexivity | right].

Lemma layers_value j s : uniq j -> Unmarshal style_custom StyleT j = Val s ->
  Forall2 (fun x y => match y with None => x = JNull | Some v => x <> JNull /\ Unmarshal style_custom LayerT x = Val v end) (doc_layers j) (Layers s).
Proof.
  intros U H. assert (T : Unmarshal style_custom (TSlice (TPtr LayerT)) (doc_field (B "layers") j) = Val (gfield (B "layers") s)).
  { eapply field_value; [exact U|exact distinct_style| |exact H|reflexivity]. infield. }
  apply slice_good in T. unfold doc_layers, Layers. destruct T as [[E1 ->]|(l & vs & E1 & -> & F)]; rewrite E1; cbn [slice_of map]; [constructor|].
  induction F as [|x y l vs Hx F IH]; cbn [map]; constructor; [|].
  - apply ptr_good in Hx. destruct Hx as [[-> ->]|(N & w & -> & Hx)]; cbn [ptr_of]; auto.
  - revert IH. clear -F. intros IH. assert (G : forall l' vs', Forall2 (fun x y => Unmarshal style_custom (TPtr LayerT) x = Val y) l' vs' ->
      Forall2 (fun x y => match y with None => x = JNull | Some v => x <> JNull /\ Unmarshal style_custom LayerT x = Val v end) l' (map ptr_of vs')).
    { clear. intros l' vs' F. induction F as [|x y l vs Hx F IH]; constructor; auto. apply ptr_good in Hx. destruct Hx as [[-> ->]|(N & w & -> & Hx)]; cbn [ptr_of]; auto. }
    apply G. exact F.
Qed.

(** What GetBackground shows for a document *)
Inductive shows (j : json) : out background -> Prop :=
| shows_empty : doc_layers j = [] -> shows j (Val White)
| shows_null rest : doc_layers j = JNull :: rest -> shows j Crash
| shows_other f rest : doc_layers j = f :: rest -> f <> JNull -> doc_field (B "id") f <> JStr (B "background") -> shows j (Val White)
| shows_unpainted f rest : doc_layers j = f :: rest -> doc_field (B "id") f = JStr (B "background") -> doc_field (B "paint") f = JNull -> shows j Crash
| shows_none f rest : doc_layers j = f :: rest -> doc_field (B "id") f = JStr (B "background") -> doc_field (B "paint") f <> JNull ->
    doc_field (B "background-color") (doc_field (B "paint") f) = JNull -> shows j (Val (Colour CNil))
| shows_plain f rest s c : doc_layers j = f :: rest -> doc_field (B "id") f = JStr (B "background") ->
    doc_field (B "background-color") (doc_field (B "paint") f) = JStr s -> strToColor s 255 = Val c -> shows j (Val (Colour c))
| shows_stops f rest l base stops r : doc_layers j = f :: rest -> doc_field (B "id") f = JStr (B "background") ->
    doc_field (B "background-color") (doc_field (B "paint") f) = JObj l ->
    base_doc (doc_field (B "base") (JObj l)) base -> stops_doc col_stop_doc (doc_field (B "stops") (JObj l)) stops ->
    ColorAtZoom (Some (ColorStops base stops)) 0 = r -> shows j (match r with Ok c => Val (Colour c) | _ => Crash end).

Lemma shows_fun j o o' : shows j o -> shows j o' -> o = o'.
Proof.
  intros H H'. destruct H; inversion H'; subst; try congruence;
    repeat match goal with
    | A : doc_layers j = ?f :: ?r, B : doc_layers j = ?f' :: ?r' |- _ => rewrite A in B; inversion B; subst; clear B
    end; try congruence;
    try (match goal with H : doc_field _ JNull = _ |- _ => discriminate H end);
    try (match goal with A : doc_field (B "paint") ?f = JNull, H : doc_field (B "background-color") (doc_field (B "paint") ?f) = _ |- _ => rewrite A in H; discriminate H end).
  repeat match goal with A : ?x = JObj ?a, B : ?x = JObj ?b |- _ => rewrite A in B; inversion B; subst; clear B end.
  match goal with A : base_doc ?x ?b, B : base_doc ?x ?b' |- _ => pose proof (base_doc_fun _ _ _ A B); subst end.
  match goal with A : stops_doc col_stop_doc ?x ?b, B : stops_doc col_stop_doc ?x ?b' |- _ => pose proof (stops_doc_fun _ col_stop_fun _ _ _ A B); subst end.
  reflexivity.
Qed.
Lemma uniq_layer j f rest : uniq j -> doc_layers j = f :: rest -> uniq f.
Proof.
  intros U E. unfold doc_layers in E. pose proof (uniq_field (B "layers") j U) as H. destruct (doc_field (B "layers") j); try discriminate. subst.
  inversion H; subst. match goal with F : Forall uniq _ |- _ => inversion F; auto end.
Qed.
Lemma shows_calculated j s : uniq j -> Unmarshal style_custom StyleT j = Val s -> shows j (calculateBackgroundColor s).
Proof.
  intros U H. pose proof (layers_value j s U H) as F. unfold calculateBackgroundColor. destruct (doc_layers j) as [|f rest] eqn:El.
  - inversion F. apply shows_empty. exact El.
  - inversion F as [|? y ? ys Hy F']; subst. destruct y as [v|]; [|subst; eapply shows_null; eauto]. destruct Hy as [Nf Hv].
    pose proof (uniq_layer j f rest U El) as Uf.
    destruct (string_value style_custom layer_fields f v (B "id") Uf distinct_layer ltac:(infield) Hv) as [Hid Hnull]. rewrite Hid.
    destruct (seqb_spec (string_doc (doc_field (B "id") f)) (B "background")) as [E|E]; cbn [negb].
    + assert (Ei : doc_field (B "id") f = JStr (B "background")) by (destruct Hnull as [E0|[s0 E0]]; rewrite E0 in E |- *; cbn [string_doc] in E; [discriminate E|rewrite E; reflexivity]).
      pose proof (ptr_value style_custom layer_fields f v (B "paint") PaintT Uf distinct_layer ltac:(infield) Hv) as P.
      destruct (ptr_of (gfield (B "paint") v)) as [paint|]; [|eapply shows_unpainted; eauto]. destruct P as (_ & Np & Hp).
      pose proof (uniq_field (B "paint") f Uf) as Up.
      pose proof (color_value paint_fields _ paint (B "background-color") Up distinct_paint ltac:(infield) Hp) as C.
      destruct (color_of (gfield (B "background-color") paint)) as [[c|base stops]|].
      * cbn [ColorAtZoom of_res obind]. destruct (doc_field (B "background-color") (doc_field (B "paint") f)) as [| | |s0| |l] eqn:Eb; try discriminate.
        -- apply (proj1 C101_outcomes) in C. destruct C as (c0 & Ec & E0). inversion E0; subst. eapply shows_plain; eauto.
        -- unfold colorUnmarshal in C. destruct (Unmarshal stop_custom ColorStopsT (JObj l)); cbn [obind] in C; inversion C.
      * destruct (doc_field (B "background-color") (doc_field (B "paint") f)) as [| | |s0| |l] eqn:Eb; try discriminate.
        -- apply (proj1 C101_outcomes) in C. destruct C as (c0 & Ec & E0). discriminate.
        -- assert (Ub : uniq (JObj l)) by (rewrite <- Eb; apply uniq_field; exact Up). apply C101_reads in C; [|exact Ub]. destruct C as [C1 C2].
           replace (obind (of_res (ColorAtZoom (Some (ColorStops base stops)) 0)) (fun c => Val (Colour c)))
             with (match ColorAtZoom (Some (ColorStops base stops)) 0 with Ok c => Val (Colour c) | _ => Crash end)
             by (destruct (ColorAtZoom (Some (ColorStops base stops)) 0); reflexivity).
           eapply shows_stops; eauto.
      * eapply shows_none; eauto.
    + eapply shows_other; eauto. intros E0. apply E. rewrite E0. reflexivity.
Qed.

Theorem C102_background : forall j, uniq j -> (exists s, Unmarshal style_custom StyleT j = Val s) ->
  (forall b, (exists m, Parse j = Val m /\ GetBackground m = b) <-> shows j (Val b)) /\ (Parse j = Crash <-> shows j Crash) /\ Parse j <> Err /\
  (forall m, Parse j = Val m -> GetStyleID m = string_doc (doc_field (B "id") j)).
Proof.
  intros j U [s H]. pose proof (shows_calculated j s U H) as Sh. unfold Parse. rewrite H. cbn [obind]. split; [|split; [|split]].
  - intros b. split.
    + intros (m & E & <-). destruct (calculateBackgroundColor s) as [c| |]; cbn [obind] in E; try discriminate. inversion E; subst. exact Sh.
    + intros Sb. rewrite (shows_fun _ _ _ Sh Sb). cbn [obind]. eexists. split; reflexivity.
  - split.
    + intros E. destruct (calculateBackgroundColor s) as [c| |]; cbn [obind] in E; try discriminate. exact Sh.
    + intros Sb. rewrite (shows_fun _ _ _ Sh Sb). reflexivity.
  - intros E. destruct (calculateBackgroundColor s) as [c| |] eqn:Ec; cbn [obind] in E; try discriminate.
    inversion Sh; subst. match goal with Hx : match ?r with _ => _ end = Err |- _ => destruct r; discriminate end.
  - intros m E. destruct (calculateBackgroundColor s) as [c| |]; cbn [obind] in E; try discriminate. inversion E; subst. unfold GetStyleID. cbn [msStyle].
    apply (string_value style_custom style_fields j s (B "id") U distinct_style ltac:(infield) H).
Qed.
(** The layer is found by its ID and position, not by its type *)
Definition typed_doc : json :=
  JObj [(B "layers", JArr [JObj [(B "id", JStr (B "land")); (B "type", JStr (B "background")); (B "paint", JObj [(B "background-color", JStr (B "#123456"))])]])].
Theorem C102_by_type_refuted :
  ~ (forall j m f rest s c, Parse j = Val m -> doc_layers j = f :: rest -> doc_field (B "type") f = JStr (B "background") ->
      doc_field (B "background-color") (doc_field (B "paint") f) = JStr s -> strToColor s 255 = Val c -> GetBackground m = Colour c).
Proof.
  intros F. assert (exists m, Parse typed_doc = Val m /\ GetBackground m = White) as (m & E & Eb) by (eexists; split; vm_compute; reflexivity).
  specialize (F typed_doc m _ [] (B "#123456") (CRGBA 18 52 86 255) E eq_refl eq_refl eq_refl ltac:(vm_compute; reflexivity)). congruence.
Qed.
Definition land_doc : json :=
  JObj [(B "layers", JArr [JObj [(B "id", JStr (B "background")); (B "paint", JObj [(B "background-color", JStr (B "#123456"))])]; JNull]); (B "id", JStr (B "land"))].
Example C102_nonvacuous :
  uniq land_doc /\ (exists m, Parse land_doc = Val m /\ GetBackground m = Colour (CRGBA 18 52 86 255) /\ GetStyleID m = B "land") /\
  Parse (JObj [(B "layers", JArr [JNull])]) = Crash /\ Parse (JObj [(B "layers", JArr [JObj [(B "id", JStr (B "background"))]])]) = Crash /\
  (exists m, Parse JNull = Val m /\ GetBackground m = White) /\ Parse (JObj [(B "id", JNum 3)]) = Err.
Proof. split; [unfold land_doc; uniq_tac|repeat split; try (eexists; repeat split; vm_compute; reflexivity); vm_compute; reflexivity]. Qed.
Print Assumptions C102_background.

(** * When Parse fails *)
Theorem C103_outcome : forall j, uniq j ->
  (Parse j = Err <-> first_failure style_custom StyleT j Err \/ (all_fine style_custom StyleT j /\ some_mismatch StyleT j)) /\
  (Parse j = Crash <-> first_failure style_custom StyleT j Crash \/ (all_fine style_custom StyleT j /\ ~ some_mismatch StyleT j /\ shows j Crash)) /\
  ((exists m, Parse j = Val m) <-> all_fine style_custom StyleT j /\ ~ some_mismatch StyleT j /\ ~ shows j Crash).
Proof.
  intros j U. destruct (unmarshal_outcome style_custom StyleT j) as (H1 & H2 & H3).
  pose proof (C102_background j U) as Bg. rewrite <- H2. unfold Parse in *. destruct (Unmarshal style_custom StyleT j) as [s| |] eqn:E; cbn [obind] in *.
  - destruct Bg as (_ & B2 & B3 & _); [eauto|]. destruct (proj1 H3 ltac:(eauto)) as [F M].
    assert (NF : ~ first_failure style_custom StyleT j Crash) by (intros X; apply H1 in X; discriminate).
    split; [split; [intros X; contradiction|discriminate]|]. split.
    + rewrite B2. intuition.
    + split.
      * intros [m Hm]. split; [exact F|split; [exact M|]]. rewrite <- B2, Hm. discriminate.
      * intros (_ & _ & N). rewrite <- B2 in N. destruct (calculateBackgroundColor s); cbn [obind] in *; try contradiction; eauto. 
  - assert (NF : ~ first_failure style_custom StyleT j Crash) by (intros X; apply H1 in X; discriminate).
    assert (NA : ~ (all_fine style_custom StyleT j /\ ~ some_mismatch StyleT j)) by (intros X; apply H3 in X; destruct X; discriminate).
    split; [tauto|]. split; [split; [discriminate|tauto]|]. split; [intros [m Hm]; discriminate|tauto].
  - assert (F : first_failure style_custom StyleT j Crash) by (apply H1; reflexivity).
    assert (NA : ~ (all_fine style_custom StyleT j /\ ~ some_mismatch StyleT j)) by (intros X; apply H3 in X; destruct X; discriminate).
    split; [split; discriminate|]. split; [tauto|]. split; [intros [m Hm]; discriminate|tauto].
Qed.
Definition light_fields := match LightT with TStruct fs => fs | _ => [] end.
Lemma distinct_light : distinct light_fields. Proof. distinct_tac. Qed.
(** A light colour cannot be read at all *)
Theorem C103_light : forall j, uniq j -> doc_field (B "color") (doc_field (B "light") j) <> JNull -> forall m, Parse j <> Val m.
Proof.
  intros j U N m H. unfold Parse in H. destruct (Unmarshal style_custom StyleT j) as [s| |] eqn:E; cbn [obind] in H; try discriminate.
  assert (T : Unmarshal style_custom LightT (doc_field (B "light") j) = Val (gfield (B "light") s))
    by (eapply (field_value style_custom style_fields); [exact U|exact distinct_style|infield|exact E|reflexivity]).
  assert (T2 : Unmarshal style_custom TIface (doc_field (B "color") (doc_field (B "light") j)) = Val (gfield (B "color") (gfield (B "light") s)))
    by (eapply (field_value style_custom light_fields); [apply uniq_field; exact U|exact distinct_light|infield|exact T|reflexivity]).
  destruct (doc_field (B "color") (doc_field (B "light") j)); try discriminate. contradiction.
Qed.
(** Nor can an expression (an array) for a number or a colour *)
Theorem C103_expressions : forall j f n e, uniq j -> In f (doc_layers j) ->
  (In (n, NumberT) paint_fields \/ In (n, ColorT) paint_fields) -> doc_field n (doc_field (B "paint") f) = JArr e -> forall m, Parse j <> Val m.
Proof.
  intros j f n e U Hf Hn He m H. unfold Parse in H. destruct (Unmarshal style_custom StyleT j) as [s| |] eqn:E; cbn [obind] in H; try discriminate.
  pose proof (layers_value j s U E) as F. apply In_nth_error in Hf. destruct Hf as [i Hi].
  assert (Uf : uniq f).
  { unfold doc_layers in Hi. pose proof (uniq_field (B "layers") j U) as Ul. destruct (doc_field (B "layers") j); try (destruct i; discriminate).
    inversion Ul as [| | | |? Fl|]; subst. rewrite Forall_forall in Fl. apply Fl. eapply nth_error_In; eauto. }
  assert (exists y, nth_error (Layers s) i = Some y /\ match y with None => f = JNull | Some v => f <> JNull /\ Unmarshal style_custom LayerT f = Val v end) as (y & _ & Hy).
  { revert i Hi. clear -F. induction F as [|a b l l' Hab F IH]; intros i Hi; [destruct i; discriminate|]. destruct i as [|i]; cbn [nth_error] in *; [|auto].
    inversion Hi; subst. eauto. }
  destruct y as [v|]; [|subst f; discriminate]. destruct Hy as [Nf Hv].
  pose proof (ptr_value style_custom layer_fields f v (B "paint") PaintT Uf distinct_layer ltac:(infield) Hv) as P.
  destruct (ptr_of (gfield (B "paint") v)) as [paint|]; [|rewrite P in He; discriminate]. destruct P as (_ & Np & Hp).
  pose proof (uniq_field (B "paint") f Uf) as Up.
  destruct Hn as [Hn|Hn].
  - pose proof (number_value paint_fields _ paint n Up distinct_paint Hn Hp) as C. rewrite He in C. destruct (number_of (gfield n paint)); discriminate.
  - pose proof (color_value paint_fields _ paint n Up distinct_paint Hn Hp) as C. rewrite He in C. destruct (color_of (gfield n paint)); discriminate.
Qed.
(** A correct style with an expression panics; Parse does not return an error *)
Definition expression_doc : json :=
  JObj [(B "layers", JArr [JObj [(B "id", JStr (B "road")); (B "type", JStr (B "line")); (B "paint", JObj [(B "line-width", JArr [JStr (B "zoom")])])]])].
Theorem C103_panics_refuted : ~ (forall j, uniq j -> Parse j <> Crash).
Proof. intros F. apply (F expression_doc); [unfold expression_doc; uniq_tac|vm_compute; reflexivity]. Qed.
Example C103_nonvacuous :
  (exists m, Parse (JObj [(B "light", JObj [(B "anchor", JStr (B "map"))]); (B "sprite", JNull)]) = Val m) /\
  Parse (JObj [(B "light", JObj [(B "color", JStr (B "#fff"))])]) = Err /\
  Parse (JObj [(B "light", JObj [(B "color", JStr (B "#fff"))]); (B "layers", JArr [JObj [(B "filter", JNull)]])]) = Crash /\
  Parse (JObj [(B "layers", JArr [JObj [(B "filter", JBool true)]; JObj [(B "filter", JNull)]])]) = Err /\
  Parse (JObj [(B "layers", JArr [JObj [(B "filter", JNull)]; JObj [(B "filter", JBool true)]])]) = Crash.
Proof. repeat split; try (eexists; vm_compute; reflexivity); vm_compute; reflexivity. Qed.

(** * What a parsed style holds *)
(** One decoded layer and its document *)
(** The members of a layer, by kind *)
Definition layer_strings : list gstr := [B "id"; B "source"; B "source-layer"; B "type"].
Definition paint_colours : list gstr := [B "background-color"; B "fill-color"; B "line-color"; B "fill-outline-color"; B "text-color"; B "text-halo-color"].
Definition paint_numbers : list gstr := [B "fill-opacity"; B "line-gap-width"; B "line-opacity"; B "line-width"].
Definition layout_numbers : list gstr := [B "text-size"; B "icon-size"].
Ltac names := let H := fresh in intros ? H; cbn [In layer_strings paint_colours paint_numbers layout_numbers] in H; decompose [or] H; try contradiction; subst; cbn; intuition.
Lemma layer_strings_in : forall n, In n layer_strings -> In (n, TString) layer_fields. Proof. names. Qed.
Lemma paint_colours_in : forall n, In n paint_colours -> In (n, ColorT) paint_fields. Proof. names. Qed.
Lemma paint_numbers_in : forall n, In n paint_numbers -> In (n, NumberT) paint_fields. Proof. names. Qed.
Lemma layout_numbers_in : forall n, In n layout_numbers -> In (n, NumberT) layout_fields. Proof. names. Qed.
Definition layer_agrees (f : json) (v : gv) : Prop :=
  (forall n, In n layer_strings -> string_of (gfield n v) = string_doc (doc_field n f)) /\
  base_doc (doc_field (B "minzoom") f) (float_ptr (gfield (B "minzoom") v)) /\ base_doc (doc_field (B "maxzoom") f) (float_ptr (gfield (B "maxzoom") v)) /\
  match filter_of (gfield (B "filter") v) with None => ~ has_field (B "filter") f | Some g => unmarshalFilter (doc_field (B "filter") f) = Val g end /\
  match ptr_of (gfield (B "paint") v) with
  | None => doc_field (B "paint") f = JNull
  | Some p => forall n,
      (In n paint_colours -> match color_of (gfield n p) with None => doc_field n (doc_field (B "paint") f) = JNull | Some c => colorUnmarshal (doc_field n (doc_field (B "paint") f)) = Val c end) /\
      (In n paint_numbers -> match number_of (gfield n p) with None => doc_field n (doc_field (B "paint") f) = JNull | Some c => numberUnmarshal (doc_field n (doc_field (B "paint") f)) = Val c end)
  end /\
  (forall n, In n layout_numbers ->
     match number_of (gfield n (gfield (B "layout") v)) with None => doc_field n (doc_field (B "layout") f) = JNull | Some c => numberUnmarshal (doc_field n (doc_field (B "layout") f)) = Val c end).
Theorem C104_layers : forall j s, uniq j -> Unmarshal style_custom StyleT j = Val s ->
  Forall2 (fun f y => match y with None => f = JNull | Some v => f <> JNull /\ layer_agrees f v end) (doc_layers j) (Layers s).
Proof.
  intros j s U H. pose proof (layers_value j s U H) as F.
  assert (Ul : Forall uniq (doc_layers j)).
  { unfold doc_layers. pose proof (uniq_field (B "layers") j U) as Ul. destruct (doc_field (B "layers") j); try constructor. inversion Ul; auto. }
  induction F as [|f y l ys Hy F IH]; constructor; [|apply IH; inversion Ul; auto].
  destruct y as [v|]; [|exact Hy]. destruct Hy as [N Hv]. split; [exact N|]. assert (Uf : uniq f) by (inversion Ul; auto). unfold layer_agrees.
  split; [|split; [|split; [|split; [|split]]]].
  - intros n Hn. apply (string_value style_custom layer_fields f v n Uf distinct_layer (layer_strings_in n Hn) Hv).
  - apply (float_value style_custom layer_fields f v (B "minzoom") Uf distinct_layer ltac:(infield) Hv).
  - apply (float_value style_custom layer_fields f v (B "maxzoom") Uf distinct_layer ltac:(infield) Hv).
  - pose proof (filter_value layer_fields f v (B "filter") Uf distinct_layer ltac:(infield) Hv) as P. destruct (filter_of (gfield (B "filter") v)); tauto.
  - pose proof (ptr_value style_custom layer_fields f v (B "paint") PaintT Uf distinct_layer ltac:(infield) Hv) as P.
    destruct (ptr_of (gfield (B "paint") v)) as [p|]; [|exact P]. destruct P as (_ & Np & Hp). pose proof (uniq_field (B "paint") f Uf) as Up.
    intros n. split; intros Hn; [eapply (color_value paint_fields)|eapply (number_value paint_fields)]; eauto using distinct_paint, paint_colours_in, paint_numbers_in.
  - assert (T : Unmarshal style_custom LayoutT (doc_field (B "layout") f) = Val (gfield (B "layout") v))
      by (eapply (field_value style_custom layer_fields); [exact Uf|exact distinct_layer|infield|exact Hv|reflexivity]).
    pose proof (uniq_field (B "layout") f Uf) as Up. intros n Hn. eapply (number_value layout_fields); eauto using distinct_layout, layout_numbers_in.
Qed.
(** How a key spells a name of lower-case letters and hyphens: any case, and the long s (U+017F) and the Kelvin
    sign (U+212A) for s and k *)
Inductive spells : gstr -> gstr -> Prop :=
| sp_nil : spells [] []
| sp_same c n k : spells n k -> spells (c :: n) (c :: k)
| sp_capital c n k : 97 <= c <= 122 -> spells n k -> spells (c :: n) (c - 32 :: k)
| sp_long_s n k : spells n k -> spells (115 :: n) (197 :: 191 :: k)
| sp_kelvin n k : spells n k -> spells (107 :: n) (226 :: 132 :: 170 :: k).
Definition plain_name (n : gstr) : Prop := Forall (fun c => c = 45 \/ 97 <= c <= 122) n.
Lemma fold_plain c s : c <> 197 -> c <> 226 -> fold_key (c :: s) = upper_byte c :: fold_key s.
Proof. intros H1 H2. destruct c as [|p|p]; try reflexivity. do 8 (destruct p as [p|p|]; try reflexivity; try congruence). Qed.
Lemma fold_197 c s : c <> 191 -> fold_key (197 :: c :: s) = 197 :: fold_key (c :: s).
Proof. intros H1. destruct c as [|p|p]; try reflexivity. do 8 (destruct p as [p|p|]; try reflexivity; try congruence). Qed.
Lemma fold_226 s : (forall s', s <> 132 :: 170 :: s') -> fold_key (226 :: s) = 226 :: fold_key s.
Proof.
  intros H. destruct s as [|c s]; try reflexivity. destruct c as [|p|p]; try reflexivity. do 8 (destruct p as [p|p|]; try reflexivity).
  destruct s as [|c s]; try reflexivity. destruct c as [|p|p]; try reflexivity. do 8 (destruct p as [p|p|]; try reflexivity). exfalso. apply (H s). reflexivity.
Qed.
Lemma upper_spec c : (97 <= c <= 122 /\ upper_byte c = c - 32) \/ (~ 97 <= c <= 122 /\ upper_byte c = c).
Proof. unfold upper_byte. destruct (Z.leb_spec 97 c); destruct (Z.leb_spec c 122); cbn [andb]; lia. Qed.
Lemma fold_inv u r k : u < 128 -> fold_key k = u :: r ->
  (exists k', k = 197 :: 191 :: k' /\ u = 83 /\ fold_key k' = r) \/ (exists k', k = 226 :: 132 :: 170 :: k' /\ u = 75 /\ fold_key k' = r) \/
  (exists d k', k = d :: k' /\ upper_byte d = u /\ fold_key k' = r).
Proof.
  intros Hu H. destruct k as [|d k]; [discriminate|]. destruct (Z.eq_dec d 197) as [->|N1].
  - destruct k as [|c k]; [injection H as E _; assert (u = 197) by (rewrite <- E; reflexivity); lia|]. destruct (Z.eq_dec c 191) as [->|N2].
    + left. exists k. injection H as <- <-. auto.
    + rewrite fold_197 in H by auto. injection H as <- _. lia.
  - destruct (Z.eq_dec d 226) as [->|N2].
    + assert (D : (exists s', k = 132 :: 170 :: s') \/ forall s', k <> 132 :: 170 :: s').
      { destruct k as [|c1 [|c2 k]]; try (right; intros; discriminate). destruct (Z.eq_dec c1 132) as [->|]; [|right; intros s' E; congruence].
        destruct (Z.eq_dec c2 170) as [->|]; [eauto|right; intros s' E; congruence]. }
      destruct D as [[s' ->]|D].
      * right. left. exists s'. injection H as <- <-. auto.
      * rewrite fold_226 in H by auto. injection H as <- _. lia.
    + rewrite fold_plain in H by auto. injection H as <- <-. right. right. eauto.
Qed.
Lemma fold_spells n k : plain_name n -> fold_key n = fold_key k <-> spells n k.
Proof.
  intros P. split.
  - intros H. revert k H. induction P as [|c n Hc P IH]; intros k H.
    + destruct k as [|d k]; [constructor|]. exfalso. change (fold_key []) with (@nil Z) in H. symmetry in H.
      destruct (Z.eq_dec d 197) as [->|]; [destruct k as [|c k]; [discriminate|]; destruct (Z.eq_dec c 191) as [->|]; [discriminate|rewrite fold_197 in H by auto; discriminate]|].
      destruct (Z.eq_dec d 226) as [->|]; [|rewrite fold_plain in H by auto; discriminate].
      destruct k as [|c1 [|c2 k]]; [discriminate| |]; cbn [fold_key] in H;
        repeat match type of H with match ?x with _ => _ end = _ => destruct x; try discriminate end.
    + rewrite (fold_plain c) in H by lia. symmetry in H. destruct (upper_spec c) as [[R E]|[R E]]; rewrite E in H.
      * destruct (fold_inv (c - 32) (fold_key n) k ltac:(lia) H) as [(k' & -> & U & F)|[(k' & -> & U & F)|(d & k' & -> & U & F)]].
        -- replace c with 115 by lia. constructor. apply IH. auto.
        -- replace c with 107 by lia. constructor. apply IH. auto.
        -- destruct (upper_spec d) as [[Rd Ed]|[Rd Ed]].
           ++ replace d with c by lia. constructor. apply IH. auto.
           ++ replace d with (c - 32) by lia. apply sp_capital; auto.
      * destruct (fold_inv c (fold_key n) k ltac:(lia) H) as [(k' & -> & U & F)|[(k' & -> & U & F)|(d & k' & -> & U & F)]]; try lia.
        destruct (upper_spec d) as [[Rd Ed]|[Rd Ed]]; [lia|]. replace d with c by lia. constructor. apply IH. auto.
  - intros H. revert P. induction H as [|c n k H IH|c n k Hc H IH|n k H IH|n k H IH]; intros P; [reflexivity|..]; inversion P as [|? ? Hx P']; subst; specialize (IH P').
    + rewrite !fold_plain by lia. rewrite IH. reflexivity.
    + rewrite !fold_plain by lia. rewrite IH. f_equal. unfold upper_byte. destruct (Z.leb_spec 97 c); destruct (Z.leb_spec c 122); destruct (Z.leb_spec 97 (c - 32)); cbn [andb]; lia.
    + rewrite fold_plain by lia. rewrite IH. reflexivity.
    + rewrite fold_plain by lia. rewrite IH. reflexivity.
Qed.
(** The value of a name is the member whose key spells it; an object without clashing keys has at most one. *)
Theorem C104_keys : forall n k x l, plain_name n -> uniq (JObj l) ->
  (In (k, x) l -> spells n k -> doc_field n (JObj l) = x) /\
  ((forall k' x', In (k', x') l -> ~ spells n k') -> doc_field n (JObj l) = JNull).
Proof.
  intros n k x l P U. split.
  - intros H S. eapply doc_field_in; eauto using uniq_flat. apply fold_spells; auto.
  - intros H. apply doc_field_none. intros k' x' Hin S. apply (H k' x' Hin). apply fold_spells; auto.
Qed.
Example C104_keys_nonvacuous : spells (B "stroke") [83; 84; 114; 111; 226; 132; 170; 101] /\ Forall plain_name (layer_strings ++ paint_colours ++ paint_numbers ++ layout_numbers).
Proof.
  split.
  - apply (sp_capital 115); [lia|]. apply (sp_capital 116); [lia|]. do 2 apply sp_same. apply sp_kelvin. apply sp_same. apply sp_nil.
  - assert (H : forallb (forallb (fun c => (c =? 45) || ((97 <=? c) && (c <=? 122)))) (layer_strings ++ paint_colours ++ paint_numbers ++ layout_numbers) = true) by (vm_compute; reflexivity).
    rewrite forallb_forall in H. apply Forall_forall. intros n Hn. specialize (H n Hn). rewrite forallb_forall in H. apply Forall_forall. intros c Hc. specialize (H c Hc). lia.
Qed.
(** The version is checked by Validate only *)
Theorem C104_version : forall j s, uniq j -> Unmarshal style_custom StyleT j = Val s ->
  (StyleValidate s = Val tt <-> doc_field (B "version") j = JNum 8) /\ (StyleValidate s = Err <-> doc_field (B "version") j <> JNum 8).
Proof.
  intros j s U H.
  assert (T : Unmarshal style_custom TInt64 (doc_field (B "version") j) = Val (gfield (B "version") s))
    by (eapply (field_value style_custom style_fields); [exact U|exact distinct_style|infield|exact H|reflexivity]).
  assert (K : int_of (gfield (B "version") s) = 8 <-> doc_field (B "version") j = JNum 8).
  { apply unmarshal_good in T. destruct (doc_field (B "version") j) as [| |r| | |]; cbn [decode] in T; try discriminate.
    - inversion T as [T']. cbn. split; discriminate.
    - destruct (is_int _ _ r) eqn:Ei; [|discriminate]. inversion T as [T']. cbn [int_of]. apply is_int_spec in Ei. destruct Ei as (n & Hn & ->).
      replace (Int_part (IZR n)) with n.
      + split; [intros ->; reflexivity|intros E]. inversion E as [E']. apply eq_IZR in E'. exact E'.
      + unfold Int_part. destruct (archimed (IZR n)) as [A1 A2].
        assert (IZR n < IZR (up (IZR n)))%R as A3 by exact A1. apply lt_IZR in A3.
        assert (IZR (up (IZR n)) <= IZR (n + 1))%R as A4 by (rewrite plus_IZR; lra). apply le_IZR in A4. lia. }
  unfold StyleValidate. destruct (Z.eqb_spec (int_of (gfield (B "version") s)) 8) as [E|E]; cbn [negb]; rewrite <- K; split; split; intros X; try discriminate; try contradiction; auto.
Qed.
Definition roads_doc : json :=
  JObj [(B "layers", JArr [JNull; JObj [(B "id", JStr (B "road")); (B "filter", JArr [JStr (B "=="); JStr (B "class"); JStr (B "path")]); (B "maxzoom", JNum 9);
    (B "paint", JObj [(B "line-width", JNum 3); (B "line-color", JStr (B "#000"))])]])].
Example C104_nonvacuous : uniq roads_doc /\ exists s v, Unmarshal style_custom StyleT roads_doc = Val s /\ Layers s = [None; Some v] /\
  string_of (gfield (B "id") v) = B "road" /\ filter_of (gfield (B "filter") v) = Some (Comparative (B "==") (ClassC [B "path"])) /\
  float_ptr (gfield (B "maxzoom") v) = Some 9%R /\ StyleValidate s = Err.
Proof. split; [unfold roads_doc; uniq_tac|]. do 2 eexists. split; [reflexivity|]. split; [reflexivity|]. repeat split; reflexivity. Qed.
Print Assumptions C103_outcome.
Print Assumptions C104_layers.
Print Assumptions C104_keys.
