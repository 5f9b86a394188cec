(** Names of sprite files. *)
From Coq Require Import String ZArith List Lia Bool.
From Verif Require Import GoBase Json Regex StyleFile_Model.
Import ListNotations.
Open Scope Z_scope.
Ltac Zify.zify_post_hook ::= Z.to_euclidean_division_equations.

(** ** Decimal numbers *)

Lemma dec_app x d : dec (x ++ [48 + d]) = dec x * 10 + d.
Proof. unfold dec. rewrite fold_left_app. cbn [fold_left]. lia. Qed.
Lemma dec_fmt fuel : forall n, 0 <= n < 10 ^ Z.of_nat fuel -> dec (fmt_pos fuel n) = n /\ forallb digit (fmt_pos fuel n) = true /\ ((0 < fuel)%nat -> fmt_pos fuel n <> []).
Proof.
  induction fuel as [|f IH]; intros n H; cbn [fmt_pos].
  - cbn in H. assert (n = 0) by lia. subst. split; [reflexivity|]. split; [reflexivity|lia].
  - rewrite Nat2Z.inj_succ, Z.pow_succ_r in H by lia. destruct (Z.ltb_spec n 10).
    + split; [unfold dec; cbn [fold_left]; lia|]. split; [|discriminate]. cbn [forallb]. unfold digit. rewrite andb_true_r. apply andb_true_intro. split; apply Z.leb_le; lia.
    + destruct (IH (n / 10)) as (A & Bq & _). { set (p := 10 ^ Z.of_nat f) in *. clearbody p. lia. }
      split; [rewrite dec_app, A; lia|]. split; [|intros _ K; apply app_eq_nil in K; destruct K; discriminate].
      rewrite forallb_app, Bq. cbn [forallb andb]. rewrite andb_true_r. unfold digit. apply andb_true_intro. split; apply Z.leb_le; lia.
Qed.
Lemma dec_nonneg s : forallb digit s = true -> 0 <= dec s.
Proof.
  unfold dec. intros H. enough (G : forall a, 0 <= a -> 0 <= fold_left (fun a c => a * 10 + (c - 48)) s a) by (apply G; lia).
  induction s as [|c s IH]; intros a Ha; cbn [fold_left]; auto. cbn in H. apply andb_prop in H. destruct H as [Hc H]. apply IH; auto. unfold digit in Hc. apply andb_prop in Hc. lia.
Qed.

(** ** The shape of a match *)

Definition at_free (t : gstr) : Prop := ~ In 64 t.
Definition is_ext (e : gstr) : Prop := exists a, a <> [] /\ forallb alnum a = true /\ e = 46 :: a.
Definition is_digits (d : gstr) : Prop := d <> [] /\ forallb digit d = true.

Lemma at_free_forallb t : forallb (fun c => negb (c =? 64)) t = true <-> at_free t.
Proof.
  unfold at_free. rewrite forallb_forall. split.
  - intros H K. specialize (H _ K). discriminate.
  - intros H x Hx. destruct (Z.eqb_spec x 64); auto. subst. contradiction.
Qed.

(** The text from a start position on is a name, a ratio or nothing, and an extension. *)
Definition shape (y t d e : gstr) : Prop :=
  t <> [] /\ at_free t /\ is_ext e /\ ((d = [] /\ y = t ++ e) \/ (is_digits d /\ y = t ++ 64 :: d ++ 120 :: e)).

Lemma app_x d e : 64 :: d ++ 120 :: e = (64 :: d ++ [120]) ++ e.
Proof. cbn [app]. rewrite <- app_assoc. reflexivity. Qed.

Lemma match_shape y c u : M reSubFile y c u <-> exists t d e, shape y t d e /\ u = [] /\
  c = (1%nat, t) :: (if d then [] else [(2%nat, 64 :: d ++ [120]); (3%nat, d)]) ++ [(4%nat, e)].
Proof.
  unfold reSubFile. cbn [seqs]. split.
  - intros H. apply M_seq_inv in H. destruct H as (s1 & c1 & c2 & H1 & H & ->). apply M_grp_plus in H1. destruct H1 as (t & Nt & -> & Ht & ->). apply at_free_forallb in Ht.
    apply M_seq_inv in H. destruct H as (s2 & c3 & c4 & H1 & H & ->). apply M_seq_inv in H. destruct H as (s3 & c5 & c6 & H2 & H & ->).
    apply M_end_inv in H. destruct H as (-> & -> & ->). apply M_grp_inv in H2. destruct H2 as (e & c' & E & H2 & ->). rewrite app_nil_r in E. subst s2.
    apply M_seq_inv in H2. destruct H2 as (s4 & c7 & c8 & H2 & H3 & ->). apply M_chr_inv in H2. destruct H2 as (x & -> & Ex & ->). apply Z.eqb_eq in Ex. subst x. apply M_plus in H3. destruct H3 as (a & Na & -> & Ha & ->). rewrite app_nil_r in *.
    assert (IE : is_ext (46 :: a)) by (exists a; auto). cbn [app].
    apply M_opt_inv in H1. destruct H1 as [H3|[E ->]].
    + apply M_grp_inv in H3. destruct H3 as (g & c' & -> & H3 & ->). apply M_seq_inv in H3. destruct H3 as (s5 & c9 & c10 & H3 & H4 & ->). apply M_chr_inv in H3. destruct H3 as (x & E & Ex & ->). apply Z.eqb_eq in Ex. subst x.
      apply M_seq_inv in H4. destruct H4 as (s6 & c11 & c12 & H4 & H5 & ->). apply M_grp_plus in H4. destruct H4 as (d & Nd & -> & Hd & ->). apply M_chr_inv in H5. destruct H5 as (x & -> & Ex & ->). apply Z.eqb_eq in Ex. subst x.
      exists t, d, (46 :: a). split; [|split; auto].
      * split; auto. split; auto. split; auto. right. split; [split; auto|]. f_equal. exact E.
      * assert (G : g = 64 :: d ++ [120]). { apply app_inv_tail with (46 :: a). rewrite E. cbn [app]. rewrite <- app_assoc. reflexivity. } rewrite G, ?app_nil_r. destruct d; [contradiction|]. reflexivity.
    + subst s1. rewrite ?app_nil_r. exists t, [], (46 :: a). split; [|split; auto]. split; auto.
  - intros (t & d & e & (Nt & Ht & (a & Na & Ha & ->) & S) & -> & ->). apply at_free_forallb in Ht.
    assert (X4 : M (Seq (Grp 4 (Seq (Chr (Z.eqb 46)) (plus alnum))) EndText) (46 :: a) [(4%nat, 46 :: a)] []).
    { apply M_seq' with (t := []) (c1 := [(4%nat, 46 :: a)]) (c2 := []); [|constructor|reflexivity]. replace (46 :: a) with ((46 :: a) ++ []) at 1 by apply app_nil_r. constructor.
      eapply M_seq'; [constructor; reflexivity| |reflexivity]. apply M_plus. exists a. auto. }
    destruct S as [[-> ->]|[[Nd Hd] ->]].
    + eapply M_seq'; [apply M_grp_plus; exists t; repeat split; auto| |reflexivity]. eapply M_seq'; [apply M_opt_none|exact X4|reflexivity].
    + eapply (M_seq' _ _ _ _ _ [(1%nat, t)] ([(2%nat, 64 :: d ++ [120]); (3%nat, d)] ++ [(4%nat, 46 :: a)])); [apply M_grp_plus; exists t; repeat split; auto| |]. 2: { destruct d; [contradiction|]. reflexivity. }
      eapply M_seq'; [|exact X4|reflexivity]. apply M_opt_some. rewrite app_x. constructor. rewrite <- app_x.
      eapply M_seq'; [constructor; reflexivity| |reflexivity]. eapply M_seq'; [apply M_grp_plus; exists d; repeat split; auto|constructor; reflexivity|reflexivity].
Qed.

(** Everything about a match is determined by where it starts. *)
Lemma ext_unique u e u' e' : is_ext e -> is_ext e' -> u ++ e = u' ++ e' -> u = u' /\ e = e'.
Proof.
  intros (a & Na & Ha & ->) (a' & Na' & Ha' & ->) E. apply (f_equal (@rev Z)) in E. rewrite !rev_app_distr in E. cbn [rev] in E. rewrite <- !app_assoc in E. cbn [app] in E.
  assert (R : forall l, forallb alnum l = true -> forallb alnum (rev l) = true). { intros l H. rewrite forallb_forall in *. intros x Hx. apply H. apply in_rev. auto. }
  destruct (split_unique alnum (rev a) 46 (rev u) (rev a') 46 (rev u') (R _ Ha) (R _ Ha') eq_refl eq_refl E) as (E1 & _ & E2).
  apply (f_equal (@rev Z)) in E1. apply (f_equal (@rev Z)) in E2. rewrite !rev_involutive in *. subst. auto.
Qed.
Lemma digits_at_free d : forallb digit d = true -> at_free d.
Proof. intros H K. rewrite forallb_forall in H. specialize (H _ K). discriminate. Qed.
Lemma at_split t x t' x' : at_free t -> at_free t' -> t ++ 64 :: x = t' ++ 64 :: x' -> t = t' /\ x = x'.
Proof.
  intros H H' E. apply at_free_forallb in H. apply at_free_forallb in H'. destruct (split_unique (fun c => negb (c =? 64)) t 64 x t' 64 x' H H' eq_refl eq_refl E) as (A & _ & C). auto.
Qed.

Lemma shape_unique y t d e t' d' e' : shape y t d e -> shape y t' d' e' -> t = t' /\ d = d' /\ e = e'.
Proof.
  intros (Nt & Ht & He & S) (Nt' & Ht' & He' & S').
  destruct S as [[-> ->]|[[Nd Hd] ->]], S' as [[-> E]|[[Nd' Hd'] E]].
  - destruct (ext_unique _ _ _ _ He He' E) as [-> ->]. auto.
  - rewrite app_x, app_assoc in E. destruct (ext_unique _ _ _ _ He He' E) as [E1 _]. exfalso. apply Ht. rewrite E1. apply in_app_iff. right. left. auto.
  - rewrite app_x, app_assoc in E. destruct (ext_unique _ _ _ _ He He' E) as [E1 _]. exfalso. apply Ht'. rewrite <- E1. apply in_app_iff. right. left. auto.
  - rewrite (app_x d e), (app_x d' e'), !app_assoc in E. destruct (ext_unique _ _ _ _ He He' E) as [E1 ->]. destruct (at_split _ _ _ _ Ht Ht' E1) as [-> E2]. apply app_inj_tail in E2. destruct E2 as [-> _]. auto.
Qed.

(** ** C46 *)

Definition the_ratio (d : gstr) : Z := match d with [] => 1 | _ => if dec d <? 2 ^ 63 then dec d else 1 end.

Lemma ratio_ok d : ratio_of d = the_ratio d.
Proof. unfold ratio_of, the_ratio, ParseIntDigits. destruct d; auto. destruct (_ <? _); auto. Qed.
Definition ascii (s : gstr) : Prop := forall c, In c s -> 0 <= c < 128.
(** The leftmost position from which the text has the right shape decides. *)
Theorem C46_parse : forall s, ascii s ->
  (ParseStyleFile s = Err <-> forall x y t d e, s = x ++ y -> ~ shape y t d e) /\
  (forall f, ParseStyleFile s = Val f <-> exists x y t d e, s = x ++ y /\ shape y t d e /\ f = mkSF (ToLower t) (ToLower e) (the_ratio d) /\
     forall x' y' t' d' e', s = x' ++ y' -> (length x' < length x)%nat -> ~ shape y' t' d' e') /\
  ParseStyleFile s <> Crash.
Proof.
  intros s _. unfold ParseStyleFile.
  destruct (search reSubFile s) as [m|] eqn:E.
  - destruct (search_some _ _ _ E) as (x & y & u & -> & Q & U). apply match_shape in Q. destruct Q as (t & d & e & Sh & -> & ->).
    assert (G : forall f, Val f = Val (mkSF (ToLower t) (ToLower e) (the_ratio d)) <-> f = mkSF (ToLower t) (ToLower e) (the_ratio d)) by (intros; split; congruence).
    assert (G1 : group 1 ((1%nat, t) :: (if d then [] else [(2%nat, 64 :: d ++ [120]); (3%nat, d)]) ++ [(4%nat, e)]) = t) by reflexivity.
    assert (G3 : group 3 ((1%nat, t) :: (if d then [] else [(2%nat, 64 :: d ++ [120]); (3%nat, d)]) ++ [(4%nat, e)]) = d) by (destruct d; reflexivity).
    assert (G4 : group 4 ((1%nat, t) :: (if d then [] else [(2%nat, 64 :: d ++ [120]); (3%nat, d)]) ++ [(4%nat, e)]) = e) by (destruct d; reflexivity).
    rewrite G1, G3, G4, ratio_ok. split; [|split; [|discriminate]].
    + split; [discriminate|]. intros K. exfalso. eapply K; eauto.
    + assert (U' : forall x' y' t' d' e', x ++ y = x' ++ y' -> (length x' < length x)%nat -> ~ shape y' t' d' e').
      { intros x' y' t' d' e' E' L Sh'. eapply U; [exact E'|exact L|]. apply match_shape. exists t', d', e'. split; eauto. }
      intros f. split.
      * intros K. injection K as <-. exists x, y, t, d, e. auto.
      * intros (x' & y' & t' & d' & e' & E' & Sh' & -> & V). f_equal.
        assert (length x = length x'). { destruct (Nat.lt_trichotomy (length x) (length x')) as [L|[L|L]]; auto; exfalso; [apply (V x y t d e eq_refl L Sh)|apply (U' x' y' t' d' e' E' L Sh')]. }
        assert (y = y'). { apply (f_equal (skipn (length x))) in E'. rewrite skipn_app, Nat.sub_diag, skipn_all in E'. rewrite H, skipn_app, Nat.sub_diag, skipn_all in E'. exact E'. }
        subst y'. destruct (shape_unique _ _ _ _ _ _ _ Sh Sh') as (-> & -> & ->). reflexivity.
  - rewrite search_none in E. assert (N : forall x y t d e, s = x ++ y -> ~ shape y t d e). { intros x y t d e K Sh. eapply E; [exact K|]. apply match_shape. exists t, d, e. split; eauto. }
    split; [split; auto|]. split; [|discriminate]. intros f. split; [discriminate|]. intros (x & y & t & d & e & K & Sh & _). exfalso. eapply N; eauto.
Qed.
Print Assumptions C46_parse.

(** A name starts a shape at every later position too, so the leftmost one follows the last '@' before it. *)
Lemma shape_at_start y t d e : shape y t d e -> exists m, search reSubFile y = Some m /\ group 1 m = t /\ group 3 m = d /\ group 4 m = e.
Proof.
  intros Sh. destruct (search_here reSubFile y ((1%nat, t) :: (if d then [] else [(2%nat, 64 :: d ++ [120]); (3%nat, d)]) ++ [(4%nat, e)]) []) as (m & E & u & Q); [apply match_shape; eauto 8|].
  exists m. split; auto. apply match_shape in Q. destruct Q as (t' & d' & e' & Sh' & -> & ->). destruct (shape_unique _ _ _ _ _ _ _ Sh Sh') as (<- & <- & <-). destruct d; auto.
Qed.
Lemma parse_at_start y t d e : shape y t d e -> ParseStyleFile y = Val (mkSF (ToLower t) (ToLower e) (the_ratio d)).
Proof.
  intros Sh. unfold ParseStyleFile. destruct (shape_at_start _ _ _ _ Sh) as (m & -> & -> & -> & ->). f_equal. f_equal. apply ratio_ok.
Qed.

Lemma lower_idem s : ToLower (ToLower s) = ToLower s.
Proof. unfold ToLower. rewrite map_map. apply map_ext. intros c. unfold lower_byte. destruct (Z.leb_spec 65 c), (Z.leb_spec c 90); cbn [andb]; auto; try (destruct (Z.leb_spec 65 c), (Z.leb_spec c 90); cbn [andb]; auto; lia).
  destruct (Z.leb_spec 65 (c + 32)), (Z.leb_spec (c + 32) 90); cbn [andb]; auto; lia. Qed.
Lemma lower_64 c : lower_byte c = 64 <-> c = 64.
Proof. unfold lower_byte. destruct (Z.leb_spec 65 c), (Z.leb_spec c 90); cbn [andb]; lia. Qed.
Lemma lower_alnum c : alnum c = true -> alnum (lower_byte c) = true.
Proof.
  unfold alnum, digit, lower_byte. destruct (Z.leb_spec 48 c), (Z.leb_spec c 57), (Z.leb_spec 65 c), (Z.leb_spec c 90), (Z.leb_spec 97 c), (Z.leb_spec c 122); cbn [andb orb]; try discriminate; try lia; intros _;
    repeat match goal with |- context[?a <=? ?b] => destruct (Z.leb_spec a b) end; cbn [andb orb]; auto; lia.
Qed.

(** The style files that survive String followed by ParseStyleFile are exactly these. *)
Theorem C46_round_trip : forall f, ascii (SFString f) -> sfRatio f < 2 ^ 63 ->
  (ParseStyleFile (SFString f) = Val f <->
   sfType f <> [] /\ at_free (sfType f) /\ ToLower (sfType f) = sfType f /\ is_ext (sfExt f) /\ ToLower (sfExt f) = sfExt f /\ 1 <= sfRatio f).
Proof.
  intros [t e r] HA HB. cbn [sfType sfExt sfRatio] in *. split.
  - intros H. pose proof (proj1 (proj1 (proj2 (C46_parse _ HA)) _) H) as (x & y & t' & d & e' & E & (Nt & Ht & (a & Na & Ha & ->) & S) & F & _). injection F as -> -> Hr.
    split; [intros K; apply map_eq_nil in K; contradiction|]. split; [intros K; apply in_map_iff in K; destruct K as (c & K & L); apply (proj1 (lower_64 _)) in K; subst; apply Ht; auto|].
    split; [apply lower_idem|]. split.
    { exists (ToLower a). split; [intros K; apply map_eq_nil in K; contradiction|]. split; [|reflexivity]. rewrite forallb_forall in *. intros c Hc. apply in_map_iff in Hc. destruct Hc as (c' & <- & Hc). apply lower_alnum. auto. }
    split; [apply (lower_idem (46 :: a))|]. destruct (Z_le_dec 1 r) as [L|L]; auto. exfalso.
    unfold SFString in E. cbn [sfType sfExt sfRatio] in E. destruct (Z.leb_spec r 1) as [_|]; [|lia].
    assert (D : is_digits d). { destruct S as [[-> _]|[D _]]; auto. cbn in Hr. lia. }
    destruct S as [[-> _]|[[Nd Hd] ->]]; [cbn in Hr; lia|].
    assert (R0 : r = 0). { unfold the_ratio in Hr. destruct d; [contradiction|]. pose proof (dec_nonneg _ Hd). destruct (dec _ <? 2 ^ 63); lia. }
    rewrite app_x, !app_assoc in E. assert (IE : is_ext (46 :: a)) by (exists a; auto). assert (IE' : is_ext (ToLower (46 :: a))).
    { exists (ToLower a). split; [intros K; apply map_eq_nil in K; contradiction|]. split; [|reflexivity]. rewrite forallb_forall in *. intros c Hc. apply in_map_iff in Hc. destruct Hc as (c' & <- & Hc). apply lower_alnum. auto. }
    destruct (ext_unique _ _ _ _ IE' IE E) as [E1 _]. assert (K : In 64 (ToLower t')). { rewrite E1. rewrite <- app_assoc. apply in_app_iff. right. apply in_app_iff. right. left. auto. }
    apply in_map_iff in K. destruct K as (c & K & K'). apply (proj1 (lower_64 _)) in K. subst. apply Ht. auto.
  - intros (Nt & Ht & Lt & He & Le & Hr). unfold SFString. cbn [sfType sfExt sfRatio]. destruct (Z.leb_spec r 1) as [L|L].
    + rewrite (parse_at_start (t ++ e) t [] e) by (repeat split; auto). cbn [the_ratio]. rewrite Lt, Le. f_equal. f_equal. lia.
    + unfold FormatInt. destruct (Z.ltb_spec r 0); [lia|]. destruct (dec_fmt 20 r) as (D1 & D2 & D3). { change (10 ^ Z.of_nat 20) with 100000000000000000000. lia. }
      specialize (D3 ltac:(lia)). change (B "@") with [64]. change (B "x") with [120]. cbn [app].
      rewrite (parse_at_start (t ++ 64 :: fmt_pos 20 r ++ 120 :: e) t (fmt_pos 20 r) e).
      * rewrite Lt, Le. f_equal. f_equal. unfold the_ratio. destruct (fmt_pos 20 r) eqn:Q; [contradiction|]. rewrite <- Q in *. rewrite D1. destruct (Z.ltb_spec r (2 ^ 63)); lia.
      * repeat split; auto. right. repeat split; auto.
Qed.
Print Assumptions C46_round_trip.

(** Text before an earlier '@' is dropped, and a capital X makes the ratio the name. *)
Theorem C46_drops_text_refuted : ~ (forall s f, ParseStyleFile s = Val f -> ToLower s = SFString f).
Proof.
  intros H. specialize (H (B "maps@home/sprite@2x.png") (mkSF (B "home/sprite") (B ".png") 2)). assert (E : ParseStyleFile (B "maps@home/sprite@2x.png") = Val (mkSF (B "home/sprite") (B ".png") 2)) by (vm_compute; reflexivity).
  specialize (H E). vm_compute in H. discriminate.
Qed.
Print Assumptions C46_drops_text_refuted.
Example C46_nonvacuous :
  ParseStyleFile (B "sprite@2x.png") = Val (mkSF (B "sprite") (B ".png") 2) /\ ParseStyleFile (B "sprite@2X.png") = Val (mkSF (B "2x") (B ".png") 1) /\
  ParseStyleFile (B "sprite.") = Err /\ ParseStyleFile (B "a@0x.json") = Val (mkSF (B "a") (B ".json") 0).
Proof. vm_compute. auto. Qed.
