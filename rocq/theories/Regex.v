(** Regular expressions of package regexp as used by this repository: character classes, concatenation, greedy repetition
    of a class, greedy optional parts, capture groups and end of text.  Go's regexp finds the leftmost match and among those
    the one backtracking would find first (Perl order), so a match is the first element of the list of all matches in
    backtracking order.  Strings are bytes: every class used here contains all or none of the bytes of a non-ASCII rune. *)
From Coq Require Import String ZArith List Lia Bool.
From Verif Require Import GoBase Json.
Import ListNotations.
Open Scope Z_scope.

Inductive re :=
| Chr (p : Z -> bool)
| Seq (a b : re)
| Star (p : Z -> bool)
| Opt (r : re)
| Grp (n : nat) (r : re)
| Eps
| EndText.
Definition caps := list (nat * gstr).

Fixpoint star (p : Z -> bool) (s : gstr) : list gstr :=
  match s with
  | c :: t => if p c then star p t ++ [s] else [s]
  | [] => [[]]
  end.
(** All matches of [r] at the start of [s], in backtracking order: captures and remaining text *)
Fixpoint rmatch (r : re) (s : gstr) : list (caps * gstr) :=
  match r with
  | Chr p => match s with c :: t => if p c then [([], t)] else [] | [] => [] end
  | Seq a b => flat_map (fun '(c1, t) => map (fun '(c2, u) => (c1 ++ c2, u)) (rmatch b t)) (rmatch a s)
  | Star p => map (fun t => ([], t)) (star p s)
  | Opt a => rmatch a s ++ [([], s)]
  | Grp n a => map (fun '(c, t) => ((n, firstn (length s - length t) s) :: c, t)) (rmatch a s)
  | Eps => [([], s)]
  | EndText => match s with [] => [([], [])] | _ => [] end
  end.
(** Leftmost match *)
Fixpoint search (r : re) (s : gstr) : option caps :=
  match rmatch r s with
  | (c, _) :: _ => Some c
  | [] => match s with [] => None | _ :: t => search r t end
  end.
(** Text of a group; a group that took no part is the empty string *)
Fixpoint group (n : nat) (c : caps) : gstr :=
  match c with [] => [] | (k, v) :: c' => if Nat.eqb n k then v else group n c' end.

Fixpoint lit (s : gstr) : re := match s with [] => Eps | c :: t => Seq (Chr (Z.eqb c)) (lit t) end.
Definition plus (p : Z -> bool) : re := Seq (Chr p) (Star p).
Fixpoint seqs (l : list re) : re := match l with [] => Eps | [r] => r | r :: l' => Seq r (seqs l') end.

Definition digit (c : Z) : bool := (48 <=? c) && (c <=? 57).
(** \s *)
Definition space (c : Z) : bool := (c =? 32) || ((9 <=? c) && (c <=? 10)) || ((12 <=? c) && (c <=? 13)).
Definition alnum (c : Z) : bool := digit c || ((65 <=? c) && (c <=? 90)) || ((97 <=? c) && (c <=? 122)).

(** ** What a match is *)

Inductive M : re -> gstr -> caps -> gstr -> Prop :=
| M_chr p c t : p c = true -> M (Chr p) (c :: t) [] t
| M_seq a b s t u c1 c2 : M a s c1 t -> M b t c2 u -> M (Seq a b) s (c1 ++ c2) u
| M_star p x t : forallb p x = true -> M (Star p) (x ++ t) [] t
| M_opt_some a s c t : M a s c t -> M (Opt a) s c t
| M_opt_none a s : M (Opt a) s [] s
| M_grp n a x t c : M a (x ++ t) c t -> M (Grp n a) (x ++ t) ((n, x) :: c) t
| M_eps s : M Eps s [] s
| M_end : M EndText [] [] [].

Lemma star_in p s t : In t (star p s) <-> exists x, s = x ++ t /\ forallb p x = true.
Proof.
  revert t. induction s as [|c s IH]; intros t; cbn [star].
  - split; [intros [<-|[]]; exists []; auto|]. intros (x & E & _). destruct x; [left; auto|discriminate].
  - destruct (p c) eqn:Pc.
    + rewrite in_app_iff, IH. split.
      * intros [(x & -> & Hx)|[<-|[]]]; [exists (c :: x); cbn; rewrite Pc, Hx; auto|exists []; auto].
      * intros (x & E & Hx). destruct x as [|y x]; [right; left; auto|]. cbn in E. injection E as -> ->. left. exists x. split; auto. cbn in Hx. apply andb_prop in Hx. apply Hx.
    + split; [intros [<-|[]]; exists []; auto|]. intros (x & E & Hx). destruct x as [|y x]; [left; auto|]. cbn in E, Hx. injection E as -> ->. rewrite Pc in Hx. discriminate.
Qed.

Lemma M_suffix r s c t : M r s c t -> exists x, s = x ++ t.
Proof.
  induction 1 as [p c t|a b s t u c1 c2 _ [x ->] _ [y ->]|p x t|a s c t _ IH|a s|n a x t c _ _|s|]; eauto.
  - exists [c]. auto.
  - exists (x ++ y). now rewrite app_assoc.
  - exists []. auto.
  - exists []. auto.
  - exists []. auto.
Qed.

Lemma rmatch_M r : forall s c t, In (c, t) (rmatch r s) <-> M r s c t.
Proof.
  induction r as [p|a IHa b IHb|p|a IHa|n a IHa| |]; intros s c t; cbn [rmatch].
  - destruct s as [|x s]; [split; [intros []|inversion 1]|]. destruct (p x) eqn:E.
    + split; [intros [K|[]]; injection K as <- <-; constructor; auto|inversion 1; subst; left; auto].
    + split; [intros []|]. inversion 1; subst. congruence.
  - rewrite in_flat_map. split.
    + intros ((c1 & t1) & H1 & H2). apply in_map_iff in H2. destruct H2 as ((c2 & t2) & E & H2). injection E as <- <-. apply IHa in H1. apply IHb in H2. econstructor; eauto.
    + inversion 1; subst. exists (c1, t0). split; [apply IHa; auto|]. apply in_map_iff. exists (c2, t). split; auto. apply IHb. auto.
  - rewrite in_map_iff. split.
    + intros (u & E & K). injection E as <- <-. apply star_in in K. destruct K as (x & -> & K). constructor. auto.
    + inversion 1; subst. exists t. split; auto. apply star_in. eauto.
  - rewrite in_app_iff. split.
    + intros [K|[K|[]]]; [apply IHa in K; constructor; auto|injection K as <- <-; apply M_opt_none].
    + inversion 1; subst; [left; apply IHa; auto|right; left; auto].
  - rewrite in_map_iff. split.
    + intros ((c' & t') & E & K). injection E as <- <-. apply IHa in K. destruct (M_suffix _ _ _ _ K) as [x ->].
      rewrite app_length. replace (length x + length t' - length t')%nat with (length x) by lia. rewrite firstn_app, Nat.sub_diag, firstn_all. cbn [firstn]. rewrite app_nil_r. constructor. auto.
    + inversion 1; subst. exists (c0, t). split; [|apply IHa; auto]. f_equal. f_equal. f_equal.
      rewrite app_length. replace (length x + length t - length t)%nat with (length x) by lia. rewrite firstn_app, Nat.sub_diag, firstn_all. cbn [firstn]. apply app_nil_r.
  - split; [intros [K|[]]; injection K as <- <-; constructor|inversion 1; subst; left; auto].
  - destruct s; [split; [intros [K|[]]; injection K as <- <-; constructor|inversion 1; subst; left; auto]|split; [intros []|inversion 1]].
Qed.

(** A search that fails has no match anywhere; one that succeeds returns a match with no match further left. *)
Lemma search_none r s : search r s = None <-> forall x y c t, s = x ++ y -> ~ M r y c t.
Proof.
  induction s as [|a s IH]; cbn [search].
  - destruct (rmatch r []) as [|[c t] l] eqn:E.
    + split; auto. intros _ x y c t K Q. destruct x, y; try discriminate. apply rmatch_M in Q. rewrite E in Q. contradiction.
    + split; [discriminate|]. intros K. exfalso. apply (K [] [] c t eq_refl). apply rmatch_M. rewrite E. left. auto.
  - destruct (rmatch r (a :: s)) as [|[c t] l] eqn:E.
    + rewrite IH. split.
      * intros K x y c t Q R. destruct x as [|b x]; cbn in Q; [subst y; apply rmatch_M in R; rewrite E in R; contradiction|]. injection Q as _ ->. eapply K; eauto.
      * intros K x y c t Q R. apply (K (a :: x) y c t); auto. cbn. congruence.
    + split; [discriminate|]. intros K. exfalso. apply (K [] (a :: s) c t eq_refl). apply rmatch_M. rewrite E. left. auto.
Qed.
Lemma search_some r s c : search r s = Some c -> exists x y t, s = x ++ y /\ M r y c t /\ forall x' y' c' t', s = x' ++ y' -> (length x' < length x)%nat -> ~ M r y' c' t'.
Proof.
  revert c. induction s as [|a s IH]; intros c; cbn [search].
  - destruct (rmatch r []) as [|[c' t] l] eqn:E; [discriminate|]. intros K. injection K as ->. exists [], [], t. split; auto. split; [apply rmatch_M; rewrite E; left; auto|]. cbn. intros. lia.
  - destruct (rmatch r (a :: s)) as [|[c' t] l] eqn:E.
    + intros K. destruct (IH c K) as (x & y & t & -> & Q & U). exists (a :: x), y, t. split; auto. split; auto. intros x' y' c' t' E' L R.
      destruct x' as [|b x']; cbn in E'; [subst y'; apply rmatch_M in R; cbn [app] in *; rewrite E in R; contradiction|]. injection E' as _ E'. apply (U x' y' c' t' E'); auto. cbn in L. lia.
    + intros K. injection K as ->. exists [], (a :: s), t. split; auto. split; [apply rmatch_M; rewrite E; left; auto|]. cbn. intros. lia.
Qed.
Lemma search_here r s c t : M r s c t -> exists c', search r s = Some c' /\ exists t', M r s c' t'.
Proof.
  intros K. apply rmatch_M in K. destruct s as [|a s]; cbn [search]; destruct (rmatch r _) as [|[c' t'] l] eqn:E; try contradiction; exists c'; split; auto; exists t'; apply rmatch_M; rewrite E; left; auto.
Qed.

Lemma M_seq' a b s t u c1 c2 c : M a s c1 t -> M b t c2 u -> c = c1 ++ c2 -> M (Seq a b) s c u.
Proof. intros. subst. econstructor; eauto. Qed.
(** Inversions *)
Lemma M_seq_inv a b s c u : M (Seq a b) s c u -> exists t c1 c2, M a s c1 t /\ M b t c2 u /\ c = c1 ++ c2.
Proof. inversion 1; subst; eauto 8. Qed.
Lemma M_chr_inv p s c u : M (Chr p) s c u -> exists x, s = x :: u /\ p x = true /\ c = [].
Proof. inversion 1; subst; eauto. Qed.
Lemma M_star_inv p s c u : M (Star p) s c u -> exists x, s = x ++ u /\ forallb p x = true /\ c = [].
Proof. inversion 1; subst; eauto. Qed.
Lemma M_grp_inv n a s c u : M (Grp n a) s c u -> exists x c', s = x ++ u /\ M a s c' u /\ c = (n, x) :: c'.
Proof. inversion 1; subst; eauto 6. Qed.
Lemma M_end_inv s c u : M EndText s c u -> s = [] /\ u = [] /\ c = [].
Proof. inversion 1; auto. Qed.
Lemma M_eps_inv s c u : M Eps s c u -> s = u /\ c = [].
Proof. inversion 1; auto. Qed.
Lemma M_opt_inv a s c u : M (Opt a) s c u -> M a s c u \/ (u = s /\ c = []).
Proof. inversion 1; auto. Qed.
Lemma M_lit s t : forall c u, M (lit s) t c u <-> t = s ++ u /\ c = [].
Proof.
  revert t. induction s as [|x s IH]; intros t c u; cbn [lit app].
  - split; [inversion 1; auto|intros [-> ->]; constructor].
  - split.
    + intros H. apply M_seq_inv in H. destruct H as (t1 & c1 & c2 & H1 & H2 & ->). apply M_chr_inv in H1. destruct H1 as (y & -> & E & ->). apply Z.eqb_eq in E. subst y. apply IH in H2. destruct H2 as [-> ->]. auto.
    + intros [-> ->]. replace (@nil (nat * gstr)) with (@nil (nat * gstr) ++ []) by reflexivity. econstructor; [constructor; apply Z.eqb_refl|apply IH; auto].
Qed.
Lemma M_plus p s c u : M (plus p) s c u <-> exists x, x <> [] /\ s = x ++ u /\ forallb p x = true /\ c = [].
Proof.
  unfold plus. split.
  - intros H. apply M_seq_inv in H. destruct H as (t1 & c1 & c2 & H1 & H2 & ->). apply M_chr_inv in H1. destruct H1 as (y & -> & E & ->). apply M_star_inv in H2. destruct H2 as (x & -> & Hx & ->).
    exists (y :: x). split; [discriminate|]. cbn. rewrite E. auto.
  - intros (x & N & -> & Hx & ->). destruct x as [|y x]; [contradiction|]. cbn in Hx. apply andb_prop in Hx. destruct Hx as [E Hx]. cbn [app].
    replace (@nil (nat * gstr)) with (@nil (nat * gstr) ++ []) by reflexivity. econstructor; constructor; auto.
Qed.
Lemma M_grp_plus n p s c u : M (Grp n (plus p)) s c u <-> exists x, x <> [] /\ s = x ++ u /\ forallb p x = true /\ c = [(n, x)].
Proof.
  split.
  - intros H. apply M_grp_inv in H. destruct H as (x & c' & -> & H & ->). apply M_plus in H. destruct H as (y & N & E & Hy & ->). apply app_inv_tail in E. subst. eauto.
  - intros (x & N & -> & Hx & ->). constructor. apply M_plus. eauto.
Qed.

(** The longest prefix in a class is unique when the next byte is outside it *)
Lemma split_unique (p : Z -> bool) (x : gstr) c t y d u : forallb p x = true -> forallb p y = true -> p c = false -> p d = false -> x ++ c :: t = y ++ d :: u -> x = y /\ c = d /\ t = u.
Proof.
  revert y. induction x as [|a x IH]; intros [|b y] Hx Hy Hc Hd E; cbn in *.
  - injection E as -> ->. auto.
  - injection E as -> E. apply andb_prop in Hy. destruct Hy. congruence.
  - injection E as <- E. apply andb_prop in Hx. destruct Hx. congruence.
  - injection E as -> E. apply andb_prop in Hx. apply andb_prop in Hy. destruct Hx as [_ Hx]. destruct Hy as [_ Hy]. destruct (IH y Hx Hy Hc Hd E) as (-> & -> & ->). auto.
Qed.
