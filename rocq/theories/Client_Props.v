(** Theorems about the API client (C70, C71, C92, C93). *)
From Coq Require Import String ZArith List Lia Bool Permutation.
From Verif Require Import GoBase Json Regex StyleFile_Model Client_Model.
Import ListNotations.
Open Scope Z_scope.

(** ** C92: query strings *)

Definition bytes (s : gstr) : Prop := Forall (fun c => 0 <= c <= 255) s.
Lemma lit_bytes s : forallb (fun c => (0 <=? c) && (c <=? 255)) s = true -> bytes s.
Proof. intros H. apply Forall_forall. rewrite forallb_forall in H. intros c K. specialize (H c K). apply andb_prop in H. lia. Qed.
Definition keys (q : Values) : list gstr := map fst q.
Definition values_ok (q : Values) : Prop := NoDup (keys q) /\ Forall (fun e => bytes (fst e) /\ Forall bytes (snd e)) q.

Lemma byte_cases c : 0 <= c <= 255 -> exists n, (n < 256)%nat /\ c = Z.of_nat n.
Proof. intros H. exists (Z.to_nat c). lia. Qed.
(** Checked byte by byte *)
Definition esc1 (c : Z) : gstr := if unreserved c then [c] else if c =? 32 then [43] else [37; hex_digit (c / 16); hex_digit (c mod 16)].
Definition esc1_ok (c : Z) : bool :=
  forallb (fun x => negb (existsb (Z.eqb x) [38; 61; 59])) (esc1 c) &&
  match esc1 c with
  | [x] => negb (x =? 37) && ((if x =? 43 then 32 else x) =? c)
  | [x; a; b] => (x =? 37) && match unhex a, unhex b with Some h, Some l => h * 16 + l =? c | _, _ => false end
  | _ => false
  end.
Lemma esc1_all c : 0 <= c <= 255 -> esc1_ok c = true.
Proof.
  intros H. destruct (byte_cases c H) as (n & L & ->). assert (K : forallb (fun n => esc1_ok (Z.of_nat n)) (seq 0 256) = true) by (vm_compute; reflexivity).
  rewrite forallb_forall in K. apply K. apply in_seq. lia.
Qed.
Lemma unescape_escape s : bytes s -> QueryUnescape (QueryEscape s) = Some s.
Proof.
  induction 1 as [|c s H _ IH]; [reflexivity|]. change (QueryEscape (c :: s)) with (esc1 c ++ QueryEscape s). pose proof (esc1_all c H) as K. unfold esc1_ok in K. apply andb_prop in K. destruct K as [_ K].
  destruct (esc1 c) as [|x [|a [|b [|? ?]]]]; try discriminate.
  - apply andb_prop in K. destruct K as [K1 K2]. apply Z.eqb_eq in K2. cbn [app QueryUnescape]. destruct (x =? 37); [discriminate|]. rewrite IH, K2. reflexivity.
  - apply andb_prop in K. destruct K as [K1 K2]. cbn [app QueryUnescape]. rewrite K1. destruct (unhex a), (unhex b); try discriminate. rewrite IH. apply Z.eqb_eq in K2. rewrite K2. reflexivity.
Qed.
Lemma escape_clean s : bytes s -> forall x, In x [38; 61; 59] -> ~ In x (QueryEscape s).
Proof.
  intros Hs x Hx K. apply in_flat_map in K. destruct K as (c & Hc & K). unfold bytes in Hs. rewrite Forall_forall in Hs. pose proof (esc1_all c (Hs c Hc)) as Q. unfold esc1_ok in Q. apply andb_prop in Q. destruct Q as [Q _].
  rewrite forallb_forall in Q. specialize (Q x K). apply negb_true_iff in Q. assert (existsb (Z.eqb x) [38; 61; 59] = true) by (apply existsb_exists; exists x; split; auto; apply Z.eqb_refl). congruence.
Qed.

Lemma split_on_none sep s : ~ In sep s -> split_on sep s = [s].
Proof.
  induction s as [|c t IH]; intros H; cbn [split_on]; auto. destruct (Z.eqb_spec c sep) as [->|N]; [destruct H; left; auto|]. rewrite IH; auto. intros K. apply H. right. auto.
Qed.
Lemma split_on_app sep s t : ~ In sep s -> split_on sep (s ++ sep :: t) = s :: split_on sep t.
Proof.
  induction s as [|c s IH]; intros H; cbn [app split_on]; [rewrite Z.eqb_refl; auto|]. destruct (Z.eqb_spec c sep) as [->|N]; [destruct H; left; auto|]. rewrite IH; auto. intros K. apply H. right. auto.
Qed.
Lemma split_join_with sep l : l <> [] -> Forall (fun p => ~ In sep p) l -> split_on sep (join_with [sep] l) = l.
Proof.
  induction l as [|a l IH]; intros N H; [congruence|]. inversion H; subst. cbn [join_with]. destruct l as [|b l'].
  - apply split_on_none. auto.
  - cbn [app]. rewrite split_on_app by auto. rewrite IH; auto. discriminate.
Qed.
Lemma cut_at_app sep a b : ~ In sep a -> cut_at sep (a ++ sep :: b) = (a, b).
Proof.
  induction a as [|c a IH]; intros H; cbn [app cut_at]; [rewrite Z.eqb_refl; auto|]. destruct (Z.eqb_spec c sep) as [->|N]; [destruct H; left; auto|]. rewrite IH; auto. intros K. apply H. right. auto.
Qed.

Definition pairs (q : Values) : list (gstr * gstr) := flat_map (fun e => map (fun v => (fst e, v)) (snd e)) q.
Definition vadds (l : list (gstr * gstr)) (q : Values) : Values := fold_left (fun q '(k, v) => vadd q k v) l q.
Definition piece (p : gstr * gstr) : gstr := QueryEscape (fst p) ++ B "=" ++ QueryEscape (snd p).
Lemma Encode_pairs q : Encode q = join_with (B "&") (map piece (pairs (sort_keys q))).
Proof.
  unfold Encode, pairs. f_equal. induction (sort_keys q) as [|e l IH]; cbn [flat_map map]; auto. rewrite map_app, map_map, IH. reflexivity.
Qed.
Lemma parse_one q p : bytes (fst p) -> bytes (snd p) -> parse_piece q (piece p) = vadd q (fst p) (snd p).
Proof.
  destruct p as [k v]. cbn [fst snd]. intros Hk Hv. unfold piece. cbn [fst snd]. change (B "=" ++ QueryEscape v) with (61 :: QueryEscape v).
  pose proof (escape_clean k Hk) as Ck. pose proof (escape_clean v Hv) as Cv. unfold parse_piece.
  assert (existsb (Z.eqb 59) (QueryEscape k ++ 61 :: QueryEscape v) = false) as ->.
  { destruct (existsb (Z.eqb 59) (QueryEscape k ++ 61 :: QueryEscape v)) eqn:E; auto. apply existsb_exists in E. destruct E as (x & Hx & E). apply Z.eqb_eq in E. subst x. apply in_app_iff in Hx. destruct Hx as [Hx|[Hx|Hx]]; [destruct (Ck 59 ltac:(cbn; auto) Hx)|discriminate|destruct (Cv 59 ltac:(cbn; auto) Hx)]. }
  destruct (QueryEscape k ++ 61 :: QueryEscape v) eqn:E; [destruct (QueryEscape k); discriminate|]. rewrite <- E. rewrite cut_at_app by (apply Ck; cbn; auto). rewrite !unescape_escape by auto. reflexivity.
Qed.
Lemma parse_pairs l : Forall (fun p => bytes (fst p) /\ bytes (snd p)) l -> forall q, fold_left parse_piece (map piece l) q = vadds l q.
Proof. induction 1 as [|p l [Hk Hv] _ IH]; intros q; cbn [map fold_left vadds]; auto. rewrite parse_one by auto. rewrite IH. destruct p. reflexivity. Qed.

Lemma insert_perm e q : Permutation (insert_key e q) (e :: q).
Proof. induction q as [|f q IH]; cbn [insert_key]; auto. destruct (sleb (fst e) (fst f)); auto. rewrite IH. apply perm_swap. Qed.
Lemma sort_perm q : Permutation (sort_keys q) q.
Proof. induction q as [|e q IH]; cbn [sort_keys fold_right]; auto. change (fold_right insert_key [] q) with (sort_keys q). rewrite insert_perm, IH. auto. Qed.

Lemma vget_vadd q k v k' : vget (vadd q k v) k' = vget q k' ++ (if seqb k' k then [v] else []).
Proof.
  induction q as [|[k1 vs] q IH]; cbn [vadd vget].
  - destruct (seqb k' k); reflexivity.
  - destruct (seqb_spec k k1) as [<-|N]; cbn [vget].
    + destruct (seqb_spec k' k); [reflexivity|]. rewrite app_nil_r. reflexivity.
    + destruct (seqb_spec k' k1) as [->|N1]; [|apply IH]. destruct (seqb_spec k1 k); [congruence|]. rewrite app_nil_r. reflexivity.
Qed.
Lemma vget_vadds l : forall q k, vget (vadds l q) k = vget q k ++ map snd (filter (fun p => seqb k (fst p)) l).
Proof.
  induction l as [|[k1 v] l IH]; intros q k; cbn [vadds fold_left filter map]; [rewrite app_nil_r; reflexivity|].
  fold (vadds l (vadd q k1 v)). rewrite IH, vget_vadd, <- app_assoc. f_equal. cbn [fst]. destruct (seqb k k1); reflexivity.
Qed.
Lemma vget_other q k : ~ In k (keys q) -> vget q k = [].
Proof. induction q as [|[k1 vs] q IH]; intros H; cbn [vget]; auto. cbn [keys map fst In] in H. destruct (seqb_spec k k1) as [->|]; [tauto|]. apply IH. tauto. Qed.
Lemma filter_pairs q k : NoDup (keys q) -> map snd (filter (fun p => seqb k (fst p)) (pairs q)) = vget q k.
Proof.
  induction q as [|[k1 vs] q IH]; intros N; [reflexivity|]. cbn [keys map fst] in N. inversion N; subst. cbn [pairs flat_map fst snd vget]. fold (pairs q). rewrite filter_app, map_app, IH by auto.
  destruct (seqb_spec k k1) as [->|Nk].
  - rewrite vget_other by auto. rewrite app_nil_r. clear. induction vs as [|v vs IH]; cbn [map filter fst]; auto. rewrite seqb_refl. cbn [map snd]. f_equal. exact IH.
  - assert (filter (fun p => seqb k (fst p)) (map (fun v => (k1, v)) vs) = []) as ->; [|reflexivity]. clear - Nk. induction vs as [|v vs IH]; cbn [map filter fst]; auto. destruct (seqb_spec k k1); [congruence|exact IH].
Qed.
Lemma vget_perm q q' k : Permutation q q' -> NoDup (keys q) -> vget q k = vget q' k.
Proof.
  induction 1 as [|[k1 v1] q q' P IH|[k1 v1] [k2 v2] q|q1 q2 q3 P1 IH1 P2 IH2]; intros N; auto.
  - cbn [vget]. cbn [keys map] in N. inversion N; subst. destruct (seqb k k1); auto.
  - cbn [vget]. cbn [keys map fst] in N. inversion N; subst. destruct (seqb_spec k k1) as [E1|], (seqb_spec k k2) as [E2|]; auto. exfalso. apply H1. left. cbn [fst]. congruence.
  - rewrite IH1 by auto. apply IH2. eapply Permutation_NoDup; [apply Permutation_map; exact P1|exact N].
Qed.
Lemma ParseQuery_Encode q : values_ok q -> ParseQuery (Encode q) = vadds (pairs (sort_keys q)) [].
Proof.
  intros [N F]. rewrite Encode_pairs. assert (Fb : Forall (fun p => bytes (fst p) /\ bytes (snd p)) (pairs (sort_keys q))).
  { apply Forall_forall. intros p Hp. apply in_flat_map in Hp. destruct Hp as (e & He & Hp). apply (Permutation_in _ (sort_perm q)) in He. rewrite Forall_forall in F. destruct (F e He) as [Fk Fv]. apply in_map_iff in Hp. destruct Hp as (v & <- & Hv). rewrite Forall_forall in Fv. cbn [fst snd]. auto. }
  unfold ParseQuery. destruct (pairs (sort_keys q)) as [|p l] eqn:E; [reflexivity|]. change (B "&") with [38]. rewrite split_join_with.
  - apply parse_pairs. exact Fb.
  - discriminate.
  - apply Forall_forall. intros s Hs K. apply in_map_iff in Hs. destruct Hs as (p' & <- & Hp). rewrite Forall_forall in Fb. destruct (Fb p' Hp) as [Hk Hv]. unfold piece in K. apply in_app_iff in K. destruct K as [K|[K|K]].
    + apply (escape_clean _ Hk 38); [cbn; auto|exact K].
    + discriminate.
    + apply (escape_clean _ Hv 38); [cbn; auto|exact K].
Qed.

Lemma vadd_keys q k v : NoDup (keys q) -> NoDup (keys (vadd q k v)) /\ forall x, In x (keys (vadd q k v)) -> x = k \/ In x (keys q).
Proof.
  induction q as [|[k1 vs] q IH]; intros N; cbn [vadd keys map fst].
  - split; [repeat constructor; auto|]. intros x [<-|[]]; auto.
  - cbn [keys map fst] in N. inversion N; subst. destruct (seqb_spec k k1) as [<-|Nk]; cbn [map fst].
    + split; [exact N|]. intros x Hx. right. exact Hx.
    + destruct (IH H2) as [A Bq]. split; [constructor; auto|].
      * intros K. destruct (Bq _ K); [congruence|auto].
      * intros x [<-|Hx]; [right; left; auto|]. destruct (Bq x Hx); [auto|right; right; auto].
Qed.
Lemma vadd_ok q k v : values_ok q -> bytes k -> bytes v -> values_ok (vadd q k v).
Proof.
  intros [N F] Hk Hv. split; [apply vadd_keys; auto|]. clear N. induction F as [|[k1 vs] q [A C] F IH]; cbn [vadd].
  - repeat constructor; auto.
  - destruct (seqb k k1); constructor; auto. cbn [fst snd] in *. split; auto. apply Forall_app. auto.
Qed.
Lemma unhex_range c x : unhex c = Some x -> 0 <= x <= 15.
Proof.
  unfold unhex. destruct (Z.leb_spec 48 c), (Z.leb_spec c 57); cbn [andb]; try (intros [= <-]; lia); destruct (Z.leb_spec 97 c), (Z.leb_spec c 102); cbn [andb]; try (intros [= <-]; lia);
  destruct (Z.leb_spec 65 c), (Z.leb_spec c 70); cbn [andb]; try (intros [= <-]; lia); discriminate.
Qed.
Lemma unescape_bytes n : forall s r, (length s <= n)%nat -> bytes s -> QueryUnescape s = Some r -> bytes r.
Proof.
  induction n as [|n IH]; intros s r L H E.
  - destruct s; [|cbn in L; lia]. injection E as <-. constructor.
  - destruct s as [|c t]; [injection E as <-; constructor|]. cbn [QueryUnescape] in E. cbn [length] in L. inversion H; subst. destruct (c =? 37).
    + destruct t as [|a [|b u]]; try discriminate. destruct (unhex a) as [x|] eqn:Ea; [|discriminate]. destruct (unhex b) as [y|] eqn:Eb; [|discriminate]. destruct (QueryUnescape u) as [r'|] eqn:Eu; [|discriminate]. injection E as <-.
      apply unhex_range in Ea. apply unhex_range in Eb. constructor; [lia|]. cbn [length] in L. inversion H3; subst. inversion H5; subst. apply (IH u); auto. lia.
    + destruct (QueryUnescape t) as [r'|] eqn:Et; [|discriminate]. injection E as <-. constructor; [destruct (c =? 43); lia|]. apply (IH t); auto. lia.
Qed.
Lemma bytes_app a b : bytes (a ++ b) <-> bytes a /\ bytes b.
Proof. apply Forall_app. Qed.
Lemma cut_bytes sep s : bytes s -> bytes (fst (cut_at sep s)) /\ bytes (snd (cut_at sep s)).
Proof. induction 1 as [|c s H F IH]; cbn [cut_at]; [split; constructor|]. destruct (c =? sep); [split; [constructor|auto]|]. destruct (cut_at sep s). cbn [fst snd] in *. split; [constructor; auto; apply IH|apply IH]. Qed.
Lemma split_bytes sep s : bytes s -> Forall bytes (split_on sep s).
Proof. induction 1 as [|c s H F IH]; cbn [split_on]; [repeat constructor|]. destruct (c =? sep); [constructor; auto; constructor|]. destruct (split_on sep s); [apply Forall_cons; [apply Forall_cons; [exact H|constructor]|constructor]|]. inversion IH; subst. apply Forall_cons; [apply Forall_cons; auto|auto]. Qed.
Lemma ParseQuery_ok raw : bytes raw -> values_ok (ParseQuery raw).
Proof.
  intros H. unfold ParseQuery. assert (K : values_ok []) by (split; constructor). revert K. generalize (@nil (gstr * list gstr)) as q. pose proof (split_bytes 38 raw H) as F.
  induction F as [|p l Hp F IH]; intros q K; cbn [fold_left]; auto. apply IH. unfold parse_piece. destruct (existsb (Z.eqb 59) p); auto. destruct p as [|c t]; auto. destruct (cut_bytes 61 (c :: t) Hp) as [A C]. destruct (cut_at 61 (c :: t)) as [k v]. cbn [fst snd] in *.
  destruct (QueryUnescape k) as [k'|] eqn:Ek; auto. destruct (QueryUnescape v) as [v'|] eqn:Ev; auto. apply vadd_ok; auto.
  - exact (unescape_bytes _ _ _ (le_n _) A Ek).
  - exact (unescape_bytes _ _ _ (le_n _) C Ev).
Qed.

(** Encoding parameters and parsing them again gives every key its values in order. *)
Theorem C92_round_trip : forall q, values_ok q -> forall k, vget (ParseQuery (Encode q)) k = vget q k.
Proof.
  intros q H k. rewrite ParseQuery_Encode by auto. rewrite vget_vadds. cbn [vget app]. destruct H as [N _].
  assert (N' : NoDup (keys (sort_keys q))) by (eapply Permutation_NoDup; [apply Permutation_map, Permutation_sym, sort_perm|exact N]).
  rewrite filter_pairs by auto. apply vget_perm; auto. apply sort_perm.
Qed.
Print Assumptions C92_round_trip.
(** An authenticated request has the parameters of the URL, whatever they are, and after any access tokens already there the
    client's own. *)
(** Which bytes a query leaves as they are *)
Theorem C92_escape : forall c, 0 <= c < 256 ->
  (QueryEscape [c] = [c] <-> 48 <= c <= 57 \/ 65 <= c <= 90 \/ 97 <= c <= 122 \/ c = 45 \/ c = 46 \/ c = 95 \/ c = 126) /\
  (c = 32 -> QueryEscape [c] = B "+").
Proof.
  intros c H. split; [|intros ->; reflexivity].
  assert (G : forallb (fun n => Bool.eqb (seqb (QueryEscape [Z.of_nat n]) [Z.of_nat n])
    (let c := Z.of_nat n in ((48 <=? c) && (c <=? 57)) || ((65 <=? c) && (c <=? 90)) || ((97 <=? c) && (c <=? 122)) || (c =? 45) || (c =? 46) || (c =? 95) || (c =? 126))) (seq 0 256) = true)
    by (vm_compute; reflexivity).
  rewrite forallb_forall in G. specialize (G (Z.to_nat c) ltac:(apply in_seq; lia)). rewrite Z2Nat.id in G by lia. apply eqb_prop in G.
  destruct (seqb_spec (QueryEscape [c]) [c]) as [E|E]; symmetry in G; rewrite ?orb_true_iff, ?orb_false_iff, ?andb_true_iff, ?andb_false_iff, ?Z.leb_le, ?Z.leb_gt, ?Z.eqb_eq, ?Z.eqb_neq in G; split; intros; (exact E || lia || contradiction || (exfalso; lia)).
Qed.
Print Assumptions C92_escape.
Theorem C92_auth : forall token u, bytes token -> bytes (uRawQuery u) ->
  uBase (addAuthentication token u) = uBase u /\
  forall k, vget (ParseQuery (uRawQuery (addAuthentication token u))) k = vget (ParseQuery (uRawQuery u)) k ++ (if seqb k (B "access_token") then [token] else []).
Proof.
  intros token u Ht Hu. split; [reflexivity|]. intros k. unfold addAuthentication. cbn [uRawQuery]. rewrite C92_round_trip; [apply vget_vadd|].
  apply vadd_ok; auto; [apply ParseQuery_ok; auto|]. apply lit_bytes. reflexivity.
Qed.
Print Assumptions C92_auth.
(** The token is added, not set: a link that carries one makes the next request carry two. *)
Theorem C92_once_refuted : forall token u, bytes token -> bytes (uRawQuery u) -> vget (ParseQuery (uRawQuery u)) (B "access_token") <> [] ->
  exists t ts, vget (ParseQuery (uRawQuery (addAuthentication token u))) (B "access_token") = t :: ts /\ ts <> [].
Proof.
  intros token u Ht Hu H. destruct (C92_auth token u Ht Hu) as [_ K]. rewrite K. rewrite seqb_refl. destruct (vget (ParseQuery (uRawQuery u)) (B "access_token")) as [|t ts]; [congruence|]. exists t, (ts ++ [token]). split; [reflexivity|]. destruct ts; discriminate.
Qed.
Print Assumptions C92_once_refuted.

Lemma sleb_total a : forall b, sleb a b = true \/ sleb b a = true.
Proof.
  induction a as [|x a IH]; intros [|y b]; cbn [sleb]; auto. destruct (Z.ltb_spec x y), (Z.ltb_spec y x), (Z.eqb_spec x y), (Z.eqb_spec y x); cbn [orb andb]; auto; lia.
Qed.
Lemma sleb_antisym a : forall b, sleb a b = true -> sleb b a = true -> a = b.
Proof.
  induction a as [|x a IH]; intros [|y b]; cbn [sleb]; auto; try discriminate. destruct (Z.ltb_spec x y), (Z.ltb_spec y x), (Z.eqb_spec x y), (Z.eqb_spec y x); cbn [orb andb]; intros; try lia; try discriminate. f_equal; auto.
Qed.
Lemma sleb_trans a : forall b c, sleb a b = true -> sleb b c = true -> sleb a c = true.
Proof.
  induction a as [|x a IH]; intros [|y b] [|z c]; cbn [sleb]; auto; try discriminate.
  destruct (Z.ltb_spec x y), (Z.ltb_spec y z), (Z.eqb_spec x y), (Z.eqb_spec y z), (Z.ltb_spec x z), (Z.eqb_spec x z); cbn [orb andb]; intros; auto; try lia; try discriminate. eauto.
Qed.
Inductive ordered : Values -> Prop :=
| o_nil : ordered []
| o_cons e q : ordered q -> Forall (fun f => sleb (fst e) (fst f) = true) q -> ordered (e :: q).
Lemma insert_ordered e q : ordered q -> ordered (insert_key e q).
Proof.
  induction 1 as [|f q H IH F]; cbn [insert_key]; [repeat constructor|]. destruct (sleb (fst e) (fst f)) eqn:E.
  - constructor; [constructor; auto|]. constructor; auto. eapply Forall_impl; [|exact F]. intros g K. eapply sleb_trans; eauto.
  - constructor; auto. eapply Permutation_Forall; [apply Permutation_sym, insert_perm|]. constructor; auto. destruct (sleb_total (fst e) (fst f)); congruence.
Qed.
Lemma sort_ordered q : ordered (sort_keys q).
Proof. induction q as [|e q IH]; cbn [sort_keys fold_right]; [constructor|]. apply insert_ordered. exact IH. Qed.
Lemma ordered_unique q : forall q', ordered q -> ordered q' -> NoDup (keys q) -> Permutation q q' -> q = q'.
Proof.
  induction q as [|e q IH]; intros q' O O' N P; [apply Permutation_nil in P; auto|]. destruct q' as [|e' q']; [apply Permutation_sym, Permutation_nil in P; discriminate|].
  inversion O as [|? ? Oq Fq]; subst. inversion O' as [|? ? Oq' Fq']; subst. cbn [keys map] in N. inversion N as [|? ? Nk Nq]; subst.
  assert (e = e') as <-.
  { assert (I1 : In e (e' :: q')) by (eapply Permutation_in; [exact P|left; auto]). assert (I2 : In e' (e :: q)) by (eapply Permutation_in; [apply Permutation_sym; exact P|left; auto]).
    destruct I1 as [->|I1]; auto. destruct I2 as [->|I2]; auto. rewrite Forall_forall in Fq, Fq'. pose proof (sleb_antisym _ _ (Fq _ I2) (Fq' _ I1)) as E. exfalso. apply Nk. rewrite E. apply in_map. exact I2. }
  f_equal. apply IH; auto. eapply Permutation_cons_inv. exact P.
Qed.
(** The encoded query does not depend on the order in which Go iterates the parameter map. *)
Theorem C92_deterministic : forall q q', NoDup (keys q) -> Permutation q q' -> Encode q = Encode q'.
Proof.
  intros q q' N P. unfold Encode. replace (sort_keys q') with (sort_keys q); auto. apply ordered_unique; try apply sort_ordered.
  - eapply Permutation_NoDup; [apply Permutation_map, Permutation_sym, sort_perm|exact N].
  - rewrite !sort_perm. exact P.
Qed.
Print Assumptions C92_deterministic.
Example C92_nonvacuous : uRawQuery (addAuthentication (B "p&k=1") (mkURL (B "https://h/p") (B "z=1&a=%26+b&bad=%zz&a=2&&x;y"))) = B "a=%26+b&a=2&access_token=p%26k%3D1&z=1" /\
  ParseQuery (B "a=%26+b&a=2&access_token=p%26k%3D1&z=1") = [(B "a", [B "& b"; B "2"]); (B "access_token", [B "p&k=1"]); (B "z", [B "1"])].
Proof. vm_compute. auto. Qed.

(** ** C93: request paths *)

(** A name that is one path segment *)
Definition seg_ok (p : gstr) : Prop := p <> [] /\ p <> B "." /\ p <> B ".." /\ ~ In 47 p.
Lemma seg_skip p : seg_ok p -> seqb p [] = false /\ seqb p (B ".") = false /\ seqb p (B "..") = false.
Proof. intros (A & C & D & _). destruct (seqb_spec p []), (seqb_spec p (B ".")), (seqb_spec p (B "..")); tauto. Qed.
Lemma clean_plain p l acc : seg_ok p -> clean_segs (p :: l) acc = clean_segs l (p :: acc).
Proof. intros H. destruct (seg_skip p H) as (E1 & E2 & E3). cbn [clean_segs]. rewrite E1, E2, E3. reflexivity. Qed.
Lemma clean_up l p acc : seg_ok p -> clean_segs (B ".." :: l) (p :: acc) = clean_segs l acc.
Proof. intros H. destruct (seg_skip p H) as (E1 & E2 & E3). cbn [clean_segs]. change (seqb (B "..") [] || seqb (B "..") (B ".")) with false. change (seqb (B "..") (B "..")) with true. cbv iota. rewrite E3. reflexivity. Qed.
Lemma clean_empty l acc : clean_segs ([] :: l) acc = clean_segs l acc.
Proof. reflexivity. Qed.
Ltac seglit := repeat split; try discriminate; intros K; cbn in K; repeat destruct K as [K|K]; try discriminate; contradiction.
Lemma seg_styles : seg_ok (B "styles"). Proof. seglit. Qed.
Lemma seg_tilesets : seg_ok (B "tilesets"). Proof. seglit. Qed.
Lemma seg_v1 : seg_ok (B "v1"). Proof. seglit. Qed.
Lemma seg_v4 : seg_ok (B "v4"). Proof. seglit. Qed.
Lemma seg_draft : seg_ok (B "draft"). Proof. seglit. Qed.
Lemma no_slash p : seg_ok p -> ~ In 47 p. Proof. intros H. apply H. Qed.
#[local] Hint Resolve seg_styles seg_tilesets seg_v1 seg_v4 seg_draft no_slash : core.
Lemma nonempty_true p : p <> [] -> negb (seqb p []) = true.
Proof. intros H. destruct (seqb_spec p []); auto. Qed.
Lemma split_lit a t : seg_ok a -> split_on 47 (a ++ B "/" ++ t) = a :: split_on 47 t.
Proof. intros H. apply (split_on_app 47 a t). auto. Qed.

(** The path of any request for styles: what follows the user name is cleaned together with it *)
Lemma style_segs u rest : seg_ok u -> Clean (B "styles/v1/" ++ B "/" ++ u ++ rest) = match clean_segs (split_on 47 (u ++ rest)) [B "v1"; B "styles"] with [] => B "." | l => join_with (B "/") l end.
Proof.
  intros H. unfold Clean. change (B "styles/v1/" ++ B "/" ++ u ++ rest) with (B "styles" ++ B "/" ++ B "v1" ++ B "/" ++ [] ++ 47 :: (u ++ rest)).
  rewrite !split_lit by auto. rewrite (split_on_app 47 [] (u ++ rest)) by auto. rewrite !clean_plain by auto. reflexivity.
Qed.
Lemma Join4 (k : gstr) u id : k <> [] -> u <> [] -> id <> [] -> Join [[]; k; u; id] = Clean (k ++ B "/" ++ u ++ B "/" ++ id).
Proof. intros Hk Hu Hi. unfold Join. cbn [filter]. rewrite (nonempty_true k), (nonempty_true u), (nonempty_true id) by auto. reflexivity. Qed.
Lemma Join3 (k : gstr) u : k <> [] -> u <> [] -> Join [[]; k; u] = Clean (k ++ B "/" ++ u).
Proof. intros Hk Hu. unfold Join. cbn [filter]. rewrite (nonempty_true k), (nonempty_true u) by auto. reflexivity. Qed.
Lemma seg_ne p : seg_ok p -> p <> []. Proof. intros H. apply H. Qed.
#[local] Hint Resolve seg_ne : core.

Lemma style_path u id : seg_ok u -> seg_ok id -> Join [[]; B "styles/v1/"; u; id] = B "styles/v1/" ++ u ++ B "/" ++ id.
Proof.
  intros Hu Hi. rewrite Join4 by (auto; discriminate). rewrite style_segs by auto. rewrite split_lit by auto. rewrite split_on_none by auto. rewrite !clean_plain by auto. reflexivity.
Qed.
Lemma in_join sep c l : In c (join_with sep l) -> In c sep \/ exists p, In p l /\ In c p.
Proof.
  induction l as [|a l IH]; cbn [join_with]; [intros []|]. destruct l as [|b l'].
  - intros H. right. exists a. split; [left; auto|auto].
  - intros H. rewrite !in_app_iff in H. destruct H as [H|[H|H]]; [right; exists a; split; [left; auto|auto]|auto|]. destruct (IH H) as [K|(p & K & Q)]; auto. right. exists p. split; [right; auto|auto].
Qed.
Lemma seg_join ids : ids <> [] -> Forall seg_ok ids -> seg_ok (join_with (B ",") ids).
Proof.
  intros N H. assert (S : ~ In 47 (join_with (B ",") ids)).
  { intros K. apply in_join in K. destruct K as [[K|[]]|(p & K & Q)]; [discriminate|]. rewrite Forall_forall in H. apply (no_slash p); auto. }
  destruct ids as [|a [|b l]]; [congruence|inversion H; auto|]. cbn [join_with] in *. inversion H; subst. destruct H2 as (Na & _).
  assert (C : In 44 (a ++ B "," ++ join_with (B ",") (b :: l))) by (apply in_app_iff; right; left; reflexivity). cbn [join_with] in C.
  repeat split; auto; intros E; rewrite E in C; cbn in C; repeat destruct C as [C|C]; try discriminate; contradiction.
Qed.

(** With user names and ids that are single path segments the requests go where the API has them. *)
Theorem C93_paths : forall u, seg_ok u ->
  listPath (B "styles/v1/") u = B "styles/v1/" ++ u /\ listPath (B "tilesets/v1/") u = B "tilesets/v1/" ++ u /\
  (forall id, seg_ok id -> stylePath u id false = B "styles/v1/" ++ u ++ B "/" ++ id /\ stylePath u id true = B "styles/v1/" ++ u ++ B "/" ++ id ++ B "/draft") /\
  (forall ids, ids <> [] -> Forall seg_ok ids -> tileJSONPath ids = B "v4/" ++ join_with (B ",") ids ++ B ".json") /\ tileJSONPath [] = B "v4.json".
Proof.
  intros u Hu. split; [|split; [|split; [|split]]].
  - unfold listPath. rewrite Join3 by (auto; discriminate). rewrite <- (app_nil_r u) at 1. rewrite style_segs by auto. rewrite app_nil_r, split_on_none by auto. rewrite !clean_plain by auto. reflexivity.
  - unfold listPath. rewrite Join3 by (auto; discriminate). unfold Clean. change (B "tilesets/v1/" ++ B "/" ++ u) with (B "tilesets" ++ B "/" ++ B "v1" ++ B "/" ++ [] ++ 47 :: u).
    rewrite !split_lit by auto. rewrite (split_on_app 47 [] u), split_on_none by auto. rewrite 2!clean_plain by auto. rewrite clean_empty, clean_plain by auto. reflexivity.
  - intros id Hi. unfold stylePath. rewrite style_path by auto. split; [reflexivity|]. unfold Join. cbn [filter]. change (negb (seqb (B "styles/v1/" ++ u ++ B "/" ++ id) [])) with true. change (negb (seqb (B "draft") [])) with true. cbv iota. cbn [join_with].
    unfold Clean. replace ((B "styles/v1/" ++ u ++ B "/" ++ id) ++ B "/" ++ B "draft") with (B "styles" ++ B "/" ++ B "v1" ++ B "/" ++ u ++ B "/" ++ id ++ B "/" ++ B "draft").
    2: { change (B "styles/v1/") with (B "styles" ++ B "/" ++ B "v1" ++ B "/"). rewrite <- !app_assoc. reflexivity. }
    rewrite !split_lit by auto. rewrite split_on_none by auto. rewrite !clean_plain by auto. cbn [clean_segs rev app join_with]. change (B "styles/v1/") with (B "styles" ++ B "/" ++ B "v1" ++ B "/"). rewrite <- !app_assoc. reflexivity.
  - intros ids N H. pose proof (seg_join ids N H) as S. unfold tileJSONPath. rewrite Join3 by (auto; discriminate). unfold Clean. rewrite split_lit by auto. rewrite split_on_none by auto. rewrite !clean_plain by auto. reflexivity.
  - reflexivity.
Qed.
Print Assumptions C93_paths.
(** Different styles have different paths. *)
Theorem C93_injective : forall u id d u' id' d', seg_ok u -> seg_ok id -> seg_ok u' -> seg_ok id' -> stylePath u id d = stylePath u' id' d' -> u = u' /\ id = id' /\ d = d'.
Proof.
  intros u id d u' id' d' Hu Hi Hu' Hi' E.
  assert (G : forall u id d, seg_ok u -> seg_ok id -> split_on 47 (stylePath u id d) = [B "styles"; B "v1"; u; id] ++ (if d then [B "draft"] else [])).
  { clear. intros u id d Hu Hi. destruct (C93_paths u Hu) as (_ & _ & K & _). destruct (K id Hi) as [K1 K2]. destruct d; rewrite ?K1, ?K2.
    - change (B "styles/v1/" ++ u ++ B "/" ++ id ++ B "/draft") with (B "styles" ++ B "/" ++ B "v1" ++ B "/" ++ u ++ B "/" ++ id ++ B "/" ++ B "draft"). rewrite !split_lit by auto. rewrite split_on_none by auto. reflexivity.
    - change (B "styles/v1/" ++ u ++ B "/" ++ id) with (B "styles" ++ B "/" ++ B "v1" ++ B "/" ++ u ++ B "/" ++ id). rewrite !split_lit by auto. rewrite split_on_none by auto. reflexivity. }
  apply (f_equal (split_on 47)) in E. rewrite !G in E by auto. cbn [app] in E. injection E as E1 E2 E3. destruct d, d'; try discriminate; auto.
Qed.
Print Assumptions C93_injective.
(** Ids are not checked: one of "../other/id" addresses the style of another user, and an empty id the listing. *)
Theorem C93_confined_refuted : forall u o id, seg_ok u -> seg_ok o -> seg_ok id ->
  stylePath u (B "../" ++ o ++ B "/" ++ id) false = stylePath o id false /\ stylePath u [] false = listPath (B "styles/v1/") u.
Proof.
  intros u o id Hu Ho Hi. split.
  - unfold stylePath. rewrite (style_path o id) by auto. rewrite Join4 by (auto; discriminate). rewrite style_segs by auto. rewrite split_lit by auto.
    change (B "../" ++ o ++ B "/" ++ id) with (B ".." ++ 47 :: o ++ B "/" ++ id). rewrite split_on_app by (intros K; cbn in K; repeat destruct K as [K|K]; try discriminate; contradiction). rewrite split_lit by auto. rewrite split_on_none by auto.
    rewrite clean_plain by auto. rewrite clean_up by auto. rewrite !clean_plain by auto. reflexivity.
  - unfold stylePath, listPath, Join. cbn [filter]. change (negb (seqb [] [])) with false. cbv iota. reflexivity.
Qed.
Print Assumptions C93_confined_refuted.
Example C93_nonvacuous : stylePath (B "me") (B "abc") true = B "styles/v1/me/abc/draft" /\ tileJSONPath [B "a.b"; B "c.d"] = B "v4/a.b,c.d.json" /\ stylePath (B "me") (B "../you/x") false = B "styles/v1/you/x" /\ seg_ok (B "me").
Proof. split; [vm_compute; auto|]. split; [vm_compute; auto|]. split; [vm_compute; auto|]. seglit. Qed.

(** ** C71: next-page links *)

Definition nl (c : Z) : bool := negb (c =? 10).
Lemma M_next y c t : M nextRegex y c t <-> exists x, y = 60 :: x ++ 62 :: t /\ forallb nl x = true /\ c = [(1%nat, x)].
Proof.
  unfold nextRegex. cbn [seqs]. split.
  - intros H. apply M_seq_inv in H. destruct H as (t1 & c1 & c2 & H1 & H2 & ->). apply M_chr_inv in H1. destruct H1 as (k & -> & E & ->). apply Z.eqb_eq in E. subst k.
    apply M_seq_inv in H2. destruct H2 as (t2 & c3 & c4 & H2 & H3 & ->). apply M_chr_inv in H3. destruct H3 as (k & -> & E & ->). apply Z.eqb_eq in E. subst k.
    apply M_grp_inv in H2. destruct H2 as (x & c' & -> & H2 & ->). apply M_star_inv in H2. destruct H2 as (x' & E & F & ->). apply app_inv_tail in E. subst x'. exists x. auto.
  - intros (x & -> & F & ->). eapply M_seq'; [constructor; apply Z.eqb_refl| |reflexivity]. eapply M_seq'; [apply M_grp, M_star; exact F|constructor; apply Z.eqb_refl|reflexivity].
Qed.
(** Elements of [star] in order: the first one that begins with a byte is the one after which the byte does not occur *)
Lemma star_first p k b : forall x, forallb p (x ++ k :: b) = true -> ~ In k b -> exists l r, star p (x ++ k :: b) = l ++ (k :: b) :: r /\ forall t u, In t l -> t <> k :: u.
Proof.
  induction x as [|c x IH]; intros F N; cbn [app] in *; cbn [forallb] in F; apply andb_prop in F; destruct F as [Fc F]; cbn [star]; rewrite Fc.
  - exists (star p b), []. split; [reflexivity|]. intros t u Ht ->. apply star_in in Ht. destruct Ht as (y & E & _). apply N. rewrite E. apply in_app_iff. right. left. auto.
  - destruct (IH F N) as (l & r & E & U). exists l, (r ++ [c :: x ++ k :: b]). split; [rewrite E, <- app_assoc; reflexivity|exact U].
Qed.
Lemma rmatch_next x b : forallb nl (x ++ 62 :: b) = true -> ~ In 62 b -> exists r, rmatch nextRegex (60 :: x ++ 62 :: b) = ([(1%nat, x)], b) :: r.
Proof.
  intros F N. destruct (star_first nl 62 b x F N) as (l & r & E & U). unfold nextRegex. cbn [seqs]. cbn [rmatch]. change (60 =? 60) with true. cbv iota. cbn [flat_map app]. change (fun c => negb (c =? 10)) with nl. rewrite E.
  rewrite !map_app. cbn [map]. rewrite flat_map_app.
  match goal with |- exists r0, map ?f (?A ++ ?Bq) ++ [] = _ => assert (Z0 : A = []) end.
  { clear - U. induction l as [|t l IH]; cbn [map flat_map]; auto. rewrite IH by (intros; apply U; right; auto). rewrite app_nil_r.
    destruct t as [|k u]; [reflexivity|]. destruct (Z.eqb_spec 62 k) as [<-|]; [|reflexivity]. exfalso. apply (U (62 :: u) u); [left; auto|auto]. }
  rewrite Z0. cbn [app flat_map]. change (62 =? 62) with true. cbv iota. cbn [map app].
  assert (firstn (length (x ++ 62 :: b) - length (62 :: b)) (x ++ 62 :: b) = x) as ->.
  { rewrite app_length. replace (length x + length (62%Z :: b) - length (62%Z :: b))%nat with (length x) by lia. rewrite firstn_app, Nat.sub_diag, firstn_all. cbn [firstn]. apply app_nil_r. }
  eexists. reflexivity.
Qed.
Lemma search_next (a x b : gstr) : ~ In 60 a -> ~ In 62 b -> ~ In 10 (a ++ 60 :: x ++ 62 :: b) -> search nextRegex (a ++ 60 :: x ++ 62 :: b) = Some [(1%nat, x)].
Proof.
  intros Na Nb Nn. induction a as [|c a IH]; cbn [app].
  - cbn [search]. destruct (rmatch_next x b) as [r ->]; auto. apply forallb_forall. intros y Hy. unfold nl. destruct (Z.eqb_spec y 10) as [->|]; auto. exfalso. apply Nn. cbn [app]. right. exact Hy.
  - cbn [search]. assert (rmatch nextRegex (c :: a ++ 60 :: x ++ 62 :: b) = []) as ->.
    { unfold nextRegex. cbn [seqs]. cbn [rmatch]. destruct (Z.eqb_spec 60 c) as [<-|]; [exfalso; apply Na; left; auto|reflexivity]. }
    apply IH; [intros K; apply Na; right; auto|intros K; apply Nn; right; auto].
Qed.
Lemma first_last (a : gstr) y b : In y (a ++ [b]) -> exists p q, a ++ [b] = p ++ y :: q /\ ~ In y q.
Proof.
  intros H. set (s := a ++ [b]) in *. clearbody s. induction s as [|c s IH]; [contradiction|]. destruct (in_dec Z.eq_dec y s) as [K|K].
  - destruct (IH K) as (p & q & -> & N). exists (c :: p), q. auto.
  - destruct H as [->|H]; [|contradiction]. exists [], s. auto.
Qed.
(** Text between the first less-than sign and the last greater-than sign after it *)
Inductive bracketed : gstr -> gstr -> Prop :=
  bracketed_intro a x b : ~ In 60 a -> ~ In 62 b -> bracketed (a ++ [60] ++ x ++ [62] ++ b) x.
Lemma search_bracketed link : ~ In 10 link ->
  (exists x, bracketed link x /\ search nextRegex link = Some [(1%nat, x)]) \/ (search nextRegex link = None /\ forall x, ~ bracketed link x).
Proof.
  intros N. destruct (search nextRegex link) as [c|] eqn:E.
  - left. destruct (search_some _ _ _ E) as (a & y & t & -> & H & U). apply M_next in H. destruct H as (x & -> & F & ->).
    assert (Na : ~ In 60 a).
    { intros K. apply in_split in K. destruct K as (a1 & a2 & ->). apply (U a1 (60 :: (a2 ++ 60 :: x) ++ 62 :: t) [(1%nat, a2 ++ 60 :: x)] t).
      - rewrite <- !app_assoc. reflexivity.
      - rewrite app_length. cbn [length]. lia.
      - apply M_next. eexists. split; [reflexivity|]. split; [|reflexivity]. apply forallb_forall. intros z Hz. unfold nl. destruct (Z.eqb_spec z 10) as [->|]; auto. exfalso. apply N. rewrite !in_app_iff in *. cbn [In] in *. rewrite !in_app_iff in *. tauto. }
    assert (exists x' b', x ++ 62 :: t = x' ++ 62 :: b' /\ ~ In 62 b') as (x' & b' & E' & Nb).
    { clear. destruct (in_dec Z.eq_dec 62 t) as [K|K]; [|exists x, t; auto]. induction t as [|c t IH] using rev_ind; [contradiction|].
      destruct (first_last t 62 c K) as (p & q & E & Nq). exists (x ++ 62 :: p), q. rewrite E, <- app_assoc. auto. }
    rewrite E' in *. exists x'. split; [constructor; auto|]. rewrite <- E. rewrite (search_next a x' b') by auto. reflexivity.
  - right. split; auto. intros x K. destruct K as [a x b Na Nb]. cbn [app] in *. rewrite (search_next a x b) in E by auto. discriminate.
Qed.

Section Links.
Context (Parse : gstr -> option url).
(** The address of the next page is the text between the first less-than and the last greater-than sign of a header that
    contains "next"; such a header without the signs panics. *)
Theorem C71_extracts : forall link, ~ In 10 link ->
  (contains link (B "next") = false -> nextPageURL Parse link = Val None) /\
  (contains link (B "next") = true ->
     (forall x, bracketed link x -> nextPageURL Parse link = Val (Parse x)) /\ (nextPageURL Parse link = Crash <-> forall x, ~ bracketed link x)).
Proof.
  intros link N. unfold nextPageURL. split; intros C; rewrite C; [reflexivity|]. destruct (search_bracketed link N) as [(x & Hx & E)|[E U]]; rewrite E.
  - split; [|split; [discriminate|intros K; destruct (K x Hx)]]. intros x' Hx'. destruct Hx' as [a x' b Na Nb]. cbn [app] in *. rewrite (search_next a x' b) in E by auto. injection E as <-. reflexivity.
  - split; [intros x Hx; destruct (U x Hx)|tauto].
Qed.
(** A header with one link, then anything without brackets that mentions "next", gives that link. *)
Theorem C71_single : forall u r, ~ In 10 (u ++ r) -> ~ In 62 r -> contains (B "<" ++ u ++ B ">" ++ r) (B "next") = true ->
  nextPageURL Parse (B "<" ++ u ++ B ">" ++ r) = Val (Parse u).
Proof.
  intros u r N Nr C. apply C71_extracts; auto.
  - intros K. apply N. rewrite !in_app_iff in *. cbn [B list_ascii_of_string map In] in K. destruct K as [[K|[]]|[K|[[K|[]]|K]]]; try discriminate; tauto.
  - apply (bracketed_intro [] u r); auto.
Qed.
(** With several links the address is taken from the first link to the end of the last: it is none of them. *)
Theorem C71_several_refuted : forall u1 r1 u2 r2, ~ In 10 (u1 ++ r1 ++ u2 ++ r2) -> ~ In 60 (u1 ++ u2) -> ~ In 62 (u1 ++ u2 ++ r2) ->
  let link := B "<" ++ u1 ++ B ">" ++ r1 ++ B "<" ++ u2 ++ B ">" ++ r2 in
  contains link (B "next") = true ->
  exists x, nextPageURL Parse link = Val (Parse x) /\ x = u1 ++ B ">" ++ r1 ++ B "<" ++ u2 /\ x <> u1 /\ x <> u2.
Proof.
  intros u1 r1 u2 r2 N N60 N62 link C. exists (u1 ++ B ">" ++ r1 ++ B "<" ++ u2). split; [|split; [reflexivity|]].
  - apply C71_extracts; auto.
    + intros K. apply N. unfold link in K. rewrite !in_app_iff in *. cbn [B list_ascii_of_string map In] in K.
      repeat match type of K with _ \/ _ => destruct K as [K|K] end; try discriminate; try contradiction; tauto.
    + unfold link. replace (B "<" ++ u1 ++ B ">" ++ r1 ++ B "<" ++ u2 ++ B ">" ++ r2) with ([] ++ [60] ++ (u1 ++ B ">" ++ r1 ++ B "<" ++ u2) ++ [62] ++ r2) by (rewrite <- !app_assoc; reflexivity).
      constructor; [intros []|]. intros K. apply N62. rewrite !in_app_iff. auto.
  - split; intros E.
    + apply N62. rewrite <- E. rewrite !in_app_iff. left. right. left. left. reflexivity.
    + apply N62. rewrite !in_app_iff. right. left. rewrite <- E. rewrite !in_app_iff. right. left. left. reflexivity.
Qed.
(** The relation is not looked at: a link to the previous page counts as next when its address has the letters. *)
Theorem C71_relation_refuted : nextPageURL Parse (B "<https://h/nextstyle?page=1>; rel=""prev""") = Val (Parse (B "https://h/nextstyle?page=1")) /\ nextPageURL Parse (B "https://h/next; rel=next") = Crash.
Proof. split; reflexivity. Qed.
End Links.
Print Assumptions C71_extracts.
Print Assumptions C71_single.
Print Assumptions C71_several_refuted.
Print Assumptions C71_relation_refuted.
Definition parse_all (s : gstr) : option url := Some (mkURL s []).
Example C71_nonvacuous : nextPageURL parse_all (B "<https://h/x?page=2>; rel=""next""") = Val (Some (mkURL (B "https://h/x?page=2") [])) /\
  nextPageURL parse_all (B "<a>; rel=""prev"", <b>; rel=""next""") = Val (Some (mkURL (B "a>; rel=""prev"", <b") [])) /\ nextPageURL parse_all [] = Val None.
Proof. vm_compute. auto. Qed.

(** ** C70: listings *)

Section Lists.
Context (Parse : gstr -> option url) {A : Type} (serve : nat -> url -> option (list A * gstr)) (token : gstr).
(** The pages the server has from a request on, up to the page whose link leads nowhere *)
Inductive chain : nat -> url -> list (list A) -> Prop :=
| chain_last n u p link : serve n (addAuthentication token u) = Some (p, link) -> nextPageURL Parse link = Val None -> chain n u [p]
| chain_more n u p link u' ps : serve n (addAuthentication token u) = Some (p, link) -> nextPageURL Parse link = Val (Some u') -> chain (S n) u' ps -> chain n u (p :: ps).
(** A request that is reached by following links *)
Inductive reached : nat -> url -> nat -> url -> Prop :=
| reached_here n u : reached n u n u
| reached_more n u p link u' m v : serve n (addAuthentication token u) = Some (p, link) -> nextPageURL Parse link = Val (Some u') -> reached (S n) u' m v -> reached n u m v.

Notation pages := (pages Parse serve token).
Lemma pages_chain n u ps : chain n u ps -> forall all fuel, (length ps <= fuel)%nat -> pages fuel n (Some u) all = Listed (all ++ concat ps).
Proof.
  induction 1 as [n u p link E L|n u p link u' ps E L C IH]; intros all fuel Hf; destruct fuel as [|fuel]; cbn [length] in Hf; try lia; cbn [Client_Model.pages concat]; rewrite E, L.
  - destruct fuel; cbn [Client_Model.pages]; rewrite app_nil_r; reflexivity.
  - rewrite IH by lia. rewrite <- app_assoc. reflexivity.
Qed.
Lemma pages_inv fuel : forall n u all,
  match pages fuel n (Some u) all with
  | Listed l => exists ps, chain n u ps /\ (length ps <= fuel)%nat /\ l = all ++ concat ps
  | Failed => exists m v, reached n u m v /\ serve m (addAuthentication token v) = None
  | Panics => exists m v p link, reached n u m v /\ serve m (addAuthentication token v) = Some (p, link) /\ nextPageURL Parse link = Crash
  | Running => exists m v, reached n u m v /\ (m = n + fuel)%nat
  end.
Proof.
  induction fuel as [|fuel IH]; intros n u all; cbn [Client_Model.pages].
  - exists n, u. split; [constructor|lia].
  - destruct (serve n (addAuthentication token u)) as [[p link]|] eqn:E; [|exists n, u; split; [constructor|auto]].
    destruct (nextPageURL Parse link) as [[u'|]| |] eqn:L.
    + specialize (IH (S n) u' (all ++ p)). destruct (pages fuel (S n) (Some u') (all ++ p)).
      * destruct IH as (ps & C & Lf & ->). exists (p :: ps). split; [eapply chain_more; eauto|]. split; [cbn; lia|]. cbn [concat]. rewrite app_assoc. reflexivity.
      * destruct IH as (m & v & Rc & S0). exists m, v. split; auto. eapply reached_more; eauto.
      * destruct IH as (m & v & p' & l' & Rc & S0). exists m, v, p', l'. split; auto. eapply reached_more; eauto.
      * destruct IH as (m & v & Rc & S0). exists m, v. split; [|lia]. eapply reached_more; eauto.
    + destruct fuel; cbn [Client_Model.pages]; exists [p]; (split; [eapply chain_last; eauto|]); (split; [cbn; lia|]); cbn [concat]; rewrite app_nil_r; reflexivity.
    + exfalso. unfold nextPageURL in L. destruct (contains link (B "next")); [destruct (search nextRegex link)|]; discriminate.
    + exists n, u, p, link. split; [constructor|]. auto.
Qed.
(** Determinism of following links *)
Lemma reached_fun n u m v v' : reached n u m v -> reached n u m v' -> v = v'.
Proof.
  induction 1 as [n u|n u p link u' m v E L Rc IH]; intros H.
  - inversion H as [|? ? ? ? ? ? ? E' L' Rc']; subst; auto. exfalso. assert (G : forall a b c d, reached a b c d -> (a <= c)%nat) by (clear; induction 1; lia). apply G in Rc'. lia.
  - inversion H as [|? ? ? ? ? ? ? E' L' Rc']; subst; [exfalso; assert (G : forall a b c d, reached a b c d -> (a <= c)%nat) by (clear; induction 1; lia); apply G in Rc; lia|]. rewrite E in E'. injection E' as <- <-. rewrite L in L'. injection L' as <-. auto.
Qed.
Lemma reached_pages n u m v : reached n u m v -> forall k all, exists all', pages (m - n + k) n (Some u) all = pages k m (Some v) all'.
Proof.
  induction 1 as [n u|n u p link u' m v E L Rc IH]; intros k all; [exists all; f_equal; lia|].
  assert (G : forall a b c d, reached a b c d -> (a <= c)%nat) by (clear; induction 1; lia). pose proof (G _ _ _ _ Rc). replace (m - n + k)%nat with (S (m - S n + k)) by lia. cbn [Client_Model.pages]. rewrite E, L. apply IH.
Qed.
(** A listing that ends well is the concatenation of all pages in the order of the links, and every finite chain of pages is
    listed; a failing request anywhere gives an error and no items, a malformed link a panic; and as long as neither
    happens the client goes on. *)
Theorem C70_complete : forall u l, (exists fuel, pages fuel 0 (Some u) [] = Listed l) <-> exists ps, chain 0 u ps /\ l = concat ps.
Proof.
  intros u l. split.
  - intros [fuel E]. pose proof (pages_inv fuel 0 u []) as K. rewrite E in K. destruct K as (ps & C & _ & ->). exists ps. auto.
  - intros (ps & C & ->). exists (length ps). apply (pages_chain 0 u ps C []). lia.
Qed.
Theorem C70_failures : forall u,
  ((exists fuel, pages fuel 0 (Some u) [] = Failed) <-> exists m v, reached 0 u m v /\ serve m (addAuthentication token v) = None) /\
  ((exists fuel, pages fuel 0 (Some u) [] = Panics) <-> exists m v p link, reached 0 u m v /\ serve m (addAuthentication token v) = Some (p, link) /\ nextPageURL Parse link = Crash) /\
  ((forall fuel, pages fuel 0 (Some u) [] = Running) <-> forall m, exists v, reached 0 u m v).
Proof.
  intros u. split; [|split].
  - split.
    + intros [fuel E]. pose proof (pages_inv fuel 0 u []) as K. rewrite E in K. exact K.
    + intros (m & v & Rc & E). destruct (reached_pages _ _ _ _ Rc 1 []) as [all' Q]. eexists. rewrite Q. cbn [Client_Model.pages]. rewrite E. reflexivity.
  - split.
    + intros [fuel E]. pose proof (pages_inv fuel 0 u []) as K. rewrite E in K. exact K.
    + intros (m & v & p & link & Rc & E & L). destruct (reached_pages _ _ _ _ Rc 1 []) as [all' Q]. eexists. rewrite Q. cbn [Client_Model.pages]. rewrite E, L. reflexivity.
  - split.
    + intros H m. pose proof (pages_inv m 0 u []) as K. rewrite H in K. destruct K as (m' & v & Rc & ->). exists v. exact Rc.
    + intros H fuel. destruct (H fuel) as [v Rc]. destruct (reached_pages _ _ _ _ Rc 0 []) as [all' Q]. replace (fuel - 0 + 0)%nat with fuel in Q by lia. rewrite Q. reflexivity.
Qed.
End Lists.
Print Assumptions C70_complete.
Print Assumptions C70_failures.
(** A next link that url.Parse rejects ends the listing without an error: the items after it are silently missing. *)
Theorem C70_truncated_refuted : forall (A : Type) (p : list A) Parse token u x serve, Parse x = None -> ~ In 10 x ->
  serve 0%nat (addAuthentication token u) = Some (p, B "<" ++ x ++ B ">; rel=""next""") ->
  pages Parse serve token 1 0 (Some u) [] = Listed p.
Proof.
  intros A p Parse token u x serve E N S0. cbn [pages]. rewrite S0.
  replace (nextPageURL Parse (B "<" ++ x ++ B ">; rel=""next""")) with (Val (Parse x)).
  - rewrite E. reflexivity.
  - symmetry. change (B ">; rel=""next""") with (B ">" ++ B "; rel=""next"""). apply C71_single.
    + intros K. apply in_app_iff in K. destruct K as [K|K]; auto. cbn in K. repeat destruct K as [K|K]; try discriminate; contradiction.
    + intros K. cbn in K. repeat destruct K as [K|K]; try discriminate; contradiction.
    + assert (G : forall a b, contains b (B "next") = true -> contains (a ++ b) (B "next") = true) by (clear; intros a b H; induction a as [|c a IH]; [exact H|]; cbn [app contains]; rewrite IH; apply orb_true_r).
      rewrite app_assoc. apply G. reflexivity.
Qed.
Print Assumptions C70_truncated_refuted.
Lemma fmt_bytes fuel : forall n, 0 <= n -> bytes (fmt_pos fuel n).
Proof.
  induction fuel as [|f IH]; intros n H; cbn [fmt_pos]; [constructor|]. destruct (Z.ltb_spec n 10); [apply Forall_cons; [lia|constructor]|]. apply bytes_app. split; [apply IH, Z.div_pos; lia|]. apply Forall_cons; [|constructor]. pose proof (Z.mod_pos_bound n 10 ltac:(lia)). lia.
Qed.
Lemma FormatInt_bytes n : bytes (FormatInt n).
Proof. unfold FormatInt. destruct (Z.ltb_spec n 0); [apply Forall_cons; [lia|]|]; apply fmt_bytes; lia. Qed.
(** The listings start at the user's path with exactly the given parameters. *)
Theorem C70_first_request : forall (A : Type) Parse (serve : nat -> url -> option (list A * gstr)) token u,
  bytes token -> seg_ok u ->
  (forall fuel draft, exists v, ListStyles Parse serve token fuel u draft = pages Parse serve token fuel 0 (Some v) [] /\ uBase v = B "https://api.mapbox.com/styles/v1/" ++ u /\
     forall k, vget (ParseQuery (uRawQuery (addAuthentication token v))) k =
               if seqb k (B "draft") then [if draft then B "true" else B "false"] else if seqb k (B "fresh") then [B "true"] else if seqb k (B "access_token") then [token] else []) /\
  (forall fuel ty vis sort limit, (forall s, In (Some s) [ty; vis; sort] -> bytes s) ->
     exists v, ListTilesets Parse serve token fuel u ty vis sort limit = pages Parse serve token fuel 0 (Some v) [] /\ uBase v = B "https://api.mapbox.com/tilesets/v1/" ++ u /\
     forall k, vget (ParseQuery (uRawQuery (addAuthentication token v))) k =
               let given o := match o with Some s => [s] | None => [] end in
               if seqb k (B "type") then given ty else if seqb k (B "visibility") then given vis else if seqb k (B "sortby") then given sort
               else if seqb k (B "limit") then given (option_map FormatInt limit) else if seqb k (B "access_token") then [token] else []).
Proof.
  intros A Parse serve token u Ht Hu. destruct (C93_paths u Hu) as (P1 & P2 & _).
  assert (O0 : values_ok []) by (split; constructor).
  assert (Enc : forall q v, values_ok q -> uRawQuery v = Encode q -> forall k, vget (ParseQuery (uRawQuery (addAuthentication token v))) k = vget q k ++ (if seqb k (B "access_token") then [token] else [])).
  { intros q v Oq E k. unfold addAuthentication. cbn [uRawQuery]. rewrite E. rewrite C92_round_trip.
    - rewrite vget_vadd. rewrite C92_round_trip by auto. reflexivity.
    - apply vadd_ok; auto; [|apply lit_bytes; reflexivity]. rewrite ParseQuery_Encode by auto.
      assert (G : forall l q0, values_ok q0 -> Forall (fun p => bytes (fst p) /\ bytes (snd p)) l -> values_ok (vadds l q0)).
      { clear. intros l q0 O F. revert q0 O. induction F as [|[k v] l [Fk Fv] F IH]; intros q0 O; cbn [vadds fold_left]; auto. apply IH. apply vadd_ok; auto. }
      apply G; auto. destruct Oq as [N F]. apply Forall_forall. intros p Hp. apply in_flat_map in Hp. destruct Hp as (e & He & Hp). apply (Permutation_in _ (sort_perm q)) in He. rewrite Forall_forall in F. destruct (F e He) as [Fk Fv]. apply in_map_iff in Hp. destruct Hp as (w & <- & Hw). rewrite Forall_forall in Fv. cbn [fst snd]. auto. }
  split.
  - intros fuel draft. unfold ListStyles. eexists. split; [reflexivity|]. split; [cbn [uBase]; unfold base; rewrite P1; reflexivity|]. intros k. rewrite Enc with (q := vadd (vadd [] (B "draft") (if draft then B "true" else B "false")) (B "fresh") (B "true")); [|repeat apply vadd_ok; auto; try (destruct draft); apply lit_bytes; reflexivity|reflexivity].
    rewrite !vget_vadd. cbn [vget app].
    destruct (seqb_spec k (B "draft")) as [->|]; [reflexivity|]. destruct (seqb_spec k (B "fresh")) as [->|]; [reflexivity|]. reflexivity.
  - intros fuel ty vis sort limit Hb. unfold ListTilesets. eexists. split; [reflexivity|]. split; [cbn [uBase]; unfold base; rewrite P2; reflexivity|]. intros k. cbv zeta.
    set (add := fun q k o => match o with Some v => vadd q k v | None => q end).
    assert (Ao : forall q k o, values_ok q -> bytes k -> (forall s, o = Some s -> bytes s) -> values_ok (add q k o)) by (intros q k0 [s|] O Kb Sb; cbn; auto; apply vadd_ok; auto).
    assert (Ag : forall q k o k', vget (add q k o) k' = vget q k' ++ (if seqb k' k then match o with Some s => [s] | None => [] end else [])) by (intros q k0 [s|] k'; cbn [add]; [apply vget_vadd|destruct (seqb k' k0); rewrite app_nil_r; reflexivity]).
    rewrite Enc with (q := add (add (add (add [] (B "type") ty) (B "visibility") vis) (B "sortby") sort) (B "limit") (option_map FormatInt limit)); [| |reflexivity].
    + rewrite !Ag. cbn [vget app].
      destruct (seqb_spec k (B "type")) as [->|]; [rewrite !app_nil_r; reflexivity|]. destruct (seqb_spec k (B "visibility")) as [->|]; [cbn [app]; rewrite !app_nil_r; reflexivity|]. destruct (seqb_spec k (B "sortby")) as [->|]; [cbn [app]; rewrite !app_nil_r; reflexivity|]. destruct (seqb_spec k (B "limit")) as [->|]; [cbn [app]; rewrite !app_nil_r; reflexivity|]. reflexivity.
    + repeat apply Ao; auto; try (apply lit_bytes; reflexivity); try (intros s ->; apply Hb; cbn; tauto).
      intros s E. destruct limit as [n|]; [|discriminate]. cbn in E. injection E as <-. apply FormatInt_bytes.
Qed.
Print Assumptions C70_first_request.
Example C70_nonvacuous :
  let serve := fun n u => match n with O => Some ([1; 2], B "<https://h/2>; rel=""next""") | S O => Some ([3], []) | _ => None end in
  ListStyles parse_all serve (B "tk") 5 (B "me") true = Listed [1; 2; 3] /\
  ListStyles parse_all (fun n u => match n with O => Some ([1; 2], B "<https://h/2>; rel=""next""") | _ => None end) (B "tk") 5 (B "me") true = Failed /\
  ListStyles parse_all (fun n u => Some ([n], B "<https://h/2>; rel=""next""")) (B "tk") 5 (B "me") true = Running /\
  ListStyles parse_all (fun n u => Some ([u], [])) (B "tk") 5 (B "me") true = Listed [mkURL (B "https://api.mapbox.com/styles/v1/me") (B "access_token=tk&draft=true&fresh=true")].
Proof. vm_compute. auto. Qed.
