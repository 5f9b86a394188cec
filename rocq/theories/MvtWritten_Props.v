(** Property C158: what the writers emit, in terms of the vector tile specification, and where it does not conform. *)
From Coq Require Import ZArith List Lia Bool.
From Verif Require Import GoBase MvtGeom_Model MvtGeom_Spec MvtGeom_Proofs MvtGeom_Props MvtFlat_Props MvtPoints_Props MvtStandard_Props.
Import ListNotations.
Open Scope Z_scope.

(** ** Specification *)
Definition near (p : Z * Z) : Prop := - 2 ^ 30 <= fst p < 2 ^ 30 /\ - 2 ^ 30 <= snd p < 2 ^ 30.
Definition writable_line (l : list (Z * Z)) : Prop := l <> [] /\ Forall near l /\ Z.of_nat (length l) < 2 ^ 29.
(** Section 4.3.4.3: a line has a LineTo with a count above 0; section 4.3.4.4: the position before ClosePath does not repeat the first one of the ring. *)
Definition line_conforms (l : list (Z * Z)) : Prop := lt 1 (length l).
Definition ring_conforms (r : list (Z * Z)) : Prop := match r with [] => False | p :: t => last t p <> p end.
(** The points of [ps] that differ from the one before, the first one from [p] *)
Fixpoint moved (p : Z * Z) (ps : list (Z * Z)) : list (Z * Z) := match ps with [] => [] | q :: r => if (fst p =? fst q) && (snd p =? snd q) then moved q r else q :: moved q r end.

(** ** Lemmas *)
Lemma merge_moved l : forall p, merge_runs (p :: l) = p :: moved p l.
Proof.
  induction l as [|q r IH]; intros p; [reflexivity|]. rewrite merge_runs_eq, IH. cbn [moved]. fold (pt_eqb p q). destruct (pt_eqb p q) eqn:E; [apply pt_eqb_eq in E as ->; reflexivity|reflexivity].
Qed.
Lemma deltas_moves l : forall p, deltas p l = moves p (moved p l).
Proof.
  induction l as [|q r IH]; intros p; [reflexivity|]. cbn [deltas moved]. fold (pt_eqb p q). rewrite IH. destruct (pt_eqb p q) eqn:E; [apply pt_eqb_eq in E as ->|]; reflexivity.
Qed.
Lemma steps_moved l : forall p, steps p l = Z.of_nat (length (moved p l)).
Proof.
  induction l as [|q r IH]; intros p; [reflexivity|]. cbn [steps moved]. fold (pt_eqb p q). rewrite IH. destruct (pt_eqb p q); cbn [length]; lia.
Qed.
Lemma moved_len l : forall p, le (length (moved p l)) (length l).
Proof. induction l as [|q r IH]; intros p; cbn [moved length]; [lia|]. specialize (IH q). destruct (_ && _); cbn [length]; lia. Qed.
Lemma moved_all l : forall p, length (moved p l) = length l -> moved p l = l.
Proof. induction l as [|q r IH]; intros p; cbn [moved length]; [reflexivity|]. pose proof (moved_len r q). destruct (_ && _); cbn [length]; intros E; [lia|]. rewrite IH by lia. reflexivity. Qed.
Lemma enc_std p l : Z.of_nat (length l) < 2 ^ 29 -> enc_line p l = std_line p (merge_runs l).
Proof.
  destruct l as [|q r]; [reflexivity|]. intros H. cbn [length] in H. rewrite merge_moved. cbn [enc_line std_line]. rewrite deltas_moves, steps_moved. pose proof (moved_len r q). unfold lineTo. rewrite cmdEnc_val, Z.mod_small by lia. reflexivity.
Qed.
Lemma last_merge l p : l <> [] -> last (merge_runs l) p = last l (0, 0).
Proof.
  destruct l as [|q r]; [congruence|]. intros _. pose proof (merge_runs_last r q) as K. rewrite last_cons, <- K. rewrite merge_moved. rewrite !last_cons. reflexivity.
Qed.
Lemma enc_std_lines ls : forall p, Forall line_ok ls -> enc_lines p ls = std_lines p (map merge_runs ls).
Proof.
  induction ls as [|l r IH]; intros p H; [reflexivity|]. destruct (Forall_inv H) as (N & _ & S). cbn [enc_lines map std_lines]. rewrite enc_std by exact S. rewrite last_merge, IH by (auto; exact (Forall_inv_tail H)). reflexivity.
Qed.
Lemma enc_std_rings ls : forall p, Forall ring_fits ls -> enc_rings p ls = std_rings p (map merge_runs ls).
Proof.
  induction ls as [|l r IH]; intros p H; [reflexivity|]. destruct (Forall_inv H) as (N & _ & S). cbn [enc_rings map std_rings]. rewrite enc_std by exact S. rewrite last_merge, IH by (auto; exact (Forall_inv_tail H)). rewrite <- app_assoc. reflexivity.
Qed.
Lemma moved_none l : forall p, moved p l = [] <-> Forall (eq p) l.
Proof.
  induction l as [|q r IH]; intros p; cbn [moved]; [split; auto|]. fold (pt_eqb p q). destruct (pt_eqb p q) eqn:E.
  - apply pt_eqb_eq in E as ->. rewrite IH. split; [auto|]. intros K. exact (Forall_inv_tail K).
  - split; [discriminate|]. intros K. pose proof (Forall_inv K) as K1. apply pt_eqb_eq in K1. congruence.
Qed.
(** Encodings are unambiguous. *)
Lemma std_rings_inj a b : Forall (fun l => l <> []) a -> Forall (fun l => l <> []) b -> std_rings (0, 0) a = std_rings (0, 0) b -> a = b.
Proof.
  intros Ha Hb E. pose proof (loop_std_rings a (2 * (length a + length b)) 0 true None [] (0, 0) Ha ltac:(lia) ltac:(auto) ltac:(discriminate) ltac:(lia)) as Ka. rewrite E, (loop_std_rings b) in Ka; auto; try discriminate; try lia. cbn [app] in Ka. congruence.
Qed.
Lemma closed_not r : closed r -> ~ ring_conforms r.
Proof. intros (p & t & -> & H). rewrite last_cons in H. cbn [ring_conforms]. auto. Qed.
Lemma closed_merged l : closed l -> closed (merge_runs l).
Proof. intros (p & r & -> & H). exists p, (moved p r). split; [apply merge_moved|]. rewrite last_cons in H. rewrite merge_runs_last. exact H. Qed.
Lemma writable_shape {P} (q : P -> Z * Z) same polys : (forall a b, same a b = true -> q a = q b) -> Forall (writable q) polys ->
  let ps := map (fun rings => map (fun l => map q (close_with same l)) rings) polys in
  Forall (fun rings => rings <> [] /\ Forall (fun l => l <> []) rings) polys /\ Forall (Forall ring_fits) ps /\ Forall (Forall closed) ps.
Proof.
  intros Hs Hall ps.
  assert (Hshape : Forall (fun rings => rings <> [] /\ Forall (fun l => l <> []) rings) polys).
  { eapply Forall_impl; [|exact Hall]. intros rings [H1 H2]. split; auto. eapply Forall_impl; [|exact H2]. cbn. tauto. }
  split; [exact Hshape|]. subst ps. rewrite !Forall_map. split.
  - eapply Forall_impl; [|exact Hall]. intros rings [_ H2]. apply Forall_map. eapply Forall_impl; [|exact H2]. intros l (A1 & A2 & A3). apply close_with_fits; auto.
  - eapply Forall_impl; [|exact Hshape]. intros rings [_ H2]. apply Forall_map. eapply Forall_impl; [|exact H2]. intros l A1. apply close_with_map_closed; auto.
Qed.

(** ** Theorems *)
(** Lines are encoded as the specification says, repeated neighbours once. *)
Theorem C158_lines : forall ls, Forall writable_line ls ->
  exists c, MakeMultiLine cursor0 ls = Ok c /\ geo c = std_lines (0, 0) (map merge_runs ls).
Proof.
  intros ls H. assert (H' : Forall line_ok ls) by exact H. destruct (MakeMultiLine_eq ls cursor0 fits0 H') as (c & E & G). exists c. split; [exact E|]. rewrite G. cbn [geo cursor0 last_pt app]. apply enc_std_lines, H'.
Qed.
Print Assumptions C158_lines.
(** They conform unless all points of a line are the same. *)
Theorem C158_line_conforms : forall p r, line_conforms (merge_runs (p :: r)) <-> ~ Forall (eq p) r.
Proof.
  intros p r. unfold line_conforms. rewrite merge_moved, <- moved_none. cbn [length]. destruct (moved p r); cbn [length]; split; intros K; try congruence; try lia.
Qed.
Print Assumptions C158_line_conforms.
(** Polygons are encoded as the specification says, *)
Theorem C158_polygons : forall (P : Type) (q : P -> Z * Z) (same : P -> P -> bool) polys, (forall a b, same a b = true -> q a = q b) -> Forall (writable q) polys ->
  exists c, MakeMultiPolygonFloat q same cursor0 polys = Ok c /\ geo c = std_rings (0, 0) (concat (map (seen_polygon q same) polys)).
Proof.
  intros P q same polys Hs Hall. destruct (writable_shape q same polys Hs Hall) as (Hshape & Hfits & Hclosed).
  destruct (MakeMultiPolygonFloat_eq q same polys cursor0 Hshape Hfits fits0) as [n E]. eexists. split; [exact E|]. cbn [geo cursor0 last_pt app]. rewrite enc_std_rings.
  - f_equal. rewrite concat_map, !map_map. f_equal. apply map_ext. intros. apply emitted_seen.
  - apply Forall_concat', Forall_map. eapply Forall_impl; [|exact Hfits]. intros x. apply emitted_fits.
Qed.
Print Assumptions C158_polygons.
(** except that no ring ever conforms: each repeats its first position before ClosePath. *)
Theorem C158_rings_refuted : forall (P : Type) (q : P -> Z * Z) (same : P -> P -> bool) polys c rs, (forall a b, same a b = true -> q a = q b) -> Forall (writable q) polys ->
  MakeMultiPolygonFloat q same cursor0 polys = Ok c -> Forall (fun r => r <> []) rs -> geo c = std_rings (0, 0) rs ->
  Forall (fun r => ~ ring_conforms r) rs /\ length rs = length (concat polys).
Proof.
  intros P q same polys c rs Hs Hall E Hn G. destruct (C158_polygons P q same polys Hs Hall) as (c' & E' & G'). rewrite E in E'. injection E' as <-. rewrite G in G'.
  destruct (writable_shape q same polys Hs Hall) as (Hshape & Hfits & Hclosed).
  assert (K : Forall closed (concat (map (seen_polygon q same) polys))).
  { apply Forall_concat', Forall_map. rewrite Forall_map in Hclosed. eapply Forall_impl; [|exact Hclosed]. intros rings C. pose proof (emitted_closed _ C) as C'. rewrite <- emitted_seen. apply Forall_map. eapply Forall_impl; [|exact C']. apply closed_merged. }
  apply std_rings_inj in G'; [|exact Hn|eapply Forall_impl; [|exact K]; intros r (p & t & -> & _); discriminate]. subst rs. split; [eapply Forall_impl; [|exact K]; apply closed_not|].
  clear. induction polys as [|rings polys IH]; [reflexivity|]. cbn [map concat]. rewrite !app_length, IH. f_equal. destruct rings; cbn [seen_polygon map length]; rewrite ?map_length; reflexivity.
Qed.
Print Assumptions C158_rings_refuted.
(** Points are encoded as the specification says if and only if each differs from the one before, the first one from the origin; otherwise parameters are missing. *)
Theorem C158_points : forall ps, Forall near ps -> Z.of_nat (length ps) < 2 ^ 29 ->
  geo (MakeMultiPoint cursor0 ps) = command 1 (Z.of_nat (length ps)) :: moves (0, 0) (moved (0, 0) ps) /\
  (geo (MakeMultiPoint cursor0 ps) = std_points ps <-> moved (0, 0) ps = ps).
Proof.
  intros ps H Hl. assert (E : geo (MakeMultiPoint cursor0 ps) = command 1 (Z.of_nat (length ps)) :: moves (0, 0) (moved (0, 0) ps)).
  { unfold MakeMultiPoint. rewrite fold_LinePoint; cbn [geo last_pt cnt cursor0]; [|exact fits0|exact H|lia|unfold zlen; lia]. rewrite deltas_moves. unfold moveTo, u32, zlen. rewrite cmdEnc_val by lia. rewrite !Z.mod_small by lia. reflexivity. }
  split; [exact E|]. rewrite E. unfold std_points. split; [|intros ->; reflexivity]. intros K. injection K as K. apply moved_all. apply (f_equal (@length Z)) in K. rewrite !moves_len in K. lia.
Qed.
Print Assumptions C158_points.
Theorem C158_point : forall p, near p -> (geo (MakePoint cursor0 p) = std_points [p] <-> p <> (0, 0)).
Proof.
  intros p H. pose proof (proj2 (C158_points [p] ltac:(repeat constructor; apply H) ltac:(cbn [length]; lia))) as K. change (geo (MakePoint cursor0 p)) with (geo (MakeMultiPoint cursor0 [p])). rewrite K. cbn [moved]. fold (pt_eqb (0, 0) p). destruct (pt_eqb (0, 0) p) eqn:E.
  - apply pt_eqb_eq in E as <-. split; [discriminate|congruence].
  - split; [|reflexivity]. intros _ ->. rewrite pt_eqb_refl in E. discriminate.
Qed.
Print Assumptions C158_point.

(** ** Not vacuous *)
Example C158_nonvacuous :
  (exists c, MakePolygonFloat (fun p => p) pt_eqb cursor0 [[(3, 6); (8, 12); (20, 34)]] = Ok c /\ geo c = [9; 6; 12; 26; 10; 12; 24; 44; 33; 55; 15]) /\
  writable (fun p => p) [[(3, 6); (8, 12); (20, 34)]] /\ writable_line [(2, 2); (2, 2)] /\
  (exists c, MakeLine cursor0 [(2, 2); (2, 2)] = Ok c /\ geo c = [9; 4; 4; 2]) /\ geo (MakePoint cursor0 (0, 0)) = [9].
Proof.
  split; [eexists; split; reflexivity|]. split; [split; [discriminate|]; constructor; [|constructor]; split; [discriminate|]; split; [repeat constructor; cbn; lia|unfold short; cbn [length]; lia]|].
  split; [split; [discriminate|]; split; [repeat constructor; cbn; lia|cbn [length]; lia]|]. split; [eexists; split; reflexivity|reflexivity].
Qed.
