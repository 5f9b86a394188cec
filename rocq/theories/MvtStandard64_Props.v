(** Property C159: geometries encoded as the vector tile specification prescribes, read in binary64. *)
From Coq Require Import ZArith List Lia Bool.
From Verif Require Import GoBase F64 MvtGeom_Model MvtGeom_Spec Decode64_Model Decode64_Props MvtStandard_Props.
Import ListNotations.
Open Scope Z_scope.

(** ** Specification *)
(** At most 2^22 numbers, as many as fit 4 MiB *)
Definition not_long (g : list Z) : Prop := Z.of_nat (length g) <= 2 ^ 22.

(** ** Lemmas *)
Lemma zz_word K v w : K < 2 ^ 30 -> Z.abs v <= K -> Z.abs w <= K -> word (zz (v - w)).
Proof. intros HK Hv Hw. unfold word, zz. destruct (0 <=? v - w) eqn:E; lia. Qed.
Lemma moves_word K l : K < 2 ^ 30 -> forall p, within K p -> Forall (within K) l -> Forall word (moves p l).
Proof.
  intros HK. induction l as [|q r IH]; intros p Hp H; [constructor|]. destruct Hp as (P1 & P2). destruct (Forall_inv H) as (Q1 & Q2). cbn [moves]. constructor; [eapply zz_word; eauto|]. constructor; [eapply zz_word; eauto|]. apply IH; [split; auto|exact (Forall_inv_tail H)].
Qed.
Lemma line_word K p l : K < 2 ^ 30 -> within K p -> Forall (within K) l -> Z.of_nat (length l) < 2 ^ 29 -> Forall word (std_line p l).
Proof.
  intros HK Hp H L. destruct l as [|q r]; [constructor|]. destruct Hp as (P1 & P2). pose proof (Forall_inv H) as Hq. destruct Hq as (Q1 & Q2). cbn [length] in L. cbn [std_line]. constructor; [unfold word, command; lia|]. constructor; [eapply zz_word; eauto|]. constructor; [eapply zz_word; eauto|]. constructor; [unfold word, command; lia|]. eapply moves_word; eauto; [split; auto|exact (Forall_inv_tail H)].
Qed.
Lemma last_within K l : forall p, within K p -> Forall (within K) l -> within K (last l p).
Proof. induction l as [|q r IH]; intros p Hp H; [exact Hp|]. pose proof (IH q (Forall_inv H) (Forall_inv_tail H)) as R. destruct r; [exact (Forall_inv H)|]. exact (IH p Hp (Forall_inv_tail H)). Qed.
Lemma std_line_length p l : le (length l) (length (std_line p l)).
Proof. destruct l as [|q r]; [apply le_n|]. cbn [std_line length]. rewrite moves_len. lia. Qed.
Lemma lines_word K ls : K < 2 ^ 30 -> forall p, within K p -> Forall (Forall (within K)) ls -> not_long (std_lines p ls) -> Forall word (std_lines p ls).
Proof.
  intros HK. unfold not_long. induction ls as [|l r IH]; intros p Hp H L; [constructor|]. cbn [std_lines] in *. rewrite app_length in L. pose proof (std_line_length p l). apply Forall_app. split.
  - eapply line_word; eauto; [exact (Forall_inv H)|lia].
  - apply IH; [apply last_within; [exact Hp|exact (Forall_inv H)]|exact (Forall_inv_tail H)|lia].
Qed.
Lemma rings_word K ls : K < 2 ^ 30 -> forall p, within K p -> Forall (Forall (within K)) ls -> not_long (std_rings p ls) -> Forall word (std_rings p ls).
Proof.
  intros HK. unfold not_long. induction ls as [|l r IH]; intros p Hp H L; [constructor|]. cbn [std_rings] in *. rewrite !app_length in L. pose proof (std_line_length p l). apply Forall_app. split; [|apply Forall_app; split].
  - eapply line_word; eauto; [exact (Forall_inv H)|lia].
  - constructor; [unfold word, command; lia|constructor].
  - apply IH; [apply last_within; [exact Hp|exact (Forall_inv H)]|exact (Forall_inv_tail H)|lia].
Qed.
Lemma shut_within K r : Forall (within K) r -> Forall (within K) (shut r).
Proof. intros H. destruct r as [|p t]; [exact H|]. unfold shut, close_ring. destruct (_ : bool); [exact H|]. apply Forall_app. split; [exact H|]. constructor; [exact (Forall_inv H)|constructor]. Qed.
Lemma origin_within K : 0 <= K -> within K (0, 0).
Proof. intros H. split; cbn [fst snd]; lia. Qed.

(** ** Theorems *)
(** Lines of coordinates below 2^30 are read as they are, without any rounding, *)
Theorem C159_lines : forall ls, ls <> [] -> Forall (fun l => l <> []) ls -> Forall (Forall (within (2 ^ 30 - 1))) ls -> not_long (std_lines (0, 0) ls) ->
  LoadGeometry64 2 (std_lines (0, 0) ls) = Ok (match ls with [l] => lift (GLineString l) | _ => lift (GMultiLineString ls) end).
Proof.
  intros ls N H W L. rewrite (C123_decode 2 _ 0); [|eapply lines_word; [|apply (origin_within (2 ^ 30 - 1))|exact W|exact L]; lia|exact L|lia|lia|discriminate]. rewrite C157_lines by auto. destruct ls as [|a [|b r]]; reflexivity.
Qed.
Print Assumptions C159_lines.
(** and so are conforming polygons within 23170, with the same holes, *)
Theorem C159_polygons : forall ps, ps <> [] -> Forall std_polygon ps -> Forall (Forall (fun r => r <> [])) ps -> Forall (Forall (Forall (within 23170))) ps -> not_long (std_rings (0, 0) (concat ps)) ->
  LoadGeometry64 3 (std_rings (0, 0) (concat ps)) = Ok (match ps with [p] => lift (GPolygon (map shut p)) | _ => lift (GMultiPolygon (map (map shut) ps)) end).
Proof.
  intros ps N H Hn W L. assert (W' : Forall (Forall (within 23170)) (concat ps)). { clear - W. induction W as [|p ps Hp _ IH]; [constructor|]. cbn [concat]. apply Forall_app. auto. }
  assert (S : Forall (Forall (within 23170)) (map shut (concat ps))). { apply Forall_map. eapply Forall_impl; [|exact W']. apply shut_within. }
  rewrite (C123_decode 3 _ 23170); [rewrite C157_polygons by auto; destruct ps as [|a [|b r]]; reflexivity|eapply rings_word; [|apply (origin_within 23170)|exact W'|exact L]; lia|exact L|lia|unfold not_long in L; unfold zlen; lia|].
  intros d E _. rewrite C157_polygons in E by auto. injection E as <-. rewrite concat_map in S. destruct ps as [|a [|b r]]; [congruence| |exact S]. cbn [map concat rings_of] in *. rewrite app_nil_r in S. exact S.
Qed.
Print Assumptions C159_polygons.
(** or, in general, if the numbers times 4 times the square of the largest coordinate is at most 2^53. *)
Theorem C159_polygons_any : forall ps K, ps <> [] -> Forall std_polygon ps -> Forall (Forall (fun r => r <> [])) ps -> 0 <= K < 2 ^ 30 -> Forall (Forall (Forall (within K))) ps ->
  not_long (std_rings (0, 0) (concat ps)) -> Z.of_nat (length (std_rings (0, 0) (concat ps))) * (4 * (K * K)) <= 2 ^ 53 ->
  LoadGeometry64 3 (std_rings (0, 0) (concat ps)) = Ok (match ps with [p] => lift (GPolygon (map shut p)) | _ => lift (GMultiPolygon (map (map shut) ps)) end).
Proof.
  intros ps K N H Hn HK W L B. assert (W' : Forall (Forall (within K)) (concat ps)). { clear - W. induction W as [|p ps Hp _ IH]; [constructor|]. cbn [concat]. apply Forall_app. auto. }
  assert (S : Forall (Forall (within K)) (map shut (concat ps))). { apply Forall_map. eapply Forall_impl; [|exact W']. apply shut_within. }
  rewrite (C123_decode 3 _ K); [rewrite C157_polygons by auto; destruct ps as [|a [|b r]]; reflexivity|eapply rings_word; [|apply (origin_within K)|exact W'|exact L]; lia|exact L|lia|exact B|].
  intros d E _. rewrite C157_polygons in E by auto. injection E as <-. rewrite concat_map in S. destruct ps as [|a [|b r]]; [congruence| |exact S]. cbn [map concat rings_of] in *. rewrite app_nil_r in S. exact S.
Qed.
Print Assumptions C159_polygons_any.
(** Beyond that the sums that tell holes from polygons round: these two conforming polygons are read as one with a hole. *)
Definition far_polygons : list (list (list (Z * Z))) := [[[(0, 0); (4, 0); (4, 4); (0, 4)]]; [[(0, 0); (1600924342, 1336017201); (1579305895, 1317975988)]]].
Theorem C159_far_refuted : Forall std_polygon far_polygons /\ LoadGeometry64 3 (std_rings (0, 0) (concat far_polygons)) = Ok (GPolygon64 (map (map lp) (map shut (concat far_polygons)))).
Proof. split; [repeat constructor|]. apply shape_poly. vm_compute. reflexivity. Qed.
Print Assumptions C159_far_refuted.

(** ** Not vacuous: the multipolygon of the specification's examples *)
Example C159_nonvacuous : let ps := [[[(0, 0); (10, 0); (10, 10); (0, 10)]]; [[(11, 11); (20, 11); (20, 20); (11, 20)]; [(13, 13); (13, 17); (17, 17); (17, 13)]]] in
  Forall std_polygon ps /\ Forall (Forall (fun r => r <> [])) ps /\ Forall (Forall (Forall (within 23170))) ps /\ not_long (std_rings (0, 0) (concat ps)) /\
  Forall (Forall (within (2 ^ 30 - 1))) [[(2, 2); (2, 10)]; [(1, 1); (3, 5)]].
Proof.
  cbv zeta. split; [repeat constructor; vm_compute; congruence|]. split; [repeat constructor; discriminate|]. split; [repeat constructor; cbn [fst snd]; lia|]. split; [unfold not_long; vm_compute; congruence|repeat constructor; cbn [fst snd]; lia].
Qed.
