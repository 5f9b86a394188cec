(** Property C153: what is read of polygons written with the integer writers MakePolygon and MakeMultiPolygon. *)
From Coq Require Import ZArith List Lia Bool.
From Verif Require Import GoBase MvtGeom_Model MvtGeom_Spec MvtGeom_Proofs MvtGeom_Props MvtFlat_Props.
Import ListNotations.
Open Scope Z_scope.

(** ** Specification *)
Definition same_pt (a b : Z * Z) : bool := (fst a =? fst b) && (snd a =? snd b).
(** The first ring with area at most 0, the others with area at least 0 *)
Definition turn (first : bool) (l : list (Z * Z)) : list (Z * Z) := if Bool.eqb (surveyor l <? 0) first then l else rev l.
(** The rings written for a polygon: closed, repeated neighbours once *)
Definition turned (rings : list (list (Z * Z))) : list (list (Z * Z)) :=
  match map (fun r => merge_runs (close_ring same_pt r)) rings with [] => [] | o :: hs => turn true o :: map (turn false) hs end.
(** [ps] are the rings cut before every ring of positive area *)
Definition cut_at_positive (rings : list (list (Z * Z))) (ps : list (list (list (Z * Z)))) : Prop :=
  concat ps = rings /\
  Forall (fun p => match p with [] => False | _ :: more => Forall (fun r => surveyor r <= 0) more end) ps /\
  Forall (fun p => match p with [] => False | f :: _ => 0 < surveyor f end) (tl ps).
(** The holes of polygons that enclose something *)
Definition real_holes (polys : list (list (list (Z * Z)))) : list (list (Z * Z)) := filter (fun h => negb (surveyor h =? 0)) (concat (map (@tl _) polys)).

(** ** Lemmas *)
Lemma turn_area b l : surveyor (turn b l) = if b then - Z.abs (surveyor l) else Z.abs (surveyor l).
Proof. unfold turn. destruct (surveyor l <? 0) eqn:E, b; cbn [Bool.eqb]; rewrite ?surveyor_rev; lia. Qed.
Lemma merge_worient b l : merge_runs (worient b l) = turn b (merge_runs l).
Proof. unfold worient, turn. rewrite surveyor_merge. destruct (Bool.eqb _ b); auto using merge_runs_rev. Qed.
Lemma int_emitted_turned rings : map merge_runs (int_emitted (map (close_with pt_eqb) rings)) = turned rings.
Proof.
  unfold turned. destruct rings as [|o hs]; [reflexivity|]. cbn [map int_emitted]. rewrite merge_worient. f_equal. rewrite !map_map. apply map_ext. intros. apply merge_worient.
Qed.
Lemma closed_area l : surveyor (merge_runs (close_ring same_pt l)) = surveyor l.
Proof. rewrite surveyor_merge. pose proof (surveyor_close (fun p => p) same_pt l) as H. rewrite !map_id_pt in H. exact H. Qed.
Lemma int_emitted_fits rs : Forall ring_fits rs -> Forall ring_fits (int_emitted rs).
Proof. intros H. destruct H as [|o hs Ho Hh]; constructor; [apply worient_fits, Ho|]. apply Forall_map. eapply Forall_impl; [|exact Hh]. intros l. apply worient_fits. Qed.
Lemma int_emitted_closed rs : Forall closed rs -> Forall closed (int_emitted rs).
Proof. intros H. destruct H as [|o hs Ho Hh]; constructor; [apply worient_closed, Ho|]. apply Forall_map. eapply Forall_impl; [|exact Hh]. intros l. apply worient_closed. Qed.
Lemma MakeMultiPolygon_eq polys : forall c, Forall (fun rings => rings <> [] /\ Forall (fun l => l <> []) rings) polys ->
  Forall (Forall ring_fits) (map (map (close_with pt_eqb)) polys) -> fits (last_pt c) ->
  exists n, MakeMultiPolygon c polys = Ok (mkCur (geo c ++ enc_rings (last_pt c) (concat (map int_emitted (map (map (close_with pt_eqb)) polys)))) (last_ring (last_pt c) (concat (map int_emitted (map (map (close_with pt_eqb)) polys)))) n).
Proof.
  induction polys as [|poly r IH]; intros c Hall Hf Hc.
  - exists (cnt c). cbn. rewrite app_nil_r. destruct c; reflexivity.
  - cbn [map] in *. inversion Hf as [|? ? Hp Hr]; subst. inversion Hall as [|? ? [H1 H2] H3]; subst. unfold MakeMultiPolygon in *. cbn [fold_res].
    destruct (MakePolygon_eq c poly H1 H2 Hp Hc) as [n E]. rewrite E. cbn [bind].
    match goal with |- context [fold_res _ r ?c1] => destruct (IH c1) as [n' E']; auto end.
    { cbn [last_pt]. apply last_ring_fits; auto. apply int_emitted_fits, Hp. }
    exists n'. rewrite E'. cbn [geo last_pt concat]. rewrite enc_rings_app, app_assoc. f_equal. f_equal. unfold last_ring. rewrite fold_left_app. reflexivity.
Qed.
Lemma group_cut lines : forall ps p, exists more groups, group_rings lines (ps ++ [p]) = ps ++ [p ++ more] ++ groups /\ more ++ concat groups = lines /\ Forall (fun r => surveyor r <= 0) more /\
  Forall (fun g => match g with [] => False | f :: more => 0 < surveyor f /\ Forall (fun r => surveyor r <= 0) more end) groups.
Proof.
  induction lines as [|l lines IH]; intros ps p.
  - exists [], []. cbn [group_rings app concat]. rewrite app_nil_r. auto.
  - cbn [group_rings]. rewrite SignedArea_surveyor. destruct (Z.gtb_spec (surveyor l) 0) as [H|H].
    + destruct (IH (ps ++ [p]) [l]) as (more & groups & E & C & M & G). exists [], ((l :: more) :: groups). cbn [app concat]. rewrite C, app_nil_r. split; [etransitivity; [exact E|]; rewrite <- app_assoc; reflexivity|]. split; [reflexivity|]. split; [constructor|]. constructor; [split; [lia|exact M]|exact G].
    + rewrite append_last_snoc. destruct (IH ps (p ++ [l])) as (more & groups & E & C & M & G). exists (l :: more), groups. split; [rewrite E, <- app_assoc; reflexivity|]. split; [cbn [app]; rewrite C; reflexivity|]. split; [constructor; [exact H|exact M]|exact G].
Qed.
Lemma group_positive lines : lines <> [] -> cut_at_positive lines (group_rings lines []).
Proof.
  destruct lines as [|l lines]; [congruence|]. intros _. cbn [group_rings]. replace (if SignedArea l >? 0 then [] ++ [[l]] else append_last [] l) with ([] ++ [[l]]) by (destruct (SignedArea l >? 0); reflexivity).
  destruct (group_cut lines [] [l]) as (more & groups & E & C & M & G). rewrite E. cbn [app]. split; [cbn [concat app]; rewrite C; reflexivity|]. cbn [tl]. split; [constructor; [exact M|]|]; (eapply Forall_impl; [|exact G]; intros [|f m]; tauto).
Qed.
Lemma cut_unique ps : forall qs rings, cut_at_positive rings ps -> cut_at_positive rings qs -> ps = qs.
Proof.
  assert (Tl : forall (a b : list (list (Z * Z))) (x y : list (list (list (Z * Z)))),
    a ++ concat x = b ++ concat y -> Forall (fun r => surveyor r <= 0) a -> Forall (fun r => surveyor r <= 0) b ->
    Forall (fun p => match p with [] => False | f :: _ => 0 < surveyor f end) x -> Forall (fun p => match p with [] => False | f :: _ => 0 < surveyor f end) y -> a = b /\ concat x = concat y).
  { induction a as [|r a IH]; intros b x y E Ha Hb Hx Hy.
    - destruct b as [|r b]; [auto|]. cbn [app] in E. destruct Hx as [|[|f p] x Hf _]; [discriminate|destruct Hf|]. cbn [concat app] in E. injection E as -> _. pose proof (Forall_inv Hb). cbv beta in *. lia.
    - destruct b as [|s b].
      + cbn [app] in E. destruct Hy as [|[|f p] y Hf _]; [discriminate|destruct Hf|]. cbn [concat app] in E. injection E as -> _. pose proof (Forall_inv Ha). cbv beta in *. lia.
      + cbn [app] in E. injection E as -> E. destruct (IH b x y E (Forall_inv_tail Ha) (Forall_inv_tail Hb) Hx Hy) as [-> K]. auto. }
  induction ps as [|p ps IH]; intros qs rings (A1 & A2 & A3) (B1 & B2 & B3).
  - destruct qs as [|q qs]; [reflexivity|]. destruct q as [|f q]; [destruct (Forall_inv B2)|]. rewrite <- A1 in B1. discriminate.
  - destruct p as [|f p]; [destruct (Forall_inv A2)|]. destruct qs as [|q qs]; [rewrite <- B1 in A1; discriminate|]. destruct q as [|g q]; [destruct (Forall_inv B2)|]. rewrite <- B1 in A1. cbn [concat app tl] in *. injection A1 as -> A1.
    destruct (Tl p q ps qs A1 (Forall_inv A2) (Forall_inv B2) A3 B3) as [-> K]. f_equal. apply (IH qs (concat ps)).
    + split; [reflexivity|]. split; [exact (Forall_inv_tail A2)|]. destruct ps; [constructor|exact (Forall_inv_tail A3)].
    + split; [auto|]. split; [exact (Forall_inv_tail B2)|]. destruct qs; [constructor|exact (Forall_inv_tail B3)].
Qed.
Lemma cut_count rings ps : rings <> [] -> cut_at_positive rings ps -> length ps = S (length (filter (fun r => 0 <? surveyor r) (tl rings))).
Proof.
  intros N (<- & A & B). destruct ps as [|p ps]; [elim N; reflexivity|]. destruct p as [|f p]; [destruct (Forall_inv A)|]. cbn [concat app tl length] in *. f_equal.
  assert (F : forall l, Forall (fun r => surveyor r <= 0) l -> filter (fun r => 0 <? surveyor r) l = []).
  { induction 1 as [|r l Hr _ IH]; [reflexivity|]. cbn [filter]. replace (0 <? surveyor r) with false by lia. exact IH. }
  rewrite filter_app, (F p (Forall_inv A)). cbn [app]. pose proof (Forall_inv_tail A) as A'. clear A N. induction B as [|q ps Hq _ IH]; [reflexivity|]. destruct q as [|g q]; [destruct Hq|]. cbn [concat app filter length]. replace (0 <? surveyor g) with true by lia. cbn [length]. rewrite filter_app, (F q (Forall_inv A')). cbn [app]. rewrite (IH (Forall_inv_tail A')). reflexivity.
Qed.
Lemma turned_positive polys : length (filter (fun r => 0 <? surveyor r) (concat (map turned polys))) = length (real_holes polys).
Proof.
  unfold real_holes. induction polys as [|rings polys IH]; [reflexivity|]. cbn [map concat]. rewrite !filter_app, !app_length, IH. f_equal. destruct rings as [|o hs]; [reflexivity|]. unfold turned. cbn [map tl filter]. rewrite turn_area. replace (0 <? - Z.abs (surveyor (merge_runs (close_ring same_pt o)))) with false by lia.
  rewrite map_map. clear IH. induction hs as [|h hs IH]; [reflexivity|]. cbn [map filter]. rewrite turn_area, closed_area. replace (0 <? Z.abs (surveyor h)) with (negb (surveyor h =? 0)) by lia. destruct (negb (surveyor h =? 0)); cbn [length]; rewrite IH; reflexivity.
Qed.

(** ** Theorems *)
(** The rings come back in the order written, but cut before every ring of positive area, wherever a polygon began: *)
Theorem C153_any : forall polys, polys <> [] -> Forall (writable (fun p => p)) polys ->
  exists c ps, MakeMultiPolygon cursor0 polys = Ok c /\ cut_at_positive (concat (map turned polys)) ps /\ LoadGeometryCmds 3 (geo c) = Ok (read_as ps).
Proof.
  intros polys Hne Hall.
  assert (Hshape : Forall (fun rings => rings <> [] /\ Forall (fun l : list pt => l <> []) rings) polys).
  { eapply Forall_impl; [|exact Hall]. intros rings [H1 H2]. split; auto. eapply Forall_impl; [|exact H2]. cbn. tauto. }
  set (ps := map (map (close_with pt_eqb)) polys).
  assert (Hfits : Forall (Forall ring_fits) ps).
  { subst ps. apply Forall_map. eapply Forall_impl; [|exact Hall]. intros rings (_ & H). apply Forall_map. eapply Forall_impl; [|exact H]. intros l (A & B & C). rewrite <- (map_id_pt (close_with pt_eqb l)). apply close_with_fits; auto. }
  assert (Hclosed : Forall (Forall closed) ps).
  { subst ps. apply Forall_map. eapply Forall_impl; [|exact Hshape]. intros rings (_ & H). apply Forall_map. eapply Forall_impl; [|exact H]. intros l A. rewrite <- (map_id_pt (close_with pt_eqb l)). apply close_with_map_closed; auto. intros a b Hab. apply pt_eqb_eq; auto. }
  destruct (MakeMultiPolygon_eq polys cursor0 Hshape Hfits fits0) as [n E]. fold ps in E.
  set (ls := concat (map int_emitted ps)) in *.
  assert (Hls : Forall ring_fits ls). { apply Forall_concat', Forall_map. eapply Forall_impl; [|exact Hfits]. exact int_emitted_fits. }
  assert (Hlc : Forall closed ls). { apply Forall_concat', Forall_map. eapply Forall_impl; [|exact Hclosed]. exact int_emitted_closed. }
  assert (Hcat : map merge_runs ls = concat (map turned polys)).
  { subst ls ps. rewrite concat_map, !map_map. f_equal. apply map_ext. exact int_emitted_turned. }
  assert (Hn : concat (map turned polys) <> []).
  { destruct polys as [|[|o hs] r]; [congruence|destruct (Forall_inv Hshape) as [X _]; congruence|]. discriminate. }
  assert (Hlsne : (0 < length ls)%nat).
  { destruct ls; [|cbn [length]; lia]. cbn [map] in Hcat. congruence. }
  eexists. exists (group_rings (concat (map turned polys)) []). split; [exact E|]. split; [apply group_positive, Hn|].
  cbn [geo cursor0 last_pt app]. pose proof (enc_rings_len (0, 0) ls Hls) as Hlen.
  unfold LoadGeometryCmds. rewrite geom_loop_rings; auto; try discriminate; try (unfold zlen; lia); try lia.
  cbn [bind app]. change (3 =? 3) with true. cbn iota. rewrite map_close_closed by auto. rewrite Hcat. unfold read_as.
  destruct (concat (map turned polys)) as [|a [|b r]]; [reflexivity| |].
  - cbn [group_rings]. destruct (SignedArea a >? 0); reflexivity.
  - destruct (group_rings (a :: b :: r) []) as [|p [|p' r']]; reflexivity.
Qed.
Print Assumptions C153_any.
(** there is one such cut, *)
Theorem C153_unique : forall rings ps qs, cut_at_positive rings ps -> cut_at_positive rings qs -> ps = qs.
Proof. intros rings ps qs. apply cut_unique. Qed.
Print Assumptions C153_unique.
(** first rings have no positive area and other rings no negative area, so there is one polygon more than holes that enclose something; *)
Theorem C153_areas : forall o hs, exists o' hs', turned (o :: hs) = o' :: hs' /\ surveyor o' = - Z.abs (surveyor o) /\ Forall2 (fun h h' => surveyor h' = Z.abs (surveyor h)) hs hs'.
Proof.
  intros o hs. unfold turned. cbn [map]. eexists. eexists. split; [reflexivity|]. rewrite turn_area, closed_area. split; [reflexivity|]. rewrite map_map. induction hs as [|h hs IH]; [constructor|]. cbn [map]. constructor; [rewrite turn_area, closed_area; reflexivity|exact IH].
Qed.
Print Assumptions C153_areas.
Theorem C153_count : forall polys, polys <> [] -> Forall (writable (fun p => p)) polys ->
  exists c ps, MakeMultiPolygon cursor0 polys = Ok c /\ LoadGeometryCmds 3 (geo c) = Ok (read_as ps) /\ length ps = S (length (real_holes polys)).
Proof.
  intros polys N H. destruct (C153_any polys N H) as (c & ps & A & B & C). exists c, ps. split; [exact A|]. split; [exact C|].
  assert (K : exists o rs, concat (map turned polys) = o :: rs /\ surveyor o <= 0).
  { destruct polys as [|[|o hs] r]; [congruence|destruct (Forall_inv H) as [X _]; congruence|]. destruct (C153_areas o hs) as (o' & hs' & E & Ho & _). cbn [map concat]. rewrite E. cbn [app]. eexists. eexists. split; [reflexivity|lia]. }
  assert (N' : concat (map turned polys) <> []) by (destruct K as (o & rs & -> & _); discriminate).
  rewrite (cut_count _ _ N' B), <- turned_positive. destruct K as (o & rs & -> & Ho). cbn [tl filter]. replace (0 <? surveyor o) with false by lia. reflexivity.
Qed.
Print Assumptions C153_count.
(** polygons whose holes enclose nothing all become rings of one, *)
Theorem C153_one : forall polys, polys <> [] -> Forall (writable (fun p => p)) polys ->
  exists c, MakeMultiPolygon cursor0 polys = Ok c /\ (LoadGeometryCmds 3 (geo c) = Ok (GPolygon (concat (map turned polys))) <-> real_holes polys = []).
Proof.
  intros polys N H. destruct (C153_any polys N H) as (c & ps & A & B & C). exists c. split; [exact A|]. destruct (C153_count polys N H) as (c' & ps' & A' & C' & L). assert (c' = c) by congruence. subst c'. rewrite C in C'.
  assert (E : ps' = ps).
  { injection C' as C'. unfold read_as in C'. destruct ps as [|x [|y z]], ps' as [|x' [|y' z']]; congruence. }
  subst ps'. clear C'. rewrite C. unfold read_as. destruct ps as [|p [|q ps]]; [discriminate| |].
  - destruct B as (B & _ & _). cbn [concat] in B. rewrite app_nil_r in B. rewrite <- B. split; [|reflexivity]. intros _. cbn [length] in L. destruct (real_holes polys); [reflexivity|discriminate].
  - split; [discriminate|]. intros K. rewrite K in L. discriminate.
Qed.
Print Assumptions C153_one.
(** and one polygon is read as one exactly if its holes enclose nothing. *)
Theorem C153_polygon : forall rings, writable (fun p => p) rings ->
  exists c, MakePolygon cursor0 rings = Ok c /\ (LoadGeometryCmds 3 (geo c) = Ok (GPolygon (turned rings)) <-> Forall (fun h => surveyor h = 0) (tl rings)).
Proof.
  intros rings H. destruct (C153_one [rings] ltac:(discriminate) ltac:(constructor; [exact H|constructor])) as (c & E & K). exists c. split.
  - unfold MakeMultiPolygon in E. cbn [fold_res] in E. destruct (MakePolygon cursor0 rings); cbn in E; congruence.
  - cbn [map concat] in K. rewrite app_nil_r in K. rewrite K. unfold real_holes. cbn [map concat]. rewrite app_nil_r. clear. induction (tl rings) as [|h hs IH]; [split; [constructor|reflexivity]|]. rewrite Forall_cons_iff, <- IH. cbn [filter]. destruct (Z.eqb_spec (surveyor h) 0) as [Z0|Z0]; cbn [negb]; [tauto|]. split; [discriminate|tauto].
Qed.
Print Assumptions C153_polygon.

(** ** Not vacuous: two polygons are read as two rings of one; with a hole in the first, the second becomes a ring of the hole. *)
Example C153_nonvacuous : let big := [(0, 0); (10, 0); (10, 10); (0, 10)] in let hole := [(2, 2); (4, 2); (4, 4)] in let far := [(50, 50); (60, 50); (60, 60)] in
  Forall (writable (fun p => p)) [[big; hole]; [far]] /\ real_holes [[big; hole]; [far]] = [hole] /\ real_holes [[big]; [far]] = [] /\
  (exists c, MakeMultiPolygon cursor0 [[big]; [far]] = Ok c /\ LoadGeometryCmds 3 (geo c) = Ok (GPolygon [[(0, 0); (0, 10); (10, 10); (10, 0); (0, 0)]; [(50, 50); (60, 60); (60, 50); (50, 50)]])) /\
  (exists c, MakeMultiPolygon cursor0 [[big; hole]; [far]] = Ok c /\ LoadGeometryCmds 3 (geo c) = Ok (GMultiPolygon [[[(0, 0); (0, 10); (10, 10); (10, 0); (0, 0)]]; [[(2, 2); (4, 2); (4, 4); (2, 2)]; [(50, 50); (60, 60); (60, 50); (50, 50)]]])).
Proof.
  cbv zeta. split; [repeat constructor; try discriminate; cbn; lia|]. split; [reflexivity|]. split; [reflexivity|]. split; eexists; split; vm_compute; reflexivity.
Qed.
