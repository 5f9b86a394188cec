(** Property C152: polygons whose outer ring encloses nothing on the grid. *)
From Coq Require Import ZArith List Lia Bool.
From Verif Require Import GoBase MvtGeom_Model MvtGeom_Spec MvtGeom_Proofs MvtGeom_Props.
Import ListNotations.
Open Scope Z_scope.

(** ** Specification *)
(** Rings that can be written, whatever they enclose *)
Definition writable {P} (q : P -> Z * Z) (rings : list (list P)) : Prop := rings <> [] /\ Forall (fun r => r <> [] /\ bounded 23170 (map q r) /\ short r) rings.
(** The outer ring of a polygon encloses nothing *)
Definition flat (rs : list (list (Z * Z))) : Prop := match rs with [] => False | o :: _ => surveyor o = 0 end.
(** Polygons glued together: each result is a polygon that is not flat, with the rings of the flat polygons after it; the first one may be flat itself. *)
Definition glued (ps rs : list (list (list (Z * Z)))) : Prop := exists groups,
  concat groups = ps /\ rs = map (@concat (list (Z * Z))) groups /\
  Forall (fun g => match g with [] => False | _ :: more => Forall flat more end) groups /\
  Forall (fun g => match g with [] => False | f :: _ => ~ flat f end) (tl groups).
Definition read_as (ps : list (list (list (Z * Z)))) : geomdata := match ps with [p] => GPolygon p | _ => GMultiPolygon ps end.

(** ** Lemmas *)
Definition sided (rs : list (list (Z * Z))) : Prop := match rs with [] => False | o :: hs => 0 <= surveyor o /\ Forall (fun l => surveyor l <= 0) hs end.
Lemma wind_abs b l : surveyor (wind b l) = if b then Z.abs (surveyor l) else - Z.abs (surveyor l).
Proof. unfold wind. destruct (0 <? surveyor l) eqn:E, b; cbn [Bool.eqb]; rewrite ?surveyor_rev; lia. Qed.
Lemma seen_area {P} (q : P -> Z * Z) same b l : surveyor (wind b (merge_runs (map q (close_ring same l)))) = if b then Z.abs (surveyor (map q l)) else - Z.abs (surveyor (map q l)).
Proof. rewrite wind_abs, surveyor_merge. pose proof (surveyor_close q same l) as H. change (close_with same l) with (close_ring same l) in H. rewrite H. reflexivity. Qed.
Lemma seen_sided {P} (q : P -> Z * Z) same rings : rings <> [] -> sided (seen_polygon q same rings).
Proof.
  intros N. destruct rings as [|o hs]; [congruence|]. unfold seen_polygon, sided. cbn [map]. rewrite seen_area. split; [lia|]. rewrite map_map. apply Forall_map, Forall_forall. intros h _. rewrite seen_area. lia.
Qed.
Lemma group_any polys : forall ps p, Forall sided polys -> exists g0 groups, g0 ++ concat groups = polys /\
  group_rings (concat polys) (ps ++ [p]) = ps ++ [p ++ concat g0] ++ map (@concat (list (Z * Z))) groups /\ Forall flat g0 /\
  Forall (fun g => match g with [] => False | f :: more => ~ flat f /\ Forall flat more end) groups.
Proof.
  induction polys as [|rs polys IH]; intros ps p H.
  - exists [], []. cbn [concat app map group_rings]. rewrite app_nil_r. auto.
  - inversion H as [|? ? Hr Hp]; subst. destruct rs as [|o hs]; [destruct Hr|]. destruct Hr as [Ho Hh]. cbn [concat]. destruct (Z.eq_dec (surveyor o) 0) as [Z0|NZ].
    + rewrite group_holes by (constructor; [lia|exact Hh]). destruct (IH ps (p ++ o :: hs) Hp) as (g0 & groups & E & K & F0 & FG). exists ((o :: hs) :: g0), groups. split; [cbn [app]; rewrite E; reflexivity|]. split; [rewrite K; cbn [concat]; rewrite <- !app_assoc; reflexivity|]. split; [constructor; [exact Z0|exact F0]|exact FG].
    + cbn [app group_rings]. rewrite SignedArea_surveyor. replace (surveyor o >? 0) with true by lia. rewrite group_holes by exact Hh. destruct (IH (ps ++ [p]) ([o] ++ hs) Hp) as (g0 & groups & E & K & F0 & FG). exists [], (((o :: hs) :: g0) :: groups). cbn [app concat map]. rewrite E. split; [reflexivity|]. split; [etransitivity; [exact K|]; rewrite app_nil_r, <- app_assoc; reflexivity|]. split; [constructor|]. constructor; [split; [exact NZ|exact F0]|exact FG].
Qed.
Lemma group_glued polys : polys <> [] -> Forall sided polys -> glued polys (group_rings (concat polys) []).
Proof.
  intros N H. destruct polys as [|[|o hs] polys]; [congruence|destruct (Forall_inv H)|]. destruct (Forall_inv H) as (Ho & Hh). pose proof (Forall_inv_tail H) as Hp.
  destruct (group_any polys [] (o :: hs) Hp) as (g0 & groups & E & K & F0 & FG). exists (((o :: hs) :: g0) :: groups). cbn [concat app map tl]. rewrite E. split; [reflexivity|]. split.
  - cbn [group_rings]. transitivity (group_rings (hs ++ concat polys) ([] ++ [[o]])); [destruct (SignedArea o >? 0); reflexivity|]. rewrite group_holes by exact Hh. exact K.
  - split; [constructor; [exact F0|]; eapply Forall_impl; [|exact FG]; intros [|f m]; tauto|]. eapply Forall_impl; [|exact FG]. intros [|f m]; tauto.
Qed.
Lemma glued_areas ps rs : ps <> [] -> glued ps rs -> (Forall (fun p => ~ flat p) (tl ps) <-> rs = ps) /\ (length rs = length ps -> rs = ps) /\ (length rs <= length ps)%nat.
Proof.
  intros N (groups & E & -> & F1 & F2).
  assert (L : forall gs, Forall (fun g => match g with [] => False | _ :: more => Forall flat more end) gs ->
     (length gs <= length (concat gs))%nat /\ (length gs = length (concat gs) -> map (@concat (list (Z * Z))) gs = concat gs)).
  { clear. induction 1 as [|g gs Hg _ (I1 & I2)]; [split; auto|]. destruct g as [|f m]; [destruct Hg|]. cbn [concat map length]. rewrite app_length. cbn [length]. split; [lia|]. intros K. destruct m as [|x m]; [|cbn [length] in *; lia]. cbn [concat app length] in *. rewrite app_nil_r, I2 by lia. reflexivity. }
  destruct (L groups F1) as [L1 L2]. rewrite map_length. rewrite E in L1, L2. split; [|split; [exact L2|exact L1]]. split.
  - intros A. apply L2. apply Nat.le_antisymm; [exact L1|]. rewrite <- E. clear L L1 L2 F2 N. destruct groups as [|g groups]; [apply le_n|]. 
    assert (S : Forall (fun g => match g with [] => False | _ :: more => Forall flat more end) (g :: groups) -> Forall (fun p => ~ flat p) (tl (concat (g :: groups))) -> Forall (fun g => length g = 1%nat) (g :: groups)).
    { clear. intros F A. inversion F as [|? ? Hg FG]; subst. destruct g as [|f m]; [destruct Hg|]. cbn [concat app tl] in A. apply Forall_app in A. destruct A as [A1 A2]. constructor.
      - destruct m as [|x m]; [reflexivity|]. inversion A1; inversion Hg; subst. contradiction.
      - clear - FG A2. induction FG as [|g gs Hg _ IH]; constructor.
        + destruct g as [|f m]; [destruct Hg|]. cbn [concat] in A2. apply Forall_app in A2. destruct A2 as [A2 _]. destruct m as [|x m]; [reflexivity|]. inversion A2 as [|? ? _ A3]; inversion A3; inversion Hg; subst. contradiction.
        + apply IH. cbn [concat] in A2. apply Forall_app in A2. tauto. }
    rewrite <- E in A. specialize (S F1 A). clear - S. generalize (g :: groups) S. clear. intros l S. induction S as [|g gs Hg _ IH]; [apply le_n|]. cbn [concat length]. rewrite app_length. lia.
  - intros K. assert (LG : length groups = length ps) by (rewrite <- K, map_length; reflexivity). rewrite <- E in LG. clear L L1 L2 K N. subst ps.
    assert (S : forall gs, Forall (fun g => match g with [] => False | _ :: more => Forall flat more end) gs -> (length gs <= length (concat gs))%nat /\ (length gs = length (concat gs) -> Forall (fun g => length g = 1%nat) gs)).
    { clear. induction 1 as [|g gs Hg _ (I1 & I2)]; [split; auto|]. destruct g as [|f m]; [destruct Hg|]. cbn [concat length]. rewrite app_length. cbn [length]. split; [lia|]. intros K. constructor; [cbn [length]; lia|apply I2; lia]. }
    destruct (S groups F1) as [_ S2]. specialize (S2 LG). clear S LG. destruct groups as [|g groups]; [constructor|]. inversion S2 as [|? ? G1 G2]; subst. destruct g as [|f [|x m]]; try discriminate. cbn [concat app tl] in *. clear - F2 G2. induction F2 as [|g gs Hg _ IH]; [constructor|]. inversion G2; subst. destruct g as [|f [|x m]]; try discriminate. cbn [concat app]. constructor; auto.
Qed.

(** ** Theorems *)
(** Whatever the rings enclose, what is read are the polygons with the flat ones glued to the polygon before. *)
Theorem C152_any : forall (P : Type) (q : P -> Z * Z) (same : P -> P -> bool) polys, (forall a b, same a b = true -> q a = q b) -> polys <> [] -> Forall (writable q) polys ->
  exists c ps, MakeMultiPolygonFloat q same cursor0 polys = Ok c /\ glued (map (seen_polygon q same) polys) ps /\ LoadGeometryCmds 3 (geo c) = Ok (read_as ps).
Proof.
  intros P proj peq polys Hpeq Hne Hall.
  set (ps := map (fun rings => map (fun l => map proj (close_with peq l)) rings) polys).
  assert (Hshape : Forall (fun rings => rings <> [] /\ Forall (fun l => l <> []) rings) polys).
  { eapply Forall_impl; [|exact Hall]. intros rings [H1 H2]. split; auto.
    eapply Forall_impl; [|exact H2]. cbn. tauto. }
  assert (Hfits : Forall (Forall ring_fits) ps).
  { subst ps. rewrite Forall_forall in *. intros x Hx. rewrite in_map_iff in Hx.
    destruct Hx as (rings & <- & Hin). destruct (Hall _ Hin) as [_ H2].
    rewrite Forall_forall in *. intros y Hy. rewrite in_map_iff in Hy. destruct Hy as (l & <- & Hl).
    destruct (H2 _ Hl) as (A1 & A2 & A3). apply close_with_fits; auto. }
  assert (Hclosed : Forall (Forall closed) ps).
  { subst ps. rewrite Forall_forall in *. intros x Hx. rewrite in_map_iff in Hx.
    destruct Hx as (rings & <- & Hin). destruct (Hshape _ Hin) as [_ H2].
    rewrite Forall_forall in *. intros y Hy. rewrite in_map_iff in Hy. destruct Hy as (l & <- & Hl).
    apply close_with_map_closed; auto. }
  destruct (MakeMultiPolygonFloat_eq proj peq polys cursor0 Hshape Hfits fits0) as [n E].
  fold ps in E. eexists. exists (group_rings (concat (map (seen_polygon proj peq) polys)) []). split; [exact E|]. split.
  { apply group_glued; [intros K; apply map_eq_nil in K; auto|]. rewrite Forall_forall in *. intros x Hx. apply in_map_iff in Hx. destruct Hx as (rings & <- & Hin). apply seen_sided, (Hshape _ Hin). }
  cbn [geo cursor0 last_pt app].
  set (ls := concat (map emitted ps)).
  assert (Hls : Forall ring_fits ls).
  { apply Forall_concat'. rewrite Forall_forall in *. intros x Hx. rewrite in_map_iff in Hx.
    destruct Hx as (y & <- & Hy). apply emitted_fits; auto. }
  assert (Hlc : Forall closed ls).
  { apply Forall_concat'. rewrite Forall_forall in *. intros x Hx. rewrite in_map_iff in Hx.
    destruct Hx as (y & <- & Hy). apply emitted_closed; auto. }
  assert (Hseen : map (seen_polygon proj peq) polys = map (map merge_runs) (map emitted ps)).
  { subst ps. rewrite !map_map. apply map_ext. intros. symmetry. apply emitted_seen. }
  assert (Hcat : map merge_runs ls = concat (map (seen_polygon proj peq) polys)).
  { rewrite Hseen. subst ls. apply concat_map. }
  assert (Hlsne : (0 < length ls)%nat).
  { subst ls ps. destruct polys as [|rings r]; [congruence|]. inversion Hshape as [|? ? [H1 _] _]; subst.
    destruct rings; [congruence|]. cbn. lia. }
  pose proof (enc_rings_len (0, 0) ls Hls) as Hlen.
  unfold LoadGeometryCmds. rewrite geom_loop_rings; auto; try discriminate;
    try (unfold zlen; lia); try lia.
  cbn [bind app]. change (3 =? 3) with true. cbn iota.
  rewrite map_close_closed by auto. rewrite Hcat. unfold read_as.
  destruct (concat (map (seen_polygon proj peq) polys)) as [|a [|b r]]; [reflexivity| |].
  - cbn [group_rings]. destruct (SignedArea a >? 0); reflexivity.
  - destruct (group_rings (a :: b :: r) []) as [|p [|p' r']]; reflexivity.
Qed.
Print Assumptions C152_any.
(** So one polygon always comes back as it is, *)
Theorem C152_polygon : forall (P : Type) (q : P -> Z * Z) (same : P -> P -> bool) rings, (forall a b, same a b = true -> q a = q b) -> writable q rings ->
  exists c, MakePolygonFloat q same cursor0 rings = Ok c /\ LoadGeometryCmds 3 (geo c) = Ok (GPolygon (seen_polygon q same rings)).
Proof.
  intros P q same rings Hs H. destruct (C152_any P q same [rings] Hs ltac:(discriminate) ltac:(constructor; [exact H|constructor])) as (c & ps & E & G & D). exists c. split.
  - unfold MakeMultiPolygonFloat in E. cbn [fold_res] in E. destruct (MakePolygonFloat q same cursor0 rings); cbn in E; congruence.
  - cbn [map] in G. destruct (glued_areas [seen_polygon q same rings] ps ltac:(discriminate) G) as [[A _] _]. rewrite (A (Forall_nil _)) in D. exact D.
Qed.
Print Assumptions C152_polygon.
(** and several come back as they are exactly when all but the first enclose area; otherwise there are fewer. *)
Theorem C152_multipolygon : forall (P : Type) (q : P -> Z * Z) (same : P -> P -> bool) polys, (forall a b, same a b = true -> q a = q b) -> polys <> [] -> Forall (writable q) polys ->
  exists c ps, MakeMultiPolygonFloat q same cursor0 polys = Ok c /\ LoadGeometryCmds 3 (geo c) = Ok (read_as ps) /\
    (Forall (fun rings => match rings with [] => False | o :: _ => surveyor (map q o) <> 0 end) (tl polys) <-> ps = map (seen_polygon q same) polys) /\
    (ps <> map (seen_polygon q same) polys -> (length ps < length polys)%nat).
Proof.
  intros P q same polys Hs N H. destruct (C152_any P q same polys Hs N H) as (c & ps & E & G & D). exists c, ps. split; [exact E|]. split; [exact D|].
  destruct (glued_areas (map (seen_polygon q same) polys) ps ltac:(intros K; apply map_eq_nil in K; auto) G) as (A & B & C). rewrite map_length in B, C. split.
  - rewrite <- A. destruct polys as [|r0 polys]; [congruence|]. cbn [map tl]. inversion H as [|? ? _ HP]; subst. rewrite Forall_map. clear - HP. induction HP as [|r l (R & _) _ IH]; [split; constructor|]. rewrite !Forall_cons_iff, IH. destruct r as [|o hs]; [congruence|]. assert (K : flat (seen_polygon q same (o :: hs)) <-> surveyor (map q o) = 0) by (unfold seen_polygon; cbn [map flat]; rewrite seen_area; lia). tauto.
  - intros K. assert (length ps <> length polys) by (intros L; apply K, B, L). lia.
Qed.
Print Assumptions C152_multipolygon.

(** ** Not vacuous: the second of three polygons is flat and becomes a ring of the first. *)
Example C152_nonvacuous : let big := [(0, 0); (10, 0); (10, 10); (0, 10)] in let thin := [(20, 20); (30, 20); (40, 20)] in let far := [(50, 50); (60, 50); (60, 60)] in
  Forall (writable (fun p => p)) [[big]; [thin]; [far]] /\ exists c, MakeMultiPolygonFloat (fun p => p) pt_eqb cursor0 [[big]; [thin]; [far]] = Ok c /\
  LoadGeometryCmds 3 (geo c) = Ok (GMultiPolygon [[big ++ [(0, 0)]; [(20, 20); (40, 20); (30, 20); (20, 20)]]; [far ++ [(50, 50)]]]).
Proof.
  cbv zeta. split; [repeat constructor; try discriminate; cbn; lia|]. eexists. split; vm_compute; reflexivity.
Qed.
