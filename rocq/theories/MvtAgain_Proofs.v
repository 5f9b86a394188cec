(** Writing a geometry that was read: the command list is the same (for C132). *)
From Coq Require Import ZArith List Lia Bool.
From Verif Require Import GoBase MvtGeom_Model MvtGeom_Spec MvtGeom_Proofs MvtGeom_Props MvtLayer_Model MvtLayer_Spec.
Import ListNotations.
Open Scope Z_scope.

(** ** Merged runs are written alike *)
Lemma deltas_merge l : forall p, deltas p (tl (merge_runs (p :: l))) = deltas p l /\ steps p (tl (merge_runs (p :: l))) = steps p l.
Proof.
  induction l as [|a l IH]; intros p; [split; reflexivity|]. rewrite merge_runs_eq. cbn [deltas steps]. destruct (pt_eqb p a) eqn:E.
  - apply pt_eqb_eq in E. subst a. cbn [app]. rewrite Z.add_0_l. apply IH.
  - cbn [tl]. destruct (merge_runs_cons a l) as [s Hs]. specialize (IH a). rewrite Hs in *. cbn [tl deltas steps] in *. rewrite E. destruct IH as [-> ->]. split; reflexivity.
Qed.
Lemma enc_line_merge p l : enc_line p (merge_runs l) = enc_line p l.
Proof.
  destruct l as [|q r]; [reflexivity|]. destruct (merge_runs_cons q r) as [s Hs]. destruct (deltas_merge r q) as [D S]. rewrite Hs in *. cbn [tl enc_line] in *. rewrite D, S. reflexivity.
Qed.
Lemma last_merge l d : last (merge_runs l) d = last l d.
Proof. destruct l as [|q r]; [reflexivity|]. pose proof (merge_runs_last r q) as L. destruct (merge_runs_cons q r) as [s Hs]. rewrite Hs in *. rewrite !last_cons in *. exact L. Qed.
Lemma enc_lines_merge ls : forall p, enc_lines p (map merge_runs ls) = enc_lines p ls.
Proof. induction ls as [|l r IH]; intros p; [reflexivity|]. cbn [map enc_lines]. rewrite enc_line_merge, IH, last_merge. reflexivity. Qed.
Lemma enc_rings_merge ls : forall p, enc_rings p (map merge_runs ls) = enc_rings p ls.
Proof. induction ls as [|l r IH]; intros p; [reflexivity|]. cbn [map enc_rings]. rewrite enc_line_merge, IH, last_merge. reflexivity. Qed.
Lemma merge_len l : (length (merge_runs l) <= length l)%nat.
Proof. induction l as [|a [|b l] IH]; [auto|auto|]. rewrite merge_runs_eq. destruct (pt_eqb a b); cbn [length] in *; lia. Qed.
Lemma merge_in l p : In p (merge_runs l) -> In p l.
Proof. induction l as [|a [|b l] IH]; [auto|auto|]. rewrite merge_runs_eq. destruct (pt_eqb a b); cbn [In] in *; [intros H; right; apply IH, H|intros [H|H]; [left; exact H|right; apply IH, H]]. Qed.
Lemma merge_forall (Q : pt -> Prop) l : Forall Q l -> Forall Q (merge_runs l).
Proof. rewrite !Forall_forall. intros H p Hp. apply H, merge_in, Hp. Qed.
Lemma merge_ne l : l <> [] -> merge_runs l <> [].
Proof. destruct l as [|q r]; [congruence|]. intros _. destruct (merge_runs_cons q r) as [s ->]. discriminate. Qed.
Lemma line_ok_merge l : line_ok l -> line_ok (merge_runs l).
Proof. intros (A & B & C). split; [apply merge_ne, A|]. split; [apply merge_forall, B|]. unfold zlen in *. pose proof (merge_len l). lia. Qed.
Lemma ring_fits_merge l : ring_fits l -> ring_fits (merge_runs l).
Proof. intros (A & B & C). split; [apply merge_ne, A|]. split; [apply (merge_forall (fun p => - MvtGeom_Proofs.B <= fst p <= MvtGeom_Proofs.B /\ - MvtGeom_Proofs.B <= snd p <= MvtGeom_Proofs.B)), B|]. unfold zlen in *. pose proof (merge_len l). lia. Qed.
Lemma orient_idem o l : (o = true -> surveyor l <> 0) -> orient o (orient o l) = orient o l.
Proof.
  intros H. unfold orient at 1. replace (Bool.eqb (surveyor (orient o l) >? 0) o) with true; [reflexivity|]. destruct o.
  - pose proof (orient_true_area l (H eq_refl)). symmetry. rewrite eqb_true_iff. lia.
  - pose proof (orient_false_area l). symmetry. rewrite eqb_true_iff. lia.
Qed.
Lemma orient_merge o l : orient o (merge_runs l) = merge_runs (orient o l).
Proof. unfold orient. rewrite surveyor_merge. destruct (Bool.eqb _ _); [reflexivity|]. symmetry. apply merge_runs_rev. Qed.
Lemma orient_in o l p : In p (orient o l) <-> In p l.
Proof. unfold orient. destruct (Bool.eqb _ _); [tauto|]. symmetry. apply in_rev. Qed.

Lemma last_map {A C} (f : A -> C) l d : last (map f l) (f d) = f (last l d).
Proof. induction l as [|a [|b l] IH]; [reflexivity|reflexivity|exact IH]. Qed.

Section Again.
Context {P : Type} (q : P -> pt) (u : pt -> P) (same : P -> P -> bool) (dom : pt -> Prop).
Hypothesis same_q : forall a b, same a b = true -> q a = q b.
Hypothesis same_u : forall p, dom p -> same (u p) (u p) = true.
Hypothesis q_u : forall p, dom p -> q (u p) = p.

Lemma qu_all l : Forall dom l -> map q (map u l) = l.
Proof. induction 1 as [|p l Hp _ IH]; [reflexivity|]. cbn [map]. rewrite IH, q_u by exact Hp. reflexivity. Qed.

(** The geometry that is read, as the model of the reader gives it, with its points turned back *)
Definition back (g : geomdata) : geometry P :=
  match g with
  | GPoint p => XPoint (u p)
  | GMultiPoint ps => XMultiPoint (map u ps)
  | GLineString l => XLineString (map u l)
  | GMultiLineString ls => XMultiLineString (map (map u) ls)
  | GPolygon rs => XPolygon (map (map u) rs)
  | GMultiPolygon ps => XMultiPolygon (map (map (map u)) ps)
  | GNil => XOther
  end.
Definition again_line (l : list P) : Prop := l <> [] /\ Z.of_nat (length l) < 2 ^ 29 /\ Forall (fun p => fits (q p) /\ dom (q p)) l.
Definition again_rings (rs : list (list P)) : Prop :=
  rs <> [] /\ Forall (fun r => r <> [] /\ bounded 23170 (map q r) /\ short r /\ Forall (fun p => dom (q p)) r) rs /\ outer_area q rs <> 0.
Definition again (g : geometry P) : Prop :=
  match g with
  | XPoint p | XMultiPoint [p] => fits (q p) /\ dom (q p) /\ q p <> (0, 0)
  | XLineString l => again_line l
  | XMultiLineString ls => ls <> [] /\ Forall again_line ls
  | XPolygon rs => again_rings rs
  | XMultiPolygon ps => ps <> [] /\ Forall again_rings ps
  | _ => False
  end.

Lemma again_line_ok l : again_line l -> line_ok (map q l) /\ Forall dom (map q l).
Proof.
  intros (A & B & C). split; [split; [destruct l; [congruence|discriminate]|split]|].
  - apply Forall_map. eapply Forall_impl; [|exact C]. cbn. tauto.
  - unfold zlen. rewrite map_length. exact B.
  - apply Forall_map. eapply Forall_impl; [|exact C]. cbn. tauto.
Qed.
Lemma lines_again ls : Forall again_line ls -> exists c c1,
  MakeMultiLineFloat q cursor0 ls = Ok c /\
  MakeMultiLineFloat q cursor0 (map (map u) (map merge_runs (map (map q) ls))) = Ok c1 /\ geo c1 = geo c.
Proof.
  intros H. rewrite !MakeMultiLineFloat_map.
  assert (A : Forall line_ok (map (map q) ls)) by (apply Forall_map; eapply Forall_impl; [|exact H]; intros l Hl; apply again_line_ok, Hl).
  assert (D : Forall (Forall dom) (map (map q) ls)) by (apply Forall_map; eapply Forall_impl; [|exact H]; intros l Hl; apply again_line_ok, Hl).
  assert (E : map (map q) (map (map u) (map merge_runs (map (map q) ls))) = map merge_runs (map (map q) ls)).
  { rewrite (map_map (map u)). rewrite <- (map_id (map merge_runs (map (map q) ls))) at 2. apply map_ext_in. intros l Hl. apply qu_all. apply in_map_iff in Hl as (l0 & <- & Hl). apply merge_forall. rewrite Forall_forall in D. auto. }
  rewrite E.
  assert (A1 : Forall line_ok (map merge_runs (map (map q) ls))) by (apply Forall_map; eapply Forall_impl; [|exact A]; exact line_ok_merge).
  destruct (MakeMultiLine_eq _ cursor0 fits0 A) as (c & E1 & G1). destruct (MakeMultiLine_eq _ cursor0 fits0 A1) as (c1 & E2 & G2).
  exists c, c1. split; [exact E1|]. split; [exact E2|]. rewrite G1, G2, enc_lines_merge. reflexivity.
Qed.

(** Closed rings of the domain stay closed *)
Definition rings (rs : list (list P)) : list (list pt) := map (fun l => map q (close_with same l)) rs.
Lemma close_dom l : Forall (fun p => dom (q p)) l -> Forall dom (map q (close_with same l)).
Proof.
  intros H. apply Forall_map. destruct l as [|f r]; [constructor|]. unfold close_with. destruct (same _ _); [exact H|]. apply Forall_app. split; [exact H|]. inversion H; subst. constructor; auto.
Qed.
Lemma rings_dom rs : again_rings rs -> Forall (Forall dom) (rings rs).
Proof. intros (_ & F & _). unfold rings. apply Forall_map. eapply Forall_impl; [|exact F]. intros r (_ & _ & _ & D). apply close_dom, D. Qed.
Lemma rings_fit rs : again_rings rs -> Forall ring_fits (rings rs).
Proof. intros (_ & F & _). unfold rings. apply Forall_map. eapply Forall_impl; [|exact F]. intros r (A & B & C & _). apply close_with_fits; auto. Qed.
Lemma rings_closed rs : again_rings rs -> Forall closed (rings rs).
Proof. intros (_ & F & _). unfold rings. apply Forall_map. eapply Forall_impl; [|exact F]. intros r (A & _). apply close_with_map_closed; auto. Qed.
Lemma emitted_dom rs : Forall (Forall dom) rs -> Forall (Forall dom) (emitted rs).
Proof.
  intros H. assert (O : forall o l, Forall dom l -> Forall dom (orient o l)) by (intros o l Hl; rewrite Forall_forall in *; intros p Hp; apply Hl; apply orient_in in Hp; exact Hp).
  destruct H as [|o hs Ho Hh]; constructor; auto. apply Forall_map. eapply Forall_impl; [|exact Hh]. auto.
Qed.
Lemma seen_rings rs : seen_polygon q same rs = map merge_runs (emitted (rings rs)).
Proof. symmetry. apply emitted_seen. Qed.
Lemma closed_last l f : closed l -> nth_error l 0 = Some f -> last l f = f.
Proof. intros (p & r & -> & H) E. cbn in E. injection E as <-. exact H. Qed.
Lemma closed_merged l : closed l -> closed (merge_runs l).
Proof. intros (p & r & -> & H). destruct (merge_runs_cons p r) as [s Hs]. exists p, s. split; [exact Hs|]. rewrite last_merge. exact H. Qed.
Lemma close_u l : Forall dom l -> closed l -> map q (close_with same (map u l)) = l.
Proof.
  intros D (p & r & -> & H). cbn [map]. unfold close_with.
  assert (E : last (u p :: map u r) (u p) = u p).
  { change (u p :: map u r) with (map u (p :: r)). rewrite last_map, H. reflexivity. }
  rewrite E, same_u by (inversion D; auto). change (u p :: map u r) with (map u (p :: r)). apply qu_all, D.
Qed.
Lemma emitted_again rs : again_rings rs ->
  emitted (rings (map (map u) (seen_polygon q same rs))) = map merge_runs (emitted (rings rs)).
Proof.
  intros H. rewrite seen_rings. set (ms := map merge_runs (emitted (rings rs))).
  assert (D : Forall (Forall dom) ms) by (unfold ms; apply Forall_map; eapply Forall_impl; [|apply emitted_dom, rings_dom, H]; intros l; apply merge_forall).
  assert (C : Forall closed ms) by (unfold ms; apply Forall_map; eapply Forall_impl; [|apply emitted_closed, rings_closed, H]; exact closed_merged).
  assert (E : rings (map (map u) ms) = ms).
  { unfold rings. rewrite map_map. rewrite <- (map_id ms) at 2. apply map_ext_in. intros l Hl. rewrite Forall_forall in D, C. apply close_u; auto. }
  rewrite E. unfold ms. destruct H as (Hn & _ & Ha). destruct rs as [|o hs]; [congruence|]. unfold rings. cbn [map emitted]. rewrite orient_merge, orient_idem.
  2:{ intros _. rewrite surveyor_close. exact Ha. }
  f_equal. rewrite !map_map. apply map_ext. intros l. rewrite orient_merge, orient_idem by discriminate. reflexivity.
Qed.
(** A written and read ring has nothing that would stop it from being written *)
Lemma seen_shape rs : again_rings rs ->
  let rs1 := map (map u) (seen_polygon q same rs) in
  (rs1 <> [] /\ Forall (fun l => l <> []) rs1) /\ Forall ring_fits (rings rs1).
Proof.
  intros H. cbv zeta. pose proof (rings_fit rs H) as F. apply emitted_fits in F.
  assert (D : Forall (Forall dom) (map merge_runs (emitted (rings rs)))) by (apply Forall_map; eapply Forall_impl; [|apply emitted_dom, rings_dom, H]; intros l; apply merge_forall).
  assert (C : Forall closed (map merge_runs (emitted (rings rs)))) by (apply Forall_map; eapply Forall_impl; [|apply emitted_closed, rings_closed, H]; exact closed_merged).
  rewrite seen_rings. split; [split|].
  - destruct H as (Hn & _). destruct rs; [congruence|discriminate].
  - rewrite !Forall_map. eapply Forall_impl; [|exact F]. intros l (A & _). intros E. apply map_eq_nil in E. apply (merge_ne l A E).
  - unfold rings at 1. rewrite !Forall_map. rewrite !Forall_map in D, C. rewrite Forall_forall in *. intros l Hl. rewrite close_u by (auto). apply ring_fits_merge; auto.
Qed.
Lemma polygons_again ps : Forall again_rings ps -> exists c c1,
  MakeMultiPolygonFloat q same cursor0 ps = Ok c /\
  MakeMultiPolygonFloat q same cursor0 (map (map (map u)) (map (seen_polygon q same) ps)) = Ok c1 /\ geo c1 = geo c.
Proof.
  intros H.
  destruct (MakeMultiPolygonFloat_eq q same ps cursor0) as [n E].
  { eapply Forall_impl; [|exact H]. intros rs (A & B & _). split; [exact A|]. eapply Forall_impl; [|exact B]. cbn. tauto. }
  { apply Forall_map. eapply Forall_impl; [|exact H]. exact rings_fit. }
  { exact fits0. }
  destruct (MakeMultiPolygonFloat_eq q same (map (map (map u)) (map (seen_polygon q same) ps)) cursor0) as [n1 E1].
  { rewrite !Forall_map. eapply Forall_impl; [|exact H]. intros rs Hr. apply seen_shape, Hr. }
  { rewrite !Forall_map. eapply Forall_impl; [|exact H]. intros rs Hr. apply seen_shape, Hr. }
  { exact fits0. }
  eexists. eexists. split; [exact E|]. split; [exact E1|]. cbn [geo cursor0 app last_pt]. clear E E1.
  assert (X : concat (map emitted (map (fun rs => map (fun l => map q (close_with same l)) rs) (map (map (map u)) (map (seen_polygon q same) ps)))) =
              map merge_runs (concat (map emitted (map (fun rs => map (fun l => map q (close_with same l)) rs) ps)))).
  { rewrite concat_map. f_equal. rewrite !map_map. apply map_ext_in. intros rs Hr. rewrite Forall_forall in H. apply (emitted_again rs (H rs Hr)). }
  rewrite X, enc_rings_merge. reflexivity.
Qed.

Definition seen_geom (g : geometry P) : geomdata :=
  match g with
  | XPoint p | XMultiPoint [p] => GPoint (q p)
  | XLineString l => GLineString (merge_runs (map q l))
  | XMultiLineString ls => match map merge_runs (map (map q) ls) with [l] => GLineString l | ls' => GMultiLineString ls' end
  | XPolygon rs => GPolygon (seen_polygon q same rs)
  | XMultiPolygon ps => match map (seen_polygon q same) ps with [p] => GPolygon p | ps' => GMultiPolygon ps' end
  | _ => GNil
  end.
Lemma one_line c l : MakeMultiLineFloat q c [l] = MakeLineFloat q c l.
Proof. unfold MakeMultiLineFloat. cbn [fold_res]. destruct (MakeLineFloat q c l); reflexivity. Qed.
Lemma one_polygon c rs : MakeMultiPolygonFloat q same c [rs] = MakePolygonFloat q same c rs.
Proof. unfold MakeMultiPolygonFloat. cbn [fold_res]. destruct (MakePolygonFloat q same c rs); reflexivity. Qed.
(** What is written of [g] is read as [seen_geom g], and writing that gives the same list *)
Lemma written_again g : again g -> exists cmds,
  geom_cmds q same g = Ok (Some cmds) /\ LoadGeometryCmds (wire_type g) cmds = Ok (seen_geom g) /\
  geom_cmds q same (back (seen_geom g)) = Ok (Some cmds) /\ wire_type (back (seen_geom g)) = wire_type g.
Proof.
  assert (KP : forall p, fits (q p) /\ dom (q p) /\ q p <> (0, 0) -> LoadGeometryCmds 1 (geo (MakePoint cursor0 (q p))) = Ok (GPoint (q p)) /\ MakePoint cursor0 (q (u (q p))) = MakePoint cursor0 (q p)).
  { intros p (A & B & C). rewrite q_u by exact B. split; [apply point_round_trip; auto|reflexivity]. }
  assert (KL : forall ls, Forall again_line ls -> ls <> [] -> exists cmds, (let! c := MakeMultiLineFloat q cursor0 ls in Ok (Some (geo c))) = Ok (Some cmds) /\
     LoadGeometryCmds 2 cmds = Ok (match map merge_runs (map (map q) ls) with [l] => GLineString l | ls' => GMultiLineString ls' end) /\
     (let! c := MakeMultiLineFloat q cursor0 (map (map u) (map merge_runs (map (map q) ls))) in Ok (Some (geo c))) = Ok (Some cmds)).
  { intros ls H N. destruct (lines_again ls H) as (c & c1 & E & E1 & G). exists (geo c). rewrite E, E1. cbn [bind]. split; [reflexivity|]. split; [|rewrite G; reflexivity].
    rewrite MakeMultiLineFloat_map in E. destruct (multiline_round_trip (map (map q) ls)) as (c' & E' & D).
    { apply Forall_map. eapply Forall_impl; [|exact H]. intros l Hl. apply again_line_ok, Hl. }
    rewrite E in E'. injection E' as <-. rewrite D. destruct ls as [|a [|b r]]; [congruence| |]; reflexivity. }
  assert (KR : forall ps, Forall again_rings ps -> ps <> [] -> exists cmds, (let! c := MakeMultiPolygonFloat q same cursor0 ps in Ok (Some (geo c))) = Ok (Some cmds) /\
     LoadGeometryCmds 3 cmds = Ok (match map (seen_polygon q same) ps with [p] => GPolygon p | ps' => GMultiPolygon ps' end) /\
     (let! c := MakeMultiPolygonFloat q same cursor0 (map (map (map u)) (map (seen_polygon q same) ps)) in Ok (Some (geo c))) = Ok (Some cmds)).
  { intros ps H N. destruct (polygons_again ps H) as (c & c1 & E & E1 & G). exists (geo c). rewrite E, E1. cbn [bind]. split; [reflexivity|]. split; [|rewrite G; reflexivity].
    destruct (multipolygon_round_trip q same ps same_q N) as (c' & E' & D).
    { eapply Forall_impl; [|exact H]. intros rs (A & B & C). split; [|exact C]. split; [exact A|]. eapply Forall_impl; [|exact B]. cbn. tauto. }
    rewrite E in E'. injection E' as <-. exact D. }
  destruct g as [p|l|rs|ps|ls|mps|]; cbn [again]; intros H.
  - destruct (KP p H) as [A B]. exists (geo (MakePoint cursor0 (q p))). cbn [seen_geom back wire_type geom_cmds]. split; [reflexivity|]. split; [exact A|]. split; [|reflexivity]. do 2 f_equal. exact (f_equal geo B).
  - destruct (KL [l]) as (cmds & A & B & C); [constructor; auto|discriminate|]. exists cmds. cbn [seen_geom back wire_type geom_cmds map] in *. rewrite !one_line in *. auto.
  - destruct (KR [rs]) as (cmds & A & B & C); [constructor; auto|discriminate|]. exists cmds. cbn [seen_geom back wire_type geom_cmds map] in *. rewrite !one_polygon in *. auto.
  - destruct ps as [|p [|]]; [contradiction| |contradiction]. destruct (KP p H) as [A B]. exists (geo (MakePoint cursor0 (q p))). cbn [seen_geom back wire_type geom_cmds]. split; [reflexivity|]. split; [exact A|]. split; [|reflexivity]. do 2 f_equal. exact (f_equal geo B).
  - destruct H as [N H]. destruct (KL ls H N) as (cmds & A & B & C). exists cmds. cbn [seen_geom wire_type geom_cmds].
    destruct ls as [|a [|b r]]; [congruence| |]; cbn [map back wire_type geom_cmds] in *; rewrite ?one_line in *; auto.
  - destruct H as [N H]. destruct (KR mps H N) as (cmds & A & B & C). exists cmds. cbn [seen_geom wire_type geom_cmds].
    destruct mps as [|a [|b r]]; [congruence| |]; cbn [map back wire_type geom_cmds] in *; rewrite ?one_polygon in *; auto.
  - contradiction.
Qed.
End Again.
