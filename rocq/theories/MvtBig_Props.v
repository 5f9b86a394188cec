(** Property C155: polygons with coordinates up to 2^30, where areas overflow 32 bits when they are written. *)
From Coq Require Import ZArith List Lia Bool.
From Verif Require Import GoBase MvtGeom_Model MvtGeom_Spec MvtGeom_Proofs MvtGeom_Props MvtFlat_Props MvtInt_Props.
Import ListNotations.
Open Scope Z_scope.

(** ** Specification *)
Definition near (p : Z * Z) : Prop := - 2 ^ 30 <= fst p < 2 ^ 30 /\ - 2 ^ 30 <= snd p < 2 ^ 30.
Definition big_rings {P} (q : P -> Z * Z) (rings : list (list P)) : Prop := rings <> [] /\ Forall (fun r => r <> [] /\ Forall (fun p => near (q p)) r /\ short r) rings.
(** A ring closed, on the grid, repeated neighbours once, in either direction *)
Definition either_way {P} (q : P -> Z * Z) (same : P -> P -> bool) (r : list P) (r' : list (Z * Z)) : Prop :=
  let m := merge_runs (map q (close_ring same r)) in r' = m \/ r' = rev m.

(** ** Lemmas *)
Definition way (l l' : list pt) : Prop := l' = l \/ l' = rev l.
Lemma way_ok l l' : line_ok l -> way l l' -> line_ok l'.
Proof.
  intros (A & B & C) [->| ->]; [split; auto|]. split; [|split].
  - intros E. apply A. rewrite <- (rev_involutive l), E. reflexivity.
  - apply Forall_rev, B.
  - rewrite zlen_rev. exact C.
Qed.
Lemma way_closed l l' : closed l -> way l l' -> closed l'.
Proof. intros A [->| ->]; [exact A|apply closed_rev, A]. Qed.
Lemma way_merge l l' : way l l' -> way (merge_runs l) (merge_runs l').
Proof. intros [->| ->]; [left; reflexivity|right; apply merge_runs_rev]. Qed.
Lemma last_ok l : line_ok l -> fits (last l (0, 0)).
Proof. intros (A & B & C). apply fits_last; auto using fits0. Qed.
Lemma part_ok c l : line_ok l -> fits (last_pt c) -> exists n, MakeLine c l = Ok (mkCur (geo c ++ enc_line (last_pt c) l) (last l (0, 0)) n).
Proof. intros (A & B & C) D. apply MakeLine_eq; auto. Qed.
(** One ring: the cursor after it *)
Definition ring_after (c c' : cursor) (l : list pt) : Prop := geo c' = geo c ++ (enc_line (last_pt c) l ++ [15]) /\ last_pt c' = last l (0, 0).
Lemma convert_ok {P} (proj : P -> pt) o c l : line_ok (map proj l) -> fits (last_pt c) -> exists l' c', way (map proj l) l' /\ AssertConvert proj o c l = Ok c' /\ ring_after c c' l'.
Proof.
  intros Hl Hc. destruct l as [|p r]; [destruct Hl as [H _]; cbn in H; congruence|]. unfold AssertConvert. cbv zeta.
  set (l' := if Bool.eqb _ o then _ else _). assert (W : way (map proj (p :: r)) l') by (unfold l'; destruct (Bool.eqb _ o); [left|right]; reflexivity). clearbody l'.
  destruct (part_ok (mkCur [] (last_pt c) 0) l' (way_ok _ _ Hl W) Hc) as [n E]. exists l'. eexists. split; [exact W|]. rewrite E. cbn [bind geo last_pt app]. rewrite closePath_1. split; [reflexivity|]. split; reflexivity.
Qed.
Lemma hole_ok c l : line_ok l -> fits (last_pt c) -> exists l' c', way l l' /\ MakeHole c l = Ok c' /\ ring_after c c' l'.
Proof.
  intros Hl Hc. unfold MakeHole, assert_winding_order. destruct l as [|p r]; [destruct Hl as [H _]; congruence|]. cbv zeta.
  set (k := Bool.eqb _ false). set (l' := if k then p :: r else rev (p :: r)). assert (W : way (p :: r) l') by (unfold l'; destruct k; [left|right]; reflexivity).
  replace (if k then Ok (p :: r) else Ok (rev (p :: r))) with (Ok l') by (unfold l'; destruct k; reflexivity). clearbody l'. cbn [bind].
  destruct (part_ok (mkCur [] (last_pt c) 0) l' (way_ok _ _ Hl W) Hc) as [n E]. exists l'. eexists. split; [exact W|]. rewrite E. cbn [bind geo last_pt app]. rewrite closePath_1. split; [reflexivity|]. split; reflexivity.
Qed.
Lemma outer_ok c l : line_ok l -> fits (last_pt c) -> exists l' c1, way l l' /\ (let! outer := assert_winding_order l true in let! c1 := MakeLine c outer in Ok (mkCur (geo c1 ++ [closePath 1]) (last_pt c1) (cnt c1))) = Ok c1 /\ ring_after c c1 l'.
Proof.
  intros Hl Hc. unfold assert_winding_order. destruct l as [|p r]; [destruct Hl as [H _]; congruence|]. cbv zeta.
  set (k := Bool.eqb _ true). set (l' := if k then p :: r else rev (p :: r)). assert (W : way (p :: r) l') by (unfold l'; destruct k; [left|right]; reflexivity).
  replace (if k then Ok (p :: r) else Ok (rev (p :: r))) with (Ok l') by (unfold l'; destruct k; reflexivity). clearbody l'. cbn [bind].
  destruct (part_ok c l' (way_ok _ _ Hl W) Hc) as [n E]. exists l'. eexists. split; [exact W|]. rewrite E. cbn [bind geo last_pt cnt]. rewrite closePath_1. split; [reflexivity|]. split; cbn [geo last_pt]; [rewrite app_assoc; reflexivity|reflexivity].
Qed.
(** Several rings *)
Definition rings_after (c c' : cursor) (ls : list (list pt)) : Prop := geo c' = geo c ++ enc_rings (last_pt c) ls /\ last_pt c' = last_ring (last_pt c) ls.
Lemma rings_cons c c1 c2 l ls : ring_after c c1 l -> rings_after c1 c2 ls -> rings_after c c2 (l :: ls).
Proof. intros (A & B) (C & D). split; [rewrite C, A, B; cbn [enc_rings]; rewrite !app_assoc; reflexivity|]. rewrite D, B. reflexivity. Qed.
Lemma rings_app c c1 c2 a b : rings_after c c1 a -> rings_after c1 c2 b -> rings_after c c2 (a ++ b).
Proof. intros (A & B) (C & D). split; [rewrite C, A, B, enc_rings_app, app_assoc; reflexivity|]. rewrite D, B. unfold last_ring. rewrite fold_left_app. reflexivity. Qed.
Lemma rings_fold {A} (f : cursor -> A -> res cursor) (m : A -> list pt) :
  (forall c a, line_ok (m a) -> fits (last_pt c) -> exists l' c', way (m a) l' /\ f c a = Ok c' /\ ring_after c c' l') ->
  forall ls c, Forall (fun a => line_ok (m a)) ls -> fits (last_pt c) -> exists ls' c', Forall2 way (map m ls) ls' /\ fold_res f ls c = Ok c' /\ rings_after c c' ls' /\ fits (last_pt c').
Proof.
  intros F. induction ls as [|l ls IH]; intros c H Hc.
  - exists [], c. cbn [map fold_res]. split; [constructor|]. split; [reflexivity|]. split; [split; [cbn [enc_rings]; rewrite app_nil_r|]; reflexivity|exact Hc].
  - inversion H as [|? ? Hl Hr]; subst. destruct (F c l Hl Hc) as (l' & c1 & W & E & R). assert (Hc1 : fits (last_pt c1)) by (rewrite (proj2 R); apply last_ok; eapply way_ok; eassumption).
    destruct (IH c1 Hr Hc1) as (ls' & c2 & W2 & E2 & R2 & F2). exists (l' :: ls'), c2. cbn [map fold_res]. rewrite E. cbn [bind]. split; [constructor; assumption|]. split; [exact E2|]. split; [eapply rings_cons; eassumption|exact F2].
Qed.
Definition closed_on {P} (q : P -> pt) (same : P -> P -> bool) (r : list P) : list pt := map q (close_with same r).
Definition fine_poly {P} (q : P -> pt) same (rings : list (list P)) : Prop := rings <> [] /\ Forall (fun l => l <> [] /\ line_ok (closed_on q same l)) rings.
Lemma polygon_float_ok {P} (q : P -> pt) same c rings : fine_poly q same rings -> fits (last_pt c) ->
  exists ls' c', Forall2 way (map (closed_on q same) rings) ls' /\ MakePolygonFloat q same c rings = Ok c' /\ rings_after c c' ls' /\ fits (last_pt c').
Proof.
  intros (N & H) Hc. unfold MakePolygonFloat. rewrite (map_res_ok _ (close_with same)).
  2:{ intros l Hin. apply TrimRing_eq. rewrite Forall_forall in H. apply (H l Hin). }
  cbn [bind]. destruct rings as [|o hs]; [congruence|]. cbn [map]. inversion H as [|? ? (_ & Ho) Hh]; subst. destruct (convert_ok q true c (close_with same o) Ho Hc) as (l' & c1 & W & E & R). rewrite E. cbn [bind].
  assert (Hc1 : fits (last_pt c1)) by (rewrite (proj2 R); apply last_ok; eapply way_ok; eassumption).
  destruct (rings_fold (AssertConvert q false) (map q) (fun c a => convert_ok q false c a) (map (close_with same) hs) c1) as (ls' & c2 & W2 & E2 & R2 & F2); [|exact Hc1|].
  { apply Forall_map. eapply Forall_impl; [|exact Hh]. intros l (_ & K). exact K. }
  exists (l' :: ls'), c2. split; [constructor; [exact W|]; rewrite map_map in W2; exact W2|]. split; [exact E2|]. split; [eapply rings_cons; eassumption|exact F2].
Qed.
Lemma polygon_int_ok c rings : fine_poly (fun p => p) pt_eqb rings -> fits (last_pt c) ->
  exists ls' c', Forall2 way (map (closed_on (fun p => p) pt_eqb) rings) ls' /\ MakePolygon c rings = Ok c' /\ rings_after c c' ls' /\ fits (last_pt c').
Proof.
  intros (N & H) Hc. unfold MakePolygon. rewrite (map_res_ok _ (close_with pt_eqb)).
  2:{ intros l Hin. apply TrimRing_eq. rewrite Forall_forall in H. apply (H l Hin). }
  cbn [bind]. destruct rings as [|o hs]; [congruence|]. cbn [map]. inversion H as [|? ? (_ & Ho) Hh]; subst. unfold closed_on in Ho. rewrite map_id_pt in Ho.
  destruct (outer_ok c (close_with pt_eqb o) Ho Hc) as (l' & c1 & W & E & R).
  assert (Hc1 : fits (last_pt c1)) by (rewrite (proj2 R); apply last_ok; eapply way_ok; eassumption).
  destruct (rings_fold MakeHole (fun l => l) hole_ok (map (close_with pt_eqb) hs) c1) as (ls' & c2 & W2 & E2 & R2 & F2); [|exact Hc1|].
  { apply Forall_map. eapply Forall_impl; [|exact Hh]. intros l (_ & K). unfold closed_on in K. rewrite map_id_pt in K. exact K. }
  exists (l' :: ls'), c2. split; [constructor; [unfold closed_on; rewrite map_id_pt; exact W|]|].
  { rewrite map_id in W2. erewrite map_ext; [exact W2|]. intros a. unfold closed_on. apply map_id_pt. }
  split; [|split; [eapply rings_cons; eassumption|exact F2]].
  destruct (assert_winding_order _ true) as [outer| |]; cbn [bind] in *; try discriminate. destruct (MakeLine c outer) as [c0| |]; cbn [bind] in *; try discriminate. injection E as ->. exact E2.
Qed.
Lemma polys_fold {P} (q : P -> pt) same (f : cursor -> list (list P) -> res cursor) :
  (forall c rings, fine_poly q same rings -> fits (last_pt c) -> exists ls' c', Forall2 way (map (closed_on q same) rings) ls' /\ f c rings = Ok c' /\ rings_after c c' ls' /\ fits (last_pt c')) ->
  forall polys c, Forall (fine_poly q same) polys -> fits (last_pt c) -> exists ls' c', Forall2 way (map (closed_on q same) (concat polys)) ls' /\ fold_res f polys c = Ok c' /\ rings_after c c' ls'.
Proof.
  intros F. induction polys as [|r polys IH]; intros c H Hc.
  - exists [], c. cbn [concat map fold_res]. split; [constructor|]. split; [reflexivity|]. split; [cbn [enc_rings]; rewrite app_nil_r|]; reflexivity.
  - inversion H as [|? ? Hr Hp]; subst. destruct (F c r Hr Hc) as (ls1 & c1 & W & E & R & Hc1). destruct (IH c1 Hp Hc1) as (ls2 & c2 & W2 & E2 & R2). exists (ls1 ++ ls2), c2. cbn [concat fold_res]. rewrite E. cbn [bind]. rewrite map_app. split; [apply Forall2_app; assumption|]. split; [exact E2|]. eapply rings_app; eassumption.
Qed.
Lemma loop_lines ls : forall f total first fp lines p, Forall line_ok ls -> total <> 3 -> (first = true -> p = (0, 0)) -> (first = false -> fp = Some p) -> (2 * length ls <= f)%nat ->
  geom_loop f total 3 first fp lines (enc_rings p ls) = Ok (lines ++ map merge_runs ls).
Proof.
  induction ls as [|l r IH]; intros f total first fp lines p Hls Htot H1 H2 Hf.
  - cbn [enc_rings map]. rewrite geom_loop_nil, app_nil_r. reflexivity.
  - inversion Hls as [|? ? (Hne & Hfit & Hlen) Hr]; subst. cbn [length] in Hf. destruct f as [|f]; [lia|]. cbn [enc_rings]. rewrite <- app_assoc. rewrite geom_loop_line; auto; try lia.
    destruct f as [|f]; [lia|]. cbn [app]. rewrite geom_loop_skip15. rewrite IH; auto; try lia; try discriminate. cbn [map]. rewrite <- app_assoc. reflexivity.
Qed.
Lemma rings_len p ls : Forall line_ok ls -> (4 * length ls <= length (enc_rings p ls))%nat.
Proof.
  intros H; revert p; induction H as [|l r (Hne & _ & _) _ IH]; intros p; cbn [enc_rings length]; [lia|]. rewrite !app_length. pose proof (enc_line_len p l Hne). specialize (IH (last l (0, 0))). lia.
Qed.
Lemma read_rings ls c : ls <> [] -> Forall line_ok ls -> Forall closed ls -> rings_after cursor0 c ls -> LoadGeometryCmds 3 (geo c) = Ok (read_as (group_rings (map merge_runs ls) [])).
Proof.
  intros N H C (E & _). rewrite E. cbn [geo cursor0 last_pt app]. pose proof (rings_len (0, 0) ls H) as L. assert (0 < length ls)%nat by (destruct ls; [congruence|cbn [length]; lia]).
  unfold LoadGeometryCmds. rewrite loop_lines; auto; try discriminate; try (unfold zlen; lia); try lia.
  cbn [bind app]. change (3 =? 3) with true. cbn iota. rewrite map_close_closed by auto. unfold read_as.
  destruct (map merge_runs ls) as [|a [|b r]]; [reflexivity| |].
  - cbn [group_rings]. destruct (SignedArea a >? 0); reflexivity.
  - destruct (group_rings (a :: b :: r) []) as [|x [|y z]]; reflexivity.
Qed.
Lemma big_fine {P} (q : P -> pt) same rings : big_rings q rings -> fine_poly q same rings.
Proof.
  intros (A & B). split; [exact A|]. eapply Forall_impl; [|exact B]. intros l (N & F & S). split; [exact N|]. unfold closed_on, short in *. assert (F' : Forall fits (map q l)) by (apply Forall_map; exact F). destruct l as [|f r]; [congruence|]. unfold close_with, line_ok. destruct (same f _).
  - split; [discriminate|]. split; [exact F'|]. unfold zlen. rewrite map_length. lia.
  - rewrite map_app. split; [discriminate|]. split; [apply Forall_app; split; [exact F'|constructor; [exact (Forall_inv F')|constructor]]|]. unfold zlen. rewrite app_length, !map_length. cbn [length] in *. lia.
Qed.
Lemma whole {P} (q : P -> pt) same (f : cursor -> list (list P) -> res cursor) polys : (forall a b, same a b = true -> q a = q b) -> polys <> [] -> Forall (big_rings q) polys ->
  (forall c rings, fine_poly q same rings -> fits (last_pt c) -> exists ls' c', Forall2 way (map (closed_on q same) rings) ls' /\ f c rings = Ok c' /\ rings_after c c' ls' /\ fits (last_pt c')) ->
  exists c rs ps, fold_res f polys cursor0 = Ok c /\ Forall2 (either_way q same) (concat polys) rs /\ cut_at_positive rs ps /\ LoadGeometryCmds 3 (geo c) = Ok (read_as ps).
Proof.
  intros Hs N H F. assert (H' : Forall (fine_poly q same) polys) by (eapply Forall_impl; [|exact H]; intros r; apply big_fine).
  destruct (polys_fold q same f F polys cursor0 H' fits0) as (ls & c & W & E & R).
  assert (A : Forall (fun l => l <> [] /\ line_ok (closed_on q same l)) (concat polys)).
  { apply Forall_concat'. eapply Forall_impl; [|exact H']. intros r (_ & K). exact K. }
  assert (L : Forall (fun l => line_ok l /\ closed l) ls).
  { clear - W A Hs. revert ls W. induction A as [|r rs (Nr & Hr) _ IH]; intros ls W; inversion W as [|? l ? ls' W1 W2]; subst; constructor; [|apply IH, W2]. split; [eapply way_ok; eassumption|]. eapply way_closed; [|exact W1]. apply close_with_map_closed; assumption. }
  assert (L1 : Forall line_ok ls) by (eapply Forall_impl; [|exact L]; intros l0 K0; apply K0). assert (L2 : Forall closed ls) by (eapply Forall_impl; [|exact L]; intros l0 K0; apply K0).
  assert (Nl : ls <> []).
  { intros ->. inversion W as [K|]. symmetry in K. apply map_eq_nil in K. destruct polys as [|[|r rs] polys]; [congruence|destruct (Forall_inv H) as [X _]; congruence|discriminate]. }
  exists c, (map merge_runs ls), (group_rings (map merge_runs ls) []). split; [exact E|]. split; [|split].
  - clear - W. revert ls W. induction (concat polys) as [|r rs IH]; intros ls W; inversion W as [|? l ? ls' W1 W2]; subst; cbn [map]; constructor; [apply (way_merge _ _ W1)|apply IH, W2].
  - apply group_positive. intros K. apply map_eq_nil in K. auto.
  - apply read_rings; auto.
Qed.

(** ** Theorems *)
(** Rings come back in the order written, each one as it is or turned round, cut into polygons before every ring of positive area. *)
Theorem C155_float : forall (P : Type) (q : P -> Z * Z) (same : P -> P -> bool) polys, (forall a b, same a b = true -> q a = q b) -> polys <> [] -> Forall (big_rings q) polys ->
  exists c rs ps, MakeMultiPolygonFloat q same cursor0 polys = Ok c /\ Forall2 (either_way q same) (concat polys) rs /\ cut_at_positive rs ps /\ LoadGeometryCmds 3 (geo c) = Ok (read_as ps).
Proof. intros P q same polys Hs N H. apply whole; auto. intros c rings. apply polygon_float_ok. Qed.
Print Assumptions C155_float.
Theorem C155_int : forall polys, polys <> [] -> Forall (big_rings (fun p => p)) polys ->
  exists c rs ps, MakeMultiPolygon cursor0 polys = Ok c /\ Forall2 (either_way (fun p => p) same_pt) (concat polys) rs /\ cut_at_positive rs ps /\ LoadGeometryCmds 3 (geo c) = Ok (read_as ps).
Proof. intros polys N H. apply (whole (fun p => p) pt_eqb MakePolygon); auto. - intros a b Hab. apply pt_eqb_eq, Hab. - intros c rings. apply polygon_int_ok. Qed.
Print Assumptions C155_int.
(** A polygon without holes always comes back, perhaps turned round. *)
Theorem C155_ring : forall (P : Type) (q : P -> Z * Z) (same : P -> P -> bool) r, (forall a b, same a b = true -> q a = q b) -> big_rings q [r] ->
  exists c r', MakePolygonFloat q same cursor0 [r] = Ok c /\ either_way q same r r' /\ LoadGeometryCmds 3 (geo c) = Ok (GPolygon [r']).
Proof.
  intros P q same r Hs H. destruct (C155_float P q same [[r]] Hs ltac:(discriminate) ltac:(constructor; [exact H|constructor])) as (c & rs & ps & E & W & (C & F & _) & D). cbn [concat app] in W. assert (K : exists r', rs = [r'] /\ either_way q same r r') by (clear - W; inversion W as [|? r' ? rs' W1 W2]; subst; inversion W2; subst; eauto). destruct K as (r' & -> & W1). exists c, r'. split; [|split; [exact W1|]].
  - unfold MakeMultiPolygonFloat in E. cbn [fold_res] in E. destruct (MakePolygonFloat q same cursor0 [r]); cbn in E; congruence.
  - rewrite D. destruct ps as [|p ps]; [discriminate|]. destruct p as [|f p]; [destruct (Forall_inv F)|]. cbn [concat app] in C. injection C as -> C. apply app_eq_nil in C. destruct C as [-> C]. destruct ps as [|p' ps]; [reflexivity|]. destruct p' as [|g p']; [destruct (Forall_inv (Forall_inv_tail F))|discriminate].
Qed.
Print Assumptions C155_ring.

(** ** Not vacuous: from 32768 units on a square is turned round, so that its area is negative. *)
Example C155_nonvacuous : let r := [(0, 0); (32768, 0); (32768, 32768); (0, 32768)] in
  big_rings (fun p => p) [r] /\ 0 < surveyor r /\ exists c, MakePolygonFloat (fun p => p) same_pt cursor0 [r] = Ok c /\
  LoadGeometryCmds 3 (geo c) = Ok (GPolygon [[(0, 0); (0, 32768); (32768, 32768); (32768, 0); (0, 0)]]).
Proof.
  cbv zeta. split; [|split; [reflexivity|eexists; split; vm_compute; reflexivity]].
  split; [discriminate|]. apply Forall_cons; [|apply Forall_nil]. split; [discriminate|]. split; [|unfold short; cbn [length]; lia]. repeat (apply Forall_cons; [split; cbn; lia|]). apply Forall_nil.
Qed.
