(** Properties C37-C42 and C78 of tile_cover. *)
From Coq Require Import ZArith Reals List Bool Lia Lra Permutation Sorted.
From Verif Require Import GoBase Num Tileid_Model TileR_Model TileR_Proofs Clip_Model Clip_Spec Cover_Spec Cover_Model Cover_Proofs.
Import ListNotations.
Open Scope Z_scope.

(** ** C37 *)
Lemma upfrom_ssorted n : forall c, StronglySorted Z.lt (upfrom n c).
Proof.
  induction n as [|n IH]; intros c; cbn [upfrom]; constructor; auto. apply Forall_forall. intros x Hx. apply upfrom_spec in Hx. lia.
Qed.

(** The integers strictly between, increasing; symmetric in the arguments. *)
Theorem C37_fill_vals : forall a b,
  (forall x, In x (FillVals a b) <-> Z.min a b < x < Z.max a b) /\ StronglySorted Z.lt (FillVals a b).
Proof.
  intros a b. unfold FillVals. destruct (b <? a) eqn:E.
  - destruct ((b =? a) || (a - 1 =? b)) eqn:E2; [split; [cbn [In]; intros; lia|constructor]|].
    split; [|apply upfrom_ssorted]. intros x. rewrite upfrom_spec. lia.
  - destruct ((a =? b) || (b - 1 =? a)) eqn:E2; [split; [cbn [In]; intros; lia|constructor]|].
    split; [|apply upfrom_ssorted]. intros x. rewrite upfrom_spec. lia.
Qed.
Print Assumptions C37_fill_vals.

Theorem C37_get_dif : forall a b,
  (forall x, In x (GetDif a b) <-> x = a \/ a <= x <= b) /\ StronglySorted Z.lt (GetDif a b).
Proof.
  intros a b. unfold GetDif. split.
  - intros x. cbn [In]. rewrite upfrom_spec. lia.
  - constructor; [apply upfrom_ssorted|]. apply Forall_forall. intros x Hx. apply upfrom_spec in Hx. lia.
Qed.
Print Assumptions C37_get_dif.

Example C37_nonvacuous : FillVals 7 3 = [4; 5; 6] /\ GetDif 2 4 = [2; 3; 4] /\ GetDif 4 2 = [4].
Proof. repeat split. Qed.

Open Scope R_scope.

(** ** C38 *)
Theorem C38_closed_ring_box : forall (f : rpt) l,
  (forall p, In p (f :: l) -> -180 <= fst p <= 180 /\ -90 <= snd p <= 90) ->
  let b := BoundingBoxPoints (f :: l ++ [f]) in
  (forall p, In p (f :: l) -> eW b <= fst p <= eE b /\ eS b <= snd p <= eN b) /\
  (exists p, In p (f :: l) /\ fst p = eW b) /\ (exists p, In p (f :: l) /\ fst p = eE b) /\
  (exists p, In p (f :: l) /\ snd p = eS b) /\ (exists p, In p (f :: l) /\ snd p = eN b).
Proof.
  intros f l H b. destruct (bbox_closed f l H) as (A & B1 & B2 & B3 & B4). fold b in A, B1, B2, B3, B4.
  split; auto. apply in_map_iff in B1, B2, B3, B4.
  destruct B1 as (p1 & ? & ?), B2 as (p2 & ? & ?), B3 as (p3 & ? & ?), B4 as (p4 & ? & ?). repeat split; eauto.
Qed.
Print Assumptions C38_closed_ring_box.

Example C38_nonvacuous : forall p : rpt, In p [(10, 20); (5, 30)] -> -180 <= fst p <= 180 /\ -90 <= snd p <= 90.
Proof. intros p [<-|[<-|[]]]; cbn [fst snd]; lra. Qed.

(** An open list of points running west: the eastern bound is lost (it stays at -180). *)
Theorem C38_open_list_refuted : exists pts, (forall p, In p pts -> -180 <= fst p <= 180 /\ -90 <= snd p <= 90) /\
  exists p, In p pts /\ eE (BoundingBoxPoints pts) < fst p.
Proof.
  exists [(20, 0); (10, 0)]. split; [intros p [<-|[<-|[]]]; cbn [fst snd]; lra|].
  exists (20, 0). split; [left; auto|]. unfold BoundingBoxPoints. cbn [fold_left].
  destruct (bbox_step_spec (mkExt 180 (-180) (-90) 90) 20 0) as (E1 & E2 & _ & _). cbn [eW eE] in E1, E2.
  set (b := bbox_step _ (20, 0)) in *.
  destruct (bbox_step_spec b 10 0) as (_ & F2 & _ & _). rewrite F2, E1, E2.
  destruct (Rltb_spec 20 180); [|lra]. destruct (Rltb_spec 10 20); [|lra]. cbn [fst]. lra.
Qed.
Print Assumptions C38_open_list_refuted.

(** ** C39 *)
Theorem C39_ray_parity : forall rings (p : rpt), (forall c, In c rings -> c <> []) ->
  exists b, Pip rings p = Ok b /\ (b = true <-> inside rings p).
Proof. exact Pip_spec. Qed.
Print Assumptions C39_ray_parity.

Theorem C39_empty_ring_panics : forall rings (p : rpt), In [] rings -> Pip rings p = Panic.
Proof.
  intros rings p H. assert (E : pip_count rings p = Panic); [|unfold Pip; rewrite E; auto].
  induction rings as [|c rs IH]; [destruct H|]. cbn [pip_count]. destruct c as [|f c]; [reflexivity|].
  rewrite pip_ring_count by discriminate. cbn [bind]. destruct H as [H|H]; [discriminate|]. rewrite IH; auto.
Qed.
Print Assumptions C39_empty_ring_panics.

Lemma edges_mid (m : rpt) l2 : forall l1, edges (l1 ++ m :: l2) = edges (l1 ++ [m]) ++ edges (m :: l2).
Proof.
  induction l1 as [|a l1 IH]; [reflexivity|]. destruct l1 as [|b l1]; [reflexivity|].
  change (edges ((a :: b :: l1) ++ m :: l2)) with ((a, b) :: edges ((b :: l1) ++ m :: l2)). rewrite IH. reflexivity.
Qed.

Lemma ring_rotate p a b : cnt p (ring_edges (a ++ b)) = cnt p (ring_edges (b ++ a)).
Proof.
  destruct a as [|x a]; [rewrite app_nil_r; auto|]. destruct b as [|y b]; [rewrite app_nil_r; auto|].
  cbn [app ring_edges]. rewrite <- !app_assoc. cbn [app].
  change (x :: a ++ y :: b ++ [x]) with ((x :: a) ++ y :: (b ++ [x])).
  change (y :: b ++ x :: a ++ [y]) with ((y :: b) ++ x :: (a ++ [y])).
  rewrite (edges_mid y (b ++ [x]) (x :: a)), (edges_mid x (a ++ [y]) (y :: b)), !cnt_app. cbn [app]. lia.
Qed.

Lemma cnt_rev p l : cnt p (edges (rev l)) = cnt p (edges l).
Proof.
  induction l as [|a l IH]; auto. destruct l as [|b l]; auto.
  change (edges (a :: b :: l)) with ((a, b) :: edges (b :: l)). rewrite cnt_cons, <- IH.
  cbn [rev]. rewrite <- app_assoc. cbn [app]. rewrite edges_mid, cnt_app. cbn [edges].
  rewrite (cnt_cons p (b, a) []). change (cnt p []) with 0%nat. cbn [fst snd]. rewrite (pip_edge_sym p b a). lia.
Qed.

Lemma ring_rev p l : cnt p (ring_edges (rev l)) = cnt p (ring_edges l).
Proof.
  destruct l as [|f l]; auto. cbn [rev]. rewrite ring_rotate.
  transitivity (cnt p (edges (rev ((f :: l) ++ [f])))); [|apply cnt_rev]. rewrite rev_app_distr. cbn [rev app ring_edges]. auto.
Qed.

Lemma ring_repeat p f l : cnt p (ring_edges ((f :: l) ++ [f])) = cnt p (ring_edges (f :: l)).
Proof.
  cbn [ring_edges app]. change (f :: (l ++ [f]) ++ [f]) with ((f :: l ++ [f]) ++ [f]).
  rewrite edges_snoc, cnt_app. change (f :: l ++ [f]) with ((f :: l) ++ [f]). rewrite last_last, (cnt_cons p (f, f) []). cbn [fst snd].
  rewrite pip_edge_refl. change (cnt p []) with 0%nat. lia.
Qed.

(** Two ways of writing the same ring: rotation, reversal, repeating the first point. *)
Inductive same_ring : list rpt -> list rpt -> Prop :=
| SR_refl l : same_ring l l
| SR_rotate a b : same_ring (a ++ b) (b ++ a)
| SR_reverse l : same_ring l (rev l)
| SR_close f l : same_ring (f :: l) ((f :: l) ++ [f])
| SR_sym a b : same_ring a b -> same_ring b a
| SR_trans a b c : same_ring a b -> same_ring b c -> same_ring a c.

Lemma same_ring_cnt p a b : same_ring a b -> (a = [] <-> b = []) /\ cnt p (ring_edges a) = cnt p (ring_edges b).
Proof.
  induction 1 as [l|a b|l|f l|a b _ [I1 I2]|a b c _ [I1 I2] _ [J1 J2]].
  - tauto.
  - split; [|apply ring_rotate]. destruct a, b; cbn [app]; split; intros; auto; discriminate.
  - split; [|symmetry; apply ring_rev]. destruct l; cbn [rev]; [tauto|]. split; [discriminate|]. intros H. destruct (rev l); discriminate.
  - split; [|symmetry; apply ring_repeat]. cbn [app]. split; discriminate.
  - split; [tauto|auto].
  - split; [tauto|congruence].
Qed.

Theorem C39_representation_independent : forall r1 r2 (p : rpt), Forall2 same_ring r1 r2 -> Pip r1 p = Pip r2 p.
Proof.
  intros r1 r2 p H. assert (E : pip_count r1 p = pip_count r2 p); [|unfold Pip; rewrite E; auto].
  induction H as [|a b r1 r2 Hab _ IH]; auto. cbn [pip_count].
  destruct (same_ring_cnt p a b Hab) as [I1 I2]. destruct a as [|x a], b as [|y b].
  - auto.
  - exfalso. assert (y :: b = []) by tauto. discriminate.
  - exfalso. assert (x :: a = []) by tauto. discriminate.
  - rewrite !pip_ring_count by discriminate. cbn [bind]. rewrite IH, I2. auto.
Qed.
Print Assumptions C39_representation_independent.

Theorem C39_rectangle : forall w s e n (p : rpt), w <= e -> s <= n ->
  exists b, Pip [[(w, s); (e, s); (e, n); (w, n); (w, s)]] p = Ok b /\ (b = true <-> w <= fst p < e /\ s <= snd p < n).
Proof.
  intros w s e n p Hw Hs. unfold Pip. rewrite pip_count_eq by (intros c [<-|[]]; discriminate). cbn [bind].
  eexists. split; [reflexivity|]. unfold all_edges. cbn [flat_map ring_edges app edges].
  rewrite !cnt_cons. change (cnt p []) with 0%nat. cbn [fst snd]. destruct p as [px py]. cbn [fst snd].
  rewrite pip_edge_refl.
  assert (H1 : pip_edge (px, py) (w, s) (e, s) = false).
  { apply not_true_is_false. rewrite pip_edge_spec. intros [[?|?] _]; cbn [fst snd] in *; lra. }
  assert (H2 : pip_edge (px, py) (e, n) (w, n) = false).
  { apply not_true_is_false. rewrite pip_edge_spec. intros [[?|?] _]; cbn [fst snd] in *; lra. }
  assert (HV : forall x a b, (pip_edge (px, py) (x, a) (x, b) = true <-> ((a <= py < b) \/ (b <= py < a)) /\ px < x)).
  { intros x a b. rewrite pip_edge_spec. unfold crosses_right. cbn [fst snd]. split.
    - intros [H (q & (t & Ht & E1 & E2) & E3 & E4)]. cbn [fst snd] in *. split; auto. lra.
    - intros [H H']. split; auto. exists (x, py). cbn [fst snd]. split; auto. exists ((py - a) / (b - a)).
      assert (b - a <> 0) by lra. split; [|split; cbn [fst snd]; field; auto].
      destruct H.
      + assert (0 < / (b - a)) by (apply Rinv_0_lt_compat; lra). assert ((b - a) * / (b - a) = 1) by (field; auto). unfold Rdiv. split; nra.
      + replace ((py - a) / (b - a)) with ((a - py) / (a - b)) by (field; lra).
        assert (0 < / (a - b)) by (apply Rinv_0_lt_compat; lra). assert ((a - b) * / (a - b) = 1) by (field; lra). unfold Rdiv. split; nra. }
  rewrite H1, H2.
  pose proof (HV e s n) as V1. pose proof (HV w n s) as V2.
  destruct (pip_edge (px, py) (e, s) (e, n)), (pip_edge (px, py) (w, n) (w, s)); cbn [Nat.add Nat.odd Nat.even negb].
  - split; [discriminate|]. intros. exfalso. destruct V2 as [V2 _]. specialize (V2 eq_refl). lra.
  - split; auto. intros _. destruct V1 as [V1 _]. specialize (V1 eq_refl). destruct V1 as [V1 V1']. split; [|lra]. split; auto.
    destruct (Rle_dec w px); auto. exfalso. assert (false = true) by (apply V2; split; lra). discriminate.
  - split; auto. intros _. exfalso. destruct V2 as [V2 _]. specialize (V2 eq_refl). assert (false = true) by (apply V1; lra). discriminate.
  - split; [discriminate|]. intros. exfalso. assert (false = true) by (apply V1; lra). discriminate.
Qed.
Print Assumptions C39_rectangle.

Example C39_nonvacuous : Pip [[(0, 0); (2, 0); (2, 2); (0, 2); (0, 0)]] (1, 1) = Ok true /\ same_ring [(0, 0); (2, 0); (2, 2)] [(2, 2); (2, 0); (0, 0)].
Proof.
  split; [|exact (SR_reverse [(0, 0); (2, 0); (2, 2)])].
  destruct (C39_rectangle 0 0 2 2 (1, 1)) as (b & E & H); try lra. rewrite E. f_equal. apply H. cbn [fst snd]. lra.
Qed.

(** ** C40 *)
Theorem C40_line_cover : forall (P T : Type) (tile : P -> T) (teq : T -> T -> bool) (far : P -> P -> bool) (between : P -> P -> list T),
  (forall a b, teq a b = true <-> a = b) ->
  forall p line, exists tiles, tiles_line tile teq far between (p :: line) = Ok tiles /\
    NoDup tiles /\ (exists r, tiles = tile p :: r) /\
    (forall q, In q (p :: line) -> In (tile q) tiles) /\
    (forall t, In t tiles -> (exists q, In q (p :: line) /\ t = tile q) \/
        exists a b l r, p :: line = l ++ a :: b :: r /\ far a b = true /\ In t (between a b)) /\
    (forall a b l r t, p :: line = l ++ a :: b :: r -> far a b = true -> In t (between a b) -> In t tiles).
Proof.
  intros P T tile teq far between He p line. cbn [tiles_line]. eexists. split; [reflexivity|].
  destruct (line_loop_spec tile teq far between He line p [tile p]) as (J1 & (r & J2) & J3).
  { constructor; [intros []|constructor]. }
  split; auto. split; [exists r; rewrite J2; reflexivity|]. split; [|split].
  - intros q [<-|Hq]; apply J3; [left; left; auto|right; left; eauto].
  - intros t Ht. apply J3 in Ht. destruct Ht as [[<-|[]]|[(q & Hq & ->)|(a & b & (l & r' & E) & F & H)]].
    + left. exists p. split; [left|]; auto.
    + left. exists q. split; [right|]; auto.
    + right. exists a, b, l, r'. auto.
  - intros a b l r' t E F H. apply J3. right. right. exists a, b. split; auto. exists l, r'. auto.
Qed.
Print Assumptions C40_line_cover.

Theorem C40_empty_line_panics : forall (P T : Type) (tile : P -> T) teq far between, tiles_line tile teq far between (@nil P) = Panic.
Proof. reflexivity. Qed.

Example C40_nonvacuous : tiles_line (fun p => Z.div p 10) Z.eqb (fun a b => Z.ltb 10 (Z.abs (b - a))) (fun a b => [Z.div (a + b) 20]) [5; 25; 27; 5]%Z = Ok [0; 1; 2]%Z.
Proof. reflexivity. Qed.

(** ** C41 *)
Lemma filter_res_spec {A} (f : A -> res bool) l ts : filter_res f l = Ok ts ->
  (forall x, In x ts <-> In x l /\ f x = Ok true) /\ (NoDup l -> NoDup ts).
Proof.
  revert ts. induction l as [|a l IH]; intros ts E; cbn [filter_res] in E.
  - assert (ts = []) by congruence. subst. split; [cbn [In]; tauto|auto].
  - destruct (f a) as [b| |] eqn:Ef; cbn [bind] in E; try discriminate.
    destruct (filter_res f l) as [r| |] eqn:Er; cbn [bind] in E; try discriminate.
    destruct (IH r eq_refl) as [I1 I2]. assert (ts = if b then a :: r else r) by congruence. subst ts. split.
    + intros x. destruct b; cbn [In]; rewrite I1; split.
      * intros [<-|[H1 H2]]; auto.
      * intros [[<-|H1] H2]; auto.
      * intros [H1 H2]; auto.
      * intros [[<-|H1] H2]; auto. congruence.
    + intros Hnd. inversion Hnd; subst. destruct b; auto. constructor; auto. rewrite I1. tauto.
Qed.
Lemma filter_res_ok {A} (f : A -> res bool) l : (forall x, In x l -> exists b, f x = Ok b) -> exists ts, filter_res f l = Ok ts.
Proof.
  induction l as [|a l IH]; intros H; cbn [filter_res]; eauto. destruct (H a (or_introl eq_refl)) as (b & ->). cbn [bind].
  destruct IH as (r & ->); [intros; apply H; right; auto|]. cbn [bind]. eauto.
Qed.

Lemma nodup_app {A} (l1 l2 : list A) : NoDup l1 -> NoDup l2 -> (forall x, In x l1 -> ~ In x l2) -> NoDup (l1 ++ l2).
Proof.
  intros H1 H2 H. induction H1 as [|a l1 Hn _ IH]; cbn [app]; auto. constructor.
  - rewrite in_app_iff. intros [?|?]; auto. apply (H a); [left|]; auto.
  - apply IH. intros x Hx. apply H. right; auto.
Qed.
Lemma pot_nodup (xs ys : list Z) z : NoDup xs -> NoDup ys -> NoDup (flat_map (fun x => map (fun y => mkTile x y z) ys) xs).
Proof.
  intros Hx Hy. induction Hx as [|x xs Hn _ IH]; cbn [flat_map]; [constructor|]. apply nodup_app; auto.
  - apply FinFun.Injective_map_NoDup; auto. intros a b E. apply (f_equal tY) in E. auto.
  - intros t Ht Hf. apply in_map_iff in Ht. destruct Ht as (y & <- & _). apply in_flat_map in Hf. destruct Hf as (x' & Hx' & Hm).
    apply in_map_iff in Hm. destruct Hm as (y' & E & _). apply (f_equal tX) in E. cbn [tX] in E. subst. auto.
Qed.
Lemma pot_in (xs ys : list Z) z t : In t (flat_map (fun x => map (fun y => mkTile x y z) ys) xs) <-> In (tX t) xs /\ In (tY t) ys /\ tZ t = z.
Proof.
  rewrite in_flat_map. split.
  - intros (x & Hx & H). apply in_map_iff in H. destruct H as (y & <- & Hy). auto.
  - intros (Hx & Hy & Hz). exists (tX t). split; auto. apply in_map_iff. exists (tY t). split; auto. destruct t. cbn in *. subst. auto.
Qed.

Lemma ssorted_nodup l : StronglySorted Z.lt l -> NoDup l.
Proof.
  induction 1 as [|a l _ IH H]; constructor; auto. rewrite Forall_forall in H. intros X. apply H in X. lia.
Qed.

Lemma GetTilesPolygon_nodup p z ts : GetTilesPolygon p z = Ok ts -> NoDup ts.
Proof.
  unfold GetTilesPolygon. destruct p as [|outer rest]; [discriminate|]. intros E. apply filter_res_spec in E. destruct E as [_ E]. apply E.
  apply pot_nodup; apply ssorted_nodup, C37_get_dif.
Qed.

Lemma or_res_ok a b : (exists x, a = Ok x) -> (exists x, b = Ok x) -> (exists x, or_res a b = Ok x) /\ (or_res a b = Ok true <-> a = Ok true \/ b = Ok true).
Proof.
  intros (x & ->) (y & ->). unfold or_res. cbn [bind]. destruct x, y; split; eauto; split; auto; try (intros [?|?]; auto; discriminate); try discriminate.
Qed.

Lemma tileX_mono a a' b b' z : a <= a' -> (tX (Tile a b z) <= tX (Tile a' b' z))%Z.
Proof.
  intros H. rewrite !Tile_eq. cbn [tX]. apply Rfloor_IZR_ge. pose proof (proj1 (Rfloor_spec (colR a (pow2 z)) _) eq_refl) as [H1 H2].
  apply Rle_trans with (colR a (pow2 z)); auto. unfold colR. pose proof (pow2_pos z). apply Rmult_le_compat_r; lra.
Qed.
Lemma rowR_anti a b n : 0 < n -> -90 < a < 90 -> -90 < b < 90 -> a <= b -> rowR b n <= rowR a n.
Proof.
  intros Hn Ha Hb H. apply rowR_le; auto. apply Rle_trans with b; auto. apply rowR_le; auto. lra.
Qed.
Lemma tileY_anti a a' b b' z : -90 < b < 90 -> -90 < b' < 90 -> b <= b' -> (tY (Tile a' b' z) <= tY (Tile a b z))%Z.
Proof.
  intros Hb Hb' H. rewrite !Tile_eq. cbn [tY]. apply Rfloor_IZR_ge. pose proof (proj1 (Rfloor_spec (rowR b' (pow2 z)) _) eq_refl) as [H1 H2].
  apply Rle_trans with (rowR b' (pow2 z)); auto. apply rowR_anti; auto. apply pow2_pos.
Qed.

(** The four corners of a tile. *)
Definition tile_corner (t : TileID) (c : rpt) : Prop :=
  (fst c = eW (Bounds t) \/ fst c = eE (Bounds t)) /\ (snd c = eN (Bounds t) \/ snd c = eS (Bounds t)).

(** The exact set returned: tiles in the row and column range of the outer ring's vertices that
    hold a vertex of some ring or have a corner inside the polygon. *)
Theorem C41_polygon_cover_exact : forall (f : rpt) l inner zoom,
  (0 <= zoom < 2 ^ 63)%Z ->
  (forall p, In p (f :: l) -> -180 <= fst p <= 180 /\ -90 < snd p < 90) ->
  (forall r, In r inner -> r <> []) ->
  let polygon := (f :: l ++ [f]) :: inner in
  let T := fun p : rpt => Tile (fst p) (snd p) zoom in
  exists tiles, GetTilesPolygon polygon zoom = Ok tiles /\ NoDup tiles /\
    (forall p, In p (f :: l) -> In (T p) tiles) /\
    (forall t, In t tiles <->
       tZ t = zoom /\
       (exists p q, In p (f :: l) /\ In q (f :: l) /\ (tX (T p) <= tX t <= tX (T q))%Z) /\
       (exists p q, In p (f :: l) /\ In q (f :: l) /\ (tY (T p) <= tY t <= tY (T q))%Z) /\
       ((exists r p, In r polygon /\ In p r /\ T p = t) \/ (exists c, tile_corner t c /\ inside polygon c))).
Proof.
  intros f l inner zoom Hz Hw Hin polygon T.
  assert (EU : u64 zoom = zoom) by (apply u64_id; unfold in_u64; lia).
  assert (EW : wrap64 zoom = zoom) by (apply wrap64_id; unfold in_i64; lia).
  assert (Hne : forall c, In c polygon -> c <> []) by (intros c [<-|Hc]; [discriminate|auto]).
  destruct (C38_closed_ring_box f l) as (B0 & (pw & Bw & Ew) & (pe & Be & Ee) & (ps & Bs & Es) & (pn & Bn & En)).
  { intros p Hp. apply Hw in Hp. lra. }
  set (b := BoundingBoxPoints (f :: l ++ [f])) in *.
  assert (HT : forall t, exists x, TilePolygon polygon b t = Ok x).
  { intros t. unfold TilePolygon. destruct (_ && _); eauto.
    destruct (Pip_spec polygon (eW (Bounds t), eN (Bounds t)) Hne) as (b1 & E1 & _).
    destruct (Pip_spec polygon (eW (Bounds t), eS (Bounds t)) Hne) as (b2 & E2 & _).
    destruct (Pip_spec polygon (eE (Bounds t), eN (Bounds t)) Hne) as (b3 & E3 & _).
    destruct (Pip_spec polygon (eE (Bounds t), eS (Bounds t)) Hne) as (b4 & E4 & _).
    rewrite E1, E2, E3, E4. unfold or_res. cbn [bind]. destruct b1, b2, b3, b4; eauto. }
  assert (HTT : forall t, tZ t = zoom -> (TilePolygon polygon b t = Ok true <->
     (exists r p, In r polygon /\ In p r /\ T p = t) \/ (exists c, tile_corner t c /\ inside polygon c))).
  { intros t Ht.
    assert (HR : RunPolygon polygon t = true <-> exists r p, In r polygon /\ In p r /\ T p = t).
    { unfold RunPolygon. rewrite existsb_exists. rewrite Ht, EW. split.
      - intros (r & Hr & H). apply existsb_exists in H. destruct H as (p & Hp & E). exists r, p. split; auto. split; auto.
        unfold T. destruct t as [tx ty tz]. cbn [tX tY tZ] in *. subst tz.
        assert (EZ : tZ (Tile (fst p) (snd p) zoom) = zoom) by (rewrite Tile_eq; auto).
        destruct (Tile (fst p) (snd p) zoom) as [x y z]. cbn [tX tY tZ] in *. f_equal; lia.
      - intros (r & p & Hr & Hp & E). exists r. split; auto. apply existsb_exists. exists p. split; auto. unfold T in E. rewrite E. lia. }
    assert (HP : forall c, exists x, Pip polygon c = Ok x) by (intros c; destruct (Pip_spec polygon c Hne) as (x & ? & _); eauto).
    assert (HP' : forall c, Pip polygon c = Ok true <-> inside polygon c).
    { intros c. destruct (Pip_spec polygon c Hne) as (x & -> & <-). split; [intros E; injection E; auto|intros ->; auto]. }
    unfold TilePolygon.
    destruct (Rltb (eN b) (eN (Bounds t)) && Rltb (eS (Bounds t)) (eS b) && Rltb (eE b) (eE (Bounds t)) && Rltb (eW (Bounds t)) (eW b)) eqn:EB.
    - split; auto. intros _. left. exists (f :: l ++ [f]), f. split; [left; auto|]. split; [left; auto|].
      apply andb_true_iff in EB. destruct EB as [EB B4]. apply andb_true_iff in EB. destruct EB as [EB B3]. apply andb_true_iff in EB. destruct EB as [B1 B2].
      rewrite Rltb_true in B1, B2, B3, B4. unfold T. rewrite <- Ht. destruct (B0 f (or_introl eq_refl)) as [X1 X2].
      destruct (Hw f (or_introl eq_refl)) as [_ X3]. apply Tile_iff; auto; [rewrite Ht; lia|]. lra.
    - destruct (or_res_ok (Pip polygon (eE (Bounds t), eS (Bounds t))) (Ok (RunPolygon polygon t)) (HP _) ltac:(eauto)) as [O1 O1'].
      destruct (or_res_ok (Pip polygon (eE (Bounds t), eN (Bounds t))) _ (HP _) O1) as [O2 O2'].
      destruct (or_res_ok (Pip polygon (eW (Bounds t), eS (Bounds t))) _ (HP _) O2) as [O3 O3'].
      destruct (or_res_ok (Pip polygon (eW (Bounds t), eN (Bounds t))) _ (HP _) O3) as [O4 O4'].
      rewrite O4', O3', O2', O1', !HP'.
      assert (HR' : Ok (RunPolygon polygon t) = Ok true <-> RunPolygon polygon t = true) by (split; [intros E; injection E; auto|intros ->; auto]).
      rewrite HR', HR. unfold tile_corner. split.
      + intros [H|[H|[H|[H|H]]]]; auto; right; eexists; (split; [|exact H]); cbn [fst snd]; auto.
      + intros [H|([cx cy] & [H1 H2] & H)]; auto. cbn [fst snd] in *. destruct H1 as [-> | ->], H2 as [-> | ->]; auto. }
  unfold GetTilesPolygon, polygon. cbn [app]. fold polygon. fold b.
  set (xs := GetDif (tX (Tile (eW b) (eN b) zoom)) (tX (Tile (eE b) (eS b) zoom))).
  set (ys := GetDif (tY (Tile (eW b) (eN b) zoom)) (tY (Tile (eE b) (eS b) zoom))).
  destruct (filter_res_ok (TilePolygon polygon b) (flat_map (fun x => map (fun y => mkTile x y (u64 zoom)) ys) xs)) as (ts & E).
  { intros; apply HT. }
  exists ts. split; [exact E|]. destruct (filter_res_spec _ _ _ E) as [F1 F2]. split.
  { apply F2. apply pot_nodup; apply ssorted_nodup, C37_get_dif. }
  assert (HX : forall t, In (tX t) xs <-> exists p q, In p (f :: l) /\ In q (f :: l) /\ (tX (T p) <= tX t <= tX (T q))%Z).
  { intros t. unfold xs. destruct (C37_get_dif (tX (Tile (eW b) (eN b) zoom)) (tX (Tile (eE b) (eS b) zoom))) as [G _]. rewrite G. clear G.
    assert (M : (tX (Tile (eW b) (eN b) zoom) <= tX (Tile (eE b) (eS b) zoom))%Z).
    { apply tileX_mono. pose proof (B0 f (or_introl eq_refl)). lra. }
    split.
    - intros H. exists pw, pe. split; auto. split; auto. unfold T. rewrite Ew, Ee.
      rewrite (Tile_eq (eW b) (snd pw)), (Tile_eq (eE b) (snd pe)). rewrite (Tile_eq (eW b)), (Tile_eq (eE b)) in H, M. cbn [tX] in *. lia.
    - intros (p & q & Hp & Hq & H). right. unfold T in H.
      pose proof (tileX_mono (eW b) (fst p) (eN b) (snd p) zoom ltac:(apply B0; auto)).
      pose proof (tileX_mono (fst q) (eE b) (snd q) (eS b) zoom ltac:(apply B0; auto)). lia. }
  assert (HY : forall t, In (tY t) ys <-> exists p q, In p (f :: l) /\ In q (f :: l) /\ (tY (T p) <= tY t <= tY (T q))%Z).
  { intros t. unfold ys. destruct (C37_get_dif (tY (Tile (eW b) (eN b) zoom)) (tY (Tile (eE b) (eS b) zoom))) as [G _]. rewrite G. clear G.
    assert (RN : -90 < eN b < 90) by (rewrite <- En; apply Hw; auto). assert (RS : -90 < eS b < 90) by (rewrite <- Es; apply Hw; auto).
    assert (M : (tY (Tile (eW b) (eN b) zoom) <= tY (Tile (eE b) (eS b) zoom))%Z).
    { apply tileY_anti; auto. pose proof (B0 f (or_introl eq_refl)). lra. }
    split.
    - intros H. exists pn, ps. split; auto. split; auto. unfold T. rewrite Es, En.
      rewrite (Tile_eq (fst pn) (eN b)), (Tile_eq (fst ps) (eS b)). rewrite (Tile_eq (eW b)), (Tile_eq (eE b)) in H, M. cbn [tY] in *. lia.
    - intros (p & q & Hp & Hq & H). right. unfold T in H.
      assert (-90 < snd p < 90) by (apply Hw; auto). assert (-90 < snd q < 90) by (apply Hw; auto).
      pose proof (tileY_anti (fst p) (eW b) (snd p) (eN b) zoom ltac:(auto) RN ltac:(apply B0; auto)).
      pose proof (tileY_anti (eE b) (fst q) (eS b) (snd q) zoom RS ltac:(auto) ltac:(apply B0; auto)). lia. }
  assert (HI : forall t, In t ts <->
       tZ t = zoom /\
       (exists p q, In p (f :: l) /\ In q (f :: l) /\ (tX (T p) <= tX t <= tX (T q))%Z) /\
       (exists p q, In p (f :: l) /\ In q (f :: l) /\ (tY (T p) <= tY t <= tY (T q))%Z) /\
       ((exists r p, In r polygon /\ In p r /\ T p = t) \/ (exists c, tile_corner t c /\ inside polygon c))).
  { intros t. rewrite F1, pot_in, HX, HY, EU. split.
    - intros [(A1 & A2 & A3) A4]. rewrite HTT in A4 by auto. auto.
    - intros (A3 & A1 & A2 & A4). split; auto. apply HTT; auto. }
  split; [|exact HI]. intros p Hp. apply HI. split; [unfold T; rewrite Tile_eq; auto|].
  split; [exists p, p; repeat split; auto; lia|]. split; [exists p, p; repeat split; auto; lia|].
  left. exists (f :: l ++ [f]), p. split; [left; auto|]. split; auto.
  destruct Hp as [<-|Hp]; [left; auto|right; apply in_app_iff; auto].
Qed.
Print Assumptions C41_polygon_cover_exact.

Example C41_nonvacuous : forall p : rpt, In p [(-170, 10); (80, 10); (80, 11)] -> -180 <= fst p <= 180 /\ -90 < snd p < 90.
Proof. intros p [<-|[<-|[<-|[]]]]; cbn [fst snd]; lra. Qed.

Lemma sinh_gt1 x : 3 / 2 <= x -> 1 < sinh x.
Proof.
  intros H. unfold sinh. pose proof (exp_ineq1 x ltac:(lra)). pose proof (exp_plus x (- x)) as E.
  replace (x + - x) with 0 in E by lra. rewrite exp_0 in E. pose proof (exp_pos (- x)). 
  assert (exp (- x) < 2 / 5) by nra. lra.
Qed.
Lemma PI_gt3 : 3 < PI. Proof. pose proof PI2_3_2. lra. Qed.

(** First quarter of the rows: the edge at row y with 1 - 2y/n >= 1/2 is above 45 degrees. *)
Lemma edge_lat_45 y n : 1 / 2 <= 1 - 2 * y / n -> 45 < edge_lat y n.
Proof.
  intros H. unfold edge_lat, gd. pose proof PI_gt3 as HP.
  assert (H1 : 1 < sinh (PI * (1 - 2 * y / n))) by (apply sinh_gt1; nra).
  apply atan_increasing in H1. rewrite atan_1 in H1.
  assert (0 < 180 / PI) by (apply Rdiv_lt_0_compat; lra). assert (180 / PI * (PI / 4) = 45) by (field; lra). nra.
Qed.
Lemma edge_lat_mid y n : 0 < n -> 2 * y = n -> edge_lat y n = 0.
Proof.
  intros Hn H. unfold edge_lat, gd. replace (1 - 2 * y / n) with 0 by (rewrite H; field; lra).
  rewrite Rmult_0_r. rewrite sinh_0, atan_0. lra.
Qed.

(** A thin polygon crosses tile (1,1) at zoom 2: one of its inside points has that tile, yet the
    tile is not returned. *)
Theorem C41_thin_polygon_refuted :
  let polygon := [[(-170, 10); (80, 10); (80, 11); (-170, 10)]] in
  exists tiles q, GetTilesPolygon polygon 2 = Ok tiles /\ inside polygon q /\ ~ In (Tile (fst q) (snd q) 2) tiles.
Proof.
  intros polygon.
  destruct (C41_polygon_cover_exact (-170, 10) [(80, 10); (80, 11)] [] 2) as (tiles & E & _ & _ & HI).
  { lia. } { exact C41_nonvacuous. } { intros r []. }
  exists tiles, (-45, 101 / 10). split; [exact E|]. cbn [app] in *. change [(-170, 10); (80, 10); (80, 11); (-170, 10)] with (hd [] polygon) in HI. cbn [hd polygon] in HI.
  assert (P2 : pow2 2 = 4) by (unfold pow2; cbn [powerRZ]; unfold pow2; simpl; lra).
  assert (ET : Tile (-45) (101 / 10) 2 = mkTile 1 1 2).
  { apply (Tile_iff (-45) (101 / 10) (mkTile 1 1 2)); [lra|cbn [tZ]; lia|].
    destruct (Bounds_eq (mkTile 1 1 2)) as (W & E' & N & S). rewrite W, E', N, S. cbn [tX tY tZ]. rewrite P2.
    rewrite (edge_lat_mid (1 + 1) 4) by lra. pose proof (edge_lat_45 1 4 ltac:(lra)). lra. }
  cbn [fst snd]. split.
  - apply inside_iff. unfold all_edges, polygon. cbn [flat_map ring_edges app edges]. rewrite !cnt_cons. change (cnt (-45, 101/10) []) with 0%nat. cbn [fst snd].
    rewrite pip_edge_refl.
    assert (H1 : pip_edge (-45, 101 / 10) (-170, 10) (80, 10) = false).
    { apply not_true_is_false. rewrite pip_edge_spec. intros [[?|?] _]; cbn [fst snd] in *; lra. }
    assert (H2 : pip_edge (-45, 101 / 10) (80, 10) (80, 11) = true).
    { apply pip_edge_spec. split; [left; cbn [fst snd]; lra|]. exists (80, 101 / 10). cbn [fst snd]. split; [|lra]. exists (1 / 10). cbn [fst snd]. lra. }
    assert (H3 : pip_edge (-45, 101 / 10) (80, 11) (-170, 10) = false).
    { apply not_true_is_false. rewrite pip_edge_spec. intros [_ ([qx qy] & (t & Ht & E1 & E2) & E3 & E4)]; cbn [fst snd] in *. 
      assert (t = 9 / 10) by lra. lra. }
    rewrite H1, H2, H3. reflexivity.
  - rewrite ET. intros H. apply HI in H. destruct H as (_ & _ & _ & [H|H]).
    + destruct H as (r & p & [<-|[]] & Hp & ET'). assert (Hx : -90 <= fst p < 0).
      { assert (HB : -90 < snd p < 90) by (destruct Hp as [<-|[<-|[<-|[<-|[]]]]]; cbn [fst snd]; lra).
        apply (Tile_iff (fst p) (snd p) (mkTile 1 1 2)) in ET'; [|lra|cbn [tZ]; lia].
        destruct (Bounds_eq (mkTile 1 1 2)) as (W & E' & N & S). rewrite W, E' in ET'. cbn [tX tY tZ] in ET'. rewrite P2 in ET'. lra. }
      destruct Hp as [<-|[<-|[<-|[<-|[]]]]]; cbn [fst snd] in Hx; lra.
    + destruct H as ([cx cy] & [_ H2] & H). cbn [fst snd] in H2.
      assert (HO : cy <= 0 \/ 45 < cy).
      { destruct (Bounds_eq (mkTile 1 1 2)) as (W & E' & N & S). rewrite N, S in H2. cbn [tX tY tZ] in H2. rewrite P2 in H2.
        rewrite (edge_lat_mid (1 + 1) 4) in H2 by lra. pose proof (edge_lat_45 1 4 ltac:(lra)). destruct H2; lra. }
      apply inside_iff in H. unfold all_edges in H. cbn [flat_map ring_edges app edges] in H. rewrite !cnt_cons in H.
      change (cnt (cx, cy) []) with 0%nat in H. cbn [fst snd] in H.
      assert (HF : forall a b, 10 <= snd a <= 11 -> 10 <= snd b <= 11 -> pip_edge (cx, cy) a b = false).
      { intros a b Ha Hb. apply not_true_is_false. rewrite pip_edge_spec. intros [[?|?] _]; cbn [fst snd] in *; lra. }
      rewrite !HF in H by (cbn [fst snd]; lra). discriminate.
Qed.
Print Assumptions C41_thin_polygon_refuted.

(** ** C42 *)
Theorem C42_multiline_union : forall between ls zoom,
  (forall l, In l ls -> l <> []) ->
  exists tiles, TileCover between (GMultiLineString ls) zoom = Ok tiles /\ NoDup tiles /\
    forall t, In t tiles <-> exists l part, In l ls /\ TileCover between (GLineString l) zoom = Ok part /\ In t part.
Proof.
  intros between ls zoom H. cbn [TileCover].
  assert (HL : forall l, In l ls -> exists part, GetTilesLine between l zoom = Ok part /\ NoDup part).
  { intros l Hl. specialize (H l Hl). destruct l as [|p l]; [contradiction|]. unfold GetTilesLine.
    destruct (C40_line_cover _ _ (fun p : R * R => Tile (fst p) (snd p) zoom) tile_eqb (far_seg (p :: l) zoom) (fun a b => between a b zoom) tile_eqb_eq p l) as (ts & E & N & _). eauto. }
  destruct ls as [|l0 ls]; [exists []; split; auto; split; [constructor|]; intros t; split; [intros []|intros (l & ? & [] & _)]|].
  cbn [map cover_multi]. destruct (HL l0 (or_introl eq_refl)) as (p0 & E0 & N0). rewrite E0. cbn [bind].
  destruct (cover_rest_ok tile_eqb (map (fun l => GetTilesLine between l zoom) ls) p0) as (r & E).
  { intros p Hp. apply in_map_iff in Hp. destruct Hp as (l & <- & Hl). destruct (HL l (or_intror Hl)) as (x & ? & _). eauto. }
  destruct (cover_rest_spec tile_eqb tile_eqb_eq _ _ _ N0 E) as [J1 J2].
  exists r. split; auto. split; auto. intros t. rewrite J2. split.
  - intros [Ht|(part & Hp & Ht)]; [exists l0, p0; split; [left|]; auto|].
    apply in_map_iff in Hp. destruct Hp as (l & El & Hl). exists l, part. split; [right|]; auto.
  - intros (l & part & [<-|Hl] & El & Ht).
    + left. congruence.
    + right. exists part. split; auto. apply in_map_iff. exists l. auto.
Qed.
Print Assumptions C42_multiline_union.

(** A MultiPolygon part is covered as the polygon is, without the four-point test of the
    Polygon case. *)
Theorem C42_multipolygon_union : forall between ps zoom,
  (forall p, In p ps -> exists part, GetTilesPolygon p zoom = Ok part) ->
  exists tiles, TileCover between (GMultiPolygon ps) zoom = Ok tiles /\ NoDup tiles /\
    forall t, In t tiles <-> exists p part, In p ps /\ GetTilesPolygon p zoom = Ok part /\ In t part.
Proof.
  intros between ps zoom H. cbn [TileCover].
  destruct ps as [|l0 ls]; [exists []; split; auto; split; [constructor|]; intros t; split; [intros []|intros (l & ? & [] & _)]|].
  cbn [map cover_multi]. destruct (H l0 (or_introl eq_refl)) as (p0 & E0). rewrite E0. cbn [bind].
  destruct (cover_rest_ok tile_eqb (map (fun l => GetTilesPolygon l zoom) ls) p0) as (r & E).
  { intros p Hp. apply in_map_iff in Hp. destruct Hp as (l & <- & Hl). destruct (H l (or_intror Hl)) as (x & ?). eauto. }
  destruct (cover_rest_spec tile_eqb tile_eqb_eq _ _ _ (GetTilesPolygon_nodup _ _ _ E0) E) as [J1 J2].
  exists r. split; auto. split; auto. intros t. rewrite J2. split.
  - intros [Ht|(part & Hp & Ht)]; [exists l0, p0; split; [left|]; auto|].
    apply in_map_iff in Hp. destruct Hp as (l & El & Hl). exists l, part. split; [right|]; auto.
  - intros (l & part & [<-|Hl] & El & Ht).
    + left. congruence.
    + right. exists part. split; auto. apply in_map_iff. exists l. auto.
Qed.
Print Assumptions C42_multipolygon_union.

Theorem C42_multipoint_panics : forall between points zoom, TileCover between (GMultiPoint points []) zoom = Panic.
Proof. reflexivity. Qed.
Print Assumptions C42_multipoint_panics.

Example C42_nonvacuous : exists part, GetTilesPolygon [[(-170, 10); (80, 10); (80, 11); (-170, 10)]] 2 = Ok part.
Proof. destruct C41_thin_polygon_refuted as (ts & _ & H & _). eauto. Qed.

(** ** C78: gaps in the line cover *)
Lemma existsb_dedup {A} (eqb : A -> A -> bool) (He : forall a b, eqb a b = true <-> a = b) l : forall x, In x (dedup eqb l) <-> In x l.
Proof.
  induction l as [|a l IH]; intros x; cbn [dedup]; [tauto|]. destruct (existsb (eqb a) l) eqn:E; cbn [In]; rewrite IH; [|tauto].
  apply existsb_exists in E. destruct E as (y & Hy & E). apply He in E. subst y. split; auto. intros [<-|?]; auto.
Qed.

(** Between neighbouring columns and rows only the end tiles are produced. *)
Theorem C78_adjacent_only_ends : forall (a b : rpt) zoom,
  let ta := Tile (fst a) (snd a) zoom in let tb := Tile (fst b) (snd b) zoom in
  (Z.abs (tX ta - tX tb) <= 1)%Z -> (Z.abs (tY ta - tY tb) <= 1)%Z ->
  forall t, In t (BetweenTiles a b zoom) <-> t = ta \/ t = tb.
Proof.
  intros a b zoom ta tb Hx Hy t. unfold BetweenTiles. fold ta tb.
  assert (F : forall x y, (Z.abs (x - y) <= 1)%Z -> FillVals x y = []).
  { intros x y H. destruct (FillVals x y) as [|z l] eqn:E; auto. exfalso. destruct (C37_fill_vals x y) as [G _]. 
    assert (In z (FillVals x y)) by (rewrite E; left; auto). apply G in H0. lia. }
  destruct ((tX ta =? tX tb)%Z && (tY ta =? tY tb)%Z).
  - cbn [In]. split; [intros [<-|[<-|[]]]|intros [-> | ->]]; auto.
  - rewrite !F by auto. change (ProduceVals [] (tY ta) true zoom) with (@nil R). change (ProduceVals [] (tX ta) false zoom) with (@nil R). cbn [map app]. rewrite existsb_dedup by apply tile_eqb_eq. cbn [In].
    split; [intros [<-|[<-|[]]]|intros [-> | ->]]; auto.
Qed.
Print Assumptions C78_adjacent_only_ends.

(** So a line crossing a corner region misses the tile in between: the segment passes through
    tile (1,1) at zoom 1, whatever order the helper map is iterated in. *)
Theorem C78_line_cover_gap_refuted : forall between,
  (forall a b z t, In t (between a b z) <-> In t (BetweenTiles a b z)) ->
  let line := [(-10, -20); (20, 10)] in
  exists tiles q, GetTilesLine between line 1 = Ok tiles /\ on_line line q /\ ~ In (Tile (fst q) (snd q) 1) tiles.
Proof.
  intros between Hb line.
  assert (P2 : pow2 1 = 2) by (unfold pow2; simpl; lra).
  assert (B : forall x y, let b := Bounds (mkTile x y 1) in eW b = IZR x / 2 * 360 - 180 /\ eE b = (IZR x + 1) / 2 * 360 - 180 /\ eN b = edge_lat (IZR y) 2 /\ eS b = edge_lat (IZR y + 1) 2).
  { intros x y. destruct (Bounds_eq (mkTile x y 1)) as (W & E' & N & S). cbn [tX tY tZ] in *. rewrite P2 in *. auto. }
  assert (Em : edge_lat 1 2 = 0) by (apply edge_lat_mid; lra).
  pose proof (edge_lat_45 0 2 ltac:(lra)) as Et.
  assert (Eb : edge_lat 2 2 < -45).
  { unfold edge_lat, gd. replace (PI * (1 - 2 * 2 / 2)) with (- PI) by (field). unfold sinh. rewrite Ropp_involutive.
    replace ((exp (- PI) - exp PI) / 2) with (- ((exp PI - exp (- PI)) / 2)) by field. fold (sinh PI). rewrite atan_opp.
    pose proof PI_gt3. pose proof (sinh_gt1 PI ltac:(lra)) as H1. apply atan_increasing in H1. rewrite atan_1 in H1.
    assert (0 < 180 / PI) by (apply Rdiv_lt_0_compat; lra). assert (180 / PI * (PI / 4) = 45) by (field; lra). nra. }
  assert (TT : forall lng lat x y, -90 < lat < 90 -> IZR x / 2 * 360 - 180 <= lng < (IZR x + 1) / 2 * 360 - 180 ->
     edge_lat (IZR y + 1) 2 < lat <= edge_lat (IZR y) 2 -> Tile lng lat 1 = mkTile x y 1).
  { intros lng lat x y H1 H2 H3. apply (Tile_iff lng lat (mkTile x y 1)); auto; [cbn [tZ]; lia|]. destruct (B x y) as (-> & -> & -> & ->). auto. }
  assert (T1 : Tile (-10) (-20) 1 = mkTile 0 1 1) by (apply TT; [lra|lra|replace (1 + 1) with 2 by lra; lra]).
  assert (T2 : Tile 20 10 1 = mkTile 1 0 1) by (apply TT; [lra|lra|replace (0 + 1) with 1 by lra; lra]).
  assert (T3 : Tile 5 (-5) 1 = mkTile 1 1 1) by (apply TT; [lra|lra|replace (1 + 1) with 2 by lra; lra]).
  destruct (C40_line_cover _ _ (fun p : R * R => Tile (fst p) (snd p) 1) tile_eqb (far_seg line 1) (fun a b => between a b 1%Z) tile_eqb_eq (-10, -20) [(20, 10)])
    as (tiles & E & _ & _ & _ & HI & _).
  exists tiles, (5, -5). split; [exact E|]. split.
  - cbn [on_line]. left. exists (1 / 2). cbn [fst snd]. lra.
  - cbn [fst snd]. rewrite T3. intros H. apply HI in H. destruct H as [(q & Hq & Eq)|(a & b & l & r & E' & _ & H)].
    + destruct Hq as [<-|[<-|[]]]; cbn [fst snd] in Eq; rewrite ?T1, ?T2 in Eq; discriminate.
    + assert (a = (-10, -20) /\ b = (20, 10)) as [-> ->].
      { destruct l as [|x [|y [|z l]]]; cbn [app] in E'; try discriminate. injection E'. auto. }
      apply Hb in H. apply C78_adjacent_only_ends in H; cbn [fst snd]; rewrite ?T1, ?T2; cbn [tX tY]; try lia.
      cbn [fst snd] in H. rewrite T1, T2 in H. destruct H; discriminate.
Qed.
Print Assumptions C78_line_cover_gap_refuted.

Lemma produce_in vals c xb size v : In v (ProduceVals vals c xb size) <->
  exists x k, In x vals /\ (v = k - eps7 \/ v = k + eps7) /\
   (if xb then let b := Bounds (mkTile x c (u64 size)) in k = eW b \/ k = eE b
    else let b := Bounds (mkTile c x (u64 size)) in k = eS b \/ k = eN b).
Proof.
  unfold ProduceVals. rewrite in_flat_map. split.
  - intros (k & Hk & Hv). apply existsb_dedup in Hk; [|intros; apply Reqb_true]. apply in_flat_map in Hk. destruct Hk as (x & Hx & Hk).
    exists x, k. split; auto. split; [destruct Hv as [<-|[<-|[]]]; auto|]. destruct xb; destruct Hk as [<-|[<-|[]]]; auto.
  - intros (x & k & Hx & Hv & Hk). exists k. split; [|destruct Hv as [-> | ->]; cbn [In]; auto].
    apply existsb_dedup; [intros; apply Reqb_true|]. apply in_flat_map. exists x. split; auto.
    destruct xb; destruct Hk as [-> | ->]; cbn [In]; auto.
Qed.

Lemma between_in a b zoom t :
  let ta := Tile (fst a) (snd a) zoom in let tb := Tile (fst b) (snd b) zoom in
  In t (BetweenTiles a b zoom) <-> t = ta \/ t = tb \/
    (~ (tX ta = tX tb /\ tY ta = tY tb) /\
     ((exists v, In v (ProduceVals (FillVals (tX ta) (tX tb)) (tY ta) true zoom) /\ t = Tile (fst (Interpolate a b v false)) (snd (Interpolate a b v false)) zoom) \/
      (exists v, In v (ProduceVals (FillVals (tY ta) (tY tb)) (tX ta) false zoom) /\ t = Tile (fst (Interpolate a b v true)) (snd (Interpolate a b v true)) zoom))).
Proof.
  intros ta tb. unfold BetweenTiles. fold ta tb.
  destruct ((tX ta =? tX tb)%Z && (tY ta =? tY tb)%Z) eqn:E.
  - cbn [In]. split; [intros [<-|[<-|[]]]; auto|]. intros [-> |[-> |[H _]]]; auto. lia.
  - rewrite existsb_dedup by apply tile_eqb_eq. cbn [In]. rewrite in_app_iff, !in_map_iff. split.
    + intros [<-|[<-|[(v & <- & Hv)|(v & <- & Hv)]]]; auto; right; right; (split; [lia|]); [left|right]; eauto.
    + intros [-> |[-> |[_ [(v & Hv & ->)|(v & Hv & ->)]]]]; eauto 6.
Qed.

Lemma tile_box (p : rpt) zoom : (0 <= zoom < 2 ^ 64)%Z -> -90 < snd p < 90 ->
  let n := pow2 zoom in let t := Tile (fst p) (snd p) zoom in
  IZR (tX t) / n * 360 - 180 <= fst p < (IZR (tX t) + 1) / n * 360 - 180 /\
  edge_lat (IZR (tY t) + 1) n < snd p <= edge_lat (IZR (tY t)) n.
Proof.
  intros Hz Hp n t. assert (EZ : tZ t = zoom) by (unfold t; rewrite Tile_eq; cbn [tZ]; apply u64_id; exact Hz).
  assert (HT : Tile (fst p) (snd p) (tZ t) = t) by (rewrite EZ; auto).
  apply Tile_iff in HT; [|auto|rewrite EZ; auto]. destruct (Bounds_eq t) as (W & E & N & S). rewrite W, E, N, S, EZ in HT. exact HT.
Qed.

Lemma col_le x y n : 0 < n -> x <= y -> x / n * 360 - 180 <= y / n * 360 - 180.
Proof.
  intros Hn H. assert (x / n <= y / n); [|lra]. unfold Rdiv. apply Rmult_le_compat_r; auto. left. apply Rinv_0_lt_compat; auto.
Qed.
Lemma edge_le x y n : 0 < n -> x <= y -> edge_lat y n <= edge_lat x n.
Proof.
  intros Hn H. unfold edge_lat. assert (0 < 180 / PI) by (apply Rdiv_lt_0_compat; [lra|apply PI_pos]).
  apply Rmult_le_compat_l; [lra|]. apply (proj1 (gd_le _ _)). pose proof PI_pos. apply Rmult_le_compat_l; [lra|].
  assert (2 * x / n <= 2 * y / n); [|lra]. unfold Rdiv. apply Rmult_le_compat_r; [left; apply Rinv_0_lt_compat; auto|lra].
Qed.

Lemma betweenZ a b c : (Z.min a b < c < Z.max a b)%Z -> (IZR a + 1 <= IZR c /\ IZR c + 1 <= IZR b) \/ (IZR b + 1 <= IZR c /\ IZR c + 1 <= IZR a).
Proof.
  intros H. destruct (Z_lt_ge_dec a b); [left|right]; rewrite <- !plus_IZR; split; apply IZR_le; lia.
Qed.

Lemma col_between (a b : rpt) zoom c : (0 <= zoom < 2 ^ 64)%Z -> -90 < snd a < 90 -> -90 < snd b < 90 ->
  In c (FillVals (tX (Tile (fst a) (snd a) zoom)) (tX (Tile (fst b) (snd b) zoom))) ->
  let n := pow2 zoom in
  (fst a < IZR c / n * 360 - 180 /\ (IZR c + 1) / n * 360 - 180 <= fst b) \/
  (fst b < IZR c / n * 360 - 180 /\ (IZR c + 1) / n * 360 - 180 <= fst a).
Proof.
  intros Hz Ha Hb Hc n. apply C37_fill_vals in Hc. apply betweenZ in Hc. assert (Hn : 0 < n) by apply pow2_pos.
  destruct (tile_box a zoom Hz Ha) as [[A1 A2] _], (tile_box b zoom Hz Hb) as [[B1 B2] _]. fold n in A1, A2, B1, B2.
  destruct Hc as [[C1 C2]|[C1 C2]]; [left|right]; apply (col_le _ _ n Hn) in C1; apply (col_le _ _ n Hn) in C2; lra.
Qed.
Lemma row_between (a b : rpt) zoom c : (0 <= zoom < 2 ^ 64)%Z -> -90 < snd a < 90 -> -90 < snd b < 90 ->
  In c (FillVals (tY (Tile (fst a) (snd a) zoom)) (tY (Tile (fst b) (snd b) zoom))) ->
  let n := pow2 zoom in
  (snd a <= edge_lat (IZR c + 1) n /\ edge_lat (IZR c) n < snd b) \/ (snd b <= edge_lat (IZR c + 1) n /\ edge_lat (IZR c) n < snd a).
Proof.
  intros Hz Ha Hb Hc n. apply C37_fill_vals in Hc. apply betweenZ in Hc. assert (Hn : 0 < n) by apply pow2_pos.
  destruct (tile_box a zoom Hz Ha) as [_ [A1 A2]], (tile_box b zoom Hz Hb) as [_ [B1 B2]]. fold n in A1, A2, B1, B2.
  destruct Hc as [[C1 C2]|[C1 C2]]; [right|left]; apply (edge_le _ _ n Hn) in C1; apply (edge_le _ _ n Hn) in C2; lra.
Qed.

(** Every tile produced between two points holds a point of the straight line through them that
    overshoots the segment by at most 1e-7 degrees in one coordinate. *)
Theorem C78_between_sound : forall (a b : rpt) zoom t, (0 <= zoom < 2 ^ 64)%Z -> -90 < snd a < 90 -> -90 < snd b < 90 ->
  In t (BetweenTiles a b zoom) ->
  exists (q : rpt) s, Tile (fst q) (snd q) zoom = t /\
    fst q = fst a + s * (fst b - fst a) /\ snd q = snd a + s * (snd b - snd a) /\
    (Rmin (fst a) (fst b) - / 10000000 <= fst q <= Rmax (fst a) (fst b) + / 10000000 \/
     Rmin (snd a) (snd b) - / 10000000 <= snd q <= Rmax (snd a) (snd b) + / 10000000).
Proof.
  intros a b zoom t Hz Ha Hb H. apply between_in in H.
  assert (MX : Rmin (fst a) (fst b) <= fst a <= Rmax (fst a) (fst b) /\ Rmin (fst a) (fst b) <= fst b <= Rmax (fst a) (fst b)).
  { pose proof (Rmin_l (fst a) (fst b)). pose proof (Rmin_r (fst a) (fst b)). pose proof (Rmax_l (fst a) (fst b)). pose proof (Rmax_r (fst a) (fst b)). lra. }
  assert (MY : Rmin (snd a) (snd b) <= snd a <= Rmax (snd a) (snd b) /\ Rmin (snd a) (snd b) <= snd b <= Rmax (snd a) (snd b)).
  { pose proof (Rmin_l (snd a) (snd b)). pose proof (Rmin_r (snd a) (snd b)). pose proof (Rmax_l (snd a) (snd b)). pose proof (Rmax_r (snd a) (snd b)). lra. }
  assert (E7 : 0 < / 10000000) by lra. assert (Hn : 0 < pow2 zoom) by apply pow2_pos.
  assert (EU : u64 zoom = zoom) by (apply u64_id; exact Hz).
  destruct H as [-> |[-> |[_ [(v & Hv & ->)|(v & Hv & ->)]]]].
  - exists a, 0. repeat split; try lra. 
  - exists b, 1. repeat split; try lra.
  - apply produce_in in Hv. destruct Hv as (x & k & Hx & Hv & Hk).
    pose proof (col_between a b zoom x Hz Ha Hb Hx) as HC.
    destruct (Bounds_eq (mkTile x (tY (Tile (fst a) (snd a) zoom)) (u64 zoom))) as (W & E & _ & _). cbn [tX tY tZ] in W, E. cbv zeta in Hk, HC. rewrite EU in W, E, Hk.
    rewrite W, E in Hk.
    assert (K2 : IZR x / pow2 zoom * 360 - 180 <= (IZR x + 1) / pow2 zoom * 360 - 180) by (apply col_le; lra).
    assert (fst b - fst a <> 0) by lra.
    exists (Interpolate a b v false), ((v - fst a) / (fst b - fst a)). split; auto. unfold Interpolate. cbn [fst snd].
    split; [field; auto|]. split; [field; auto|]. left. unfold eps7 in Hv. lra.
  - apply produce_in in Hv. destruct Hv as (x & k & Hx & Hv & Hk).
    pose proof (row_between a b zoom x Hz Ha Hb Hx) as HC.
    destruct (Bounds_eq (mkTile (tX (Tile (fst a) (snd a) zoom)) x (u64 zoom))) as (_ & _ & N & S). cbn [tX tY tZ] in N, S. cbv zeta in Hk, HC. rewrite EU in N, S, Hk.
    rewrite N, S in Hk.
    assert (K2 : edge_lat (IZR x + 1) (pow2 zoom) <= edge_lat (IZR x) (pow2 zoom)) by (apply edge_le; lra).
    assert (snd b - snd a <> 0) by lra.
    exists (Interpolate a b v true), ((v - snd a) / (snd b - snd a)). split; auto. unfold Interpolate. cbn [fst snd].
    split; [field; auto|]. split; [field; auto|]. right. unfold eps7 in Hv. lra.
Qed.
Print Assumptions C78_between_sound.

(** Every column and every row strictly between those of the ends is visited, as long as tiles
    are larger than the 1e-7 offset. *)
Theorem C78_every_column : forall (a b : rpt) zoom c, (0 <= zoom < 2 ^ 64)%Z -> / 10000000 < 360 / pow2 zoom ->
  let ta := Tile (fst a) (snd a) zoom in let tb := Tile (fst b) (snd b) zoom in
  (Z.min (tX ta) (tX tb) < c < Z.max (tX ta) (tX tb))%Z ->
  exists t, In t (BetweenTiles a b zoom) /\ tX t = c.
Proof.
  intros a b zoom c Hz Hw ta tb Hc. assert (Hn : 0 < pow2 zoom) by apply pow2_pos.
  assert (EU : u64 zoom = zoom) by (apply u64_id; exact Hz).
  set (v := eW (Bounds (mkTile c (tY ta) zoom)) + eps7).
  exists (Tile (fst (Interpolate a b v false)) (snd (Interpolate a b v false)) zoom). split.
  - apply between_in. right. right. split; [fold ta tb; lia|]. left. exists v. split; auto. apply produce_in.
    exists c, (eW (Bounds (mkTile c (tY ta) zoom))). split; [apply C37_fill_vals; auto|]. split; [auto|]. rewrite EU. auto.
  - unfold Interpolate. cbn [fst snd]. rewrite Tile_eq. cbn [tX]. apply Rfloor_spec.
    destruct (Bounds_eq (mkTile c (tY ta) zoom)) as (W & _). cbn [tX tZ] in W. unfold v, colR. rewrite W.
    replace ((IZR c / pow2 zoom * 360 - 180 + eps7 + 180) / 360 * pow2 zoom) with (IZR c + eps7 / 360 * pow2 zoom) by (field; lra).
    assert (E : 360 / pow2 zoom * (pow2 zoom / 360) = 1) by (field; lra). assert (0 < pow2 zoom / 360) by lra.
    unfold eps7. nra.
Qed.
Print Assumptions C78_every_column.

Theorem C78_every_row : forall (a b : rpt) zoom r, (0 <= zoom < 2 ^ 64)%Z ->
  let ta := Tile (fst a) (snd a) zoom in let tb := Tile (fst b) (snd b) zoom in
  (Z.min (tY ta) (tY tb) < r < Z.max (tY ta) (tY tb))%Z ->
  / 10000000 <= eN (Bounds (mkTile (tX ta) r zoom)) - eS (Bounds (mkTile (tX ta) r zoom)) ->
  exists t, In t (BetweenTiles a b zoom) /\ tY t = r.
Proof.
  intros a b zoom r Hz ta tb Hc Hw. assert (Hn : 0 < pow2 zoom) by apply pow2_pos.
  assert (EU : u64 zoom = zoom) by (apply u64_id; exact Hz).
  set (B := Bounds (mkTile (tX ta) r zoom)) in *.
  set (v := eS B + eps7).
  exists (Tile (fst (Interpolate a b v true)) (snd (Interpolate a b v true)) zoom). split.
  - apply between_in. right. right. split; [fold ta tb; lia|]. right. exists v. split; auto. apply produce_in.
    exists r, (eS B). split; [apply C37_fill_vals; auto|]. split; [auto|]. rewrite EU. auto.
  - unfold Interpolate. cbn [fst snd]. rewrite Tile_eq. cbn [tY]. apply Rfloor_spec.
    destruct (Bounds_eq (mkTile (tX ta) r zoom)) as (_ & _ & N & S). fold B in N, S. cbn [tY tZ] in N, S.
    pose proof (edge_lat_range (IZR r) (pow2 zoom)). pose proof (edge_lat_range (IZR r + 1) (pow2 zoom)).
    assert (-90 < v < 90) by (unfold v, eps7; lra).
    split; [apply rowR_le; auto; unfold v, eps7; lra|apply rowR_lt; auto; unfold v, eps7; lra].
Qed.
Print Assumptions C78_every_row.

(** In the whole line cover: every column strictly between the columns of two consecutive vertices
    is visited, in either direction of travel. *)
Theorem C78_line_every_column : forall between line zoom tiles l r (a b : rpt) c,
  (forall a b z t, In t (between a b z) <-> In t (BetweenTiles a b z)) ->
  (0 <= zoom < 2 ^ 64)%Z -> / 10000000 < 360 / pow2 zoom ->
  GetTilesLine between line zoom = Ok tiles -> line = l ++ a :: b :: r ->
  let ta := Tile (fst a) (snd a) zoom in let tb := Tile (fst b) (snd b) zoom in
  (Z.min (tX ta) (tX tb) < c < Z.max (tX ta) (tX tb))%Z ->
  exists t, In t tiles /\ tX t = c.
Proof.
  intros between line zoom tiles l r a b c Hb Hz Hw HG HL ta tb Hc.
  assert (Hn : 0 < pow2 zoom) by apply pow2_pos.
  destruct line as [|p line]; [destruct l; discriminate|].
  destruct (C40_line_cover _ _ (fun p : R * R => Tile (fst p) (snd p) zoom) tile_eqb (far_seg (p :: line) zoom) (fun a b => between a b zoom) tile_eqb_eq p line)
    as (tiles' & E & _ & _ & _ & _ & HI).
  assert (tiles' = tiles) as -> by (unfold GetTilesLine in HG; rewrite E in HG; injection HG; auto).
  destruct (C78_every_column a b zoom c Hz Hw Hc) as (t & Ht & Ec).
  exists t. split; auto. apply (HI a b l r t HL); [|apply Hb; exact Ht].
  cbn [far_seg]. apply orb_true_iff. left. apply Rltb_true.
  destruct (Bounds_eq (Tile (fst p) (snd p) zoom)) as (W & E' & _). rewrite W, E'.
  assert (EU : u64 zoom = zoom) by (apply u64_id; exact Hz).
  change (tZ (Tile (fst p) (snd p) zoom)) with (u64 zoom). rewrite EU.
  assert (HA : IZR (tX ta) <= colR (fst a) (pow2 zoom) < IZR (tX ta) + 1) by (apply Rfloor_spec; reflexivity).
  assert (HB : IZR (tX tb) <= colR (fst b) (pow2 zoom) < IZR (tX tb) + 1) by (apply Rfloor_spec; reflexivity).
  unfold colR in HA, HB. set (n := pow2 zoom) in *. set (X := IZR (tX (Tile (fst p) (snd p) zoom))).
  replace ((X + 1) / n * 360 - 180 - (X / n * 360 - 180)) with (360 / n) by (field; lra).
  assert (Q : 360 / n * n = 360) by (field; lra).
  apply betweenZ in Hc. destruct Hc as [[? ?]|[? ?]].
  - rewrite Rabs_right; nra.
  - rewrite Rabs_left; nra.
Qed.
Print Assumptions C78_line_every_column.

(** Rows: the height of the first vertex's tile decides, so this needs the segment to be taller. *)
Theorem C78_line_every_row : forall between line zoom tiles l r (f a b : rpt) k,
  (forall a b z t, In t (between a b z) <-> In t (BetweenTiles a b z)) ->
  (0 <= zoom < 2 ^ 64)%Z ->
  GetTilesLine between line zoom = Ok tiles -> line = l ++ a :: b :: r -> hd_error line = Some f ->
  let ta := Tile (fst a) (snd a) zoom in let tb := Tile (fst b) (snd b) zoom in
  let height := fun t => eN (Bounds t) - eS (Bounds t) in
  (Z.min (tY ta) (tY tb) < k < Z.max (tY ta) (tY tb))%Z ->
  / 10000000 <= height (mkTile (tX ta) k zoom) ->
  height (Tile (fst f) (snd f) zoom) < Rabs (snd b - snd a) ->
  exists t, In t tiles /\ tY t = k.
Proof.
  intros between line zoom tiles l r f a b k Hb Hz HG HL Hf ta tb height Hk Hw Hh.
  destruct line as [|p line]; [discriminate|]. assert (p = f) as -> by (injection Hf; auto).
  destruct (C40_line_cover _ _ (fun p : R * R => Tile (fst p) (snd p) zoom) tile_eqb (far_seg (f :: line) zoom) (fun a b => between a b zoom) tile_eqb_eq f line)
    as (tiles' & E & _ & _ & _ & _ & HI).
  assert (tiles' = tiles) as -> by (unfold GetTilesLine in HG; rewrite E in HG; injection HG; auto).
  destruct (C78_every_row a b zoom k Hz Hk Hw) as (t & Ht & Ec).
  exists t. split; auto. apply (HI a b l r t HL); [|apply Hb; exact Ht].
  cbn [far_seg]. apply orb_true_iff. right. apply Rltb_true. exact Hh.
Qed.
Print Assumptions C78_line_every_row.

Example C78_nonvacuous : let ta := Tile (-170) 10 2 in let tb := Tile 80 10 2 in
  (Z.min (tX ta) (tX tb) < 1 < Z.max (tX ta) (tX tb))%Z /\ / 10000000 < 360 / pow2 2.
Proof.
  assert (P2 : pow2 2 = 4) by (unfold pow2; simpl; lra).
  assert (E1 : tX (Tile (-170) 10 2) = 0%Z) by (rewrite Tile_eq; cbn [tX]; apply Rfloor_spec; unfold colR; rewrite P2; lra).
  assert (E2 : tX (Tile 80 10 2) = 2%Z) by (rewrite Tile_eq; cbn [tX]; apply Rfloor_spec; unfold colR; rewrite P2; lra).
  intros ta tb. unfold ta, tb. rewrite E1, E2, P2. split; [lia|lra].
Qed.
