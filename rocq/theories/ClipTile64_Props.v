(** C134: clipping polygons to tiles in binary64 arithmetic, with the bounds the code computes. *)
From Coq Require Import ZArith Reals Lia Lra Bool List.
From Flocq Require Import Core BinarySingleNaN.
From Verif Require Import GoBase Num MvtGeom_Model Tileid_Model TileR_Model TileR_Proofs TileF64_Model TileF64_Proofs F64 ColorF64_Proofs Clip_Model Clip_Spec Clip_Proofs ClipRing_Proofs Clip_Props
  Tile64_Model Tile64_Proofs Tile64_Props Clip64_Proofs Clip64_Props Parity_Proofs ClipPoly64_Props ClipTile64_Model ClipTile64_Proofs.
From Verif Require ClipFeature_Props.
Import ListNotations.
Open Scope R_scope.

(** ** Specification *)
(** The point is inside the tile, further than [d] from its edges. *)
Definition inside (d : R) (t : TileID) (p : rpt) : Prop := eW (Bounds t) + d < fst p < eE (Bounds t) - d /\ eS (Bounds t) + d < snd p < eN (Bounds t) - d.
(** Rings with at least one vertex, and finite coordinates between -255 and 255 *)
Definition coords_ok (rings : list (list (f64 * f64))) : Prop := forall r, In r rings -> r <> [] /\ Forall (inb 255) r.
(** What is known about math.Pow(10, -7) *)
Definition tol_ok (eps : f64) : Prop := is_finite eps = true /\ 0 <= B2R eps <= 11 / 10 ^ 8.
(** Five units of the seventh decimal, about five centimetres *)
Definition margin : R := 5 / 10 ^ 7.

(** ** Lemmas *)
Definition near_edges (t : TileID) (w e s n : f64) : Prop :=
  (is_finite w = true /\ is_finite e = true /\ is_finite s = true /\ is_finite n = true) /\
  B2R w = eW (Bounds t) /\ B2R e = eE (Bounds t) /\ Rabs (B2R s - eS (Bounds t)) <= / 10 ^ 11 /\ Rabs (B2R n - eN (Bounds t)) <= / 10 ^ 11.
Lemma edges64 m t : good_libm m -> on_map t -> (tZ t <= 44)%Z -> let b := Bounds64 m t in near_edges t (e6W b) (e6E b) (e6S b) (e6N b).
Proof. intros G M Hz b. destruct (C118_edges m t G M Hz) as (A & B & C & D & E & F & H & I). unfold near_edges. auto 12. Qed.

Lemma step_d eps : tol_ok eps -> 0 <= 2 * B2R eps + bpow radix2 (8 - 49) <= 23 / 10 ^ 8.
Proof. intros [_ H]. change (8 - 49)%Z with (- (41))%Z. rewrite (bpm 41 2199023255552) by (lia || reflexivity). lra. Qed.

(** Both cuts at edges near those of a tile *)
Lemma tile_cut eps t w e s n rings M D : tol_ok eps -> near_edges t w e s n -> (forall r, In r rings -> r <> [] /\ Forall (inb M) r) -> M <= 255 -> 1 / 10 ^ 6 <= 2 * D ->
  (exists p, inside D t p) ->
  exists mid out, clip F64Num eps (CPolygon rings) w e false = Ok (CPolygon mid) /\ clip F64Num eps (CPolygon mid) s n true = Ok (CPolygon out) /\
    (forall r, In r out -> r <> [] /\ Forall (inb (M + / 10 ^ 11)) r) /\
    (forall p, inside D t p -> clear_by D (map (map val) rings) p ->
       even_odd (map (map val) out) p = even_odd (map (map val) rings) p /\ clear_by (D - 46 / 10 ^ 8) (map (map val) out) p).
Proof.
  intros HT ((Fw & Fe & Fs & Fn) & Ew & Ee & Es & En) HR HM HD (p0 & Hp0). pose proof (step_d eps HT) as [S0 S1]. destruct HT as [FE HE].
  assert (B41 : bpow radix2 (8 - 49) = / 2199023255552) by (apply (bpm 41 2199023255552); [lia|reflexivity]).
  assert (B8 : bpow radix2 8 = 256) by reflexivity. apply ab in Es, En. unfold inside in Hp0.
  destruct (cut_twice 8 rings eps w e s n M ltac:(lia) FE ltac:(lra) ltac:(rewrite B41, B8; lra) HR Fw Fe Fs Fn ltac:(lra) ltac:(lra)) as (mid & out & E1 & E2 & N & O & P).
  exists mid, out. split; auto. split; auto. split; [|].
  - intros r Hr. destruct (N r Hr) as [A B]. split; auto. eapply Forall_impl; [|exact B]. intros a. apply inb_mono. rewrite B41. lra.
  - intros p Hp HC. set (d := 2 * B2R eps + bpow radix2 (8 - 49)) in *. unfold inside in Hp. split.
    + apply P; [lra|lra|]. intros r q Hr Hq W. apply (HC r q Hr Hq). eapply within_mono; [|exact W]. lra.
    + intros r q Hr Hq W. apply in_map_iff in Hr. destruct Hr as (y & <- & Hy). destruct (O y q Hy Hq) as [(r' & q' & R1 & R2 & V)|K].
      * apply (HC (map val r') q'); [apply in_map; auto|auto|]. eapply within_mono; [|eapply within_trans; [exact W|exact V]]. lra.
      * destruct W as [W1 W2]. apply ab in W1, W2. destruct K as [K|[K|[K|K]]]; [apply ab in K..| |]; lra.
Qed.

Lemma makefeature_ok (out : list (list (f64 * f64))) : out <> [] -> (forall r, In r out -> r <> []) -> makefeature (CPolygon out) = Ok (CPolygon out).
Proof. intros H N. destruct out as [|[|x r] rs]; [congruence|destruct (N []); [left|]; auto|]. reflexivity. Qed.

(** Clipping to a tile keeps the membership of every point of the tile that is not within [margin] of the outline or of the edges
    of the tile, whatever the ends of the rings; when nothing is left the call panics. *)
Theorem C134_clip_tile : forall m eps t rings p, good_libm m -> tol_ok eps -> on_map t -> (tZ t <= 44)%Z -> coords_ok rings ->
  inside margin t p -> clear_by margin (map (map val) rings) p ->
  (exists out, ClipTile64 m eps t (CPolygon rings) = Ok (CPolygon out) /\ even_odd (map (map val) out) p = even_odd (map (map val) rings) p) \/
  (ClipTile64 m eps t (CPolygon rings) = Panic /\ even_odd (map (map val) rings) p = false).
Proof.
  intros m eps t rings p G HT M Hz HR Hp HC.
  destruct (tile_cut eps t _ _ _ _ rings 255 margin HT (edges64 m t G M Hz) HR ltac:(lra) ltac:(unfold margin; lra) (ex_intro _ p Hp)) as (mid & out & E1 & E2 & N & P).
  destruct (P p Hp HC) as [P1 _]. unfold ClipTile64, ClipTileB. rewrite E1. cbn [bind]. rewrite E2. cbn [bind].
  destruct out as [|f o]; [right; split; [reflexivity|]; rewrite <- P1; reflexivity|]. left. exists (f :: o). split; auto. apply makefeature_ok; [discriminate|]. intros r Hr. apply N. auto.
Qed.
Print Assumptions C134_clip_tile.

(** ** One zoom down *)
Section Total.
  Context {F : Type} (N : NumOps F).
  Lemma lint_any eps (r : list (F * F)) : r <> [] -> exists r', LintRing N eps r = Ok r' /\ r' <> [].
  Proof. intros H. destruct r as [|f r]; [congruence|]. cbn [LintRing]. destruct (DeltaFirstLast _ _ _ _); eexists; split; try reflexivity; [discriminate|]. intros E. apply app_eq_nil in E. destruct E. discriminate. Qed.
  Lemma clip_any eps rs k1 k2 axis : (forall r, In r rs -> r <> []) ->
    exists out, clip N eps (CPolygon rs) k1 k2 axis = Ok (CPolygon out) /\ forall r, In r out -> r <> [].
  Proof.
    intros H. cut (exists mid out, LintPolygon N eps rs = Ok mid /\ clipLines N mid k1 k2 axis true = Ok out /\ forall r, In r out -> r <> []).
    { intros (mid & out & E1 & E2 & E3). exists out. unfold clip. rewrite E1. cbn [bind]. rewrite E2. auto. }
    induction rs as [|r rs IH]; [exists [], []; repeat split; auto; intros ? []|]. destruct IH as (mid & out & E1 & E2 & E3); [intros; apply H; right; auto|].
    destruct (lint_any eps r (H r (or_introl eq_refl))) as (r' & L & L'). destruct r' as [|p r']; [congruence|].
    assert (HD : forall r p done cur, fst (fst (clip_loop N axis true k1 k2 p r done cur)) = done).
    { clear. induction r; intros; [reflexivity|]. cbn [clip_loop]. destruct (emit _ _ _ _ _ _). cbn [negb andb]. auto. }
    assert (C : exists ps, clipLine N (p :: r') k1 k2 axis true = Ok ps /\ forall x, In x ps -> x <> []).
    { cbn [clipLine]. specialize (HD r' p [] []). destruct (clip_loop _ _ _ _ _ _ _ _ _) as [[done cur] z]. cbn [fst] in HD. subst done. eexists. split; [reflexivity|].
      intros x Hx. destruct (close_slice _ _ _) eqn:EC; [destruct Hx|]. destruct Hx as [<-|[]]. discriminate. }
    destruct C as (ps & C1 & C2). exists ((p :: r') :: mid), (ps ++ out). unfold LintPolygon in *. cbn [map_res]. rewrite L. cbn [bind]. rewrite E1. split; [reflexivity|].
    cbn [clipLines]. rewrite C1. cbn [bind]. rewrite E2. split; [reflexivity|]. intros x Hx. apply in_app_iff in Hx. destruct Hx; auto.
  Qed.
End Total.

Lemma down_entries m eps t rings : good_libm m -> on_map t -> (tZ t <= 43)%Z -> rings <> [] -> (forall r, In r rings -> r <> []) -> near_square64 m eps t (CPolygon rings) = false ->
  exists l, ClipDown64 m eps t (CPolygon rings) = Ok l /\ (forall c gc, In (c, gc) l -> In c (Children t)) /\ NoDup (map fst l) /\
  forall c, In c (Children t) -> exists w e s n mid out, near_edges c w e s n /\ clip F64Num eps (CPolygon rings) w e false = Ok (CPolygon mid) /\ clip F64Num eps (CPolygon mid) s n true = Ok (CPolygon out) /\
    (forall r, In r out -> r <> []) /\ forall gc, In (c, gc) l <-> gc = CPolygon out /\ out <> [].
Proof.
  intros G M Hz HR HN NS. destruct t as [x y z]. cbn [tZ] in Hz. pose proof M as (Z0 & HX & HY). cbn [tX tY tZ] in *.
  assert (P : (2 ^ z <= 2 ^ 43)%Z) by (apply Z.pow_le_mono_r; lia). change (2 ^ 43)%Z with 8796093022208%Z in P.
  assert (EZ : (2 ^ (z + 1) = 2 * 2 ^ z)%Z) by (rewrite Z.pow_add_r by lia; lia).
  pose proof (edges64 m (mkTile x y z) G M ltac:(cbn [tZ]; lia)) as HB. cbv zeta in HB. set (b := Bounds64 m (mkTile x y z)) in *.
  set (c0 := mkTile (2 * x) (2 * y) (z + 1)) in *. set (c1 := mkTile (2 * x + 1) (2 * y) (z + 1)). set (c2 := mkTile (2 * x + 1) (2 * y + 1) (z + 1)). set (c3 := mkTile (2 * x) (2 * y + 1) (z + 1)).
  assert (M0 : on_map c0) by (unfold on_map, c0; cbn [tX tY tZ]; lia).
  pose proof (edges64 m c0 G M0 ltac:(cbn [tZ c0]; lia)) as HC. cbv zeta in HC. set (cb := Bounds64 m c0) in *.
  destruct (child_edges x y z) as (EW & EE & EN & ES). fold c0 c1 c3 in EW, EE, EN, ES.
  destruct HB as ((b1 & b2 & b3 & b4) & b5 & b6 & b7 & b8). destruct HC as ((k1 & k2 & k3 & k4) & k5 & k6 & k7 & k8). rewrite EW in b5. rewrite EE in b6. rewrite EN in b8. rewrite ES in b7.
  destruct (clip_any F64Num eps rings (e6W b) (e6E cb) false HN) as (l & El & Nl). destruct (clip_any F64Num eps rings (e6E cb) (e6E b) false HN) as (r & Er & Nr).
  destruct (clip_any F64Num eps l (e6S b) (e6S cb) true Nl) as (ld & Eld & Nld). destruct (clip_any F64Num eps l (e6S cb) (e6N b) true Nl) as (lu & Elu & Nlu).
  destruct (clip_any F64Num eps r (e6S b) (e6S cb) true Nr) as (rd & Erd & Nrd). destruct (clip_any F64Num eps r (e6S cb) (e6N b) true Nr) as (ru & Eru & Nru).
  exists (filter (fun e => negb (IsEmpty (snd e))) [(c0, CPolygon lu); (c1, CPolygon ru); (c2, CPolygon rd); (c3, CPolygon ld)]).
  assert (CH : Children (mkTile x y z) = [c0; c1; c2; c3]) by (apply Children_eq; lia).
  split. { unfold ClipDown64. destruct rings as [|[|q r0] rs] eqn:ER; [congruence|destruct (HN []); [left|]; auto|]. rewrite <- ER in *. rewrite NS, CH. cbv zeta. fold b cb. rewrite El, Er. cbn [bind]. rewrite Eld, Elu, Erd, Eru. reflexivity. }
  rewrite CH. split. { intros c gc H. apply filter_In in H. destruct H as [H _]. cbn [In] in *. destruct H as [H|[H|[H|[H|[]]]]]; injection H as <- <-; tauto. }
  assert (ND : NoDup [c0; c1; c2; c3]). { unfold c0, c1, c2, c3. repeat constructor; cbn [In]; intros H; repeat (destruct H as [H|H]; [injection H; lia|]); destruct H. }
  split. { clear - ND. change [c0; c1; c2; c3] with (map fst [(c0, CPolygon lu); (c1, CPolygon ru); (c2, CPolygon rd); (c3, CPolygon ld)]) in ND. revert ND. generalize [(c0, CPolygon lu); (c1, CPolygon ru); (c2, CPolygon rd); (c3, CPolygon ld)]. intros L.
    induction L as [|a L IH]; intros H; [constructor|]. cbn [map] in H. inversion H as [|? ? H1 H2]; subst. cbn [filter]. destruct (negb _); auto. cbn [map]. constructor; auto. intros K. apply H1. apply in_map_iff in K. destruct K as (e & <- & K). apply filter_In in K. apply in_map. tauto. }
  assert (IN : forall c g, In (c, g) [(c0, CPolygon lu); (c1, CPolygon ru); (c2, CPolygon rd); (c3, CPolygon ld)] -> forall o, g = CPolygon o -> forall gc, In (c, gc) (filter (fun e => negb (IsEmpty (snd e))) [(c0, CPolygon lu); (c1, CPolygon ru); (c2, CPolygon rd); (c3, CPolygon ld)]) <-> gc = CPolygon o /\ o <> []).
  { intros c g Hin o -> gc. rewrite filter_In. cbn [snd]. rewrite negb_true_iff.
    assert (U : In (c, gc) [(c0, CPolygon lu); (c1, CPolygon ru); (c2, CPolygon rd); (c3, CPolygon ld)] -> gc = CPolygon o).
    { clear - ND Hin. change [c0; c1; c2; c3] with (map fst [(c0, CPolygon lu); (c1, CPolygon ru); (c2, CPolygon rd); (c3, CPolygon ld)]) in ND. revert ND Hin. generalize [(c0, CPolygon lu); (c1, CPolygon ru); (c2, CPolygon rd); (c3, CPolygon ld)]. intros L.
      induction L as [|[a ga] L IH]; intros ND H1 H2; [destruct H1|]. cbn [map fst] in ND. inversion ND as [|? ? N1 N2]; subst. destruct H1 as [H1|H1], H2 as [H2|H2]; auto; [congruence| |].
      - injection H1 as -> ->. exfalso. apply N1. apply (in_map fst _ (c, gc)). auto.
      - injection H2 as -> ->. exfalso. apply N1. apply (in_map fst _ (c, CPolygon o)). auto. }
    split; [intros [H1 H2]; specialize (U H1); subst gc; split; auto; intros ->; discriminate|]. intros [-> H]. split; auto. destruct o; [congruence|reflexivity]. }
  intros c Hc. cbn [In] in Hc. destruct Hc as [<-|[<-|[<-|[<-|[]]]]].
  - exists (e6W b), (e6E cb), (e6S cb), (e6N b), l, lu. split; [unfold near_edges; auto 12|]. split; [auto|]. split; [auto|]. split; [auto|]. apply (IN c0 (CPolygon lu)); cbn [In]; auto.
  - exists (e6E cb), (e6E b), (e6S cb), (e6N b), r, ru. split; [unfold near_edges; auto 12|]. split; [auto|]. split; [auto|]. split; [auto|]. apply (IN c1 (CPolygon ru)); cbn [In]; auto.
  - exists (e6E cb), (e6E b), (e6S b), (e6S cb), r, rd. split; [unfold near_edges; auto 12|]. split; [auto|]. split; [auto|]. split; [auto|]. apply (IN c2 (CPolygon rd)); cbn [In]; auto.
  - exists (e6W b), (e6E cb), (e6S b), (e6S cb), l, ld. split; [unfold near_edges; auto 12|]. split; [auto|]. split; [auto|]. split; [auto|]. apply (IN c3 (CPolygon ld)); cbn [In]; auto 6.
Qed.

(** Clipping one zoom down: the entry of each child agrees with the polygon on the points of the child that are not within
    [margin] of the outline or of an edge; a child without an entry has no such point inside the polygon. *)
Theorem C134_clip_down : forall m eps t rings, good_libm m -> tol_ok eps -> on_map t -> (tZ t <= 43)%Z -> rings <> [] -> coords_ok rings -> near_square64 m eps t (CPolygon rings) = false ->
  exists l, ClipDown64 m eps t (CPolygon rings) = Ok l /\ (forall c gc, In (c, gc) l -> In c (Children t)) /\ NoDup (map fst l) /\
  forall c p, In c (Children t) -> inside margin c p -> clear_by margin (map (map val) rings) p ->
    (exists out, In (c, CPolygon out) l /\ even_odd (map (map val) out) p = even_odd (map (map val) rings) p) \/
    ((forall gc, ~ In (c, gc) l) /\ even_odd (map (map val) rings) p = false).
Proof.
  intros m eps t rings G HT M Hz HR HO NS. destruct (down_entries m eps t rings G M Hz HR (fun r H => proj1 (HO r H)) NS) as (l & E & A & B & C).
  exists l. split; auto. split; auto. split; auto. intros c p Hc Hp HC. destruct (C c Hc) as (w & e & s & n & mid & out & NE & E1 & E2 & N & I).
  destruct (tile_cut eps c _ _ _ _ rings 255 margin HT NE HO ltac:(lra) ltac:(unfold margin; lra) (ex_intro _ p Hp)) as (mid' & out' & F1 & F2 & _ & P).
  rewrite E1 in F1. injection F1 as <-. rewrite E2 in F2. injection F2 as <-. destruct (P p Hp HC) as [P1 _]. destruct out as [|f o].
  - right. split; [|rewrite <- P1; reflexivity]. intros gc H. apply I in H. tauto.
  - left. exists (f :: o). split; auto. apply I. split; [auto|discriminate].
Qed.
Print Assumptions C134_clip_down.

(** The shortcut for a polygon with the box of the tile gives each child its square. *)
Lemma square_inside (w e s n : R) (p : rpt) : w < fst p < e -> s < snd p < n -> even_odd [[(e, n); (w, n); (w, s); (e, s); (e, n)]] p = true.
Proof.
  intros Hx Hy. cbn [even_odd fold_right ring_edges edges app parity]. unfold crosses. cbn [fst snd].
  assert (E1 : Rleb e (fst p) = false) by (apply Rleb_false; lra). assert (E2 : Rleb w (fst p) = true) by (apply Rleb_true; lra). rewrite E1, E2. cbn [xorb andb].
  rewrite (proj2 (Rltb_true _ _)); [|replace (n - n) with 0 by ring; rewrite Rmult_0_r; lra]. rewrite (proj2 (Rltb_false _ _)); [reflexivity|]. replace (s - s) with 0 by ring; rewrite Rmult_0_r; lra.
Qed.
Theorem C134_square : forall m eps t rings, good_libm m -> on_map t -> (tZ t <= 43)%Z -> near_square64 m eps t (CPolygon rings) = true ->
  exists l, ClipDown64 m eps t (CPolygon rings) = Ok l /\ map fst l = Children t /\
  forall c gc p, In (c, gc) l -> inside (/ 10 ^ 10) c p -> exists out, gc = CPolygon out /\ even_odd (map (map val) out) p = true.
Proof.
  intros m eps t rings G M Hz NS. exists (map (fun c => (c, CPolygon [tile_square64 m c])) (Children t)). split; [|split].
  - unfold ClipDown64. rewrite NS. destruct rings as [|[|q r] rs]; try discriminate. reflexivity.
  - rewrite map_map. cbn [fst]. apply map_id.
  - intros c gc p H Hp. apply in_map_iff in H. destruct H as (c' & E & Hc). injection E as -> <-. exists [tile_square64 m c]. split; auto.
    assert (MC : on_map c /\ (tZ c <= 44)%Z).
    { destruct t as [x y z]. destruct M as (Z0 & HX & HY). cbn [tX tY tZ] in *. assert (P : (2 ^ z <= 2 ^ 43)%Z) by (apply Z.pow_le_mono_r; lia). change (2 ^ 43)%Z with 8796093022208%Z in P. assert (EZ : (2 ^ (z + 1) = 2 * 2 ^ z)%Z) by (rewrite Z.pow_add_r by lia; lia).
      rewrite Children_eq in Hc by lia. unfold on_map. cbn [In] in Hc. destruct Hc as [<-|[<-|[<-|[<-|[]]]]]; cbn [tX tY tZ]; lia. }
    pose proof (edges64 m c G (proj1 MC) (proj2 MC)) as HE. cbv zeta in HE. destruct HE as (_ & A & B & C & D). unfold tile_square64. cbv zeta. cbn [map val fst snd]. unfold val. cbn [fst snd]. apply ab in C, D. unfold inside in Hp. rewrite A, B. apply square_inside; lra.
Qed.
Print Assumptions C134_square.

(** ** Multipolygons *)
Definition polygons_of64 (g : @cgeom f64) : list (list (list (f64 * f64))) := match g with CPolygon o => [o] | CMultiPolygon os => os | _ => [] end.
(** Clipping a multipolygon to a band keeps, for every point of the band that is not close to an outline, the number of
    members it is in. *)
Theorem C134_multipolygon : forall eps ps k1 k2 axis, tol_ok eps -> (forall rings, In rings ps -> coords_ok rings) -> is_finite k1 = true -> is_finite k2 = true -> B2R k1 <= B2R k2 ->
  exists g, clip F64Num eps (CMultiPolygon ps) k1 k2 axis = Ok g /\
    (forall o, In o (polygons_of64 g) -> o <> [] /\ forall r, In r o -> r <> []) /\
    forall p, B2R k1 < along axis p < B2R k2 -> (forall rings, In rings ps -> clear_by margin (map (map val) rings) p) ->
      length (filter (fun o => even_odd (map (map val) o) p) (polygons_of64 g)) = length (filter (fun o => even_odd (map (map val) o) p) ps).
Proof.
  intros eps ps k1 k2 axis HT HR F1 F2 Hle. pose proof (step_d eps HT) as [S0 S1]. pose proof HT as [FE HE].
  cut (exists mid ms, LintMultiPolygon F64Num eps ps = Ok mid /\ clipMultiPolygon F64Num mid k1 k2 axis true = Ok ms /\
    (forall o, In o ms -> o <> [] /\ forall r, In r o -> r <> []) /\
    forall p, B2R k1 < along axis p < B2R k2 -> (forall rings, In rings ps -> clear_by margin (map (map val) rings) p) ->
      length (filter (fun o => even_odd (map (map val) o) p) ms) = length (filter (fun o => even_odd (map (map val) o) p) ps)).
  { intros (mid & ms & E1 & E2 & E3 & E4). unfold clip. rewrite E1. cbn [bind]. rewrite E2. cbn [bind]. eexists. split; [reflexivity|].
    assert (EP : polygons_of64 (match ms with [o] => CPolygon o | _ => CMultiPolygon ms end) = ms) by (destruct ms as [|o [|o' ms]]; reflexivity). rewrite EP. auto. }
  induction ps as [|rings ps IH].
  - exists [], []. split; [reflexivity|]. split; [reflexivity|]. split; [intros ? []|reflexivity].
  - destruct IH as (mid & ms & E1 & E2 & E3 & E4). { intros rr H. apply HR. right. auto. }
    destruct (polygon64u 8 rings eps k1 k2 axis 255 ltac:(lia) FE ltac:(lra) ltac:(change (bpow radix2 8) with 256; lra) (HR rings (or_introl eq_refl)) F1 F2 Hle) as (rs' & C1 & C2 & _ & C3).
    unfold clip in C1. destruct (LintPolygon F64Num eps rings) as [rs1| |] eqn:L1; cbn [bind] in C1; try discriminate.
    destruct (clipLines F64Num rs1 k1 k2 axis true) as [rs2| |] eqn:L2; cbn [bind] in C1; try discriminate. injection C1 as ->.
    exists (rs1 :: mid), (match rs' with [] => ms | _ => rs' :: ms end). unfold LintMultiPolygon in *. cbn [map_res clipMultiPolygon].
    rewrite L1. cbn [bind]. rewrite E1. cbn [bind]. rewrite L2. cbn [bind]. rewrite E2. cbn [bind]. split; auto. split; auto. split.
    + intros o Ho. destruct rs' as [|r0 rs']; auto. destruct Ho as [<-|Ho]; auto. split; [discriminate|]. intros r Hr. apply C2. auto.
    + intros p Hp HC. specialize (E4 p Hp (fun r H => HC r (or_intror H))). assert (E5 : even_odd (map (map val) rs') p = even_odd (map (map val) rings) p).
      { apply C3; auto. intros r q Hr Hq W. apply (HC rings (or_introl eq_refl) r q Hr Hq). eapply within_mono; [|exact W]. unfold margin. lra. }
      cbn [filter]. rewrite <- E5. destruct rs' as [|r0 rs']; [exact E4|]. cbn [filter]. destruct (even_odd (map (map val) (r0 :: rs')) p); cbn [length]; congruence.
Qed.
Print Assumptions C134_multipolygon.

(** The distance to the outline cannot be dropped: a ring that is not closed and whose ends are closer than the tolerance loses
    its last vertex, and with it a sliver. *)
Definition power7_64 : f64 := @B754_finite 53 1024 false 7555786372591432 (-76) eq_refl.
Definition tiny64 : f64 := @B754_finite 53 1024 false 4503599627370496 (-76) eq_refl.
Definition sliver : list (f64 * f64) := [(fint 0, fint 0); (fint 4, fint 0); (fint 0, tiny64)].
Lemma power7_ok : tol_ok power7_64.
Proof. split; [reflexivity|]. unfold power7_64, B2R, F2R. cbn [Fnum Fexp cond_Zopp]. change (bpow radix2 (-76)) with (bpow radix2 (- (76))). rewrite (bpm 76 75557863725914323419136) by (lia || reflexivity). lra. Qed.
Lemma tiny_val : B2R tiny64 = / 16777216.
Proof. unfold tiny64, B2R, F2R. cbn [Fnum Fexp cond_Zopp]. change (bpow radix2 (-76)) with (bpow radix2 (- (76))). rewrite (bpm 76 75557863725914323419136) by (lia || reflexivity). lra. Qed.
Theorem C134_sliver_refuted : exists p out, coords_ok [sliver] /\ clip F64Num power7_64 (CPolygon [sliver]) (fint (-180)) (fint 180) false = Ok (CPolygon out) /\
  -180 < fst p < 180 /\ even_odd [map val sliver] p = true /\ even_odd (map (map val) out) p = false.
Proof.
  exists (1, / 67108864), [[(fint 0, fint 0); (fint 4, fint 0); (fint 0, fint 0)]].
  destruct (small_int 0 ltac:(lia)) as [Z1 Z2]. destruct (small_int 4 ltac:(lia)) as [F1 F2].
  assert (EV : map val sliver = [(0, 0); (4, 0); (0, / 16777216)]) by (unfold sliver; cbn [map val fst snd]; unfold val; cbn [fst snd]; rewrite Z2, F2, tiny_val; reflexivity).
  split. { intros r [<-|[]]. split; [discriminate|]. unfold sliver. repeat apply Forall_cons; try apply Forall_nil; unfold inb, fin; cbn [fst snd]; rewrite ?Z2, ?F2, ?tiny_val; (split; [auto|]); split; apply ab; lra. }
  split; [apply sf_poly_inj; vm_compute; reflexivity|]. split; [cbn [fst]; lra|]. split.
  - rewrite EV. cbn [even_odd fold_right ring_edges edges app parity fst snd]. unfold crosses. cbn [fst snd].
    rewrite (proj2 (Rleb_true 0 1)) by lra. rewrite (proj2 (Rleb_false 4 1)) by lra. cbn [xorb andb].
    rewrite (proj2 (Rltb_false _ _)) by lra. rewrite (proj2 (Rltb_true _ _)) by lra. reflexivity.
  - unfold val. cbn [map fst snd]. rewrite Z2, F2. cbn [even_odd fold_right ring_edges edges app parity fst snd]. unfold crosses. cbn [fst snd].
    rewrite (proj2 (Rleb_true 0 1)) by lra. rewrite (proj2 (Rleb_false 4 1)) by lra. cbn [xorb andb].
    rewrite (proj2 (Rltb_false _ _)) by lra. rewrite (proj2 (Rltb_false _ _)) by lra. reflexivity.
Qed.
Print Assumptions C134_sliver_refuted.

(** The square from (10, 10) to (16, 16) and the point (12, 12) of tile 1/0 at zoom 1 *)
Definition block : list (f64 * f64) := [(fint 10, fint 10); (fint 16, fint 10); (fint 16, fint 16); (fint 10, fint 16); (fint 10, fint 10)].
Example C134_nonvacuous : good_libm exact_libm /\ tol_ok power7_64 /\ on_map (mkTile 1 0 1) /\ coords_ok [block] /\ inside margin (mkTile 1 0 1) (12, 12) /\
  clear_by margin (map (map val) [block]) (12, 12) /\ even_odd (map (map val) [block]) (12, 12) = true.
Proof.
  destruct (small_int 10 ltac:(lia)) as [Z1 Z2]. destruct (small_int 16 ltac:(lia)) as [F1 F2].
  assert (EV : map val block = [(10, 10); (16, 10); (16, 16); (10, 16); (10, 10)]) by (unfold block, val; cbn [map fst snd]; rewrite Z2, F2; reflexivity).
  split; [exact (proj1 C118_nonvacuous)|]. split; [apply power7_ok|]. split; [unfold on_map; cbn [tX tY tZ]; lia|].
  split. { intros r [<-|[]]. split; [discriminate|]. unfold block. repeat apply Forall_cons; try apply Forall_nil; unfold inb, fin; cbn [fst snd]; rewrite ?Z2, ?F2; (split; [auto|]); split; apply ab; lra. }
  split.
  { unfold inside. destruct (Bounds_eq (mkTile 1 0 1)) as (A & B & C & D). cbn [tX tY tZ] in *. rewrite A, B, C, D. replace (pow2 1) with 2 by (rewrite pow2_IZR by lia; reflexivity). unfold edge_lat, gd.
    replace (PI * (1 - 2 * (0 + 1) / 2)) with 0 by field. rewrite sinh_0, atan_0. replace (PI * (1 - 2 * 0 / 2)) with PI by field. pose proof ClipFeature_Props.max_lat_45 as ML. unfold ClipFeature_Props.max_lat in ML. unfold margin. cbn [fst snd]. lra. }
  split.
  - cbn [map]. rewrite EV. intros r q [<-|[]] Hq [W1 W2]. cbn [on_ring app on_line fst snd] in *. apply ab in W1, W2. unfold margin in *.
    repeat (destruct Hq as [Hq|Hq]; [destruct Hq as (u & Hu & A & B); cbn [fst snd] in *; lra|]). subst q. cbn [fst snd] in *. lra.
  - cbn [map]. rewrite EV. replace [(10, 10); (16, 10); (16, 16); (10, 16); (10, 10)] with [(10, 10); (16, 10); (16, 16); (10, 16); (10, 10)] by reflexivity.
    cbn [even_odd fold_right ring_edges edges app parity]. unfold crosses. cbn [fst snd].
    rewrite (proj2 (Rleb_true 10 12)), (proj2 (Rleb_false 16 12)) by lra. cbn [xorb andb]. rewrite (proj2 (Rltb_false _ _)) by lra. rewrite (proj2 (Rltb_true _ _)) by lra. reflexivity.
Qed.
