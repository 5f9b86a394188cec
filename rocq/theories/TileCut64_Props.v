(** Property C149: polygons clipped to a tile, written to it and read from it, in binary64. *)
From Coq Require Import ZArith List Lia Bool Reals Lra.
From Flocq Require Import Core BinarySingleNaN.
From Verif Require Import GoBase Num Tileid_Model TileR_Model TileR_Proofs TileF64_Model TileF64_Proofs F64 ColorF64_Model ColorF64_Proofs Tile64_Model Tile64_Proofs Tile64_Props
  MvtProj_Proofs MvtProj64_Model MvtProj64_Proofs MvtProj64_Props Pbf_Model MvtGeom_Model MvtGeom_Spec MvtLayer_Model MvtLayer_Spec Clip_Model Clip_Spec Clip_Proofs ClipRing_Proofs Clip_Props Clip64_Proofs Clip64_Props Parity_Proofs ClipPoly64_Props ClipTile64_Model ClipTile64_Proofs ClipTile64_Props
  ClipLine64_Proofs ClipLine64_Props ClipSquare64_Props
  Pbf_Proofs MvtGeo_Model Decode64_Model MvtAgain64_Model MvtTile_Props MvtLayer_Props MvtGeo64_Model MvtGeo64_Proofs MvtGeo64_Props MvtRead64_Model MvtRead64_Props TileLine64_Proofs TileLine64_Props TilePoly64_Proofs TilePoly64_Props.
Import ListNotations.
Open Scope R_scope.

(** ** Specification *)
(** The distance at which points are safe from the clipping and from the grid *)
Definition cut_off (t : TileID) (e : Z) : R := unit_off t e + margin.

(** The last vertex is the first. *)
Definition shut (r : list (f64 * f64)) : Prop := exists f k, r = f :: k ++ [f].

(** ** Lemmas *)
(** Where the vertices of a cut polygon are *)
Definition range (axis : bool) (lo hi : R) (p : f64 * f64) : Prop := lo <= coord axis (val p) <= hi.
Lemma ring_range k l (k1 k2 : f64) axis lo hi lo' hi' : (-900 <= k <= 90)%Z -> l <> [] -> Forall (upto k) l -> is_finite k1 = true -> is_finite k2 = true -> B2R k1 <= B2R k2 ->
  Forall (range axis lo hi) l -> Forall (range (negb axis) lo' hi') l ->
  forall pieces piece v, clipLine F64Num l k1 k2 axis true = Ok pieces -> In piece pieces -> In v piece ->
  fin v /\ range axis (B2R k1) (B2R k2) v /\ range axis lo hi v /\ range (negb axis) (lo' - bpow radix2 (k - 49)) (hi' + bpow radix2 (k - 49)) v.
Proof.
  intros Hk Hn HU F1 F2 Hle HA HB pieces piece0 v E0 Hin Hv.
  destruct (C121_ring k l k1 k2 axis Hk Hn HU F1 F2) as (ps & ps' & E & E' & H). rewrite E in E0. injection E0 as ->.
  pose proof (clip_vertices axis (B2R k1) (B2R k2) (map val l) Hle ps' E') as HV. pose proof (C25_in_band (map val l) (B2R k1) (B2R k2) axis true ps' Hle E') as HI.
  destruct H as [[-> ->]|(c & c' & piece & piece' & -> & -> & R & R' & HC)]; [destruct Hin|]. destruct Hin as [<-|[]].
  assert (SUB : forall q, In q c' -> In q piece') by (intros q Hq; destruct R' as [_ [->|(f0 & r0 & -> & -> & _)]]; [exact Hq|apply in_app_iff; left; exact Hq]).
  assert (In v c) as Hc by (destruct R as [_ [->|(f0 & r0 & -> & -> & _)]]; [exact Hv|apply in_app_iff in Hv; destruct Hv as [Hv|[<-|[]]]; [exact Hv|left; reflexivity]]).
  assert (BX : forall ax a b q, Forall (range ax a b) l -> on_line (map val l) q -> a <= coord ax q <= b).
  { intros ax a b q HF Hq. apply (on_line_conv ax _ _ (map val l)); auto. intros q' Hq'. apply in_map_iff in Hq'. destruct Hq' as (x & <- & Hx). rewrite Forall_forall in HF. exact (HF x Hx). }
  assert (X : exists q, In q c' /\ fin v /\ B2R (coord axis v) = coord axis q /\ within (bpow radix2 (k - 49)) (val v) q) by (clear - HC Hc; induction HC as [|x y xs ys K _ IH]; [destruct Hc|]; destruct Hc as [<-|Hc]; [exists y; split; [left; reflexivity|exact K]|]; destruct (IH Hc) as (q & Q1 & Q2); exists q; split; [right; exact Q1|exact Q2]).
  destruct X as (q & Q1 & Q2 & Q3 & Q4 & Q5). pose proof (HI piece' q (or_introl eq_refl) (SUB q Q1)) as IB. rewrite in_band_coord in IB. inversion HV as [|? ? HV1 _]; subst. rewrite Forall_forall in HV1. pose proof (HV1 q (SUB q Q1)) as OL. pose proof (BX _ _ _ q HA OL) as RA. pose proof (BX _ _ _ q HB OL) as RB.
  split; [exact Q2|]. apply ab in Q4, Q5. unfold range, val in *. destruct axis; cbn [coord negb fst snd] in *; lra.
Qed.
Lemma poly_range k rings eps (k1 k2 : f64) axis lo hi lo' hi' out : (-900 <= k <= 90)%Z -> is_finite eps = true -> 0 <= B2R eps -> is_finite k1 = true -> is_finite k2 = true -> B2R k1 <= B2R k2 ->
  (forall r, In r rings -> r <> [] /\ Forall (fun p => upto k p /\ range axis lo hi p /\ range (negb axis) lo' hi' p) r) -> clip F64Num eps (CPolygon rings) k1 k2 axis = Ok (CPolygon out) ->
  forall r v, In r out -> In v r -> fin v /\ range axis (B2R k1) (B2R k2) v /\ range axis lo hi v /\ range (negb axis) (lo' - bpow radix2 (k - 49)) (hi' + bpow radix2 (k - 49)) v.
Proof.
  intros Hk Fe He F1 F2 Hle HR HC. unfold clip in HC. destruct (LintPolygon F64Num eps rings) as [mid| |] eqn:EL; try discriminate. cbn [bind] in HC. destruct (clipLines F64Num mid k1 k2 axis true) as [o| |] eqn:EC; try discriminate. cbn [bind] in HC. injection HC as ->.
  revert mid out EL EC. induction rings as [|r rs IH]; intros mid out EL EC.
  - injection EL as <-. injection EC as <-. intros r v [].
  - unfold LintPolygon in EL. cbn [map_res] in EL. destruct (HR r (or_introl eq_refl)) as [HN HF]. assert (HU : Forall (upto k) r) by (eapply Forall_impl; [|exact HF]; intros a H; apply H).
    destruct (lint64u k eps r Hk Fe He HN HU) as (r' & f & L1 & L2 & L3 & L4 & _). rewrite L1 in EL. cbn [bind] in EL. change (map_res (LintRing F64Num eps) rs) with (LintPolygon F64Num eps rs) in EL. destruct (LintPolygon F64Num eps rs) as [mid'| |] eqn:EL'; try discriminate. cbn [bind] in EL. injection EL as <-.
    cbn [clipLines] in EC. destruct (clipLine F64Num r' k1 k2 axis true) as [ps| |] eqn:EP; try discriminate. cbn [bind] in EC. destruct (clipLines F64Num mid' k1 k2 axis true) as [o'| |] eqn:EC'; try discriminate. cbn [bind] in EC. injection EC as <-.
    intros x v Hx Hv. apply in_app_iff in Hx. destruct Hx as [Hx|Hx]; [|eapply IH; eauto; intros; apply HR; right; assumption].
    assert (HF' : Forall (fun p => upto k p /\ range axis lo hi p /\ range (negb axis) lo' hi' p) r') by (rewrite Forall_forall in *; auto).
    apply (ring_range k r' k1 k2 axis lo hi lo' hi' Hk) with (pieces := ps) (piece := x); auto; [destruct r'; [discriminate|congruence]|..]; (eapply Forall_impl; [|exact HF']; intros a H; apply H).
Qed.

(** Clipping a polygon to a tile leaves rings in the tile. *)
Lemma cut_in m eps t rings : good_libm m -> tol_ok eps -> on_map t -> (tZ t <= 36)%Z -> coords_ok rings -> Forall (Forall midlat) rings ->
  ClipTile64 m eps t (CPolygon rings) = Panic \/ exists out, ClipTile64 m eps t (CPolygon rings) = Ok (CPolygon out) /\ out <> [] /\ Forall (ring_in t) out.
Proof.
  intros G [FE HE] M Hz HR HM. pose proof (edges64 m t G M ltac:(lia)) as HB. cbv zeta in HB. destruct HB as ((Fw & Fe & Fs & Fn) & Ew & Ee & Es & En). destruct (tile_height t M ltac:(lia)) as [H1 H2]. apply ab in Es, En.
  unfold ClipTile64, ClipTileB. set (b := Bounds64 m t) in *.
  destruct (clip_any F64Num eps rings (e6W b) (e6E b) false) as (mid & E1 & N1); [intros r Hr; apply (HR r Hr)|]. destruct (clip_any F64Num eps mid (e6S b) (e6N b) true N1) as (out & E2 & N2).
  rewrite E1. cbn [bind]. rewrite E2. cbn [bind]. destruct out as [|f o] eqn:EO; [left; reflexivity|right; rewrite <- EO in *]. assert (NE : out <> []) by (rewrite EO; discriminate). exists out. split; [apply makefeature_ok; assumption|]. split; [exact NE|].
  assert (B8 : bpow radix2 (8 - 49) = / 2199023255552) by (apply (bpm 41 2199023255552); [lia|reflexivity]). assert (B9 : bpow radix2 8 = 256) by reflexivity.
  pose proof (poly_range 8 rings eps (e6W b) (e6E b) false (-255) 255 (-85) 85 mid ltac:(lia) FE ltac:(lra) Fw Fe ltac:(lra)) as P1.
  assert (HR1 : forall r, In r rings -> r <> [] /\ Forall (fun p => upto 8 p /\ range false (-255) 255 p /\ range (negb false) (-85) 85 p) r).
  { intros r Hr. destruct (HR r Hr) as [A B]. split; [exact A|]. rewrite Forall_forall in *. specialize (HM r Hr). rewrite Forall_forall in HM. intros p Hp. specialize (B p Hp). specialize (HM p Hp). destruct B as (B0 & B1 & B2). unfold midlat in HM. split; [split; [exact B0|]; rewrite B9; lra|]. apply ab in B1, HM. unfold range, val. cbn [coord negb fst snd]. lra. }
  specialize (P1 HR1 E1). rewrite B8 in P1.
  assert (HR2 : forall r, In r mid -> r <> [] /\ Forall (fun p => upto 8 p /\ range true (-85 - / 2199023255552) (85 + / 2199023255552) p /\ range (negb true) (eW (Bounds t)) (eE (Bounds t)) p) r).
  { intros r Hr. split; [apply N1; exact Hr|]. rewrite Forall_forall. intros p Hp. destruct (P1 r p Hr Hp) as (A & B & C & D). unfold range, val in *. cbn [coord negb fst snd] in *. split; [split; [exact A|]; rewrite B9; split; apply ab; lra|]. lra. }
  pose proof (poly_range 8 mid eps (e6S b) (e6N b) true _ _ _ _ out ltac:(lia) FE ltac:(lra) Fs Fn ltac:(lra) HR2 E2) as P2. rewrite B8 in P2.
  apply Forall_forall. intros r Hr. split; [apply N2; exact Hr|]. apply Forall_forall. intros p Hp. destruct (P2 r p Hr Hp) as (A & B & C & D). unfold range, val, inside, tiny in *. cbn [coord negb fst snd] in *. split; [exact A|]. split; [apply ab|]; lra.
Qed.

(** A closed ring inside the band is left as it is. *)
Section Kept.
Context (axis : bool) (k1 k2 : f64) (F1 : is_finite k1 = true) (F2 : is_finite k2 = true).
Definition amid (p : f64 * f64) : Prop := fin p /\ B2R k1 < B2R (coord axis p) < B2R k2.
Lemma emit_amid p q : amid p -> amid q -> emit F64Num axis k1 k2 p q = ([p], false).
Proof.
  intros [[A1 A2] A3] [[B1 B2] B3]. assert (Fp : is_f (coord axis p) (B2R (coord axis p))) by (split; [destruct axis; assumption|reflexivity]). assert (Fq : is_f (coord axis q) (B2R (coord axis q))) by (split; [destruct axis; assumption|reflexivity]). assert (G1 : is_f k1 (B2R k1)) by (split; auto). assert (G2 : is_f k2 (B2R k2)) by (split; auto).
  unfold emit. cbn [F64Num nleb nltb]. fold F64Num. rewrite (Bleb_f _ _ _ _ Fp G1), (Bleb_f _ _ _ _ G2 Fp), (Bltb_f _ _ _ _ Fq G1), (Bltb_f _ _ _ _ G2 Fq). rewrite (proj2 (Rleb_false _ _)) by lra. rewrite (proj2 (Rleb_false _ _)) by lra. rewrite (proj2 (Rltb_false _ _)) by lra. rewrite (proj2 (Rltb_false _ _)) by lra. reflexivity.
Qed.
Lemma loop_amid r : forall p done cur, Forall amid (p :: r) -> clip_loop F64Num axis true k1 k2 p r done cur = (done, cur ++ removelast (p :: r), last r p).
Proof.
  induction r as [|q r IH]; intros p done cur H; [cbn [clip_loop removelast last]; rewrite app_nil_r; reflexivity|]. cbn [clip_loop]. pose proof (Forall_inv H) as H1. pose proof (Forall_inv_tail H) as H2. rewrite (emit_amid p q H1 (Forall_inv H2)). cbn [negb andb]. rewrite (IH q done _ H2). rewrite <- app_assoc. f_equal. clear. revert q. destruct r as [|x r]; [reflexivity|]. intros q. cbn [last]. revert x. induction r as [|y r IH]; [reflexivity|]. intros x. apply IH.
Qed.
Lemma neq_self (f : f64 * f64) : fin f -> pt_neqb F64Num f f = false.
Proof.
  intros [A B]. unfold pt_neqb. cbn [F64Num neqb]. assert (E : forall x : f64, is_finite x = true -> Beqb x x = true) by (intros x Hx; rewrite (Beqb_f x x (B2R x) (B2R x)); [|split; auto..]; destruct (Reqb_spec (B2R x) (B2R x)); [reflexivity|lra]). rewrite !E by assumption. reflexivity.
Qed.
Lemma line_amid f k : Forall amid (f :: k ++ [f]) -> clipLine F64Num (f :: k ++ [f]) k1 k2 axis true = Ok [f :: k ++ [f]].
Proof.
  intros H. cbn [clipLine]. rewrite (loop_amid _ f [] [] H). rewrite last_last. cbn [app]. pose proof (Forall_inv H) as [A A3]. destruct A as [A1 A2].
  assert (Fp : is_f (coord axis f) (B2R (coord axis f))) by (split; [destruct axis; assumption|reflexivity]). assert (G1 : is_f k1 (B2R k1)) by (split; auto). assert (G2 : is_f k2 (B2R k2)) by (split; auto).
  cbn [F64Num nleb]. fold F64Num. rewrite (Bleb_f _ _ _ _ G1 Fp), (Bleb_f _ _ _ _ Fp G2). rewrite (proj2 (Rleb_true _ _)) by lra. rewrite (proj2 (Rleb_true _ _)) by lra. cbn [andb].
  assert (ER : removelast (f :: k ++ [f]) = f :: k) by (change (f :: k ++ [f]) with ((f :: k) ++ [f]); apply removelast_last). assert (EL : last (f :: k ++ [f]) f = f) by (change (f :: k ++ [f]) with ((f :: k) ++ [f]); apply last_last).
  rewrite ER. cbn [app]. unfold close_slice. rewrite EL, (neq_self f (conj A1 A2)), andb_false_r. reflexivity.
Qed.
End Kept.

Lemma clip_amid eps rings k1 k2 axis : is_finite eps = true -> 0 <= B2R eps -> is_finite k1 = true -> is_finite k2 = true -> (forall r, In r rings -> shut r /\ Forall (upto 8) r /\ Forall (amid axis k1 k2) r) ->
  clip F64Num eps (CPolygon rings) k1 k2 axis = Ok (CPolygon rings).
Proof.
  intros FE HE F1 F2 HR. unfold clip. cut (LintPolygon F64Num eps rings = Ok rings /\ clipLines F64Num rings k1 k2 axis true = Ok rings). { intros [-> E]. cbn [bind]. rewrite E. reflexivity. }
  induction rings as [|r rs IH]; [split; reflexivity|]. destruct IH as [I1 I2]; [intros; apply HR; right; assumption|]. destruct (HR r (or_introl eq_refl)) as ((f & k & ->) & HU & HA). split.
  - unfold LintPolygon in *. cbn [map_res]. assert (L : LintRing F64Num eps (f :: k ++ [f]) = Ok (f :: k ++ [f])).
    { unfold LintRing. assert (EL : last (f :: k ++ [f]) f = f) by (change (f :: k ++ [f]) with ((f :: k) ++ [f]); apply last_last). rewrite EL. rewrite (proj1 (delta64 8 eps f f ltac:(lia) FE HE (Forall_inv HU) (Forall_inv HU)) eq_refl). change (f :: k ++ [f]) with ((f :: k) ++ [f]). rewrite removelast_last. reflexivity. }
    rewrite L. cbn [bind]. rewrite I1. reflexivity.
  - cbn [clipLines]. rewrite (line_amid axis k1 k2 F1 F2 f k HA). cbn [bind]. rewrite I2. reflexivity.
Qed.

(** ** Theorems *)
(** A polygon with closed rings inside the tile is left as it is. *)
Theorem C149_kept : forall m eps t rings, good_libm m -> tol_ok eps -> on_map t -> (tZ t <= 44)%Z -> rings <> [] -> (forall r, In r rings -> shut r /\ Forall (fun p => fin p /\ inside tiny t (val p)) r) ->
  ClipTile64 m eps t (CPolygon rings) = Ok (CPolygon rings).
Proof.
  intros m eps t rings G [FE HE] M Hz NE HR. pose proof (edges64 m t G M ltac:(lia)) as HB. cbv zeta in HB. destruct HB as ((Fw & Fe & Fs & Fn) & Ew & Ee & Es & En). apply ab in Es, En. destruct (bounds_small t M) as (S1 & S2 & S3 & S4 & _).
  assert (B9 : bpow radix2 8 = 256) by reflexivity. unfold ClipTile64, ClipTileB. set (b := Bounds64 m t) in *.
  assert (X : forall r, In r rings -> shut r /\ Forall (upto 8) r /\ Forall (amid false (e6W b) (e6E b)) r /\ Forall (amid true (e6S b) (e6N b)) r).
  { intros r Hr. destruct (HR r Hr) as [A B]. split; [exact A|]. split; [|split]; (eapply Forall_impl; [|exact B]; intros p (P1 & P2 & P3); unfold val, tiny in P2, P3; cbn [fst snd] in P2, P3).
    - split; [exact P1|]. rewrite B9. split; apply ab; lra.
    - split; [exact P1|]. cbn [coord]. lra.
    - split; [exact P1|]. cbn [coord]. lra. }
  rewrite clip_amid; [|assumption|lra|assumption|assumption|intros r Hr; destruct (X r Hr) as (X1 & X2 & X3 & X4); auto]. cbn [bind]. rewrite clip_amid; [|assumption|lra|assumption|assumption|intros r Hr; destruct (X r Hr) as (X1 & X2 & X3 & X4); auto]. cbn [bind].
  apply makefeature_ok; [exact NE|]. intros r Hr. destruct (X r Hr) as ((f & k & ->) & _). discriminate.
Qed.
Print Assumptions C149_kept.
(** A polygon between 85 degrees south and north, clipped to a tile: nothing is left, or what is left has its vertices in the tile;
    written to a layer and read again, it contains the points of the tile the polygon contained, except next to the outline and the edges. *)
Theorem C149_polygon : forall m mExp eps t e eb name ver pt id rings, good_proj m mExp -> tol_ok eps -> fine t e -> (2 <= e <= 23168)%Z -> (zlen name <= 2 ^ 32)%Z -> (- 2 ^ 63 <= ver < 2 ^ 63)%Z -> (- 2 ^ 63 <= id < 2 ^ 63)%Z ->
  coords_ok rings -> Forall (Forall midlat) rings ->
  (ClipTile64 m eps t (CPolygon rings) = Panic /\ forall p, inside margin t p -> clear_by margin (map (map val) rings) p -> even_odd (map (map val) rings) p = false) \/
  exists out, ClipTile64 m eps t (CPolygon rings) = Ok (CPolygon out) /\ ((Z.of_nat (words (XPolygon out)) <= 2 ^ 21)%Z ->
    exists bs, WriteLayer64 m [mkFeat (IDInt id) [] (Some (XPolygon out))] (mkCfg t name e ver eb pt) = Ok bs /\ forall fuel, (length bs + 4 < fuel)%nat ->
    exists gf rs', ReadTile64 m mExp fuel pt bs t = OValue [gf] /\ g6ID gf = id /\ g6Geom gf = XPolygon rs' /\ length rs' = length out /\
      forall p, inside (cut_off t e) t p -> clear_by (cut_off t e) (map (map val) rings) p -> even_odd (map (map val) rs') p = even_odd (map (map val) rings) p).
Proof.
  intros m mExp eps t e eb name ver pt id rings G HT F He HN HV HI HR HM. assert (GL := proj1 G). assert (M := proj1 F). assert (Hz : (tZ t <= 36)%Z).
  { destruct F as (_ & F1 & F2). apply Z.nlt_ge. intros K. assert (2 ^ 37 <= 2 ^ tZ t)%Z by (apply Z.pow_le_mono_r; lia). change (2 ^ 37)%Z with (2 * 2 ^ 36)%Z in H. nia. }
  destruct (cut_in m eps t rings GL HT M Hz HR HM) as [EP|(out & EO & NE & RI)]; [left|right].
  - split; [exact EP|]. intros p Hp HC. destruct (C134_clip_tile m eps t rings p GL HT M ltac:(lia) HR Hp HC) as [(out & E & _)|(_ & E)]; [congruence|exact E].
  - exists out. split; [exact EO|]. intros HW. destruct (C148_polygon m mExp t e eb name ver pt id out G F He HN HV HI (conj NE RI) HW) as (bs & EB & RB). exists bs. split; [exact EB|]. intros fuel Hf. destruct (RB fuel Hf) as (gf & rs' & R1 & R2 & R3 & R4 & R5). exists gf, rs'. split; [exact R1|]. split; [exact R2|]. split; [exact R3|]. split; [congruence|].
    intros p Hp HC. assert (U0 : 0 < unit_off t e). { unfold unit_off. pose proof (N_range t e F) as NR. assert (0 < 180 / IZR (e * 2 ^ tZ t)) by (apply Rdiv_lt_0_compat; lra). lra. }
    destruct (tile_cut eps t _ _ _ _ rings 255 (cut_off t e) HT (edges64 m t GL M ltac:(lia)) HR ltac:(lra) ltac:(unfold cut_off, margin; lra) (ex_intro _ p Hp)) as (mid & out' & E1 & E2 & N & P). destruct (P p Hp HC) as [P1 P2].
    unfold ClipTile64, ClipTileB in EO. rewrite E1 in EO. cbn [bind] in EO. rewrite E2 in EO. cbn [bind] in EO. destruct out' as [|f o] eqn:EE; [discriminate|]. rewrite <- EE in *. rewrite makefeature_ok in EO; [|rewrite EE; discriminate|intros r Hr; apply (N r Hr)]. injection EO as <-.
    rewrite R5; [exact P1|]. intros r q Hr Hq W. apply (P2 r q Hr Hq). eapply within_mono; [|exact W]. unfold cut_off, margin. lra.
Qed.
Print Assumptions C149_polygon.

(** ** An example: a triangle in the north western quarter of the map *)
Definition loop4 : list lnglat64 := [(fint (-100), fint 10); (fint (-50), fint 10); (fint (-50), fint 40); (fint (-100), fint 10)].
Example C149_nonvacuous : let t := mkTile 0 0 1 in good_proj exact_libm exact_exp /\ tol_ok power7_64 /\ fine t 4096 /\ coords_ok [loop4] /\ Forall (Forall midlat) [loop4] /\
  ClipTile64 exact_libm power7_64 t (CPolygon [loop4]) = Ok (CPolygon [loop4]) /\
  inside (cut_off t 4096) t (-55, 15) /\ clear_by (cut_off t 4096) (map (map val) [loop4]) (-55, 15) /\ even_odd (map (map val) [loop4]) (-55, 15) = true.
Proof.
  intros t. pose proof (proj1 C120_nonvacuous) as G. assert (M : on_map t) by (unfold on_map, t; cbn [tX tY tZ]; lia). assert (F : fine t 4096) by (split; [exact M|split; [lia|discriminate]]). pose proof PI_range as PR. pose proof gd_PI as GP.
  destruct (fint_f 10 ltac:(lia)) as [F10 V10]. destruct (fint_f 40 ltac:(lia)) as [F40 V40]. destruct (fint_f (-100) ltac:(lia)) as [Fa Va]. destruct (fint_f (-50) ltac:(lia)) as [Fb Vb].
  destruct (Bounds_exact t M) as (BW & BE & BN & BS). cbn [t tX tY tZ] in BW, BE, BN, BS. change (IZR (0 + 1)) with 1 in *. change (IZR (2 ^ 1)) with 2 in *.
  replace (PI * (1 - 2 * 0 / 2)) with PI in BN by field. replace (PI * (1 - 2 * (0 + 1) / 2)) with 0 in BS by field. assert (G0 : gd 0 = 0) by (unfold gd; rewrite sinh_0; apply atan_0). rewrite G0, Rmult_0_r in BS.
  assert (IN : forall x y, is_finite x = true -> is_finite y = true -> -170 <= B2R x <= -10 -> 5 <= B2R y <= 80 -> fin (x, y) /\ Rabs (B2R (snd (x, y))) <= 85 + / 1000 /\ inside (- tiny) t (val (x, y))).
  { intros x y X Y HX HY. split; [split; assumption|]. unfold inside, val, tiny. cbn [fst snd]. split; [apply ab; lra|]. fold t in BW, BE, BN, BS. rewrite BW, BE, BN, BS. lra. }
  assert (I1 := IN (fint (-100)) (fint 10) Fa F10 ltac:(lra) ltac:(lra)). assert (I2 := IN (fint (-50)) (fint 10) Fb F10 ltac:(lra) ltac:(lra)). assert (I3 := IN (fint (-50)) (fint 40) Fb F40 ltac:(lra) ltac:(lra)).
  assert (NV : map val loop4 = [(-100, 10); (-50, 10); (-50, 40); (-100, 10)]) by (unfold loop4, val; cbn [map fst snd]; rewrite V10, V40, Va, Vb; reflexivity).
  assert (FJ : Forall (fun p => fin p /\ inside tiny t (val p) /\ inb 255 p /\ midlat p) loop4).
  { assert (J : forall x y, is_finite x = true -> is_finite y = true -> -170 <= B2R x <= -10 -> 5 <= B2R y <= 80 -> fin (x, y) /\ inside tiny t (val (x, y)) /\ inb 255 (x, y) /\ midlat (x, y)).
    { intros x y X Y HX HY. split; [split; assumption|]. split; [|split; [split; [split; assumption|]; cbn [fst snd]; split; apply ab; lra|unfold midlat; cbn [snd]; apply ab; lra]]. unfold inside, val, tiny. cbn [fst snd]. fold t in BW, BE, BN, BS. rewrite BW, BE, BN, BS. lra. }
    unfold loop4. apply Forall_cons; [apply J; (assumption || lra)|]. apply Forall_cons; [apply J; (assumption || lra)|]. apply Forall_cons; [apply J; (assumption || lra)|]. apply Forall_cons; [apply J; (assumption || lra)|]. apply Forall_nil. }
  assert (EO : even_odd [map val loop4] (-55, 15) = true).
  { rewrite NV. unfold even_odd. cbn [fold_right ring_edges app edges parity]. unfold crosses. cbn [fst snd]. rewrite (proj2 (Rleb_true (-100) (-55))), (proj2 (Rleb_false (-50) (-55))) by lra. cbn [xorb andb]. rewrite (proj2 (Rltb_false _ _)) by lra. rewrite (proj2 (Rltb_true _ _)) by lra. reflexivity. }
  assert (CL : clear_by (cut_off t 4096) (map (map val) [loop4]) (-55, 15)).
  { intros r q [<-|[]] Hq [W1 W2]. rewrite NV in Hq. unfold cut_off, margin, unit_off, t in W1, W2. cbn [tZ] in W1, W2. change (IZR (4096 * 2 ^ 1)) with 8192 in W1, W2. cbn [fst snd] in W1, W2. apply ab in W1, W2. cbn [on_ring app on_line] in Hq.
    repeat (destruct Hq as [(k & Hk & E1 & E2)|Hq]; [cbn [fst snd] in *; lra|]). subst q. cbn [fst snd] in *. lra. }
  assert (PW : tol_ok power7_64) by apply power7_ok.
  split; [exact G|]. split; [exact PW|]. split; [exact F|]. split. { intros r [<-|[]]. split; [discriminate|]. eapply Forall_impl; [|exact FJ]. intros p H. apply H. }
  split. { apply Forall_cons; [|apply Forall_nil]. eapply Forall_impl; [|exact FJ]. intros p H. apply H. }
  split. { apply C149_kept; [exact (proj1 G)|exact PW|exact M|cbn [t tZ]; lia|discriminate|]. intros r [<-|[]]. split; [exists (fint (-100), fint 10), [(fint (-50), fint 10); (fint (-50), fint 40)]; reflexivity|]. eapply Forall_impl; [|exact FJ]. intros p H. split; apply H. }
  split; [|split; [exact CL|exact EO]]. unfold inside. fold t in BW, BE, BN, BS. rewrite BW, BE, BN, BS. unfold cut_off, margin, unit_off, t. cbn [tZ fst snd]. change (IZR (4096 * 2 ^ 1)) with 8192. lra.
Qed.
