(** Property C132: a geometry that was written, read to longitude/latitude and written again is the same on the wire, in
    binary64. *)
From Coq Require Import ZArith Reals List Lia Lra Bool.
From Coq Require SpecFloat.
From Flocq Require Import Core BinarySingleNaN.
From Verif Require Import GoBase Num Tileid_Model TileR_Model TileF64_Model TileF64_Proofs F64 ColorF64_Model ColorF64_Proofs Tile64_Model Tile64_Proofs Tile64_Props
  MvtProj_Model MvtProj64_Model MvtProj64_Proofs MvtProj64_Props MvtGeom_Model MvtGeom_Spec MvtGeom_Proofs MvtLayer_Model MvtLayer_Spec MvtTile_Proofs Decode64_Model Decode64_Props
  MvtAgain_Proofs MvtAgain64_Model.
From Verif Require ClipFeature_Proofs.
Import ListNotations.
Open Scope Z_scope.

(** ** The comparison of points *)
Lemma Beqb_cases (a b : f64) : Beqb a b = true -> a = b \/ exists s1 s2, a = B754_zero s1 /\ b = B754_zero s2.
Proof.
  destruct a as [s1|s1| |s1 m1 e1 H1], b as [s2|s2| |s2 m2 e2 H2]; intros E; try (right; exists s1, s2; split; reflexivity); left;
    try discriminate E; try (destruct s1, s2; try reflexivity; discriminate E).
  all: try (destruct s1; discriminate E); try (destruct s2; discriminate E).
  unfold Beqb, SpecFloat.SFeqb, SpecFloat.SFcompare in E. cbn in E.
  assert (K : s1 = s2 /\ m1 = m2 /\ e1 = e2).
  { destruct s1, s2; try discriminate E; destruct (Z.compare_spec e1 e2); try discriminate E; subst; cbn in E.
    all: match type of E with context [Pos.compare_cont Eq ?a ?b] => change (Pos.compare_cont Eq a b) with (Pos.compare a b) in E; destruct (Pos.compare_spec a b); try discriminate E; auto end. }
  destruct K as (-> & -> & ->). f_equal. apply Eqdep_dec.UIP_dec, bool_dec.
Qed.

Lemma zero_round (d x : f64) s1 s2 : round32 (fmul (fdiv (B754_zero s1) d) x) = round32 (fmul (fdiv (B754_zero s2) d) x).
Proof. destruct d as [sd|sd| |sd md ed Hd], x as [sx|sx| |sx mx ex Hx], s1, s2; try destruct sd; try destruct sx; reflexivity. Qed.
Lemma zero_sub (w d x : f64) s1 s2 :
  round32 (fmul (fdiv (fsub (B754_zero s1) w) d) x) = round32 (fmul (fdiv (fsub (B754_zero s2) w) d) x).
Proof.
  destruct w as [sw|sw| |sw mw ew Hw].
  - assert (Z0 : forall s, exists s', fsub (B754_zero s) (B754_zero sw) = B754_zero s') by (intros s; destruct s, sw; eexists; reflexivity).
    destruct (Z0 s1) as [t1 ->]. destruct (Z0 s2) as [t2 ->]. apply zero_round.
  - destruct s1, s2; reflexivity.
  - destruct s1, s2; reflexivity.
  - destruct s1, s2; reflexivity.
Qed.
Lemma fst_same m c (a b y : f64) : Beqb a b = true ->
  fst (SinglePoint64 m c (a, y)) = fst (SinglePoint64 m c (b, y)).
Proof.
  intros E. destruct (Beqb_cases a b E) as [->|(s1 & s2 & -> & ->)]; [reflexivity|]. unfold SinglePoint64, ConvertPoint64. cbn [fst snd].
  assert (P0 : forall s, fmul pole180 (B754_zero s) = B754_zero s) by (intros []; reflexivity). rewrite !P0.
  rewrite (zero_sub _ _ _ s1 s2). destruct (k6ExtentBool c); reflexivity.
Qed.
Lemma snd_same m c (x a b : f64) : Beqb a b = true -> SinglePoint64 m c (x, a) = SinglePoint64 m c (x, b).
Proof.
  intros E. destruct (Beqb_cases a b E) as [->|(s1 & s2 & -> & ->)]; [reflexivity|]. unfold SinglePoint64, ConvertPoint64, Merc64. cbn [fst snd].
  assert (P0 : forall s, fadd (fint 90) (B754_zero s) = fint 90) by (intros []; reflexivity). rewrite !P0. reflexivity.
Qed.
Lemma snd_indep m c (x x' y : f64) : snd (SinglePoint64 m c (x, y)) = snd (SinglePoint64 m c (x', y)).
Proof. unfold SinglePoint64. cbn [fst snd ConvertPoint64]. destruct (k6ExtentBool c); reflexivity. Qed.
Lemma same_grid m c a b : peq64 a b = true -> SinglePoint64 m c a = SinglePoint64 m c b.
Proof.
  destruct a as [a1 a2], b as [b1 b2]. unfold peq64. cbn [fst snd]. intros E. apply andb_true_iff in E as [E1 E2].
  rewrite (snd_same m c b1 b2 a2 E2). pose proof (fst_same m c a1 b1 a2 E1) as F. pose proof (snd_indep m c a1 b1 a2) as S.
  destruct (SinglePoint64 m c (a1, a2)), (SinglePoint64 m c (b1, a2)); cbn [fst snd] in *; congruence.
Qed.

(** ** Geometries that are written and read *)
(** Grid points of C120: near the tile, on the map, and in the tile if the layer clamps *)
Definition near_tile (t : TileID) (e : Z) (eb : bool) (p : Z * Z) : Prop :=
  (- e <= fst p <= 2 * e) /\ (- e <= snd p <= 2 * e) /\ (0 <= e * tY t + snd p <= e * 2 ^ tZ t) /\ (eb = true -> 0 <= fst p <= e /\ 0 <= snd p <= e).
Definition small (p : Z * Z) : Prop := - 2 ^ 30 <= fst p < 2 ^ 30 /\ - 2 ^ 30 <= snd p < 2 ^ 30.
Section Rewritable.
Context {P : Type} (q : P -> Z * Z) (near : Z * Z -> Prop).
Definition line_re (l : list P) : Prop := l <> [] /\ Z.of_nat (length l) < 2 ^ 29 /\ Forall (fun p => small (q p) /\ near (q p)) l.
Definition rings_re (rs : list (list P)) : Prop :=
  rs <> [] /\ Forall (fun r => r <> [] /\ bounded 23170 (map q r) /\ short r /\ Forall (fun p => near (q p)) r) rs /\
  match rs with [] => 0 | o :: _ => surveyor (map q o) end <> 0.
(** One point that is not the corner of the tile; lines; rings with an outer ring that has an area *)
Definition rewritable (g : geometry P) : Prop :=
  match g with
  | XPoint p | XMultiPoint [p] => small (q p) /\ near (q p) /\ q p <> (0, 0)
  | XLineString l => line_re l
  | XMultiLineString ls => ls <> [] /\ Forall line_re ls
  | XPolygon rs => rings_re rs
  | XMultiPolygon ps => ps <> [] /\ Forall rings_re ps
  | _ => False
  end.
End Rewritable.

Lemma wind_within o l C : Forall (within C) l -> Forall (within C) (wind o (merge_runs l)).
Proof.
  intros H. rewrite Forall_forall in *. intros p Hp. apply H. apply merge_in. unfold wind in Hp. destruct (Bool.eqb _ _); [exact Hp|]. apply in_rev. exact Hp.
Qed.
Lemma seen_within {P} (q : P -> Z * Z) same near rs : rings_re q near rs -> Forall (Forall (within (2 ^ 15))) (seen_polygon q same rs).
Proof.
  intros (_ & F & _). assert (K : forall o r, bounded 23170 (map q r) -> Forall (within (2 ^ 15)) (wind o (merge_runs (map q (close_ring same r))))).
  { intros o r B. apply wind_within. assert (B' : Forall (within (2 ^ 15)) (map q r)) by (eapply Forall_impl; [|exact B]; intros p Hp; cbn beta in Hp; change (2 ^ 15) with 32768; destruct Hp; split; lia).
    unfold close_ring. destruct r as [|f r]; [constructor|]. destruct (same _ _); [exact B'|]. rewrite map_app. apply Forall_app. split; [exact B'|]. inversion B'; subst. constructor; auto. }
  unfold seen_polygon. destruct rs as [|o hs]; [constructor|]. inversion F as [|? ? (_ & O & _) Fh]; subst. cbn [map]. constructor; [apply K, O|].
  rewrite !Forall_map. eapply Forall_impl; [|exact Fh]. intros r (_ & Br & _). apply K, Br.
Qed.

Section Lib.
Variables (m : libm) (mExp : f64 -> f64) (t : TileID) (e : Z) (eb : bool).
Hypothesis G : good_proj m mExp.
Hypothesis M : on_map t.
Hypothesis He : (1 <= e < 2 ^ 31).
Hypothesis HN : (e * 2 ^ tZ t <= 2 ^ 36).
Let q := SinglePoint64 m (NewCursorExtent64 m t e eb).
Let u (p : Z * Z) := unproject64 m mExp t e (lp p).
Definition near_ := fun p => near_tile t e eb p /\ in_i32 (fst p) /\ in_i32 (snd p).

Lemma u_finite p : near_tile t e eb p -> peq64 (u p) (u p) = true.
Proof.
  intros (Hx & Hy & Hr & _). destruct M as (Z0 & HX & HY). unfold peq64, u, unproject64, lp. cbn [fst snd].
  assert (ZX : 0 <= e * tX t /\ e * tX t + e <= e * 2 ^ tZ t) by nia.
  destruct (ProjLon_near _ _ _ _ _ (off_f t e M He HN (fst p) (tX t) HX Hx) (size_f t e M He HN) ltac:(nia) ltac:(lia)) as (r & FR & _).
  destruct (ProjLat_near m mExp G _ _ _ _ _ (off_f t e M He HN (snd p) (tY t) HY Hy) (size_f t e M He HN) ltac:(nia) ltac:(lia)) as (r' & FR' & _).
  rewrite (Beqb_f _ _ _ _ FR FR), (Beqb_f _ _ _ _ FR' FR'). destruct (Reqb_spec r r), (Reqb_spec r' r'); auto; congruence.
Qed.
Lemma q_u p : near_tile t e eb p /\ small p -> q (u p) = p.
Proof.
  intros ((Hx & Hy & Hr & HE) & S1 & S2). destruct p as [x y]. cbn [fst snd] in *. apply (C120_regrid m mExp t e eb x y G M He HN Hx Hy); auto; unfold in_i32; lia.
Qed.
End Lib.

(** What is read of a written geometry, and what is written of that *)
Lemma seen_read m mExp t e eb g : good_proj m mExp -> on_map t -> 1 <= e < 2 ^ 31 -> e * 2 ^ tZ t <= 2 ^ 36 ->
  let q := SinglePoint64 m (NewCursorExtent64 m t e eb) in let u := fun p => unproject64 m mExp t e (lp p) in
  rewritable q (near_tile t e eb) g -> exists cmds,
  geom_cmds q peq64 g = Ok (Some cmds) /\
  geo64_of m mExp t e (lift (seen_geom q peq64 g)) = back u (seen_geom q peq64 g) /\
  (zlen cmds <= 2 ^ 21 -> LoadGeometry64 (wire_type g) cmds = Ok (lift (seen_geom q peq64 g))) /\
  geom_cmds q peq64 (back u (seen_geom q peq64 g)) = Ok (Some cmds) /\ wire_type (back u (seen_geom q peq64 g)) = wire_type g.
Proof.
  intros G M He HN q u H.
  assert (A : again q (fun p => near_tile t e eb p /\ small p) g).
  { assert (KP : forall p, small (q p) /\ near_tile t e eb (q p) /\ q p <> (0, 0) -> fits (q p) /\ (near_tile t e eb (q p) /\ small (q p)) /\ q p <> (0, 0)) by (intros p; unfold small, fits; tauto).
    assert (KL : forall l, line_re q (near_tile t e eb) l -> again_line q (fun p => near_tile t e eb p /\ small p) l).
    { intros l (X & Y & Z). split; [exact X|]. split; [exact Y|]. eapply Forall_impl; [|exact Z]. intros p. unfold small, fits. tauto. }
    assert (KR : forall rs, rings_re q (near_tile t e eb) rs -> again_rings q (fun p => near_tile t e eb p /\ small p) rs).
    { intros rs (X & Y & Z). split; [exact X|]. split; [|exact Z]. eapply Forall_impl; [|exact Y]. intros r (R1 & R2 & R3 & R4). repeat split; auto.
      rewrite Forall_forall in R4 |- *. intros p Hp. split; [apply R4, Hp|]. unfold bounded in R2. rewrite Forall_map, Forall_forall in R2. specialize (R2 p Hp). unfold small. lia. }
    destruct g as [p|l|rs|ps|ls|mps|]; cbn [rewritable again] in *; auto.
    - destruct ps as [|p [|]]; auto.
    - destruct H as [H1 H2]. split; [exact H1|]. eapply Forall_impl; [|exact H2]. exact KL.
    - destruct H as [H1 H2]. split; [exact H1|]. eapply Forall_impl; [|exact H2]. exact KR. }
  destruct (written_again q u peq64 (fun p => near_tile t e eb p /\ small p)) with (g := g) as (cmds & E1 & E2 & E3 & E4); auto.
  { intros a b. apply same_grid. }
  { intros p (Hp & _). apply (u_finite m mExp t e eb G M He HN p Hp). }
  { intros p Hp. apply (q_u m mExp t e eb G M He HN p Hp). }
  exists cmds. split; [exact E1|].
  assert (EB : geo64_of m mExp t e (lift (seen_geom q peq64 g)) = back u (seen_geom q peq64 g)).
  { destruct (seen_geom q peq64 g); cbn [lift geo64_of back]; f_equal; rewrite ?map_map; try reflexivity; apply map_ext; intros; rewrite ?map_map; try reflexivity; apply map_ext; intros; rewrite ?map_map; reflexivity. }
  split; [exact EB|]. split; [|split; [exact E3|exact E4]]. intros HL.
  rewrite C123_tile; [rewrite E2; reflexivity| |exact HL|].
  - apply geom_u32 in E1. exact E1.
  - intros d E W. rewrite E2 in E. injection E as <-.
    destruct g as [p|l|rs|ps|ls|mps|]; cbn [rewritable wire_type seen_geom rings_of] in *; try discriminate W.
    + apply (seen_within _ _ _ _ H).
    + destruct H as [_ H]. assert (K : Forall (Forall (within (2 ^ 15))) (concat (map (seen_polygon q peq64) mps))).
      { apply (proj2 (ClipFeature_Proofs.Forall_concat _ _)). apply Forall_map. eapply Forall_impl; [|exact H]. intros rs. apply seen_within. }
      destruct (map (seen_polygon q peq64) mps) as [|x [|y z]]; cbn [rings_of concat] in *; [constructor|rewrite app_nil_r in K; exact K|exact K].
Qed.

(** ** C132 *)
Theorem C132_rewrite : forall m mExp t e eb g, good_proj m mExp -> on_map t -> 1 <= e < 2 ^ 31 -> e * 2 ^ tZ t <= 2 ^ 36 ->
  let q := SinglePoint64 m (NewCursorExtent64 m t e eb) in
  rewritable q (near_tile t e eb) g -> exists cmds,
  geom_cmds q peq64 g = Ok (Some cmds) /\
  (zlen cmds <= 2 ^ 21 -> exists gd,
    LoadGeometry64 (wire_type g) cmds = Ok gd /\
    geom_cmds q peq64 (geo64_of m mExp t e gd) = Ok (Some cmds) /\ wire_type (geo64_of m mExp t e gd) = wire_type g).
Proof.
  intros m mExp t e eb g G M He HN q H. destruct (seen_read m mExp t e eb g G M He HN H) as (cmds & E1 & EB & E2 & E3 & E4). fold q in E1, EB, E2, E3, E4.
  exists cmds. split; [exact E1|]. intros HL. exists (lift (seen_geom q peq64 g)). rewrite EB. auto.
Qed.
Print Assumptions C132_rewrite.

(** A ring without an area turns round each time it is written, so writing it again gives other commands. *)
Theorem C132_flat_ring_refuted : forall m mExp t e eb, good_proj m mExp -> on_map t -> 3 <= e < 2 ^ 31 -> e * 2 ^ tZ t <= 2 ^ 36 ->
  let q := SinglePoint64 m (NewCursorExtent64 m t e eb) in
  exists r c1 c2 gd,
  map q r = [(1, 1); (2, 2); (3, 3); (1, 1)] /\
  geom_cmds q peq64 (XPolygon [r]) = Ok (Some c1) /\ LoadGeometry64 3 c1 = Ok gd /\
  geom_cmds q peq64 (geo64_of m mExp t e gd) = Ok (Some c2) /\ c1 <> c2.
Proof.
  intros m mExp t e eb G M He HN q. set (u := fun p => unproject64 m mExp t e (lp p)). pose proof M as (Z0 & HX & HY).
  assert (D : forall k, In k [1; 2; 3] -> near_tile t e eb (k, k) /\ small (k, k)).
  { intros k Hk. cbn [In] in Hk. assert (1 <= k <= 3) by lia. unfold near_tile, small. cbn [fst snd].
    assert (e * tY t + e <= e * 2 ^ tZ t) by nia. assert (0 <= e * tY t) by nia. lia. }
  assert (QU : forall k, In k [1; 2; 3] -> q (u (k, k)) = (k, k)) by (intros k Hk; apply (q_u m mExp t e eb G M ltac:(lia) HN), D, Hk).
  assert (Q1 : q (u (1, 1)) = (1, 1)) by (apply QU; cbn; tauto). assert (Q2 : q (u (2, 2)) = (2, 2)) by (apply QU; cbn; tauto). assert (Q3 : q (u (3, 3)) = (3, 3)) by (apply QU; cbn; tauto).
  assert (S1 : peq64 (u (1, 1)) (u (1, 1)) = true) by (apply (u_finite m mExp t e eb G M ltac:(lia) HN), D; cbn; tauto).
  assert (K : forall a b, q (u a) = a -> q (u b) = b -> geom_cmds q peq64 (XPolygon [[u (1, 1); u a; u b; u (1, 1)]]) =
    geom_cmds (fun p => p) (fun _ _ => true) (XPolygon [[(1, 1); a; b; (1, 1)]])).
  { intros a b Ha Hb. unfold geom_cmds, MakePolygonFloat. cbn [map_res TrimRing last bind]. rewrite S1. cbn [bind fold_res]. unfold AssertConvert. cbn [map]. rewrite Q1, Ha, Hb. reflexivity. }
  exists (map u [(1, 1); (2, 2); (3, 3); (1, 1)]), [9; 2; 2; 26; 4; 4; 1; 1; 1; 1; 15], [9; 2; 2; 26; 2; 2; 2; 2; 3; 3; 15], (lift (GPolygon [[(1, 1); (3, 3); (2, 2); (1, 1)]])).
  split; [cbn [map]; rewrite Q1, Q2, Q3; reflexivity|]. split; [cbn [map]; rewrite (K _ _ Q2 Q3); vm_compute; reflexivity|]. split.
  - rewrite C123_tile.
    + vm_compute (LoadGeometryCmds _ _). reflexivity.
    + unfold word. repeat (apply Forall_cons; [lia|]). apply Forall_nil.
    + vm_compute. discriminate.
    + intros d E _. vm_compute in E. injection E as <-. cbn [rings_of]. repeat first [apply Forall_cons|apply Forall_nil]; vm_compute; split; discriminate.
  - split; [|discriminate]. change (geo64_of m mExp t e (lift (GPolygon [[(1, 1); (3, 3); (2, 2); (1, 1)]]))) with (XPolygon [[u (1, 1); u (3, 3); u (2, 2); u (1, 1)]]).
    rewrite (K _ _ Q3 Q2). vm_compute. reflexivity.
Qed.
Print Assumptions C132_flat_ring_refuted.

Example C132_nonvacuous : exists m mExp r h,
  let t := mkTile 3 5 3 in let q := SinglePoint64 m (NewCursorExtent64 m t 4096 false) in
  good_proj m mExp /\ on_map t /\ rewritable q (near_tile t 4096 false) (XPolygon [r; h]) /\ surveyor (map q r) = 20000 /\ map q h = [(10, 10); (20, 30); (30, 10); (10, 10)].
Proof.
  pose proof (proj1 C120_nonvacuous) as G. set (t := mkTile 3 5 3). set (u := fun p => unproject64 exact_libm exact_exp t 4096 (lp p)).
  assert (M : on_map t) by (unfold on_map, t; cbn; lia).
  assert (QU : forall l, Forall (fun p => near_tile t 4096 false p /\ small p) l -> map (SinglePoint64 exact_libm (NewCursorExtent64 exact_libm t 4096 false)) (map u l) = l).
  { induction 1 as [|p l Hp _ IH]; [reflexivity|]. cbn [map]. rewrite IH. f_equal. apply (q_u exact_libm exact_exp t 4096 false G M); [split; reflexivity || discriminate|discriminate|exact Hp]. }
  exists exact_libm, exact_exp, (map u [(-5, 0); (95, 0); (95, 100); (-5, 100)]), (map u [(10, 10); (20, 30); (30, 10); (10, 10)]). cbv zeta. fold t.
  assert (F : forall l, forallb (fun p => (-5 <=? fst p) && (fst p <=? 100) && (0 <=? snd p) && (snd p <=? 100)) l = true -> Forall (fun p => near_tile t 4096 false p /\ small p) l).
  { intros l H. apply Forall_forall. intros p Hp. rewrite forallb_forall in H. specialize (H p Hp). unfold near_tile, small. change (tY t) with 5. change (2 ^ tZ t) with 8. lia. }
  assert (FN : forall l, Forall (fun p => near_tile t 4096 false p /\ small p) l -> Forall (fun p => near_tile t 4096 false (SinglePoint64 exact_libm (NewCursorExtent64 exact_libm t 4096 false) p)) (map u l)).
  { intros l H. rewrite <- (Forall_map _ (near_tile t 4096 false)), (QU l H). eapply Forall_impl; [|exact H]. intros p [Hp _]. exact Hp. }
  split; [exact G|]. split; [exact M|]. rewrite !QU by (apply F; reflexivity). split; [|split; reflexivity].
  cbn [rewritable]. split; [discriminate|]. split; [|rewrite QU by (apply F; reflexivity); discriminate].
  apply Forall_cons; [|apply Forall_cons; [|apply Forall_nil]].
  all: split; [discriminate|]; rewrite QU by (apply F; reflexivity); split; [|split; [reflexivity|apply FN, F; reflexivity]].
  all: unfold bounded; repeat (apply Forall_cons; [cbn [fst snd]; lia|]); apply Forall_nil.
Qed.
