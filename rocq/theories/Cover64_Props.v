(** The cover of whole geometries in binary64 (C142). *)
From Coq Require Import ZArith Reals List Lia Lra Bool.
From Flocq Require Import Core BinarySingleNaN.
From Verif Require Import GoBase Num Tileid_Model TileR_Model TileR_Proofs Clip_Spec Clip_Model Cover_Spec Cover_Model Cover_Proofs TileF64_Model TileF64_Proofs F64 ColorF64_Model ColorF64_Proofs ColorF64_Props Tile64_Model Tile64_Proofs Tile64_Props Pip64_Model Pip64_Props Line64_Model Line64_Props Poly64_Model Poly64_Proofs Poly64_Props Cover64_Model.
From Verif Require Cover_Props.
Import ListNotations.
Open Scope R_scope.

(** Each part alone, as a LineString or as the only part of a MultiPolygon *)
Definition parts (g : geom64) : list geom64 :=
  match g with G6MultiLineString ls => map G6LineString ls | G6MultiPolygon ps => map (fun p => G6MultiPolygon [p]) ps | g => [g] end.

Lemma poly_nodup m p z ts : GetTilesPolygon64 m p z = Ok ts -> NoDup ts.
Proof.
  unfold GetTilesPolygon64. destruct p as [|outer rest]; [discriminate|]. intros E. apply Cover_Props.filter_res_spec in E. destruct E as [_ E]. apply E. apply Cover_Props.pot_nodup; apply Cover_Props.ssorted_nodup, Cover_Props.C37_get_dif.
Qed.
Lemma line_nodup m bt l z ts : GetTilesLine64 m bt l z = Ok ts -> NoDup ts.
Proof.
  unfold GetTilesLine64. destruct l as [|p l]; [discriminate|]. intros E. destruct (Cover_Props.C40_line_cover _ _ (tile_at m z) tile_eqb (far64 m (p :: l) z) (fun a b => bt a b z) tile_eqb_eq p l) as (ts' & E' & N & _). rewrite E' in E. injection E as <-. exact N.
Qed.
Lemma multi_spec {A} (f : A -> res (list TileID)) (HN : forall a ts, f a = Ok ts -> NoDup ts) (HF : forall a, f a <> NoFuel) l :
  match cover_multi tile_eqb (map f l) with
  | Ok tiles => NoDup tiles /\ (forall t, In t tiles <-> exists a part, In a l /\ f a = Ok part /\ In t part) /\ forall a, In a l -> f a <> Panic
  | Panic => exists a, In a l /\ f a = Panic
  | NoFuel => False
  end.
Proof.
  assert (RP : forall l ts, match cover_rest tile_eqb (map f l) ts with Ok _ => forall a, In a l -> exists p, f a = Ok p | Panic => exists a, In a l /\ f a = Panic | NoFuel => False end).
  { clear l. induction l as [|a l IH]; intros ts; cbn [map cover_rest]; [intros a []|]. destruct (f a) as [p| |] eqn:E; cbn [bind].
    - specialize (IH (fold_left (add_tile tile_eqb) p ts)). destruct (cover_rest tile_eqb (map f l) _) as [r| |]; [|destruct IH as (b & Hb & Eb); exists b; split; [right; auto|auto]|auto]. intros b [<-|Hb]; eauto.
    - exists a. split; [left|]; auto.
    - exact (HF a E). }
  destruct l as [|a l]; cbn [map cover_multi]; [split; [constructor|split; [intros t; split; [intros []|intros (b & ? & [] & _)]|intros b []]]|].
  destruct (f a) as [p| |] eqn:E; cbn [bind]; [|exists a; split; [left|]; auto|exact (HF a E)]. specialize (RP l p). destruct (cover_rest tile_eqb (map f l) p) as [r| |] eqn:ER; [|destruct RP as (b & Hb & Eb); exists b; split; [right; auto|auto]|auto].
  destruct (cover_rest_spec tile_eqb tile_eqb_eq _ _ _ (HN _ _ E) ER) as [J1 J2]. split; [exact J1|]. split.
  - intros t. rewrite J2. split.
    + intros [Ht|(part & Hp & Ht)]; [exists a, p; split; [left; auto|auto]|]. apply in_map_iff in Hp. destruct Hp as (b & Eb & Hb). exists b, part. split; [right; auto|auto].
    + intros (b & part & [<-|Hb] & Eb & Ht); [left; congruence|]. right. exists part. split; auto. apply in_map_iff. exists b. auto.
  - intros b [<-|Hb] K; [congruence|]. destruct (RP b Hb) as (q & Eq). congruence.
Qed.
Lemma line_fuel m bt l z : GetTilesLine64 m bt l z <> NoFuel.
Proof. unfold GetTilesLine64, tiles_line. destruct l; discriminate. Qed.
Lemma or_fuel a b : a <> NoFuel -> b <> NoFuel -> or_res a b <> NoFuel.
Proof. unfold or_res. destruct a as [[|]| |]; cbn [bind]; intros; auto; discriminate. Qed.
Lemma pip_fuel rings q : Pip64 rings q <> NoFuel.
Proof. unfold Pip64. assert (K : pip_count64 rings q <> NoFuel). { induction rings as [|c r IH]; cbn [pip_count64]; [discriminate|]. destruct c as [|x c]; [discriminate|]. cbn [pip_ring64 bind]. destruct (pip_count64 r q); cbn [bind]; auto; discriminate. } destruct (pip_count64 rings q); cbn [bind]; auto; discriminate. Qed.
Lemma poly_fuel m p z : GetTilesPolygon64 m p z <> NoFuel.
Proof.
  unfold GetTilesPolygon64. destruct p as [|outer rest]; [discriminate|]. cbv zeta. generalize (BoundingBoxPoints64 outer). intros pb. match goal with |- filter_res _ ?l <> _ => generalize l end. intros l. induction l as [|t l IH]; cbn [filter_res]; [discriminate|].
  assert (K : TilePolygon64 m (outer :: rest) pb t <> NoFuel). { unfold TilePolygon64. cbv zeta. destruct (_ && _ && _ && _)%bool; [discriminate|]. repeat (apply or_fuel; [apply pip_fuel|]). discriminate. }
  destruct (TilePolygon64 m (outer :: rest) pb t) as [b| |]; cbn [bind]; [|discriminate|congruence]. destruct (filter_res _ l) as [r| |]; cbn [bind]; [destruct b; discriminate|discriminate|congruence].
Qed.

(** A geometry of several parts is covered by what covers its parts, without repetitions; it
    panics exactly when a part does. *)
Theorem C142_union : forall m between g zoom,
  match TileCover64 m between g zoom with
  | Ok tiles => NoDup tiles /\ forall t, In t tiles <-> exists p part, In p (parts g) /\ TileCover64 m between p zoom = Ok part /\ In t part
  | Panic => exists p, In p (parts g) /\ TileCover64 m between p zoom = Panic
  | NoFuel => False
  end.
Proof.
  intros m bt g z.
  assert (S1 : forall r, TileCover64 m bt g z = r -> parts g = [g] -> (forall ts, r = Ok ts -> NoDup ts) -> r <> NoFuel ->
    match r with Ok tiles => NoDup tiles /\ forall t, In t tiles <-> exists p part, In p (parts g) /\ TileCover64 m bt p z = Ok part /\ In t part | Panic => exists p, In p (parts g) /\ TileCover64 m bt p z = Panic | NoFuel => False end).
  { intros r E -> N F. destruct r as [ts| |]; [|exists g; split; [left|]; auto|congruence]. split; [apply N; reflexivity|]. intros t. split; [intros H; exists g, ts; split; [left; auto|auto]|]. intros (p & part & [<-|[]] & E2 & H). congruence. }
  destruct g as [p|l|p|ps l|ls|ps|]; try (apply (S1 _ eq_refl eq_refl); cbn [TileCover64]; [intros ts E|]).
  - injection E as <-. constructor; [intros []|constructor].
  - discriminate.
  - apply line_nodup in E. exact E.
  - apply line_fuel.
  - destruct p as [|o r]; [discriminate|]. destruct (3 <? length o)%nat; [apply poly_nodup in E; exact E|]. injection E as <-. constructor.
  - destruct p as [|o r]; [discriminate|]. destruct (3 <? length o)%nat; [apply poly_fuel|discriminate].
  - apply line_nodup in E. exact E.
  - apply line_fuel.
  - clear S1. cbn [TileCover64 parts]. pose proof (multi_spec (fun l => GetTilesLine64 m bt l z) (fun a ts => line_nodup m bt a z ts) (fun a => line_fuel m bt a z) ls) as K. destruct (cover_multi tile_eqb _) as [tiles| |]; [|destruct K as (a & Ha & Ea); exists (G6LineString a); split; [apply in_map; exact Ha|exact Ea]|exact K].
    destruct K as (K1 & K2 & _). split; [exact K1|]. intros t. rewrite K2. split.
    + intros (a & part & Ha & Ea & Ht). exists (G6LineString a), part. split; [apply in_map; exact Ha|auto].
    + intros (p & part & Hp & Ep & Ht). apply in_map_iff in Hp. destruct Hp as (a & <- & Ha). exists a, part. auto.
  - clear S1. assert (ONE : forall p, TileCover64 m bt (G6MultiPolygon [p]) z = GetTilesPolygon64 m p z). { intros p. cbn [TileCover64 map cover_multi cover_rest]. destruct (GetTilesPolygon64 m p z); reflexivity. }
    cbn [parts]. set (r := TileCover64 m bt (G6MultiPolygon ps) z). cbn [TileCover64] in r. pose proof (multi_spec (fun l => GetTilesPolygon64 m l z) (fun a ts => poly_nodup m a z ts) (fun a => poly_fuel m a z) ps) as K. fold r in K. destruct r as [tiles| |]; [|destruct K as (a & Ha & Ea); exists (G6MultiPolygon [a]); split; [apply in_map_iff; exists a; auto|rewrite ONE; exact Ea]|exact K].
    destruct K as (K1 & K2 & _). split; [exact K1|]. intros t. rewrite K2. split.
    + intros (a & part & Ha & Ea & Ht). exists (G6MultiPolygon [a]), part. split; [apply in_map_iff; exists a; auto|rewrite ONE; auto].
    + intros (p & part & Hp & Ep & Ht). apply in_map_iff in Hp. destruct Hp as (a & <- & Ha). rewrite ONE in Ep. exists a, part. auto.
  - injection E as <-. constructor.
  - discriminate.
Qed.
Print Assumptions C142_union.

(** Several lines on the map: the tiles of all vertices, and only tiles of vertices or of points
    near a segment. *)
Theorem C142_lines : forall m between ls zoom, good_libm m -> (0 <= zoom <= 28)%Z -> (forall a b t, In t (between a b zoom) <-> In t (BetweenTiles64 m a b zoom)) ->
  Forall (fun l => Forall in_world l /\ exists f rest, l = f :: rest /\ on_map (Tile64 m (fst f) (snd f) zoom)) ls ->
  exists tiles, TileCover64 m between (G6MultiLineString ls) zoom = Ok tiles /\ NoDup tiles /\
    (forall l p, In l ls -> In p l -> In (Tile64 m (fst p) (snd p) zoom) tiles) /\
    (forall t, In t tiles -> exists l, In l ls /\ ((exists p, In p l /\ t = Tile64 m (fst p) (snd p) zoom) \/
      exists u a b r p, l = u ++ a :: b :: r /\ near_line a b p /\ t = Tile64 m (fst p) (snd p) zoom)).
Proof.
  intros m bt ls z G Hz HB H. rewrite Forall_forall in H.
  assert (K : forall l, In l ls -> exists ts, GetTilesLine64 m bt l z = Ok ts /\ (forall p, In p l -> In (Tile64 m (fst p) (snd p) z) ts) /\ forall t, In t ts -> (exists p, In p l /\ t = Tile64 m (fst p) (snd p) z) \/ exists u a b r p, l = u ++ a :: b :: r /\ near_line a b p /\ t = Tile64 m (fst p) (snd p) z).
  { intros l Hl. destruct (H l Hl) as (W & f & rest & -> & M). destruct (C137_line m bt f rest z G Hz HB W M) as (ts & E & _ & V & N & _). exists ts. auto. }
  pose proof (C142_union m bt (G6MultiLineString ls) z) as U. destruct (TileCover64 m bt (G6MultiLineString ls) z) as [tiles| |].
  - destruct U as [ND U]. exists tiles. split; [reflexivity|]. split; [exact ND|]. cbn [parts] in U. split.
    + intros l p Hl Hp. destruct (K l Hl) as (ts & E & V & _). apply U. exists (G6LineString l), ts. split; [apply in_map; exact Hl|]. split; [exact E|]. apply V, Hp.
    + intros t Ht. apply U in Ht. destruct Ht as (q & part & Hq & Eq & Ht). apply in_map_iff in Hq. destruct Hq as (l & <- & Hl). cbn [TileCover64] in Eq. destruct (K l Hl) as (ts & E & _ & N). rewrite E in Eq. injection Eq as <-. exists l. split; [exact Hl|]. apply N, Ht.
  - exfalso. destruct U as (q & Hq & Eq). cbn [parts] in Hq. apply in_map_iff in Hq. destruct Hq as (l & <- & Hl). cbn [TileCover64] in Eq. destruct (K l Hl) as (ts & E & _). congruence.
  - destruct U.
Qed.
Print Assumptions C142_lines.

(** Several polygons on the map: a tile with a vertex well inside it, or with a corner inside one of
    the polygons and clear of its edges, is there if the box of that polygon reaches it. *)
Definition closed_on_map (p : list (list (f64 * f64))) : Prop :=
  exists f l inner, p = (f :: l ++ [f]) :: inner /\ Forall in_world (f :: l) /\ Forall (Forall (ok_pt 8)) p /\ forall r, In r inner -> r <> [].
Theorem C142_polygons : forall m between ps zoom, good_libm m -> zero_libm m -> (0 <= zoom <= 28)%Z -> Forall closed_on_map ps ->
  exists tiles, TileCover64 m between (G6MultiPolygon ps) zoom = Ok tiles /\ NoDup tiles /\
    (forall p t, In p ps -> on_map t -> tZ t = zoom -> reaches (hd [] p) t ->
      (exists r q, In r p /\ In q r /\ well_inside t q) \/ (exists c, Cover_Props.tile_corner t c /\ inside (map (map val) p) c /\ clear_corner (map (map val) p) c) -> In t tiles) /\
    (forall t, In t tiles -> tZ t = zoom /\ exists p, In p ps /\
      ((exists r q, In r p /\ In q r /\ Tile64 m (fst q) (snd q) zoom = t) \/
       (on_map t -> (forall q, In q (hd [] p) -> eW (Bounds t) < B2R (fst q) < eE (Bounds t) /\ eS (Bounds t) - / 10 ^ 11 < B2R (snd q) < eN (Bounds t) + / 10 ^ 11) \/
         exists c, Cover_Props.tile_corner t c /\ (clear_corner (map (map val) p) c -> inside (map (map val) p) c)))).
Proof.
  intros m bt ps z G G0 Hz H. rewrite Forall_forall in H. assert (ONE : forall p, TileCover64 m bt (G6MultiPolygon [p]) z = GetTilesPolygon64 m p z). { intros p. cbn [TileCover64 map cover_multi cover_rest]. destruct (GetTilesPolygon64 m p z); reflexivity. }
  assert (K : forall p, In p ps -> exists ts, GetTilesPolygon64 m p z = Ok ts /\
    (forall t, on_map t -> tZ t = z -> reaches (hd [] p) t -> (exists r q, In r p /\ In q r /\ well_inside t q) \/ (exists c, Cover_Props.tile_corner t c /\ inside (map (map val) p) c /\ clear_corner (map (map val) p) c) -> In t ts) /\
    (forall t, In t ts -> tZ t = z /\ ((exists r q, In r p /\ In q r /\ Tile64 m (fst q) (snd q) z = t) \/
       (on_map t -> (forall q, In q (hd [] p) -> eW (Bounds t) < B2R (fst q) < eE (Bounds t) /\ eS (Bounds t) - / 10 ^ 11 < B2R (snd q) < eN (Bounds t) + / 10 ^ 11) \/
         exists c, Cover_Props.tile_corner t c /\ (clear_corner (map (map val) p) c -> inside (map (map val) p) c))))).
  { intros p Hp. destruct (H p Hp) as (f & l & inner & -> & W & O & NE). destruct (C138_polygon m f l inner z G G0 Hz W O NE) as (ts & E & _ & I1 & I2). cbv zeta in *. exists ts. split; [exact E|]. cbn [hd].
    assert (SAME : forall q, In q (f :: l ++ [f]) <-> In q (f :: l)). { intros q. cbn [In]. rewrite in_app_iff. cbn [In]. tauto. }
    split.
    - intros t M Z R X. apply I1; auto. destruct R as (w & e & s & n & R1 & R2 & R3 & R4 & R). exists w, e, s, n. rewrite SAME in R1, R2, R3, R4. auto.
    - intros t Ht. destruct (I2 t Ht) as (Z & _ & _ & X). split; [exact Z|]. destruct X as [X|X]; [left; exact X|right]. intros M. destruct (X M) as [Y|Y]; [left|right; exact Y]. intros q Hq. apply Y, SAME, Hq. }
  pose proof (C142_union m bt (G6MultiPolygon ps) z) as U. destruct (TileCover64 m bt (G6MultiPolygon ps) z) as [tiles| |].
  - destruct U as [ND U]. exists tiles. split; [reflexivity|]. split; [exact ND|]. cbn [parts] in U. split.
    + intros p t Hp M Z R X. destruct (K p Hp) as (ts & E & I1 & _). apply U. exists (G6MultiPolygon [p]), ts. split; [apply in_map_iff; exists p; auto|]. split; [rewrite ONE; exact E|]. apply I1; auto.
    + intros t Ht. apply U in Ht. destruct Ht as (q & part & Hq & Eq & Ht). apply in_map_iff in Hq. destruct Hq as (p & <- & Hp). rewrite ONE in Eq. destruct (K p Hp) as (ts & E & _ & N). rewrite E in Eq. injection Eq as <-. destruct (N t Ht) as [Z X]. split; [exact Z|]. exists p. auto.
  - exfalso. destruct U as (q & Hq & Eq). cbn [parts] in Hq. apply in_map_iff in Hq. destruct Hq as (p & <- & Hp). rewrite ONE in Eq. destruct (K p Hp) as (ts & E & _). congruence.
  - destruct U.
Qed.
Print Assumptions C142_polygons.

(** A Polygon is not covered as the MultiPolygon of that one polygon: with three points or fewer in its outer ring it gets no tile. *)
Theorem C142_small_refuted : forall m between, good_libm m -> zero_libm m -> exists p tiles, closed_on_map p /\
  TileCover64 m between (G6Polygon p) 2 = Ok [] /\ TileCover64 m between (G6MultiPolygon [p]) 2 = Ok tiles /\ In (mkTile 2 1 2) tiles.
Proof.
  intros m bt G G0. set (p := [[ipt 10 10; ipt 20 20; ipt 10 10]]). 
  assert (HW : Forall in_world [ipt 10 10; ipt 20 20]) by (repeat (apply Forall_cons; [apply ipt_world; lia|]); apply Forall_nil).
  assert (HO : Forall (Forall (ok_pt 8)) p) by (apply Forall_cons; [|apply Forall_nil]; repeat (apply Forall_cons; [apply ipt_ok; lia|]); apply Forall_nil).
  assert (C : closed_on_map p) by (exists (ipt 10 10), [ipt 20 20], []; split; [reflexivity|]; split; [exact HW|]; split; [exact HO|intros r []]).
  destruct (C142_polygons m bt [p] 2 G G0 ltac:(lia) (Forall_cons _ C (Forall_nil _))) as (tiles & E & _ & I & _). exists p, tiles. split; [exact C|]. split; [reflexivity|]. split; [exact E|].
  destruct edges22 as (_ & _ & _ & _ & EW & EE & ES & EN). apply (I p); [left; reflexivity|unfold on_map; cbn; lia|reflexivity| |].
  - exists (ipt 10 10), (ipt 20 20), (ipt 10 10), (ipt 20 20). unfold p, ipt. cbn [In hd fst snd]. rewrite (proj2 (fz 20 ltac:(lia))), (proj2 (fz 10 ltac:(lia))), EW, EE, ES. repeat split; auto; lra.
  - left. exists [ipt 10 10; ipt 20 20; ipt 10 10], (ipt 10 10). split; [left; reflexivity|]. split; [left; reflexivity|]. unfold well_inside, ipt. cbn [fst snd]. rewrite (proj2 (fz 10 ltac:(lia))), EW, EE, ES. repeat split; lra.
Qed.
Print Assumptions C142_small_refuted.

(** The points of a MultiPoint are not looked at. *)
Theorem C142_multipoint_refuted : forall m between points zoom, TileCover64 m between (G6MultiPoint points []) zoom = Panic /\
  forall l, TileCover64 m between (G6MultiPoint points l) zoom = TileCover64 m between (G6LineString l) zoom.
Proof. intros. split; reflexivity. Qed.
Print Assumptions C142_multipoint_refuted.

Example C142_nonvacuous : good_libm exact_libm /\ zero_libm exact_libm /\ closed_on_map [[ipt (-10) (-10); ipt 10 (-10); ipt 0 20; ipt (-10) (-10)]] /\
  Forall (fun l => Forall in_world l /\ exists f rest, l = f :: rest /\ on_map (Tile64 exact_libm (fst f) (snd f) 2)) [[ipt 10 10; ipt 20 20]].
Proof.
  destruct C138_nonvacuous as (G & G0 & _). split; [exact G|]. split; [exact G0|]. split.
  - exists (ipt (-10) (-10)), [ipt 10 (-10); ipt 0 20], []. split; [reflexivity|]. split; [repeat (apply Forall_cons; [apply ipt_world; lia|]); apply Forall_nil|]. split; [apply Forall_cons; [|apply Forall_nil]; repeat (apply Forall_cons; [apply ipt_ok; lia|]); apply Forall_nil|intros r []].
  - apply Forall_cons; [|apply Forall_nil]. split; [repeat (apply Forall_cons; [apply ipt_world; lia|]); apply Forall_nil|]. exists (ipt 10 10), [ipt 20 20]. split; [reflexivity|].
    destruct edges22 as (_ & _ & _ & _ & EW & EE & ES & EN).
    assert (T : Tile64 exact_libm (fst (ipt 10 10)) (snd (ipt 10 10)) 2 = mkTile 2 1 2); [|rewrite T; unfold on_map; cbn; lia].
    pose proof (C118_locate exact_libm (mkTile 2 1 2) (fst (ipt 10 10)) (snd (ipt 10 10)) G ltac:(unfold on_map; cbn; lia) ltac:(cbn; lia) (proj1 (fz 10 ltac:(lia))) (proj1 (fz 10 ltac:(lia)))) as K. apply K; unfold ipt; cbn [fst snd]; rewrite (proj2 (fz 10 ltac:(lia))), ?EW, ?EE, ?ES; lra.
Qed.
