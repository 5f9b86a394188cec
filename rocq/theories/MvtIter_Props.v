(** Walking a layer (C96) and scaled geometries (C97). *)
From Coq Require Import ZArith List Lia Bool Reals Lra.
From Verif Require Import GoBase Pbf_Model Pbf_Proofs MvtGeom_Model MvtGeom_Spec MvtGeom_Props MvtLayer_Model MvtLayer_Spec MvtLayer_Proofs MvtLayerRead_Proofs MvtTile_Proofs MvtLayer_Props MvtTile_Props MvtDecode_Props MvtIter_Model.
Import ListNotations.
Open Scope Z_scope.

(** ** C96 *)

(** What a call for feature number [i] gives *)
Definition result_of (fuel : nat) (P : proto) (buf : bytes) (l : layer) (i : nat) (g : got) : Prop :=
  (exists f, Feature fuel P buf l i = Ok f /\ g = GFeat f) \/ (Feature fuel P buf l i = Panic /\ g = GError).

Lemma call_spec fuel P buf l i : Feature fuel P buf l i <> NoFuel ->
  exists g, FeatureCall fuel P buf l i = Ok (g, S i) /\ result_of fuel P buf l i g.
Proof.
  intros H. unfold FeatureCall, result_of. destruct (Feature fuel P buf l i) as [f| |]; [| |congruence]; eexists; split; eauto.
Qed.

(** The walk visits every remaining feature once, in order, whether or not some are broken, and then stops. *)
Theorem C96_visits_each_once : forall fuel P buf l pos steps,
  (pos <= length (lFeats l))%nat -> (length (lFeats l) - pos <= steps)%nat ->
  (forall i, (pos <= i < length (lFeats l))%nat -> Feature fuel P buf l i <> NoFuel) ->
  exists gs, walk steps fuel P buf l pos = Ok (gs, length (lFeats l)) /\
    length gs = (length (lFeats l) - pos)%nat /\
    forall k g, nth_error gs k = Some g -> result_of fuel P buf l (pos + k) g.
Proof.
  intros fuel P buf l pos steps. revert pos. induction steps as [|steps IH]; intros pos H1 H2 H3; cbn [walk]; unfold Next;
    destruct (Nat.ltb_spec pos (length (lFeats l))) as [Hl|Hl].
  - lia.
  - exists []. split; [do 3 f_equal; lia|]. split; [cbn; lia|]. intros [|k] g E; discriminate.
  - destruct (call_spec fuel P buf l pos (H3 pos ltac:(lia))) as (g & Eg & Hg). rewrite Eg. cbn [bind].
    destruct (IH (S pos) ltac:(lia) ltac:(lia)) as (gs & Es & Ls & Hs). { intros i Hi. apply H3. lia. }
    rewrite Es. cbn [bind]. exists (g :: gs). split; [reflexivity|]. split; [cbn [length]; lia|].
    intros [|k] g' E; cbn [nth_error] in E.
    + injection E as <-. rewrite Nat.add_0_r. exact Hg.
    + rewrite <- Nat.add_succ_comm. apply Hs. exact E.
  - exists []. split; [do 3 f_equal; lia|]. split; [cbn; lia|]. intros [|k] g E; discriminate.
Qed.
Print Assumptions C96_visits_each_once.

(** After the walk: no next feature, a further call is an error and changes nothing visible; after Reset
    the walk starts at the first feature again. *)
Theorem C96_end_and_reset : forall fuel P buf l pos,
  (Next l pos = true <-> (pos < length (lFeats l))%nat) /\
  ((length (lFeats l) <= pos)%nat -> exists pos', FeatureCall fuel P buf l pos = Ok (GError, pos') /\ Next l pos' = false) /\
  (Next l (Reset l pos) = true <-> lFeats l <> []) /\
  forall steps, walk steps fuel P buf l (Reset l pos) = walk steps fuel P buf l 0.
Proof.
  intros fuel P buf l pos. split; [apply Nat.ltb_lt|]. split; [|split].
  - intros H. exists (S pos). unfold FeatureCall, Feature, Next. rewrite (proj2 (nth_error_None (lFeats l) pos) H).
    split; [reflexivity|]. apply Nat.ltb_ge. lia.
  - unfold Reset, Next. rewrite Nat.ltb_lt. destruct (lFeats l); cbn [length]; split; intros H; try lia; congruence.
  - intros steps. reflexivity.
Qed.
Print Assumptions C96_end_and_reset.

(** A written layer is walked in the order its features were written, without errors. *)
Theorem C96_written_layer : forall (Pt : Type) pt (S : source Pt) buf l fuel steps,
  layer_holds pt S buf l -> (4 <= fuel)%nat -> (length (sFeats S) <= steps)%nat ->
  exists rfs, walk steps fuel (getProto pt) buf l 0 = Ok (map GFeat rfs, length (sFeats S)) /\
    Forall2 (reads_back S buf) (sFeats S) rfs.
Proof.
  intros Pt pt S buf l fuel steps (_ & _ & _ & HL & HF) Hf Hs.
  destruct (C96_visits_each_once fuel (getProto pt) buf l 0 steps ltac:(lia) ltac:(lia)) as (gs & E & Lg & Hg).
  { intros i Hi. destruct (nth_error (sFeats S) i) as [f|] eqn:Ei; [|apply nth_error_None in Ei; lia].
    destruct (HF i f Ei) as (rf & Er & _). rewrite (Er fuel Hf). discriminate. }
  rewrite E, HL. cbn [Nat.add] in Hg. rewrite Nat.sub_0_r, HL in Lg. clear E.
  assert (X : exists rfs, gs = map GFeat rfs /\ Forall2 (reads_back S buf) (sFeats S) rfs).
  { assert (K : forall i f, nth_error (sFeats S) i = Some f -> exists rf, nth_error gs i = Some (GFeat rf) /\ reads_back S buf f rf).
    { intros i f Ei. destruct (HF i f Ei) as (rf & Er & Hr). exists rf. split; auto.
      destruct (nth_error gs i) as [g|] eqn:Eg.
      - destruct (Hg i g Eg) as [(f' & Ef & ->)|(Ef & _)]; rewrite (Er fuel Hf) in Ef; congruence.
      - apply nth_error_None in Eg. assert (i < length (sFeats S))%nat by (apply nth_error_Some; congruence). lia. }
    clear - K Lg. revert K Lg. generalize (sFeats S). intros fs. revert gs. induction fs as [|f fs IH]; intros gs K L.
    - destruct gs; [|discriminate]. exists []. split; constructor.
    - destruct gs as [|g gs]; [discriminate|]. destruct (K O f eq_refl) as (rf & E & Hr). cbn in E. injection E as ->.
      destruct (IH gs) as (rfs & -> & F); [intros i f' Ei; exact (K (Datatypes.S i) f' Ei)|cbn in L; lia|].
      exists (rf :: rfs). split; [reflexivity|constructor; auto]. }
  destruct X as (rfs & -> & F). eauto.
Qed.
Print Assumptions C96_written_layer.

(** A feature whose geometry has a negative length: the tile opens, the call for the feature never returns. *)
Definition stuck_tile : bytes :=
  [26; 19; 10; 1; 97; 18; 11; 34] ++ EncodeVarint (-11) ++ [120; 2; 40; 128; 32]%Z.
Theorem C96_stuck_feature_refuted : exists t l, NewTile 100 0 stuck_tile = Ok t /\ mget [97] (tMap t) = Some l /\ Next l 0 = true /\
  (forall fuel, FeatureCall fuel (getProto 0) stuck_tile l 0 = NoFuel) /\
  (forall steps fuel, walk steps fuel (getProto 0) stuck_tile l 0 = NoFuel).
Proof.
  eexists. eexists. split; [vm_compute; reflexivity|]. split; [vm_compute; reflexivity|]. split; [vm_compute; reflexivity|].
  match goal with |- (forall fuel, FeatureCall fuel _ _ ?L 0 = NoFuel) /\ _ => set (l := L) end.
  assert (X : forall fuel, FeatureCall fuel (getProto 0) stuck_tile l 0 = NoFuel).
  { intros fuel. unfold FeatureCall, Feature. change (nth_error (lFeats l) 0) with (Some 6).
    assert (E : forall fuel f, feat_loop fuel 0 (getProto 0) stuck_tile (lKeys l) (lVals l) 7 18 f = NoFuel).
    { clear fuel. induction fuel as [|fuel IH]; intros f; [reflexivity|]. cbn [feat_loop].
      change (7 <? 18) with true. cbn iota. change (ReadTag stuck_tile 7) with (Ok (4, 2, 8)). cbn [bind].
      change ((4 =? pID (getProto 0)) && (2 =? wVarint)) with false. change ((4 =? pTags (getProto 0)) && (2 =? wBytes)) with false.
      change ((4 =? pType (getProto 0)) && (2 =? wVarint)) with false. change ((4 =? pGeometry (getProto 0)) && (2 =? wBytes)) with true. cbn iota. cbn [bind].
      change (ReadVarint stuck_tile 8) with (Ok (-11, 18)). cbn [bind]. change (wrap64 (18 + -11 + 0)) with 7. apply IH. }
    cbn iota beta. replace (ReadVarint stuck_tile 6) with (@Ok (Z * Z) (11, 7)) by (vm_compute; reflexivity). cbn [bind]. change (wrap64 (7 + 11)) with 18. rewrite E. reflexivity. }
  split; auto. intros [|n] fuel; [reflexivity|]. cbn [walk]. change (Next l 0) with true. cbn iota. rewrite X. reflexivity.
Qed.
Print Assumptions C96_stuck_feature_refuted.

(** A layer of two features, the first with an odd number of tags: one error, one feature. *)
Example C96_nonvacuous : exists t l f,
  NewTile 100 0 [26; 14; 10; 1; 97; 18; 3; 18; 1; 0; 18; 2; 24; 1; 120; 2] = Ok t /\ mget [97] (tMap t) = Some l /\
  walk 2 10 (getProto 0) [26; 14; 10; 1; 97; 18; 3; 18; 1; 0; 18; 2; 24; 1; 120; 2] l 0 = Ok ([GError; GFeat f], 2%nat) /\ rfType f = 1.
Proof. do 3 eexists. repeat (split; [vm_compute; reflexivity|]). reflexivity. Qed.

(** ** C97 *)

(** The same kind of geometry, with the same number of points in every part, related point by point *)
Definition alike (Q : pt -> rpt -> Prop) (g : geomdata) (h : sgeom) : Prop :=
  match g, h with
  | GPoint p, SPoint q => Q p q
  | GMultiPoint ps, SMultiPoint qs => Forall2 Q ps qs
  | GLineString ps, SLineString qs => Forall2 Q ps qs
  | GMultiLineString ps, SMultiLineString qs => Forall2 (Forall2 Q) ps qs
  | GPolygon ps, SPolygon qs => Forall2 (Forall2 Q) ps qs
  | GMultiPolygon ps, SMultiPolygon qs => Forall2 (Forall2 (Forall2 Q)) ps qs
  | GNil, SEmpty => True
  | _, _ => False
  end.

Lemma F2_map {A C} (Q : A -> C -> Prop) (f : A -> C) : (forall a, Q a (f a)) -> forall l, Forall2 Q l (map f l).
Proof. intros H l. induction l; constructor; auto. Qed.

Lemma convert_alike rnd dim (Q : pt -> rpt -> Prop) : (forall p, Q p (convertpt rnd dim p)) -> forall g, alike Q g (ConvertGeometry rnd g dim).
Proof.
  intros H g. destruct g; cbn; auto; unfold convertlns, convertln; repeat (apply F2_map; intros); auto.
Qed.

(** Without an error the geometry has the shape LoadGeometry gives and each coordinate is the rounded quotient. *)
Theorem C97_pointwise : forall rnd buf f dim h, LoadGeometryScaled rnd buf f dim = Ok (h, false) ->
  exists g, LoadGeometry buf f = Ok g /\ alike (fun p q => fst q = rnd (IZR (fst p) / dim)%R /\ snd q = rnd (IZR (snd p) / dim)%R) g h.
Proof.
  intros rnd buf f dim h H. unfold LoadGeometryScaled in H. destruct (LoadGeometry buf f) as [g| |]; [|discriminate|discriminate].
  injection H as <-. exists g. split; auto. apply convert_alike. intros p. split; reflexivity.
Qed.
Print Assumptions C97_pointwise.

(** With a rounding to the nearest integer, scaling back is off by at most half of [dim]; for [dim] = 1 nothing changes. *)
Theorem C97_accuracy : forall rnd buf f dim h, (forall x, exists n, rnd x = IZR n /\ Rabs (rnd x - x) <= 1 / 2)%R -> (0 < dim)%R ->
  LoadGeometryScaled rnd buf f dim = Ok (h, false) ->
  exists g, LoadGeometry buf f = Ok g /\
    alike (fun p q => Rabs (fst q * dim - IZR (fst p)) <= dim / 2 /\ Rabs (snd q * dim - IZR (snd p)) <= dim / 2)%R g h /\
    (dim = 1%R -> alike (fun p q => q = (IZR (fst p), IZR (snd p))) g h).
Proof.
  intros rnd buf f dim h Hr Hd H. unfold LoadGeometryScaled in H. destruct (LoadGeometry buf f) as [g| |]; [|discriminate|discriminate].
  injection H as <-. exists g. split; auto.
  assert (X : forall z, (Rabs (rnd (IZR z / dim) * dim - IZR z) <= dim / 2)%R).
  { intros z. destruct (Hr (IZR z / dim)%R) as (n & _ & B). set (y := rnd (IZR z / dim)%R) in *.
    replace (y * dim - IZR z)%R with ((y - IZR z / dim) * dim)%R by (field; lra).
    rewrite Rabs_mult, (Rabs_right dim) by lra. pose proof (Rmult_le_compat_r dim _ _ ltac:(lra) B). lra. }
  split.
  - apply convert_alike. intros p. split; apply X.
  - intros ->. apply convert_alike. intros p. unfold convertpt.
    assert (Y : forall z, rnd (IZR z / 1)%R = IZR z).
    { intros z. specialize (X z). destruct (Hr (IZR z / 1)%R) as (n & E & _). rewrite E in *. rewrite Rmult_1_r, <- minus_IZR, <- abs_IZR in X.
      f_equal. assert (Z.abs (n - z) < 1); [|lia]. apply lt_IZR. lra. }
    rewrite !Y. reflexivity.
Qed.
Print Assumptions C97_accuracy.

Lemma last_any {A} (l : list A) : l <> [] -> forall d e, last l d = last l e.
Proof. intros H d e. induction l as [|a [|b l] IH]; [congruence|reflexivity|]. apply IH. discriminate. Qed.

(** Rings stay closed: the first and last point of every ring of a polygon agree. *)
Definition rings (h : sgeom) : list (list rpt) :=
  match h with SPolygon rs => rs | SMultiPolygon ps => concat ps | _ => [] end.
Theorem C97_rings_closed : forall rnd buf f dim h r, LoadGeometryScaled rnd buf f dim = Ok (h, false) -> In r (rings h) ->
  exists p rest, r = p :: rest /\ last r p = p.
Proof.
  intros rnd buf f dim h r H Hr. unfold LoadGeometryScaled in H. destruct (LoadGeometry buf f) as [g| |] eqn:Eg; [|discriminate|discriminate].
  injection H as <-. unfold LoadGeometry in Eg. destruct (LoadGeometryRaw buf f) as [cs| |]; cbn [bind] in Eg; try discriminate.
  assert (T : rfType f = 3 /\ exists r0, ring_closed r0 /\ r = convertln rnd dim r0).
  { assert (T : rfType f = 3).
    { destruct (Z.eq_dec (rfType f) 3) as [E|E]; auto. exfalso. unfold LoadGeometryCmds in Eg.
      destruct (geom_loop _ _ _ _ _ _ _) as [lines| |]; cbn [bind] in Eg; try discriminate.
      destruct (Z.eqb_spec (rfType f) 3); [lia|]. destruct (rfType f =? 1); [destruct lines as [|[|? [|]] ?]; try discriminate; injection Eg as <-; destruct Hr|].
      destruct (rfType f =? 2); [destruct lines as [|? [|]]; injection Eg as <-; destruct Hr|]. injection Eg as <-. destruct Hr. }
    split; auto. rewrite T in Eg. destruct (C74_decoded_polygons_wellformed _ _ Eg) as (polys & [->|(p & -> & ->)] & Hc & _).
    - cbn in Hr. apply in_concat in Hr as (p' & Hp & Hi). apply in_map_iff in Hp as (p & <- & Hp). apply in_map_iff in Hi as (r0 & <- & Hi). exists r0. split; auto. eapply Hc; eauto.
    - cbn in Hr. apply in_map_iff in Hr as (r0 & <- & Hi). exists r0. split; auto. eapply Hc; [left; reflexivity|auto]. }
  destruct T as (_ & r0 & Hc & ->). destruct Hc as [Hne Hc]. destruct r0 as [|p r0]; [congruence|].
  exists (convertpt rnd dim p), (convertln rnd dim r0). split; [reflexivity|].
  assert (L : forall l d, last (map (convertpt rnd dim) l) (convertpt rnd dim d) = convertpt rnd dim (last l d)).
  { intros l d. induction l as [|a [|b l] IH]; auto. }
  change (last (map (convertpt rnd dim) (p :: r0)) (convertpt rnd dim p) = convertpt rnd dim p). rewrite L. f_equal. cbn [hd] in Hc. rewrite Hc.
  clear. revert p. generalize (0, 0). induction r0 as [|a r0 IH]; intros d p; auto. change (last (p :: a :: r0) ?x) with (last (a :: r0) x). apply (last_any (a :: r0)). discriminate.
Qed.
Print Assumptions C97_rings_closed.

(** The empty geometry: with an error when LoadGeometry fails, without one when the geometry type is none of the three. *)
Theorem C97_empty_iff : forall rnd buf f dim h e, LoadGeometryScaled rnd buf f dim = Ok (h, e) ->
  (e = true <-> LoadGeometry buf f = Panic) /\
  (h = SEmpty <-> e = true \/ (rfType f <> 1 /\ rfType f <> 2 /\ rfType f <> 3)).
Proof.
  intros rnd buf f dim h e H. unfold LoadGeometryScaled in H. destruct (LoadGeometry buf f) as [g| |] eqn:Eg; [| |discriminate]; injection H as <- <-.
  - split; [split; discriminate|]. unfold LoadGeometry in Eg. destruct (LoadGeometryRaw buf f) as [cs| |]; cbn [bind] in Eg; try discriminate.
    pose proof (LoadGeometryCmds_nil _ _ _ Eg) as N. rewrite <- N. destruct g; cbn; split; intros X; auto; try discriminate; destruct X; discriminate.
  - split; split; auto.
Qed.
Print Assumptions C97_empty_iff.

(** Whatever the rounding, a unit square scaled by 10 collapses to one point. *)
Theorem C97_collapse_refuted : forall rnd : R -> R, (forall x, exists n, rnd x = IZR n /\ Rabs (rnd x - x) <= 1 / 2)%R ->
  let buf := [11; 9; 0; 0; 26; 2; 0; 0; 2; 1; 0; 15] in let f := mkRF 1 3 [] 0 in
  LoadGeometry buf f = Ok (GPolygon [[(0, 0); (1, 0); (1, 1); (0, 1); (0, 0)]]) /\
  LoadGeometryScaled rnd buf f 10 = Ok (SPolygon [repeat (0, 0)%R 5], false).
Proof.
  intros rnd Hr buf f. assert (E : LoadGeometry buf f = Ok (GPolygon [[(0, 0); (1, 0); (1, 1); (0, 1); (0, 0)]])) by (vm_compute; reflexivity).
  split; auto. unfold LoadGeometryScaled. rewrite E. unfold ConvertGeometry, convertlns, convertln, convertpt. cbn [map fst snd repeat].
  assert (X : forall z, 0 <= z <= 1 -> rnd (IZR z / 10)%R = 0%R).
  { intros z Hz. destruct (Hr (IZR z / 10)%R) as (n & En & B). rewrite En in *. f_equal.
    assert (B' : (-(1/2) <= IZR n - IZR z / 10 <= 1/2)%R) by (split; destruct (Rle_dec 0 (IZR n - IZR z / 10)); [|rewrite Rabs_left in B by lra|rewrite Rabs_right in B by lra|]; lra).
    assert (0 <= IZR z <= 1)%R by (split; apply IZR_le; lia).
    assert (-1 < n < 1); [split; apply lt_IZR; lra|lia]. }
  rewrite (X 0), (X 1) by lia. reflexivity.
Qed.
Print Assumptions C97_collapse_refuted.

(** Scaling a point by 4 with the rounding of math.Round *)
Example C97_nonvacuous : exists rnd : R -> R, (forall x, exists n, rnd x = IZR n /\ Rabs (rnd x - x) <= 1 / 2)%R /\
  LoadGeometryScaled rnd [3; 9; 16; 24] (mkRF 1 1 [] 0) 4 = Ok (SPoint (2, 3)%R, false).
Proof.
  exists (fun x => IZR (up (x - 1 / 2))). assert (H : forall x, exists n, IZR (up (x - 1 / 2)) = IZR n /\ (Rabs (IZR (up (x - 1 / 2)) - x) <= 1 / 2)%R).
  { intros x. exists (up (x - 1 / 2)). split; auto. destruct (archimed (x - 1 / 2)) as [A B]. apply Rabs_le. lra. }
  split; auto. unfold LoadGeometryScaled. replace (LoadGeometry [3; 9; 16; 24] (mkRF 1 1 [] 0)) with (@Ok geomdata (GPoint (8, 12))) by (vm_compute; reflexivity).
  unfold ConvertGeometry, convertpt. cbn [fst snd]. do 3 f_equal.
  assert (X : forall k, IZR (up (IZR k - 1 / 2)) = IZR k).
  { intros k. f_equal. destruct (archimed (IZR k - 1 / 2)) as [A B]. assert (k - 1 < up (IZR k - 1 / 2) < k + 1); [|lia].
    split; apply lt_IZR; rewrite ?minus_IZR, ?plus_IZR; lra. }
  f_equal; [replace (8 / 4)%R with (IZR 2) by lra|replace (12 / 4)%R with (IZR 3) by lra]; apply X.
Qed.
