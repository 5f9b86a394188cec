(** Layers from and to longitude/latitude (C114). *)
From Coq Require Import ZArith List Lia Bool Reals Lra.
From Verif Require Import GoBase Tileid_Model TileR_Model TileR_Proofs Pbf_Model Pbf_Proofs MvtGeom_Model MvtGeom_Spec MvtGeom_Proofs MvtGeom_Props MvtLayer_Model MvtLayer_Spec MvtLayer_Proofs MvtLayerRead_Proofs MvtTile_Proofs MvtLayer_Props MvtTile_Props Num MvtGeo_Model.
From Verif Require Import MvtProj_Model MvtProj_Proofs.
From Verif Require MvtFlat_Props.
Import ListNotations.
Open Scope R_scope.

(** ** The grid of a tile: columns and rows of [ext] units per tile, by the formulas of the Mercator projection *)
Definition column (t : TileID) (ext : Z) (lng : R) : R := ((lng + 180) / 360 * 2 ^ Z.to_nat (tZ t) - IZR (tX t)) * IZR ext.
Definition row (t : TileID) (ext : Z) (lat : R) : R :=
  ((1 - ln (tan (lat * (PI / 180)) + 1 / cos (lat * (PI / 180))) / PI) / 2 * 2 ^ Z.to_nat (tZ t) - IZR (tY t)) * IZR ext.
Definition within (ext : Z) (v : R) : R := Rmax 0 (Rmin (IZR ext) v).
(** The grid point a position is written as: the nearest one, of those of the tile if the configuration says so *)
Definition grid (eb : bool) (t : TileID) (ext : Z) (p : lnglat) : Z * Z :=
  let k v := RoundHA (if eb then within ext v else v) in (k (column t ext (fst p)), k (row t ext (snd p))).
(** [p'] is exactly at the grid point of [p] *)
Definition snapped (eb : bool) (t : TileID) (ext : Z) (p p' : lnglat) : Prop :=
  column t ext (fst p') = IZR (fst (grid eb t ext p)) /\ row t ext (snd p') = IZR (snd (grid eb t ext p)).
(** Positions on the square map, not farther than [b] grid units away when they are not moved into the tile *)
Definition on_map (b : Z) (eb : bool) (t : TileID) (ext : Z) (p : lnglat) : Prop :=
  - (180 / PI * atan (sinh PI)) <= snd p <= 180 / PI * atan (sinh PI) /\
  let near v := if eb then Rabs v <= IZR (2 ^ 31 - 2) /\ (ext <= b)%Z else Rabs v <= IZR (b - 1) in
  near (column t ext (fst p)) /\ near (row t ext (snd p)).
Definition on_rows (t : TileID) : Prop := (0 <= tY t < 2 ^ tZ t)%Z /\ (0 <= tZ t)%Z.

Lemma column_eq t ext lng : (0 <= tZ t)%Z -> column t ext lng = (colR lng (pow2 (tZ t)) - IZR (tX t)) * IZR ext.
Proof. intros H. unfold column, colR. rewrite pow_IZR, Z2Nat.id, <- pow2_IZR by auto. reflexivity. Qed.
Lemma row_eq t ext lat : (0 <= tZ t)%Z -> row t ext lat = (rowR lat (pow2 (tZ t)) - IZR (tY t)) * IZR ext.
Proof. intros H. unfold row, rowR, merc. rewrite pow_IZR, Z2Nat.id, <- pow2_IZR by auto. reflexivity. Qed.
Lemma RoundHA_between a b v : IZR a <= v <= IZR b -> (a <= RoundHA v <= b)%Z.
Proof.
  intros H. pose proof (RoundHA_err v) as E. clear E.
  unfold RoundHA in *. destruct (Rle_dec 0 v).
  - pose proof (proj1 (Rfloor_spec (v + 1 / 2) _) eq_refl). set (k := Rfloor (v + 1 / 2)) in *. split.
    + assert (a < k + 1)%Z; [|lia]. apply lt_IZR. rewrite plus_IZR. lra.
    + assert (k < b + 1)%Z; [|lia]. apply lt_IZR. rewrite plus_IZR. lra.
  - pose proof (proj1 (Rfloor_spec (- v + 1 / 2) _) eq_refl). set (k := Rfloor (- v + 1 / 2)) in *. split.
    + assert (k < - a + 1)%Z; [|lia]. apply lt_IZR. rewrite plus_IZR, opp_IZR. lra.
    + assert (- b < k + 1)%Z; [|lia]. apply lt_IZR. rewrite plus_IZR, opp_IZR. lra.
Qed.
Lemma RoundHA_within ext v : (0 <= ext)%Z -> RoundHA (within ext v) = clampExtent ext (RoundHA v).
Proof.
  intros H. pose proof (IZR_le _ _ H) as HR. unfold within. destruct (Rle_lt_dec v 0) as [L|L].
  - rewrite Rmin_right by lra. rewrite Rmax_left by lra. rewrite (RoundHA_IZR 0).
    assert (K : (RoundHA v <= 0)%Z). { destruct (archimed (- v)) as [A _]. apply (RoundHA_between (- up (- v)) 0 v). rewrite opp_IZR. lra. }
    unfold clampExtent. destruct (Z.geb_spec (RoundHA v) ext); [replace ext with 0%Z by lia; reflexivity|]. destruct (Z.ltb_spec (RoundHA v) 0); lia.
  - destruct (Rle_lt_dec v (IZR ext)) as [M|M].
    + rewrite Rmin_right by lra. rewrite Rmax_right by lra. symmetry. apply clampExtent_id. apply (RoundHA_between 0 ext v). lra.
    + rewrite Rmin_left by lra. rewrite Rmax_right by lra. rewrite RoundHA_IZR.
      assert (K : (ext <= RoundHA v)%Z). { destruct (archimed v) as [A _]. apply (RoundHA_between ext (up v) v). lra. }
      unfold clampExtent. destruct (Z.geb_spec (RoundHA v) ext); [|lia]. destruct (Z.ltb_spec ext 0); lia.
Qed.

(** What the cursor makes of a position *)
Lemma on_map_wrap b eb t ext p : (b <= 2 ^ 30)%Z -> on_map b eb t ext p ->
  Rabs (column t ext (fst p)) <= IZR (2 ^ 31 - 2) /\ Rabs (row t ext (snd p)) <= IZR (2 ^ 31 - 2).
Proof.
  intros Hb (_ & H). cbv beta zeta in H. destruct eb; [split; apply H|]. destruct H as [H1 H2]. assert (K : IZR (b - 1) <= IZR (2 ^ 31 - 2)) by (apply IZR_le; lia). lra.
Qed.
Lemma wrap_round v : Rabs v <= IZR (2 ^ 31 - 2) -> wrap32 (RoundHA v) = RoundHA v.
Proof.
  intros H. apply wrap32_id. pose proof (Rabs_pos v). destruct (RoundHA_between (- (2 ^ 31 - 2)) (2 ^ 31 - 2) v).
  - rewrite opp_IZR. unfold Rabs in H. destruct (Rcase_abs v); lra.
  - unfold in_i32. lia.
Qed.
Lemma SinglePoint_grid b eb t ext p : (b <= 2 ^ 30)%Z -> on_rows t -> (0 <= ext)%Z -> on_map b eb t ext p ->
  SinglePoint (NewCursorExtent t ext eb) p = grid eb t ext p.
Proof.
  intros Hb Ht He Hp. destruct (on_map_wrap b eb t ext p Hb Hp) as [W1 W2]. destruct p as [lng lat]. destruct Hp as (HL & _). cbn [fst snd] in *.
  rewrite SinglePoint_factors, factors_eq; [|exact Ht|exact HL]. rewrite <- column_eq, <- row_eq by apply Ht. cbn [NewCursorExtent ConvertCursor cExtentBool cExtent fst snd]. cbv zeta.
  rewrite !wrap_round by auto. unfold grid. cbn [fst snd]. destruct eb; [rewrite !RoundHA_within by auto|]; reflexivity.
Qed.
Lemma grid_bound b eb t ext p : (0 <= ext)%Z -> on_map b eb t ext p -> (- b <= fst (grid eb t ext p) <= b /\ - b <= snd (grid eb t ext p) <= b)%Z.
Proof.
  intros He (_ & H1 & H2). unfold grid. cbn [fst snd].
  assert (G : forall v, (if eb then Rabs v <= IZR (2 ^ 31 - 2) /\ (ext <= b)%Z else Rabs v <= IZR (b - 1)) -> (- b <= RoundHA (if eb then within ext v else v) <= b)%Z).
  { intros v H. destruct eb.
    - rewrite RoundHA_within by auto. pose proof (clampExtent_range ext (RoundHA v) He). lia.
    - destruct (RoundHA_between (- b) b v); [|lia]. rewrite opp_IZR. rewrite minus_IZR in H. unfold Rabs in H. destruct (Rcase_abs v); lra. }
  split; apply G; auto.
Qed.
(** Reading is exact on grid points *)
Lemma unproject_column t ext q : (0 <= tZ t)%Z -> (0 < ext)%Z -> column t ext (fst (unproject t ext q)) = IZR (fst q) /\ row t ext (snd (unproject t ext q)) = IZR (snd q).
Proof.
  intros Hz He. unfold unproject. rewrite ToLngLat_eq by auto. cbn [fst snd]. rewrite column_eq, row_eq by auto. pose proof (pow2_pos (tZ t)). apply IZR_lt in He.
  rewrite rowR_edge by auto. unfold colR. split; field; lra.
Qed.
Lemma unproject_snapped b eb t ext p : (b <= 2 ^ 30)%Z -> on_rows t -> (0 < ext)%Z -> on_map b eb t ext p ->
  snapped eb t ext p (unproject t ext (SinglePoint (NewCursorExtent t ext eb) p)).
Proof. intros Hb Ht He Hp. rewrite (SinglePoint_grid b) by (auto; lia). apply unproject_column; auto. apply Ht. Qed.

(** A snapped position is at most half a unit away from where it is written: 180/(ext*2^z) degrees of longitude *)
Theorem C114_accuracy : forall eb t ext p p', (0 < ext)%Z -> on_rows t -> snapped eb t ext p p' ->
  let k v := if eb then within ext v else v in
  Rabs (column t ext (fst p') - k (column t ext (fst p))) <= 1 / 2 /\ Rabs (row t ext (snd p') - k (row t ext (snd p))) <= 1 / 2 /\
  (k (column t ext (fst p)) = column t ext (fst p) -> Rabs (fst p' - fst p) <= 180 / (IZR ext * 2 ^ Z.to_nat (tZ t))).
Proof.
  intros eb t ext p p' He Ht (H1 & H2) k.
  assert (A : Rabs (column t ext (fst p') - k (column t ext (fst p))) <= 1 / 2) by (rewrite H1; unfold grid; cbn [fst snd]; apply RoundHA_err).
  split; [exact A|]. split; [rewrite H2; unfold grid; cbn [fst snd]; apply RoundHA_err|]. intros E. rewrite E in A. apply IZR_lt in He.
  unfold column in A. pose proof (pow_lt 2 (Z.to_nat (tZ t)) ltac:(lra)) as Hn. set (n := 2 ^ Z.to_nat (tZ t)) in *.
  replace (_ - _) with ((fst p' - fst p) * (IZR ext * n / 360)) in A by field. rewrite Rabs_mult in A. assert (Q : 0 < IZR ext * n) by nra. rewrite (Rabs_right (IZR ext * n / 360)) in A by lra.
  apply Rmult_le_reg_r with (IZR ext * n / 360); [lra|]. replace (180 / (IZR ext * n) * (IZR ext * n / 360)) with (1 / 2) by (field; lra). exact A.
Qed.
Print Assumptions C114_accuracy.

(** ** Geometries *)
(** Repeated neighbours once *)
Inductive squeezed {A} : list A -> list A -> Prop :=
| sq_nil : squeezed [] []
| sq_one p : squeezed [p] [p]
| sq_skip p l l' : squeezed (p :: l) l' -> squeezed (p :: p :: l) l'
| sq_keep p q l l' : p <> q -> squeezed (q :: l) l' -> squeezed (p :: q :: l) (p :: l').
(** A ring with its first point at the end *)
Definition closes {A} (r c : list A) : Prop := exists f, nth_error r 0 = Some f /\ ((last r f = f /\ c = r) \/ (last r f <> f /\ c = (r ++ [f])%list)).
(** Twice the signed area *)
Fixpoint crossR (l : list (R * R)) : R := match l with p :: ((q :: _) as r) => fst p * snd q - fst q * snd p + crossR r | _ => 0 end.
Definition areaR (r : list (R * R)) : R := match r with [] => 0 | p :: _ => crossR (r ++ [p]) end.
Section Geometry.
Variables (eb : bool) (t : TileID) (ext : Z).
Definition drawn (l l' : list lnglat) : Prop := exists m, Forall2 (snapped eb t ext) l m /\ squeezed m l'.
(** In grid units rings keep the area they have on the grid; that of outer rings is not negative, that of holes not positive *)
Definition units (p : lnglat) : R * R := (column t ext (fst p), row t ext (snd p)).
Definition ring (outer : bool) (r r' : list lnglat) : Prop :=
  exists c m', closes r c /\ drawn c m' /\ (r' = m' \/ r' = rev m') /\
    areaR (map units r') = IZR (if outer then Z.abs (surveyor (map (grid eb t ext) r)) else - Z.abs (surveyor (map (grid eb t ext) r))).
Definition shape (rs rs' : list (list lnglat)) : Prop :=
  match rs, rs' with o :: hs, o' :: hs' => ring true o o' /\ Forall2 (ring false) hs hs' | _, _ => False end.
(** What reading a written geometry gives *)
Definition faithful (g g' : geometry lnglat) : Prop :=
  match g, g' with
  | XPoint p, XPoint p' | XMultiPoint [p], XPoint p' => snapped eb t ext p p'
  | XLineString l, XLineString l' | XMultiLineString [l], XLineString l' => drawn l l'
  | XMultiLineString ((_ :: _ :: _) as ls), XMultiLineString ls' => Forall2 drawn ls ls'
  | XPolygon rs, XPolygon rs' | XMultiPolygon [rs], XPolygon rs' => shape rs rs'
  | XMultiPolygon ((_ :: _ :: _) as ps), XMultiPolygon ps' => Forall2 shape ps ps'
  | _, _ => False
  end.
(** Geometries that can be written and read: not several points, no point at the first grid point of the tile, and no polygon after another one that has no area on the grid *)
Definition line_fits (l : list lnglat) : Prop := l <> [] /\ Forall (on_map (2 ^ 30 - 1) eb t ext) l /\ (Z.of_nat (length l) < 2 ^ 29)%Z.
Definition rings_fit (rs : list (list lnglat)) : Prop :=
  rs <> [] /\ Forall (fun r => r <> [] /\ Forall (on_map 23170 eb t ext) r /\ short r) rs.
Definition grid_area (rs : list (list lnglat)) : Prop :=
  match rs with [] => False | o :: _ => surveyor (map (grid eb t ext) o) <> 0%Z end.
Definition drawable (g : geometry lnglat) : Prop :=
  match g with
  | XPoint p | XMultiPoint [p] => on_map (2 ^ 30 - 1) eb t ext p /\ grid eb t ext p <> (0, 0)%Z
  | XLineString l => line_fits l
  | XMultiLineString ls => ls <> [] /\ Forall line_fits ls
  | XPolygon rs => rings_fit rs
  | XMultiPolygon ps => ps <> [] /\ Forall rings_fit ps /\ Forall grid_area (tl ps)
  | _ => False
  end.
Hypothesis (Ht : on_rows t) (He : (0 < ext)%Z).
Let q := SinglePoint (NewCursorExtent t ext eb).
Let u := unproject t ext.

Lemma u_inj a b : u a = u b -> a = b.
Proof.
  intros E. destruct (unproject_column t ext a (proj2 Ht) He) as [A1 A2]. destruct (unproject_column t ext b (proj2 Ht) He) as [B1 B2]. fold u in A1, A2, B1, B2. rewrite E in A1, A2.
  rewrite A1 in B1. rewrite A2 in B2. apply eq_IZR in B1, B2. destruct a, b; cbn in *; congruence.
Qed.
Lemma peqR_true a b : peqR a b = true <-> a = b.
Proof. unfold peqR. rewrite andb_true_iff. destruct (Reqb_spec (fst a) (fst b)), (Reqb_spec (snd a) (snd b)), a, b; cbn in *; intuition congruence. Qed.
Lemma squeezed_merge {A} (f : Z * Z -> A) : (forall a b, f a = f b -> a = b) -> forall m, squeezed (map f m) (map f (merge_runs m)).
Proof.
  intros I m. induction m as [|a [|b m] IH]; [constructor|constructor|]. cbn [merge_runs] in *. cbn [map].
  destruct ((fst a =? fst b)%Z && (snd a =? snd b)%Z) eqn:E.
  - apply andb_true_iff in E as [E1 E2]. apply Z.eqb_eq in E1, E2. assert (a = b) by (destruct a, b; cbn in *; congruence). subst. apply sq_skip. exact IH.
  - cbn [map]. apply sq_keep; [|exact IH]. intros F. apply I in F. subst. rewrite !Z.eqb_refl in E. discriminate.
Qed.
Lemma snapped_all b l : (b <= 2 ^ 30)%Z -> Forall (on_map b eb t ext) l -> Forall2 (snapped eb t ext) l (map u (map q l)).
Proof. intros Hb H. induction H as [|p l Hp _ IH]; constructor; [apply (unproject_snapped b); auto|exact IH]. Qed.
Lemma q_bound b p : (b <= 2 ^ 30)%Z -> on_map b eb t ext p -> (- b <= fst (q p) <= b /\ - b <= snd (q p) <= b)%Z.
Proof. intros Hb H. unfold q. rewrite (SinglePoint_grid b) by (auto; lia). apply grid_bound; auto. lia. Qed.
Lemma q_grid b l : (b <= 2 ^ 30)%Z -> Forall (on_map b eb t ext) l -> map q l = map (grid eb t ext) l.
Proof. intros Hb H. induction H as [|p l Hp _ IH]; [reflexivity|]. cbn [map]. rewrite IH. f_equal. apply (SinglePoint_grid b); auto. lia. Qed.
Lemma drawn_line l : line_fits l -> drawn l (map u (merge_runs (map q l))).
Proof. intros (_ & H & _). exists (map u (map q l)). split; [apply (snapped_all (2 ^ 30 - 1)); [lia|exact H]|]. apply squeezed_merge, u_inj. Qed.
Lemma line_pre l : line_fits l -> l <> [] /\ (Z.of_nat (length l) < 2 ^ 29)%Z /\ Forall (fun p => (- 2 ^ 30 <= fst (q p) < 2 ^ 30 /\ - 2 ^ 30 <= snd (q p) < 2 ^ 30)%Z) l.
Proof. intros (H1 & H2 & H3). split; [auto|]. split; [auto|]. eapply Forall_impl; [|exact H2]. intros p Hp. pose proof (q_bound (2 ^ 30 - 1) p ltac:(lia) Hp). lia. Qed.

Lemma closes_ring r : r <> [] -> closes r (close_ring peqR r).
Proof.
  destruct r as [|f r]; [congruence|]. intros _. exists f. split; [reflexivity|]. unfold close_ring. destruct (peqR f (last (f :: r) f)) eqn:E.
  - left. apply peqR_true in E. split; [congruence|reflexivity].
  - right. split; [|reflexivity]. intros F. rewrite F in E. assert (peqR f f = true) by (apply peqR_true; reflexivity). congruence.
Qed.
Lemma close_forall {P : lnglat -> Prop} r : Forall P r -> Forall P (close_ring peqR r).
Proof. intros H. destruct r as [|f r]; [constructor|]. unfold close_ring. destruct (peqR f (last (f :: r) f)); [exact H|]. apply Forall_app. split; [exact H|]. inversion H; subst. repeat constructor; assumption. Qed.
Lemma areaR_cross l : crossR (map (fun p => (IZR (fst p), IZR (snd p))) l) = IZR (cross_sum l).
Proof. induction l as [|a [|b l] IH]; [reflexivity|reflexivity|]. cbn [map cross_sum crossR] in *. rewrite plus_IZR. unfold cross. rewrite minus_IZR, !mult_IZR. cbn [fst snd] in *. rewrite IH. reflexivity. Qed.
Lemma areaR_units l : areaR (map units (map u l)) = IZR (surveyor l).
Proof.
  rewrite map_map. rewrite (map_ext (fun x => units (u x)) (fun p => (IZR (fst p), IZR (snd p)))).
  - unfold areaR, surveyor. destruct l as [|a l]; [reflexivity|]. cbn [map]. rewrite <- areaR_cross, map_app. reflexivity.
  - intros p. destruct (unproject_column t ext p (proj2 Ht) He) as [E1 E2]. unfold units, u. rewrite E1, E2. reflexivity.
Qed.
Lemma wind_area outer l : outer = true -> surveyor l <> 0%Z -> (0 < surveyor (wind outer l))%Z.
Proof. intros ->. intros H. unfold wind. destruct (Z.ltb_spec 0 (surveyor l)); cbn [Bool.eqb]; [auto|]. rewrite surveyor_rev. lia. Qed.
Lemma wind_hole l : (surveyor (wind false l) <= 0)%Z.
Proof. unfold wind. destruct (Z.ltb_spec 0 (surveyor l)); cbn [Bool.eqb]; [|lia]. rewrite surveyor_rev. lia. Qed.
Lemma ring_seen outer r : r <> [] -> Forall (on_map 23170 eb t ext) r ->
  ring outer r (map u (wind outer (merge_runs (map q (close_ring peqR r))))).
Proof.
  intros Hr Ho. exists (close_ring peqR r), (map u (merge_runs (map q (close_ring peqR r)))). split; [apply closes_ring; exact Hr|]. split; [|split].
  - exists (map u (map q (close_ring peqR r))). split; [apply (snapped_all 23170); [lia|apply close_forall; exact Ho]|apply squeezed_merge, u_inj].
  - unfold wind. destruct (Bool.eqb _ _); [left; reflexivity|right; apply map_rev].
  - rewrite areaR_units, <- (q_grid 23170) by (auto; lia). f_equal. apply MvtFlat_Props.seen_area.
Qed.
Lemma shape_seen rs : rings_fit rs -> shape rs (map (map u) (seen_polygon q peqR rs)).
Proof.
  intros (Hn & Hf). destruct rs as [|o hs]; [congruence|]. inversion Hf as [|? ? (O1 & O2 & O3) Hh]; subst. unfold seen_polygon. cbn [map]. unfold shape. split.
  - apply ring_seen; auto.
  - clear - Hh Ht He. rewrite !map_map. induction Hh as [|h hs (H1 & H2 & _) _ IH]; [constructor|]. cbn [map]. constructor; [|exact IH]. apply ring_seen; auto.
Qed.
Lemma rings_pre rs : rings_fit rs -> MvtFlat_Props.writable q rs.
Proof.
  intros (H1 & H2). split; [exact H1|]. eapply Forall_impl; [|exact H2]. intros r (A & B & C). split; [auto|]. split; [|auto]. unfold bounded. rewrite Forall_map. eapply Forall_impl; [|exact B]. intros p Hp. apply q_bound; auto. lia.
Qed.
Definition fits_area (rs : list (list lnglat)) : Prop := match rs with [] => False | o :: _ => surveyor (map q o) <> 0%Z end.
Lemma area_pre rs : rings_fit rs -> grid_area rs -> fits_area rs.
Proof.
  intros (H1 & H2) H3. destruct rs as [|o hs]; [congruence|]. inversion H2 as [|? ? (_ & B & _) _]; subst. unfold fits_area. rewrite (q_grid 23170) by (auto; lia). exact H3.
Qed.

(** What is read of a written geometry *)
Definition seen (g : geometry lnglat) : geomdata :=
  match g with
  | XPoint p | XMultiPoint [p] => GPoint (q p)
  | XLineString l => GLineString (merge_runs (map q l))
  | XMultiLineString ls => match map (fun l => merge_runs (map q l)) ls with [l] => GLineString l | ls' => GMultiLineString ls' end
  | XPolygon rs => GPolygon (seen_polygon q peqR rs)
  | XMultiPolygon ps => match map (seen_polygon q peqR) ps with [p] => GPolygon p | ps' => GMultiPolygon ps' end
  | _ => GNil
  end.
(** What writing needs, in terms of grid points *)
Definition fits_line (l : list lnglat) : Prop := l <> [] /\ (Z.of_nat (length l) < 2 ^ 29)%Z /\ Forall (fun p => (- 2 ^ 30 <= fst (q p) < 2 ^ 30 /\ - 2 ^ 30 <= snd (q p) < 2 ^ 30)%Z) l.
Definition fits (g : geometry lnglat) : Prop :=
  match g with
  | XPoint p | XMultiPoint [p] => ((- 2 ^ 30 <= fst (q p) < 2 ^ 30)%Z /\ (- 2 ^ 30 <= snd (q p) < 2 ^ 30)%Z) /\ q p <> (0, 0)%Z
  | XLineString l => fits_line l
  | XMultiLineString ls => ls <> [] /\ Forall fits_line ls
  | XPolygon rs => MvtFlat_Props.writable q rs
  | XMultiPolygon ps => ps <> [] /\ Forall (MvtFlat_Props.writable q) ps /\ Forall fits_area (tl ps)
  | _ => False
  end.
Lemma drawable_fits g : drawable g -> fits g.
Proof.
  assert (K : forall p, on_map (2 ^ 30 - 1) eb t ext p /\ grid eb t ext p <> (0, 0)%Z -> ((- 2 ^ 30 <= fst (q p) < 2 ^ 30)%Z /\ (- 2 ^ 30 <= snd (q p) < 2 ^ 30)%Z) /\ q p <> (0, 0)%Z).
  { intros p (A & B). split; [pose proof (q_bound (2 ^ 30 - 1) p ltac:(lia) A); lia|]. unfold q. rewrite (SinglePoint_grid (2 ^ 30 - 1)) by (auto; lia). exact B. }
  destruct g as [p|l|rs|ps|ls|mps|]; cbn [drawable fits]; intros H.
  - apply K, H.
  - apply line_pre, H.
  - apply rings_pre, H.
  - destruct ps as [|p [|]]; [contradiction|apply K, H|contradiction].
  - destruct H as [H1 H2]. split; [auto|]. eapply Forall_impl; [|exact H2]. exact line_pre.
  - destruct H as (H1 & H2 & H3). split; [auto|]. split; [eapply Forall_impl; [|exact H2]; exact rings_pre|]. destruct mps as [|r0 mps]; [congruence|]. cbn [tl] in *. pose proof (Forall_inv_tail H2) as H2'. clear H1 H2. induction H3 as [|r l Hr _ IH]; [constructor|]. constructor; [apply area_pre; [exact (Forall_inv H2')|exact Hr]|apply IH; exact (Forall_inv_tail H2')].
  - contradiction.
Qed.
Lemma fits_read g : fits g -> exists cmds, geom_cmds q peqR g = Ok (Some cmds) /\ LoadGeometryCmds (wire_type g) cmds = Ok (seen g) /\ seen g <> GNil.
Proof.
  assert (KP : forall p, ((- 2 ^ 30 <= fst (q p) < 2 ^ 30)%Z /\ (- 2 ^ 30 <= snd (q p) < 2 ^ 30)%Z) /\ q p <> (0, 0)%Z -> LoadGeometryCmds 1 (geo (MakePoint cursor0 (q p))) = Ok (GPoint (q p))).
  { intros p ((A & B) & C). destruct (q p) as [x y]. apply C15_point_round_trip_iff; assumption. }
  destruct g as [p|l|rs|ps|ls|mps|]; cbn [fits geom_cmds wire_type seen]; intros H.
  - eexists. split; [reflexivity|]. split; [apply KP, H|discriminate].
  - destruct H as (H1 & H2 & H3). destruct (C11_float_line_round_trip _ q l H1 H3 H2) as (c & E & D). rewrite E. cbn [bind]. eexists. split; [reflexivity|]. split; [exact D|discriminate].
  - destruct (MvtFlat_Props.C152_polygon _ q peqR rs) as (c & E & D); auto. { intros a b Hab. apply peqR_true in Hab. congruence. }
    rewrite E. cbn [bind]. eexists. split; [reflexivity|]. split; [exact D|discriminate].
  - destruct ps as [|p [|]]; [contradiction| |contradiction]. eexists. split; [reflexivity|]. split; [apply KP, H|discriminate].
  - destruct H as (H1 & H2). rewrite MakeMultiLineFloat_map. destruct (multiline_round_trip (map (map q) ls)) as (c & E & D).
    + rewrite Forall_map. eapply Forall_impl; [|exact H2]. intros l (A1 & A2 & A3). split; [destruct l; [congruence|discriminate]|]. split; [rewrite Forall_map; exact A3|]. unfold zlen. rewrite map_length. exact A2.
    + rewrite E. cbn [bind]. eexists. split; [reflexivity|]. rewrite D. rewrite map_map. destruct ls as [|a [|b ls]]; [congruence| |]; cbn [map]; (split; [reflexivity|discriminate]).
  - destruct H as (H1 & H2 & H3). destruct (MvtFlat_Props.C152_multipolygon _ q peqR mps) as (c & ps & E & D & (A & _) & _); auto. { intros a b Hab. apply peqR_true in Hab. congruence. }
    rewrite (A H3) in D.
    rewrite E. cbn [bind]. eexists. split; [reflexivity|]. split; [rewrite D; unfold MvtFlat_Props.read_as; destruct (map (seen_polygon q peqR) mps) as [|x [|y z]]; reflexivity|]. destruct (map (seen_polygon q peqR) mps) as [|x [|y z]]; discriminate.
  - contradiction.
Qed.
Lemma seen_faithful g : drawable g -> faithful g (geo_of t ext (seen g)).
Proof.
  assert (KP : forall p, on_map (2 ^ 30 - 1) eb t ext p /\ grid eb t ext p <> (0, 0)%Z -> snapped eb t ext p (unproject t ext (q p))).
  { intros p (A & _). apply (unproject_snapped (2 ^ 30 - 1)); auto. lia. }
  destruct g as [p|l|rs|ps|ls|mps|]; cbn [drawable seen geo_of faithful]; intros H.
  - apply KP, H.
  - apply drawn_line, H.
  - apply shape_seen, H.
  - destruct ps as [|p [|]]; [contradiction|apply KP, H|contradiction].
  - destruct H as [H1 H2]. assert (F : Forall2 drawn ls (map (map u) (map (fun l => merge_runs (map q l)) ls))).
    { clear H1. induction H2 as [|l ls Hl _ IH]; [constructor|]. cbn [map]. constructor; [apply drawn_line; exact Hl|exact IH]. }
    destruct ls as [|a [|b ls]]; [congruence|inversion F; subst; assumption|exact F].
  - destruct H as (H1 & H2 & _). assert (F : Forall2 shape mps (map (map (map u)) (map (seen_polygon q peqR) mps))).
    { clear H1. induction H2 as [|l ls Hl _ IH]; [constructor|]. cbn [map]. constructor; [apply shape_seen; exact Hl|exact IH]. }
    destruct mps as [|a [|b ls]]; [congruence|inversion F; subst; assumption|exact F].
  - contradiction.
Qed.
Theorem C114_geometry : forall g, drawable g -> exists cmds gd,
  geom_cmds (SinglePoint (NewCursorExtent t ext eb)) peqR g = Ok (Some cmds) /\ LoadGeometryCmds (wire_type g) cmds = Ok gd /\ gd <> GNil /\ faithful g (geo_of t ext gd).
Proof. intros g H. destruct (fits_read g (drawable_fits g H)) as (cmds & A & B & C). exists cmds, (seen g). split; [exact A|]. split; [exact B|]. split; [exact C|]. apply seen_faithful, H. Qed.
End Geometry.
Print Assumptions C114_geometry.

(** ** Layers *)
(** A layer to write: its features and its configuration; what WriteLayer returns for it *)
Record geosource := mkGS { gsFeats : list (feature lnglat); gsCfg : Config }.
Definition geo_written (pt : Z) (S : geosource) (bs : bytes) : Prop :=
  WriteLayerGeo (gsFeats S) (gsCfg S) = Ok bs /\ gProto (gsCfg S) = pt /\ Forall go_feature (gsFeats S) /\
  (0 <= gExtent (gsCfg S) < 2 ^ 31)%Z /\ (- 2 ^ 63 <= gVersion (gsCfg S) < 2 ^ 63)%Z /\ on_rows (gTile (gsCfg S)) /\
  (fold_right (fun f n => zlen (fProps f) + n) 0 (gsFeats S) <= 2 ^ 32)%Z.
(** 4096 unless the configuration says otherwise *)
Definition gs_extent (S : geosource) : Z := if (gExtent (gsCfg S) =? 0)%Z then 4096%Z else gExtent (gsCfg S).
Definition gs_drawable (S : geosource) (g : geometry lnglat) : Prop := drawable (gExtentBool (gsCfg S)) (gTile (gsCfg S)) (gs_extent S) g.
Definition gs_faithful (S : geosource) (g g' : geometry lnglat) : Prop := faithful (gExtentBool (gsCfg S)) (gTile (gsCfg S)) (gs_extent S) g g'.

Definition source_of (S : geosource) : source lnglat := mkSrc (SinglePoint (cursor_of (gsCfg S))) peqR (gsFeats S) (cfg_of (gsCfg S)).
Lemma gs_extent_eq S : cfgExtent (cfg_of (gsCfg S)) = gs_extent S.
Proof. destruct S as [fs [t n e v b p]]. reflexivity. Qed.
Lemma gs_extent_of S : extent_of (cfg_of (gsCfg S)) = gs_extent S.
Proof. destruct S as [fs [t n e v b p]]. reflexivity. Qed.
Lemma gs_extent_pos pt S bs : geo_written pt S bs -> (0 < gs_extent S)%Z.
Proof. intros (_ & _ & _ & H & _). unfold gs_extent. destruct (Z.eqb_spec (gExtent (gsCfg S)) 0); lia. Qed.
Lemma geo_written_written pt S bs : geo_written pt S bs -> written pt (source_of S) bs.
Proof.
  intros (E & P & F & X & V & _ & N). destruct S as [fs [t n e v b p]]. cbn [gsFeats gsCfg gProto gExtent gVersion] in *. split; [exact E|]. split; [exact P|]. split; [exact F|]. split; [|exact N].
  split; cbn [source_of sCfg cfg_of cExtent cVersion gExtent gVersion gsCfg MvtLayer_Model.cExtent MvtLayer_Model.cVersion]; lia.
Qed.
Lemma all_written pt Ss bss : Forall2 (geo_written pt) Ss bss -> Forall2 (written pt) (map source_of Ss) bss.
Proof. induction 1; cbn [map]; constructor; auto. apply geo_written_written. assumption. Qed.

(** Layer by layer: every feature with a drawable geometry is read back by ToGeoJSON with its id, its properties and its
    geometry on the grid of the tile *)
Theorem C114_lazy : forall pt Ss bss, Forall2 (geo_written pt) Ss bss -> (zlen (concat bss) < 2 ^ 62)%Z -> NoDup (map (fun S => gName (gsCfg S)) Ss) ->
  exists tl, (forall fuel, (length (concat bss) < fuel)%nat -> NewTile fuel pt (concat bss) = Ok tl) /\
  Forall (fun S => exists l, mget (gName (gsCfg S)) (tMap tl) = Some l /\
    forall i f g, nth_error (gsFeats S) i = Some f -> fGeom f = Some g -> gs_drawable S g ->
      exists rf gf, (forall fuel, (4 <= fuel)%nat -> Feature fuel (getProto pt) (concat bss) l i = Ok rf) /\
        ToGeoJSON (concat bss) l rf (gTile (gsCfg S)) = OValue gf /\ gfID gf = id_of (fID f) /\ wire_props (fProps f) (gfProps gf) /\ gs_faithful S g (gfGeom gf)) Ss.
Proof.
  intros pt Ss bss W B N. destruct (C19_lazy_round_trip lnglat pt (map source_of Ss) bss (all_written pt Ss bss W) B) as (tl & E & _ & _ & L).
  { rewrite map_map. exact N. }
  exists tl. split; [exact E|]. rewrite Forall_map in L. apply Forall_forall. intros S HS. rewrite Forall_forall in L. specialize (L S HS). destruct L as (l & G & (_ & X & _ & _ & H)).
  exists l. split; [exact G|]. intros i f g Hi Hg Hd.
  assert (WS : exists bs, geo_written pt S bs). { clear - W HS. induction W as [|S0 b0 Ss bss H _ IH]; [destruct HS|]. destruct HS as [->|HS]; [exists b0; exact H|apply IH, HS]. }
  destruct WS as (bs & WS). pose proof (gs_extent_pos _ _ _ WS) as Hx. destruct WS as (_ & _ & _ & _ & _ & Ht & _).
  destruct (H i f Hi) as (rf & F & R1 & R2 & R3). rewrite Hg in R3. destruct R3 as (R3 & R4).
  destruct (C114_geometry (gExtentBool (gsCfg S)) (gTile (gsCfg S)) (gs_extent S) Ht Hx g Hd) as (cmds & gd & C1 & C2 & C3 & C4).
  destruct (R4 cmds) as [_ R5]. { rewrite <- gs_extent_eq in C1. exact C1. }
  exists rf. eexists. split; [exact F|]. unfold ToGeoJSON, ToGeoJSON_outcome. rewrite R5, C2. cbn [source_of sCfg] in X. rewrite X, gs_extent_of. split; [destruct gd; try reflexivity; congruence|].
  cbn [gfID gfProps gfGeom]. split; [exact R1|]. split; [exact R2|exact C4].
Qed.
Print Assumptions C114_lazy.

(** ** ReadTile *)
Definition ext_read (L : wlayer) : Z := if (wrap64 (wlExt L) =? 0)%Z then 4096%Z else wrap64 (wlExt L).
Definition geo_feat (t : TileID) (ext : Z) (o : ofeat) : gfeat := mkGF (ofID o) (ofProps o) (geo_of t ext (ofGeom o)).
Lemma read_geo_at t P buf : dialect P -> (zlen buf < 2 ^ 62)%Z -> forall Ls bss, Forall2 (is_layer P) Ls bss -> Forall layer_in Ls ->
  forall pos acc fuel, at_ buf pos (concat bss) -> (length (concat bss) + 4 < fuel)%nat ->
  exists oss, read_geo fuel t P buf pos acc = Ok (acc ++ concat (map (fun x => map (geo_feat t (ext_read (fst x))) (snd x)) (combine Ls oss)))%list /\ Forall2 layer_out Ls oss.
Proof.
  intros HP Hb Ls bss HF. induction HF as [|L bs Ls bss H1 HF IH]; intros HI pos acc fuel Hp Hf.
  - exists []. cbn [concat combine map] in *. rewrite app_nil_r. apply at_pos in Hp as [_ Hp]. rewrite zlen_nil in Hp. split; [|constructor].
    destruct fuel; cbn [read_geo]; destruct (Z.ltb_spec pos (zlen buf)); try lia; reflexivity.
  - inversion HI as [|? ? (I1 & I2 & I3) HI']; subst. cbn [concat] in *. rewrite app_length in Hf. destruct fuel as [|fuel]; [lia|].
    destruct (layer_at false P buf L bs pos _ HP Hb H1 Hp) as (size & p1 & c0 & r & A1 & A2 & A3 & A4 & A5 & A6 & A7 & A8 & A9 & bd & A10 & A11 & A12).
    assert (Hl : (0 < length bs)%nat) by (rewrite A10; cbn [layer_bytes length]; lia).
    cbn [read_geo]. destruct (at_pos _ _ _ Hp) as [Q1 Q2]. rewrite zlen_app in Q2. pose proof (zlen_nonneg (concat bss)).
    destruct (Z.ltb_spec pos (zlen buf)); [|unfold zlen in *; lia]. rewrite A1. cbn [bind]. rewrite !Z.eqb_refl. cbn [andb]. rewrite A2. cbn [bind].
    destruct (Z.eqb_spec size 0); [lia|]. rewrite A7. cbn [bind]. rewrite A5, A8 by lia. cbn [bind].
    destruct A9 as (bodies & vt & B1 & B2 & B3 & B4 & B5 & B6 & B7 & B8).
    destruct (read_feats_at 0 P buf (lrName r) r vt HP Hb ltac:(lia) B4 (wlFeats L) bodies (lrFeats r) B1 I1 I2 B8 0%Z 0%Z 0%Z None I I3) as (os & E & Hlen & HO).
    rewrite (E fuel) by lia. cbn [bind]. cbv zeta.
    match goal with |- exists _, read_geo _ _ _ _ _ ?a = _ /\ _ => destruct (IH HI' (p1 + size)%Z a fuel A6 ltac:(lia)) as (oss & E2 & F2) end.
    exists (os :: oss). split; [rewrite E2; cbn [concat combine map fst snd]; rewrite app_assoc; unfold ext_read; rewrite B6; reflexivity|]. constructor; auto. split; auto. rewrite <- B2. exact HO.
Qed.

(** Every feature of a layer with its geometry; ids as C20 has them *)
Definition geo_out (t : TileID) (S : geosource) (gs : list gfeat) : Prop :=
  length gs = length (gsFeats S) /\
  forall i f g gf, nth_error (gsFeats S) i = Some f -> fGeom f = Some g -> nth_error gs i = Some gf ->
    gfID gf = latest 0%Z (ids_until (gsFeats S) i) /\
    (exists m, wire_props (fProps f) m /\ gfProps gf = mput str_layer (WString (gName (gsCfg S))) m) /\ gs_faithful S g (gfGeom gf).
Definition all_drawable (S : geosource) : Prop := Forall (fun f => exists g, fGeom f = Some g /\ gs_drawable S g) (gsFeats S).
Lemma drawable_decodes pt S bs : geo_written pt S bs -> all_drawable S -> decodes (source_of S).
Proof.
  intros W A i f Hi. pose proof (gs_extent_pos _ _ _ W) as Hx. destruct W as (_ & _ & _ & _ & _ & Ht & _). cbn [source_of sFeats sProj sPeq] in *. unfold all_drawable in A. rewrite Forall_forall in A. destruct (A f (nth_error_In _ _ Hi)) as (g & Hg & Hd).
  destruct (C114_geometry _ _ _ Ht Hx g Hd) as (cmds & gd & C1 & C2 & _). exists cmds, gd. rewrite <- gs_extent_eq in C1. split.
  - unfold cmds_until. apply latest_own. rewrite nth_error_map, Hi. cbn. unfold own_cmds, cursor_of. rewrite Hg, C1. reflexivity.
  - unfold types_until. rewrite (latest_own _ _ (wire_type g)); [exact C2|]. rewrite nth_error_map, Hi. cbn. rewrite Hg. reflexivity.
Qed.
(** ReadTile never gives an empty list: a tile without features is an error. *)
Theorem C114_read_tile_some : forall fuel pt buf t,
  ReadTileGeo fuel pt buf t <> OValue [] /\ ReadTileGeo fuel pt [] t = OError /\
  (read_geo fuel t (getProto pt) buf 0 [] = Ok [] -> ReadTileGeo fuel pt buf t = OError) /\
  (forall l, l <> [] -> ReadTileGeo fuel pt buf t = OValue l <-> read_geo fuel t (getProto pt) buf 0 [] = Ok l).
Proof.
  intros fuel pt buf t. unfold ReadTileGeo. split; [|split; [|split]].
  - destruct (read_geo fuel t (getProto pt) buf 0 []) as [[|x l]| |]; discriminate.
  - destruct fuel; reflexivity.
  - intros ->. reflexivity.
  - intros l N. destruct (read_geo fuel t (getProto pt) buf 0 []) as [[|x l']| |]; split; intros K; try discriminate; try (injection K as <-); try reflexivity; contradiction.
Qed.
Print Assumptions C114_read_tile_some.
Theorem C114_read_tile : forall pt t Ss bss, Forall2 (geo_written pt) Ss bss -> (zlen (concat bss) < 2 ^ 62)%Z -> Forall all_drawable Ss -> Forall (fun S => gTile (gsCfg S) = t) Ss ->
  (exists S, In S Ss /\ gsFeats S <> []) -> forall fuel, (length (concat bss) + 4 < fuel)%nat ->
  exists gss, ReadTileGeo fuel pt (concat bss) t = OValue (concat gss) /\ Forall2 (geo_out t) Ss gss.
Proof.
  intros pt t Ss bss HW Hb Hd Ht Hne fuel Hf. pose proof (getProto_dialect pt) as HP. destruct (written_all pt (map source_of Ss) bss (all_written pt Ss bss HW)) as (wss & D & L).
  set (Ls := map (fun x => src_layer (fst x) (snd x)) (combine (map source_of Ss) wss)) in *. set (buf := concat bss) in *.
  assert (A0 : at_ buf 0 (concat bss)) by (exists []; auto).
  assert (HI : Forall layer_in Ls).
  { clear - HW D Hd. unfold Ls. clear Ls. revert bss wss HW D. induction Ss as [|S Ss IH]; intros bss wss HW D; inversion D as [|? ws ? wss' D1 D2]; subst; [constructor|].
    inversion HW as [|? bs ? bss' W1 W2]; subst. inversion Hd as [|? ? Hd1 Hd2]; subst. cbn [combine map fst snd]. constructor; [|eapply IH; eauto].
    pose proof (drawable_decodes _ _ _ W1 Hd1) as Dec. pose proof (geo_written_written _ _ _ W1) as (_ & _ & GF & _).
    destruct (until_describe _ _ _ _ D1) as (U1 & U2 & U3).
    assert (X : Forall (fun w => feat_ok w /\ forall z, wID w = Some z -> in_i64 z) ws).
    { clear - D1 GF. induction D1 as [|f w fs ws D _ IH]; constructor; inversion GF; subst; auto. eapply describe_ok; eauto. }
    rewrite Forall_forall in X. unfold layer_in. cbn [src_layer wlFeats]. split; [apply Forall_forall; intros w Hw; apply X; auto|]. split; [intros w z Hw Hz; eapply X; eauto|].
    intros i w Hi. destruct (Forall2_nth_r _ _ _ D1 i w Hi) as (f & Hfi & _). unfold cmds_upto, types_upto. rewrite U2, U3. apply (Dec i f Hfi). }
  destruct (read_geo_at t (getProto pt) buf HP Hb Ls bss L HI 0%Z [] fuel A0 Hf) as (oss & E & F). cbn [app] in E.
  assert (R : exists gss, map (fun x => map (geo_feat t (ext_read (fst x))) (snd x)) (combine Ls oss) = gss /\ Forall2 (geo_out t) Ss gss).
  { eexists. split; [reflexivity|]. clear - D F HW Hd Ht. unfold Ls in *. clear Ls. revert bss HW wss D oss F. induction Ss as [|S Ss IH]; intros bss HW wss D oss F; inversion D as [|? ws ? wss' D1 D2]; subst; cbn [combine map fst snd] in F; inversion F as [|? os ? oss' (F1 & F2) F3]; subst; cbn [combine map fst snd]; [constructor|].
    inversion HW as [|? bs ? bss' W1 W2]; subst. inversion Hd as [|? ? Hd1 Hd2]; subst. inversion Ht as [|? ? Ht1 Ht2]; subst. constructor; [|eapply IH; eauto].
    destruct (until_describe _ _ _ _ D1) as (U1 & U2 & U3). cbn [src_layer wlFeats wlName source_of sFeats sCfg sProj sPeq] in *.
    split; [rewrite map_length, F1; symmetry; apply (Forall2_len _ _ _ D1)|]. intros i f g gf Hi Hg Hgf. rewrite nth_error_map in Hgf. destruct (nth_error os i) as [o|] eqn:Ho; [|discriminate]. cbn [option_map] in Hgf. injection Hgf as <-.
    destruct (Forall2_nth _ _ _ D1 i f Hi) as (w & Hw & Dw). destruct (F2 i w o Hw Ho) as (O1 & O2 & O3). unfold ids_upto, types_upto, cmds_upto in *. rewrite U1, ?U2, ?U3 in *.
    destruct Dw as (_ & Ew & _). rewrite Ew in O2. cbn [geo_feat gfID gfProps gfGeom]. split; [exact O1|]. split; [exact O2|].
    pose proof (gs_extent_pos _ _ _ W1) as Hx. pose proof W1 as (_ & _ & _ & Xx & _ & Hrow & _). unfold all_drawable in Hd1. rewrite Forall_forall in Hd1. destruct (Hd1 f (nth_error_In _ _ Hi)) as (g' & Hg' & Hdr). rewrite Hg in Hg'. injection Hg' as <-.
    destruct (C114_geometry _ _ _ Hrow Hx g Hdr) as (cmds & gd & C1 & C2 & _ & C4). rewrite <- gs_extent_eq in C1. destruct O3 as (c & O3 & O4).
    assert (Oc : own_cmds (SinglePoint (cursor_of (gsCfg S))) peqR f = Some cmds) by (unfold own_cmds, cursor_of; rewrite Hg, C1; reflexivity).
    rewrite (latest_own _ _ (Some cmds)) in O3 by (rewrite nth_error_map, Hi; cbn; rewrite Oc; reflexivity). injection O3 as <-.
    rewrite (latest_own _ _ (wire_type g)) in O4 by (rewrite nth_error_map, Hi; cbn; rewrite Hg; reflexivity). rewrite C2 in O4. injection O4 as <-.
    replace (ext_read (src_layer (source_of S) ws)) with (gs_extent S); [exact C4|]. unfold ext_read, src_layer. cbn [wlExt source_of sCfg]. rewrite gs_extent_eq. assert (gs_extent S < 2 ^ 31)%Z by (unfold gs_extent; destruct (Z.eqb_spec (gExtent (gsCfg S)) 0); lia).
    rewrite wrap64_id by (unfold in_i64; lia). destruct (Z.eqb_spec (gs_extent S) 0); lia. }
  destruct R as (gss & R1 & R2). exists gss. split; [|exact R2]. unfold ReadTileGeo. rewrite E, R1. destruct (concat gss) eqn:Eg; [|reflexivity]. exfalso.
  destruct Hne as (S & HS & Hn). clear - R2 Eg HS Hn. induction R2 as [|S0 gs Ss gss (H & _) _ IH]; [destruct HS|]. cbn [concat] in Eg. apply app_eq_nil in Eg as [-> Eg]. destruct HS as [->|HS]; [|auto]. apply Hn. destruct (gsFeats S); [reflexivity|discriminate].
Qed.
Print Assumptions C114_read_tile.

(** ** Writing what was read *)
Lemma regrid t ext x y : on_rows t -> (0 < ext < 2 ^ 31)%Z -> (0 <= x <= ext)%Z -> (0 <= y <= ext)%Z ->
  SinglePoint (NewCursorExtent t ext true) (unproject t ext (x, y)) = (x, y).
Proof.
  intros Ht He Hx Hy. unfold unproject. cbn [fst snd]. apply SinglePoint_regrid; auto; [unfold in_i32; lia|unfold in_i32; lia|]. destruct Ht as [[T1 T2] T3].
  assert (ext * tY t + ext <= ext * 2 ^ tZ t)%Z by nia. nia.
Qed.
Lemma merge_runs_idem l : merge_runs (merge_runs l) = merge_runs l.
Proof.
  induction l as [|a [|b l] IH]; [reflexivity|reflexivity|]. rewrite merge_runs_eq. destruct (pt_eqb a b) eqn:E; [exact IH|]. destruct (merge_runs_cons b l) as [s Hs]. rewrite Hs in *. rewrite merge_runs_eq, E, IH. reflexivity.
Qed.
Lemma merge_runs_incl l p : In p (merge_runs l) -> In p l.
Proof. induction l as [|a [|b l] IH]; [auto|auto|]. rewrite merge_runs_eq. destruct (pt_eqb a b); cbn [In] in *; [intros H; right; apply IH, H|intros [H|H]; [left; exact H|right; apply IH, H]]. Qed.
Lemma merge_runs_len l : (length (merge_runs l) <= length l)%nat.
Proof. induction l as [|a [|b l] IH]; [auto|auto|]. rewrite merge_runs_eq. destruct (pt_eqb a b); cbn [length] in *; lia. Qed.
Lemma wind_in o l p : In p (wind o l) <-> In p l.
Proof. unfold wind. destruct (Bool.eqb _ _); [tauto|]. symmetry. apply in_rev. Qed.
Lemma wind_len o l : length (wind o l) = length l.
Proof. unfold wind. destruct (Bool.eqb _ _); [auto|]. apply rev_length. Qed.
Lemma wind_idem o l : (o = true -> surveyor l <> 0%Z) -> wind o (wind o l) = wind o l.
Proof.
  intros H. unfold wind. destruct (Z.ltb_spec 0 (surveyor l)); destruct o; cbn [Bool.eqb]; rewrite ?surveyor_rev; try (specialize (H eq_refl)).
  - destruct (Z.ltb_spec 0 (surveyor l)); [reflexivity|lia].
  - destruct (Z.ltb_spec 0 (- surveyor l)); [lia|reflexivity].
  - destruct (Z.ltb_spec 0 (- surveyor l)); [reflexivity|lia].
  - destruct (Z.ltb_spec 0 (surveyor l)); [lia|reflexivity].
Qed.
Lemma wind_merge o l : merge_runs (wind o (merge_runs l)) = wind o (merge_runs l).
Proof. unfold wind. destruct (Bool.eqb _ _); [apply merge_runs_idem|]. rewrite merge_runs_rev, merge_runs_idem. reflexivity. Qed.
(** First and last point of a line *)
Definition ends (l : list (Z * Z)) : Prop := match l with [] => True | f :: _ => last l f = f end.
Lemma ends_rev l : ends l -> ends (rev l).
Proof.
  destruct l as [|f l]; [auto|]. intros H. unfold ends in H. destruct (rev (f :: l)) as [|g r] eqn:E; [exact I|]. unfold ends. rewrite <- E. cbn [rev]. rewrite last_last. 
  assert (X : rev (rev (f :: l)) = rev (g :: r)) by (rewrite E; reflexivity). rewrite rev_involutive in X. rewrite X in H. cbn [rev] in H. rewrite last_last in H. auto.
Qed.
Lemma ends_merge l : ends l -> ends (merge_runs l).
Proof. destruct l as [|f l]; [auto|]. intros H. pose proof (merge_runs_last l f) as L. destruct (merge_runs_cons f l) as [s E]. rewrite E in *. unfold ends in *. rewrite L, <- (last_cons f l f). exact H. Qed.
Lemma peqR_iff a b : peqR a b = true <-> a = b.
Proof. unfold peqR. rewrite andb_true_iff. destruct (Reqb_spec (fst a) (fst b)), (Reqb_spec (snd a) (snd b)), a, b; cbn in *; intuition congruence. Qed.
Lemma last_map_ {A C} (g : A -> C) l d : last (map g l) (g d) = g (last l d).
Proof. induction l as [|a [|b l] IH]; [reflexivity|reflexivity|]. cbn [map last] in *. exact IH. Qed.
Lemma ends_close q (r : list lnglat) : ends (map q (close_ring peqR r)).
Proof.
  destruct r as [|f r]; [exact I|]. cbn [close_ring]. destruct (peqR f (last (f :: r) f)) eqn:E.
  - apply peqR_iff in E. pose proof (last_map_ q (f :: r) f) as L. rewrite <- E in L. cbn [map] in *. exact L.
  - rewrite map_app. cbn [map app]. unfold ends. change (q f :: map q r ++ [q f]) with ((q f :: map q r) ++ [q f])%list. apply last_last.
Qed.
Lemma ends_wind o l : ends l -> ends (wind o l).
Proof. intros H. unfold wind. destruct (Bool.eqb _ _); [exact H|apply ends_rev, H]. Qed.
Lemma close_ends (u : Z * Z -> lnglat) l : ends l -> close_ring peqR (map u l) = map u l.
Proof.
  destruct l as [|f l]; [reflexivity|]. intros H. unfold ends in H. cbn [map]. unfold close_ring. assert (E : last (u f :: map u l) (u f) = u f).
  { pose proof (last_map_ u (f :: l) f) as L. rewrite H in L. exact L. }
  rewrite E. replace (peqR (u f) (u f)) with true by (symmetry; apply peqR_iff; reflexivity). reflexivity.
Qed.

(** The rings of a geometry *)
Definition rings_of (g : geometry lnglat) : list (list lnglat) := match g with XPolygon rs => rs | XMultiPolygon ps => concat ps | _ => [] end.
Section Again.
Variables (t : TileID) (ext : Z).
Hypothesis (Ht : on_rows t) (He : (0 < ext < 2 ^ 31)%Z).
Let q := SinglePoint (NewCursorExtent t ext true).
Let u := unproject t ext.
Definition inside (p : Z * Z) : Prop := (0 <= fst p <= ext /\ 0 <= snd p <= ext)%Z.
Lemma q_inside p : inside (q p).
Proof.
  destruct p as [a b]. unfold q. rewrite SinglePoint_factors. cbn [NewCursorExtent ConvertCursor cExtentBool cExtent]. split; cbn [fst snd]; apply clampExtent_range; lia.
Qed.
Lemma q_u p : inside p -> q (u p) = p.
Proof. intros (H1 & H2). destruct p as [x y]. apply regrid; auto. Qed.
Lemma qu_map l : Forall inside l -> map q (map u l) = l.
Proof. induction 1 as [|p l Hp _ IH]; [reflexivity|]. cbn [map]. rewrite IH, q_u by exact Hp. reflexivity. Qed.
Lemma map_inside l : Forall inside (map q l).
Proof. apply Forall_map, Forall_forall. intros p _. apply q_inside. Qed.
Lemma merge_inside l : Forall inside l -> Forall inside (merge_runs l).
Proof. rewrite !Forall_forall. intros H p Hp. apply H, merge_runs_incl, Hp. Qed.
Lemma wind_inside o l : Forall inside l -> Forall inside (wind o l).
Proof. rewrite !Forall_forall. intros H p Hp. apply H. apply wind_in in Hp. exact Hp. Qed.
Lemma line_again l : merge_runs (map q (map u (merge_runs (map q l)))) = merge_runs (map q l).
Proof. rewrite qu_map by apply merge_inside, map_inside. apply merge_runs_idem. Qed.
Definition seen_ring (o : bool) (r : list lnglat) : list (Z * Z) := wind o (merge_runs (map q (close_ring peqR r))).
Lemma seen_ring_inside o r : Forall inside (seen_ring o r).
Proof. apply wind_inside, merge_inside, map_inside. Qed.
Lemma ring_again o r : (o = true -> surveyor (map q r) <> 0%Z) -> seen_ring o (map u (seen_ring o r)) = seen_ring o r.
Proof.
  intros H. unfold seen_ring at 1. rewrite close_ends by (apply ends_wind, ends_merge, ends_close). rewrite qu_map by apply seen_ring_inside. unfold seen_ring. rewrite wind_merge. apply wind_idem.
  intros E. rewrite surveyor_merge, surveyor_close. auto.
Qed.
Lemma seen_polygon_rings rs : seen_polygon q peqR rs = match rs with [] => [] | o :: hs => seen_ring true o :: map (seen_ring false) hs end.
Proof. unfold seen_polygon. destruct rs as [|o hs]; [reflexivity|]. cbn [map]. rewrite map_map. reflexivity. Qed.
Lemma polygon_again rs : fits_area true t ext rs -> seen_polygon q peqR (map (map u) (seen_polygon q peqR rs)) = seen_polygon q peqR rs.
Proof.
  intros Ha. rewrite !seen_polygon_rings. destruct rs as [|o hs]; [destruct Ha|]. cbn [map]. unfold fits_area in Ha. fold q in Ha. rewrite ring_again by (intros _; exact Ha). f_equal. rewrite !map_map. apply map_ext. intros h. apply ring_again. discriminate.
Qed.
Lemma close_len (r : list lnglat) : (length (close_ring peqR r) <= S (length r))%nat.
Proof. destruct r as [|f r]; [cbn; lia|]. unfold close_ring. destruct (peqR _ _); [lia|]. rewrite app_length. cbn [length]. lia. Qed.
Lemma inside_bounded l : (ext <= 23170)%Z -> Forall inside l -> bounded 23170 l.
Proof. intros H. apply Forall_impl. intros p (A & B). lia. Qed.
Lemma ring_fits o r : (ext <= 23170)%Z -> r <> [] -> (Z.of_nat (length r) < 2 ^ 29 - 2)%Z ->
  map u (seen_ring o r) <> [] /\ bounded 23170 (map q (map u (seen_ring o r))) /\ short (map u (seen_ring o r)).
Proof.
  intros Hx Hr Hl. split; [|split].
  - intros E. apply map_eq_nil in E. assert (F : length (seen_ring o r) = 0%nat) by (rewrite E; reflexivity). unfold seen_ring in F. rewrite wind_len in F.
    destruct r as [|f r]; [congruence|]. unfold close_ring in F. destruct (peqR _ _); cbn [map app] in F.
    + destruct (merge_runs_cons (q f) (map q r)) as [s S]. rewrite S in F. discriminate.
    + destruct (merge_runs_cons (q f) (map q (r ++ [f]))) as [s S]. rewrite S in F. discriminate.
  - rewrite qu_map by apply seen_ring_inside. apply inside_bounded; [exact Hx|apply seen_ring_inside].
  - unfold short, seen_ring. rewrite map_length, wind_len. pose proof (merge_runs_len (map q (close_ring peqR r))). rewrite map_length in H. pose proof (close_len r). lia.
Qed.
Lemma rings_fits rs : (ext <= 23170)%Z -> MvtFlat_Props.writable q rs -> Forall (fun r => (Z.of_nat (length r) < 2 ^ 29 - 2)%Z) rs ->
  MvtFlat_Props.writable q (map (map u) (seen_polygon q peqR rs)).
Proof.
  intros Hx (Hn & Hf) Hs. rewrite seen_polygon_rings. destruct rs as [|o hs]; [congruence|]. inversion Hf as [|? ? (O1 & _) Hf']; subst. inversion Hs as [|? ? S1 S2]; subst. cbn [map]. split; [discriminate|].
  constructor; [apply ring_fits; auto|]. rewrite !Forall_map. rewrite Forall_forall in *. intros h Hh. destruct (Hf' h Hh) as (A & _). apply ring_fits; auto.
Qed.
Lemma area_again rs : fits_area true t ext rs -> fits_area true t ext (map (map u) (seen_polygon q peqR rs)).
Proof.
  intros Ha. rewrite seen_polygon_rings. destruct rs as [|o hs]; [destruct Ha|]. cbn [map]. unfold fits_area in *. fold q in Ha. fold q. rewrite qu_map by apply seen_ring_inside. unfold seen_ring. pose proof (MvtFlat_Props.seen_area q peqR true o) as X. cbv iota in X. rewrite X. lia.
Qed.
Lemma line_fits_again l : (ext < 2 ^ 30)%Z -> fits_line true t ext l -> fits_line true t ext (map u (merge_runs (map q l))).
Proof.
  intros Hx (H1 & H2 & H3). split; [|split].
  - destruct l as [|p l]; [congruence|]. cbn [map]. destruct (merge_runs_cons (q p) (map q l)) as [s ->]. discriminate.
  - rewrite map_length. pose proof (merge_runs_len (map q l)). rewrite map_length in H. lia.
  - assert (F : Forall (fun p => inside (q p)) (map u (merge_runs (map q l)))) by (apply Forall_forall; intros p _; apply q_inside). eapply Forall_impl; [|exact F]. intros p (A & B). fold q. lia.
Qed.

(** What is read of [g] is read back as it is, if the outer rings of polygons have area *)
Definition with_area (g : geometry lnglat) : Prop := match g with XPolygon rs => grid_area true t ext rs | XMultiPolygon ps => Forall (grid_area true t ext) ps | _ => True end.
Theorem C114_again : forall g, drawable true t ext g -> with_area g -> Forall (fun r => (Z.of_nat (length r) < 2 ^ 29 - 2)%Z) (rings_of g) -> exists cmds gd cmds1,
  geom_cmds q peqR g = Ok (Some cmds) /\ LoadGeometryCmds (wire_type g) cmds = Ok gd /\
  geom_cmds q peqR (geo_of t ext gd) = Ok (Some cmds1) /\ LoadGeometryCmds (wire_type (geo_of t ext gd)) cmds1 = Ok gd.
Proof.
  intros g Hd HA Hs. assert (He' : (0 < ext)%Z) by lia. pose proof (drawable_fits true t ext Ht He' g Hd) as Hf. destruct (fits_read true t ext g Hf) as (cmds & A & B & _). fold q in A.
  exists cmds, (seen true t ext g).
  enough (K : fits true t ext (geo_of t ext (seen true t ext g)) /\ seen true t ext (geo_of t ext (seen true t ext g)) = seen true t ext g).
  { destruct K as [K1 K2]. destruct (fits_read true t ext _ K1) as (cmds1 & A1 & B1 & _). rewrite K2 in B1. exists cmds1. auto. }
  clear A B cmds.
  assert (KP : forall p, on_map (2 ^ 30 - 1) true t ext p /\ grid true t ext p <> (0, 0)%Z -> ((- 2 ^ 30 <= fst (q p) < 2 ^ 30)%Z /\ (- 2 ^ 30 <= snd (q p) < 2 ^ 30)%Z) /\ q p <> (0, 0)%Z ->
     fits true t ext (XPoint (u (q p))) /\ seen true t ext (XPoint (u (q p))) = GPoint (q p)).
  { intros p _ X. cbn [fits seen]. fold q. rewrite q_u by apply q_inside. auto. }
  destruct g as [p|l|rs|ps|ls|mps|]; cbn [drawable fits rings_of with_area] in *.
  - apply (KP p); assumption.
  - destruct Hd as (N & D & _). assert (ext < 2 ^ 30)%Z by (destruct l as [|p l]; [congruence|]; inversion D as [|? ? (_ & X) _]; subst; cbv beta zeta in X; lia).
    cbn [seen geo_of fits]. fold q u. split; [apply line_fits_again; auto|]. rewrite line_again. reflexivity.
  - pose proof (area_pre true t ext Ht He' rs Hd HA) as HA'. destruct Hd as (N & D). assert (ext <= 23170)%Z.
    { destruct rs as [|r rs]; [congruence|]. inversion D as [|? ? (M & X & _) _]; subst. destruct r as [|p r]; [congruence|]. inversion X as [|? ? (_ & Y) _]; subst. cbv beta zeta in Y. lia. }
    cbn [seen geo_of fits]. fold q u. split; [apply rings_fits; auto|]. rewrite polygon_again by exact HA'. reflexivity.
  - destruct ps as [|p [|]]; [contradiction|apply (KP p); assumption|contradiction].
  - destruct Hd as (N & D). destruct Hf as (_ & F). assert (ext < 2 ^ 30)%Z.
    { destruct ls as [|l ls]; [congruence|]. inversion D as [|? ? (M & X & _) _]; subst. destruct l as [|p l]; [congruence|]. inversion X as [|? ? (_ & Y) _]; subst. cbv beta zeta in Y. lia. }
    assert (G : Forall (fits_line true t ext) (map (map u) (map (fun l => merge_runs (map q l)) ls))).
    { rewrite !Forall_map. eapply Forall_impl; [|exact F]. intros l. apply line_fits_again. assumption. }
    assert (E : map (fun l => merge_runs (map q l)) (map (map u) (map (fun l => merge_runs (map q l)) ls)) = map (fun l => merge_runs (map q l)) ls).
    { rewrite map_map, map_map. apply map_ext. intros l. apply line_again. }
    cbn [seen]. fold q u. destruct ls as [|a [|b ls]]; [congruence| |].
    + cbn [map geo_of fits seen] in *. fold q u. inversion G; subst. split; [assumption|]. f_equal. congruence.
    + cbn [map] in *. cbn [geo_of map fits seen]. fold q u. cbn [map]. split; [split; [discriminate|exact G]|]. f_equal. exact E.
  - destruct Hd as (N & D & _). destruct Hf as (_ & F & _). assert (ext <= 23170)%Z.
    { destruct mps as [|rs mps]; [congruence|]. inversion D as [|? ? (M & X) _]; subst. destruct rs as [|r rs]; [congruence|]. inversion X as [|? ? (M' & X' & _) _]; subst. destruct r as [|p r]; [congruence|]. inversion X' as [|? ? (_ & Y) _]; subst. cbv beta zeta in Y. lia. }
    assert (S' : Forall (Forall (fun r : list lnglat => (Z.of_nat (length r) < 2 ^ 29 - 2)%Z)) mps).
    { clear - Hs. induction mps as [|rs mps IH]; [constructor|]. cbn [concat] in Hs. apply Forall_app in Hs as [A B]. constructor; auto. }
    assert (AF : Forall (fits_area true t ext) mps).
    { rewrite Forall_forall in *. intros rs Hrs. apply area_pre; auto. }
    assert (G : Forall (MvtFlat_Props.writable q) (map (map (map u)) (map (seen_polygon q peqR) mps))).
    { rewrite !Forall_map. rewrite Forall_forall in *. intros rs Hrs. apply rings_fits; auto. }
    assert (GA : Forall (fits_area true t ext) (map (map (map u)) (map (seen_polygon q peqR) mps))).
    { rewrite !Forall_map. eapply Forall_impl; [|exact AF]. exact area_again. }
    assert (E : map (seen_polygon q peqR) (map (map (map u)) (map (seen_polygon q peqR) mps)) = map (seen_polygon q peqR) mps).
    { rewrite map_map, map_map. apply map_ext_in. intros rs Hrs. apply polygon_again. rewrite Forall_forall in AF. auto. }
    cbn [seen]. fold q u. destruct mps as [|a [|b ls]]; [congruence| |].
    + cbn [map geo_of fits seen] in *. fold q u. inversion G; subst. split; [assumption|]. f_equal. congruence.
    + cbn [map] in *. cbn [geo_of map fits seen]. fold q u. cbn [map]. split; [split; [discriminate|split; [exact G|exact (Forall_inv_tail GA)]]|]. f_equal. exact E.
  - contradiction.
Qed.
End Again.
Print Assumptions C114_again.

(** ** Layers made with NewLayer, AddFeature and Flush: extent 4096, version 0, nothing moved into the tile *)
Theorem C114_new_layer : forall pt t name fs bs, NewLayerFlush t name pt fs = Ok bs -> Forall go_feature fs -> on_rows t ->
  (fold_right (fun f n => zlen (fProps f) + n) 0 fs <= 2 ^ 32)%Z -> (zlen bs < 2 ^ 62)%Z ->
  exists tl l, (forall fuel, (length bs < fuel)%nat -> NewTile fuel pt bs = Ok tl) /\ tMap tl = [(name, l)] /\
    lName l = name /\ lExtent l = 4096%Z /\ lVersion l = 0%Z /\ length (lFeats l) = length fs /\
    forall i f g, nth_error fs i = Some f -> fGeom f = Some g -> drawable false t 4096 g ->
      exists rf gf, (forall fuel, (4 <= fuel)%nat -> Feature fuel (getProto pt) bs l i = Ok rf) /\
        ToGeoJSON bs l rf t = OValue gf /\ gfID gf = id_of (fID f) /\ wire_props (fProps f) (gfProps gf) /\ faithful false t 4096 g (gfGeom gf).
Proof.
  intros pt t name fs bs E Hf Ht Hp Hb. pose proof (getProto_dialect pt) as HP. unfold NewLayerFlush in E. set (q := SinglePoint (NewCursorExtent t 4096 false)) in *.
  destruct (fold_res (AddFeature q peqR (getProto pt)) fs layerw0) as [s| |] eqn:E1; cbn [bind] in E; try discriminate. apply fold_describe in E1 as (ws & D & E1).
  assert (Eb : bs = Flush (getProto pt) name 0 0 s) by congruence. clear E.
  assert (HL : is_layer (getProto pt) (mkWL name 0 0 ws) bs).
  { rewrite Eb. apply flush_is_layer; auto.
    - rewrite (total_describe _ _ _ _ D). auto.
    - intros w k v Hw Hk. clear - D Hf Hw Hk. induction D as [|f w0 fs ws (_ & E & _) _ IH]; [destruct Hw|]. inversion Hf as [|? ? ((_ & G) & _)]; subst.
      destruct Hw as [<-|Hw]; [|auto]. rewrite E in Hk. eauto. }
  clear Eb. assert (A0 : at_ bs 0 (concat [bs])) by (exists []; cbn [concat app]; rewrite app_nil_r; auto).
  assert (Lb : length (concat [bs]) = length bs) by (cbn [concat]; rewrite app_nil_r; auto).
  destruct (tile_loop_at (getProto pt) bs HP Hb [mkWL name 0 0 ws] [bs] ltac:(constructor; auto) 0%Z (mkTileV [] []) (S (length bs)) A0 ltac:(lia)) as (ls & ET & F).
  cbn [combine] in F. inversion F as [|? l ? ls' (r & bd & HR & Ebs & Hat & Hend & El) F2]; subst ls. inversion F2; subst. cbn [fst snd] in *.
  pose proof HR as (bodies & vt & B1 & B2 & B3 & B4 & B5 & B6 & B7 & B8). cbn [wlName wlExt wlVer wlFeats] in *.
  assert (Nl : lName l = name) by (rewrite El; auto).
  exists (mkTileV (name_list name) [(name, l)]), l. split.
  { intros fuel Hfu. unfold NewTile.
    destruct (tile_loop_at (getProto pt) _ HP Hb [mkWL name 0 0 ws] [bs] ltac:(constructor; auto) 0%Z (mkTileV [] []) fuel A0 ltac:(lia)) as (ls' & ET' & _).
    pose proof (tile_loop_det _ _ _ _ _ _ _ _ ET ET') as X. rewrite ET', <- X. cbn [tNames tMap flat_map put_all mput wlName app]. rewrite app_nil_r, Nl. reflexivity. }
  split; [reflexivity|]. split; [exact Nl|]. assert (Hx : lExtent l = 4096%Z) by (rewrite El; cbn [lExtent]; rewrite B6; reflexivity). split; [exact Hx|].
  split; [rewrite El; cbn [lVersion]; rewrite B7; reflexivity|].
  split. { rewrite El. cbn [lFeats]. rewrite (Forall2_len _ _ _ B8), <- (Forall2_len _ _ _ B1), <- (Forall2_len _ _ _ D). auto. }
  intros i f g Hi Hg Hd. destruct (Forall2_nth _ _ _ D i f Hi) as (w & Hw & Dw). rewrite Forall_forall in Hf. pose proof (Hf f (nth_error_In _ _ Hi)) as Gf.
  destruct (describe_ok _ _ f w Gf Dw) as [K1 K2].
  destruct (nth_feature 0 (getProto pt) _ _ r i w 0%Z 0%Z 0%Z HP Hb ltac:(lia) HR Hw K1) as (p & size & p1 & m & gp & N1 & N2 & N3 & N4 & N5).
  destruct (C114_geometry false t 4096 Ht ltac:(lia) g Hd) as (cmds & gd & C1 & C2 & C3 & C4). fold q in C1.
  destruct Dw as (D1 & D2 & D3 & D4). rewrite Hg in D3, D4. cbn [option_map] in D3. rewrite C1 in D4. injection D4 as D4. rewrite <- D4 in N4. destruct K1 as (_ & _ & K3). assert (Hb' : (zlen bs < 2 ^ 63)%Z) by lia.
  destruct (holds_read _ gp cmds Hb' (K3 _ (eq_sym D4)) N4) as (e & Er).
  eexists. eexists. split; [|split].
  - intros fuel Hfu. unfold Feature. rewrite El. cbn [lFeats lKeys lVals]. rewrite N1, N2. cbn [bind]. apply N5. auto.
  - unfold ToGeoJSON, ToGeoJSON_outcome, LoadGeometry, LoadGeometryRaw. cbn [rfGeomPos rfType rfID rfProps]. rewrite Er. cbn [bind]. rewrite D3; change (geom_code g) with (wire_type g); rewrite C2, Hx. destruct gd; try reflexivity. congruence.
  - cbn [gfID gfProps gfGeom]. split; [|split; [rewrite D2 in N3; exact N3|exact C4]]. rewrite D1. unfold id_of. destruct (fID f) eqn:E; auto. apply wrap64_id. apply K2. rewrite D1. reflexivity.
Qed.
Print Assumptions C114_new_layer.

(** ** The first grid point *)
(** A point at the north-west corner of the tile, or with ExtentBool anywhere beyond it, is written and cannot be read:
    ToGeoJSON returns an error *)
Theorem C114_corner_refuted : forall pt S bs, geo_written pt S bs -> (zlen bs < 2 ^ 62)%Z ->
  exists tl l, (forall fuel, (length bs < fuel)%nat -> NewTile fuel pt bs = Ok tl) /\ mget (gName (gsCfg S)) (tMap tl) = Some l /\
    forall i f p, nth_error (gsFeats S) i = Some f -> fGeom f = Some (XPoint p) -> on_map (2 ^ 30 - 1) (gExtentBool (gsCfg S)) (gTile (gsCfg S)) (gs_extent S) p ->
      grid (gExtentBool (gsCfg S)) (gTile (gsCfg S)) (gs_extent S) p = (0, 0)%Z ->
      exists rf, (forall fuel, (4 <= fuel)%nat -> Feature fuel (getProto pt) bs l i = Ok rf) /\ ToGeoJSON bs l rf (gTile (gsCfg S)) = OError.
Proof.
  intros pt S bs W B. pose proof (gs_extent_pos _ _ _ W) as Hx. pose proof (geo_written_written _ _ _ W) as W'.
  destruct (C19_lazy_round_trip lnglat pt [source_of S] [bs]) as (tl & E & _ & _ & L).
  { constructor; [exact W'|constructor]. } { cbn [concat]. rewrite app_nil_r. exact B. } { constructor; [intros []|constructor]. }
  cbn [concat] in *. rewrite app_nil_r in *. inversion L as [|? ? (l & G & (_ & X & _ & _ & H)) _]; subst. exists tl, l. split; [exact E|]. split; [exact G|].
  intros i f p Hi Hg Hm Hc. destruct (H i f Hi) as (rf & F & _ & _ & R). exists rf. split; [exact F|]. rewrite Hg in R. destruct R as (_ & R).
  assert (Hp : sProj (source_of S) p = (0, 0)%Z).
  { cbn [source_of sProj]. unfold cursor_of. rewrite gs_extent_eq. rewrite (SinglePoint_grid (2 ^ 30 - 1)); auto; try lia. apply W. }
  destruct (R [9%Z]) as [_ R']. { cbn [geom_cmds]. unfold MakePointFloat. rewrite Hp. reflexivity. }
  unfold ToGeoJSON, ToGeoJSON_outcome. rewrite R'. reflexivity.
Qed.
Print Assumptions C114_corner_refuted.

(** ** An example *)
(** The whole world as a tile of 4096 units, ExtentBool: (90, 0) is at (3072, 2048), (-190, 0) is moved to column 0 *)
Definition world : TileID := mkTile 0 0 0.
Definition example_layer : geosource := mkGS [mkFeat (IDInt 7) [] (Some (XPoint (90, 0)%R)); mkFeat IDNil [] (Some (XLineString [(-190, 0); (0, 0); (0, 0); (90, 0)]))] (NewConfig [114%Z] world 0).
Lemma world_column lng : column world 4096 lng = (lng + 180) / 360 * 4096.
Proof. unfold column, world. cbn [tZ tX Z.to_nat pow]. field. Qed.
Lemma world_row0 : row world 4096 0 = 2048.
Proof. unfold row, world. cbn [tZ tY Z.to_nat pow]. rewrite Rmult_0_l, tan_0, cos_0. replace (0 + 1 / 1) with 1 by field. rewrite ln_1. field. apply PI_neq0. Qed.
Lemma world_grid lng k : within 4096 ((lng + 180) / 360 * 4096) = IZR k -> grid true world 4096 (lng, 0) = (k, 2048%Z).
Proof.
  intros H. unfold grid. cbn [fst snd]. rewrite world_column, world_row0, H, RoundHA_IZR. f_equal. unfold within. rewrite Rmin_right, Rmax_right by lra. apply (RoundHA_IZR 2048).
Qed.
Lemma grid_w : grid true world 4096 (-190, 0) = (0, 2048)%Z.
Proof. apply world_grid. unfold within. rewrite Rmin_right, Rmax_left by lra. reflexivity. Qed.
Lemma grid_0 : grid true world 4096 (0, 0) = (2048, 2048)%Z.
Proof. apply world_grid. unfold within. rewrite Rmin_right, Rmax_right by lra. lra. Qed.
Lemma grid_e : grid true world 4096 (90, 0) = (3072, 2048)%Z.
Proof. apply world_grid. unfold within. rewrite Rmin_right, Rmax_right by lra. lra. Qed.
Lemma sinh_pos : 0 < sinh PI.
Proof. rewrite <- sinh_0. apply sinh_lt, PI_RGT_0. Qed.
Lemma world_on_map lng : -1000 <= lng <= 1000 -> on_map (2 ^ 30 - 1) true world 4096 (lng, 0).
Proof.
  intros H. unfold on_map. cbn [fst snd]. pose proof PI_RGT_0. assert (A : 0 < atan (sinh PI)) by (rewrite <- atan_0; apply atan_increasing, sinh_pos).
  assert (B : 0 <= 180 / PI * atan (sinh PI)). { apply Rmult_le_pos; [|lra]. apply Rmult_le_pos; [lra|]. left. apply Rinv_0_lt_compat. lra. }
  split; [lra|]. rewrite world_column, world_row0. assert (C : IZR (2 ^ 31 - 2) = 2147483646) by reflexivity. rewrite C. cbv beta zeta. split; (split; [apply Rabs_le; lra|lia]).
Qed.
Lemma point_world lng : -1000 <= lng <= 1000 -> SinglePoint (NewCursorExtent world 4096 true) (lng, 0) = grid true world 4096 (lng, 0).
Proof. intros H. apply (SinglePoint_grid (2 ^ 30 - 1)); [lia|split; cbn; lia|lia|apply world_on_map, H]. Qed.
Example C114_nonvacuous : exists bs, geo_written 0 example_layer bs /\ all_drawable example_layer /\ (zlen bs < 2 ^ 62)%Z /\
  snapped true world 4096 (90, 0) (90, 0) /\ snapped true world 4096 (-190, 0) (-180, 0) /\ drawn true world 4096 [(-190, 0); (0, 0); (0, 0); (90, 0)] [(-180, 0); (0, 0); (90, 0)].
Proof.
  assert (Sn : forall a b k, grid true world 4096 (a, 0) = (k, 2048)%Z -> (b + 180) / 360 * 4096 = IZR k -> snapped true world 4096 (a, 0) (b, 0)).
  { intros a b k G E. unfold snapped. cbn [fst snd]. rewrite G. cbn [fst snd]. rewrite world_column, world_row0, E. split; reflexivity. }
  assert (S1 : snapped true world 4096 (90, 0) (90, 0)) by (apply (Sn _ _ _ grid_e); lra).
  assert (S2 : snapped true world 4096 (-190, 0) (-180, 0)) by (apply (Sn _ _ _ grid_w); lra).
  assert (S3 : snapped true world 4096 (0, 0) (0, 0)) by (apply (Sn _ _ _ grid_0); lra).
  assert (E : exists bs, WriteLayerGeo (gsFeats example_layer) (gsCfg example_layer) = Ok bs /\ (zlen bs < 2 ^ 62)%Z).
  { unfold WriteLayerGeo, WriteLayer, example_layer. cbn [gsFeats gsCfg NewConfig cfg_of MvtLayer_Model.cProto fold_res]. change (cursor_of _) with (NewCursorExtent world 4096 true).
    set (q := SinglePoint (NewCursorExtent world 4096 true)).
    assert (Q1 : q (90, 0) = (3072, 2048)%Z) by (unfold q; rewrite point_world, grid_e by lra; reflexivity).
    assert (Q2 : q (-190, 0) = (0, 2048)%Z) by (unfold q; rewrite point_world, grid_w by lra; reflexivity).
    assert (Q3 : q (0, 0) = (2048, 2048)%Z) by (unfold q; rewrite point_world, grid_0 by lra; reflexivity).
    assert (C1 : geom_cmds q peqR (XPoint (90, 0)) = Ok (Some [9; 6144; 4096]%Z)) by (cbn [geom_cmds]; unfold MakePointFloat; rewrite Q1; vm_compute; reflexivity).
    assert (C2 : geom_cmds q peqR (XLineString [(-190, 0); (0, 0); (0, 0); (90, 0)]) = Ok (Some [9; 0; 4096; 18; 4096; 0; 2048; 0]%Z)).
    { cbn [geom_cmds]. rewrite MakeLineFloat_map. cbn [map]. rewrite Q1, Q2, Q3. vm_compute. reflexivity. }
    unfold AddFeature. cbn [fGeom fID fProps]. rewrite C1, C2. cbn [geom_code]. clear. match goal with |- exists bs, ?x = Ok bs /\ _ => let y := eval vm_compute in x in match y with Ok ?b => exists b end end.
    split; vm_compute; reflexivity. }
  destruct E as (bs & E & B). exists bs. split; [|split; [|split; [exact B|split; [exact S1|split; [exact S2|]]]]].
  - split; [exact E|]. split; [reflexivity|]. split.
    { cbn [example_layer gsFeats]. constructor; [|constructor; [|constructor]]; (split; [split; [constructor|intros k v []]|cbn; try lia; auto]). }
    cbn [example_layer gsCfg gsFeats NewConfig gExtent gVersion gTile fold_right fProps]. split; [lia|]. split; [lia|]. split; [split; cbn; lia|]. vm_compute. discriminate.
  - cbn [all_drawable example_layer gsFeats]. constructor; [|constructor; [|constructor]]; (eexists; split; [reflexivity|]); unfold gs_drawable; cbn [gsCfg example_layer NewConfig gExtentBool gTile drawable]; change (gs_extent _) with 4096%Z.
    + split; [apply world_on_map; lra|]. rewrite grid_e. discriminate.
    + split; [discriminate|]. split; [|cbn; lia]. repeat (constructor; [apply world_on_map; lra|]). constructor.
  - exists [(-180, 0); (0, 0); (0, 0); (90, 0)]. split; [repeat (constructor; [assumption|]); constructor|]. apply sq_keep; [intros F; injection F; lra|]. apply sq_skip, sq_keep; [intros F; injection F; lra|]. apply sq_one.
Qed.

(** ** Without area, writing what was read changes it: every time the outer ring is turned round *)
Lemma world_on_map' lng : -1000 <= lng <= 1000 -> on_map 23170 true world 4096 (lng, 0).
Proof.
  intros H. destruct (world_on_map lng H) as (A & _). split; [exact A|]. cbn [fst snd]. rewrite world_column, world_row0. assert (C : IZR (2 ^ 31 - 2) = 2147483646) by reflexivity. rewrite ?C. cbv beta zeta. split; (split; [apply Rabs_le; lra|lia]).
Qed.
Theorem C114_again_refuted : exists g cmds gd cmds1 gd1, drawable true world 4096 g /\ Forall (fun r => (Z.of_nat (length r) < 2 ^ 29 - 2)%Z) (rings_of g) /\
  geom_cmds (SinglePoint (NewCursorExtent world 4096 true)) peqR g = Ok (Some cmds) /\ LoadGeometryCmds (wire_type g) cmds = Ok gd /\
  geom_cmds (SinglePoint (NewCursorExtent world 4096 true)) peqR (geo_of world 4096 gd) = Ok (Some cmds1) /\ LoadGeometryCmds (wire_type (geo_of world 4096 gd)) cmds1 = Ok gd1 /\ gd1 <> gd.
Proof.
  assert (Ht : on_rows world) by (split; cbn; lia). assert (He : (0 < 4096 < 2 ^ 31)%Z) by lia.
  set (r := [(0, 0); (90, 0); (-190, 0)] : list lnglat). set (q := SinglePoint (NewCursorExtent world 4096 true)).
  assert (Q1 : q (90, 0) = (3072, 2048)%Z) by (unfold q; rewrite point_world, grid_e by lra; reflexivity).
  assert (Q2 : q (-190, 0) = (0, 2048)%Z) by (unfold q; rewrite point_world, grid_w by lra; reflexivity).
  assert (Q3 : q (0, 0) = (2048, 2048)%Z) by (unfold q; rewrite point_world, grid_0 by lra; reflexivity).
  assert (D : drawable true world 4096 (XPolygon [r])).
  { split; [discriminate|]. constructor; [|constructor]. split; [discriminate|]. split; [|unfold short, r; cbn [length]; lia]. repeat (constructor; [apply world_on_map'; lra|]). constructor. }
  assert (L : Forall (fun r => (Z.of_nat (length r) < 2 ^ 29 - 2)%Z) [r]) by (constructor; [unfold r; cbn [length]; lia|constructor]).
  pose proof (drawable_fits true world 4096 Ht ltac:(lia) _ D) as F. destruct (fits_read true world 4096 _ F) as (cmds & A & B & _).
  assert (F' : fits true world 4096 (geo_of world 4096 (seen true world 4096 (XPolygon [r])))).
  { cbn [fits seen geo_of] in *. apply rings_fits; auto. lia. }
  destruct (fits_read true world 4096 _ F') as (cmds1 & A1 & B1 & _).
  exists (XPolygon [r]), cmds, (seen true world 4096 (XPolygon [r])), cmds1, (seen true world 4096 (geo_of world 4096 (seen true world 4096 (XPolygon [r])))).
  split; [exact D|]. split; [exact L|]. split; [exact A|]. split; [exact B|]. split; [exact A1|]. split; [exact B1|].
  cbn [seen geo_of]. rewrite !seen_polygon_rings. cbn [map]. intros K.
  assert (K' : seen_ring world 4096 true (map (unproject world 4096) (seen_ring world 4096 true r)) = seen_ring world 4096 true r) by congruence. clear K.
  unfold seen_ring at 1 in K'. rewrite close_ends in K' by (apply ends_wind, ends_merge, ends_close). rewrite qu_map in K' by (auto; apply seen_ring_inside; auto).
  unfold seen_ring in K'. rewrite wind_merge in K'. fold q in K'.
  assert (C : map q (close_ring peqR r) = [(2048, 2048); (3072, 2048); (0, 2048); (2048, 2048)]%Z).
  { unfold r, close_ring. cbn [last]. replace (peqR _ _) with false; [cbn [map app]; rewrite Q1, Q2, Q3; reflexivity|]. symmetry. apply not_true_is_false. intros P. apply peqR_iff in P. injection P. lra. }
  rewrite C in K'. vm_compute in K'. discriminate.
Qed.
Print Assumptions C114_again_refuted.
