(** Property C136: layers written from and read to longitude/latitude, in binary64. *)
From Coq Require Import ZArith List Lia Bool Reals Lra.
From Flocq Require Import Core BinarySingleNaN.
From Verif Require Import GoBase Num Tileid_Model TileR_Model TileR_Proofs TileF64_Model TileF64_Proofs F64 ColorF64_Model ColorF64_Proofs Tile64_Model Tile64_Proofs Tile64_Props
  MvtProj_Model MvtProj_Proofs MvtProj64_Model MvtProj64_Proofs MvtProj64_Props Pbf_Model MvtGeom_Model MvtGeom_Spec MvtGeom_Proofs MvtLayer_Model MvtLayer_Spec Pbf_Proofs MvtLayer_Proofs MvtLayerRead_Proofs MvtLayer_Props MvtTile_Proofs MvtTile_Props
  MvtGeo_Model Decode64_Model Decode64_Props MvtAgain_Proofs MvtAgain64_Model MvtAgain64_Props MvtGeo64_Model MvtGeo64_Proofs MvtFlat_Props.
From Verif Require MvtGeo_Props.
Import ListNotations.
Open Scope R_scope.

(** ** Positions and the grid of a tile; [MvtGeo_Props.column] and [row] are the exact Mercator projection *)
Definition same_place (a b : lnglat64) : Prop := B2R (fst a) = B2R (fst b) /\ B2R (snd a) = B2R (snd b).
Definition finite2 (p : lnglat64) : Prop := is_finite (fst p) = true /\ is_finite (snd p) = true.
Section Geometry.
Variables (eb : bool) (t : TileID) (e : Z).
Definition ecol (p : lnglat64) : R := MvtGeo_Props.column t e (B2R (fst p)).
Definition erow (p : lnglat64) : R := MvtGeo_Props.row t e (B2R (snd p)).
(** Where the position is wanted: moved into the tile if the configuration says so *)
Definition target (v : R) : R := if eb then MvtGeo_Props.within e v else v.
(** On the square map and less than the width of the tile away from it *)
Definition placed (p : lnglat64) : Prop :=
  finite2 p /\ - (180 / PI * atan (sinh PI)) <= B2R (snd p) <= 180 / PI * atan (sinh PI) /\
  - IZR e + 1 <= ecol p <= 2 * IZR e - 1 /\ - IZR e + 1 <= erow p <= 2 * IZR e - 1.
(** [g] is a grid point next to [p]: half a unit and what the arithmetic adds, which is less than 3/1000 of a unit for
    columns and 35/100 for rows at the last zoom that is considered and 2^-z of that for the others *)
Definition next_to (p : lnglat64) (g : Z * Z) : Prop :=
  Rabs (IZR (fst g) - target (ecol p)) <= 1 / 2 + IZR (e * 2 ^ tZ t) * (4 / 1000000000000000) /\
  Rabs (IZR (snd g) - target (erow p)) <= 1 / 2 + IZR (e * 2 ^ tZ t) * (5 / 1000000000000).
(** [p] is the place of the grid point [g], to 2.3e-13 degrees of longitude and 2.7e-12 degrees of latitude *)
Definition at_grid (g : Z * Z) (p : lnglat64) : Prop :=
  finite2 p /\
  Rabs (B2R (fst p) - (360 * (IZR (e * tX t + fst g) / IZR (e * 2 ^ tZ t)) - 180)) <= 23 / 100000000000000 /\
  Rabs (B2R (snd p) - 180 / PI * atan (sinh (PI * (1 - 2 * (IZR (e * tY t + snd g) / IZR (e * 2 ^ tZ t)))))) <= 27 / 10000000000000.
(** A choice of grid points: one for every place *)
Definition gridding (gr : lnglat64 -> Z * Z) : Prop :=
  (forall a b, finite2 a -> finite2 b -> same_place a b -> gr a = gr b) /\ forall p, placed p -> next_to p (gr p).

(** ** What reading a written geometry gives *)
Section Faithful.
Variable gr : lnglat64 -> Z * Z.
Definition drawn64 (l l' : list lnglat64) : Prop := exists gs, MvtGeo_Props.squeezed (map gr l) gs /\ Forall2 at_grid gs l'.
(** A ring with its first point at the end *)
Definition closes64 (r c : list lnglat64) : Prop := exists f, nth_error r 0 = Some f /\ ((same_place (last r f) f /\ c = r) \/ (~ same_place (last r f) f /\ c = (r ++ [f])%list)).
(** On the grid rings keep their area; that of outer rings is not negative, that of holes not positive *)
Definition ring64 (outer : bool) (r r' : list lnglat64) : Prop :=
  exists c gs ws, closes64 r c /\ MvtGeo_Props.squeezed (map gr c) gs /\ (ws = gs \/ ws = rev gs) /\ surveyor ws = (if outer then Z.abs (surveyor (map gr r)) else - Z.abs (surveyor (map gr r)))%Z /\ Forall2 at_grid ws r'.
Definition shape64 (rs rs' : list (list lnglat64)) : Prop :=
  match rs, rs' with o :: hs, o' :: hs' => ring64 true o o' /\ Forall2 (ring64 false) hs hs' | _, _ => False end.
Definition faithful64 (g g' : geometry lnglat64) : Prop :=
  match g, g' with
  | XPoint p, XPoint p' | XMultiPoint [p], XPoint p' => at_grid (gr p) p'
  | XLineString l, XLineString l' | XMultiLineString [l], XLineString l' => drawn64 l l'
  | XMultiLineString ((_ :: _ :: _) as ls), XMultiLineString ls' => Forall2 drawn64 ls ls'
  | XPolygon rs, XPolygon rs' | XMultiPolygon [rs], XPolygon rs' => shape64 rs rs'
  | XMultiPolygon ((_ :: _ :: _) as ps), XMultiPolygon ps' => Forall2 shape64 ps ps'
  | _, _ => False
  end.
End Faithful.
(** Geometries that can be written and read: not several points, no point next to the first grid point of the tile, no
    polygon after another one with an outer ring that may get no area *)
Definition line_fits64 (l : list lnglat64) : Prop := l <> [] /\ Forall placed l.
Definition close_by (p : lnglat64) : Prop := placed p /\ if eb then (e <= 23170)%Z else Rabs (ecol p) <= 23169 /\ Rabs (erow p) <= 23169.
Definition rings_fit64 (rs : list (list lnglat64)) : Prop :=
  rs <> [] /\ Forall (fun r => r <> [] /\ Forall close_by r) rs.
Definition area64 (rs : list (list lnglat64)) : Prop :=
  match rs with [] => True | o :: _ => forall gs, Forall2 next_to o gs -> surveyor gs <> 0%Z end.
Definition drawable64 (g : geometry lnglat64) : Prop :=
  (Z.of_nat (words g) <= 2 ^ 21)%Z /\
  match g with
  | XPoint p | XMultiPoint [p] => placed p /\ ~ next_to p (0, 0)%Z
  | XLineString l => line_fits64 l
  | XMultiLineString ls => ls <> [] /\ Forall line_fits64 ls
  | XPolygon rs => rings_fit64 rs
  | XMultiPolygon ps => ps <> [] /\ Forall rings_fit64 ps /\ Forall area64 (tl ps)
  | _ => False
  end.

Variables (m : libm) (mExp : f64 -> f64).
Hypothesis G : good_proj m mExp.
Hypothesis M : on_map t.
Hypothesis He : (1 <= e < 2 ^ 29)%Z.
Hypothesis HN : (e * 2 ^ tZ t <= 2 ^ 36)%Z.
Let q := SinglePoint64 m (NewCursorExtent64 m t e eb).
Let u (p : Z * Z) : lnglat64 := unproject64 m mExp t e (lp p).
Local Lemma He' : (1 <= e < 2 ^ 31)%Z. Proof. lia. Qed.

Lemma ecol_k p : ecol p = colk t (B2R (fst p)) * IZR e.
Proof. unfold ecol. rewrite MvtGeo_Props.column_eq by apply M. rewrite pow2_IZR by apply M. reflexivity. Qed.
Lemma erow_k p : erow p = rowk t (B2R (snd p)) * IZR e.
Proof. unfold erow. rewrite MvtGeo_Props.row_eq by apply M. rewrite pow2_IZR by apply M. reflexivity. Qed.
Lemma k_rng k : - IZR e + 1 <= k * IZR e <= 2 * IZR e - 1 -> -1 <= k <= 2 /\ Rabs (k * IZR e) <= IZR (2 ^ 31 - 2).
Proof.
  intros H. assert (ER : 1 <= IZR e <= 536870912) by (split; apply IZR_le; lia). split; [split; apply Rmult_le_reg_r with (IZR e); lra|]. change (2 ^ 31 - 2)%Z with 2147483646%Z. apply ab. lra.
Qed.
Lemma clamp_near d x v : Rabs (IZR x - v) <= d -> Rabs (IZR (clampExtent e x) - MvtGeo_Props.within e v) <= d.
Proof.
  intros H. apply ab in H. assert (E1 : 1 <= IZR e) by (apply IZR_le; lia). assert (K : IZR (clampExtent e x) = Rmax 0 (Rmin (IZR e) (IZR x))).
  { unfold clampExtent. destruct (Z.geb_spec x e) as [L|L]; [|destruct (Z.ltb_spec x 0) as [L'|L']].
    - destruct (Z.ltb_spec e 0); [lia|]. apply IZR_le in L. rewrite Rmin_left, Rmax_right by lra. reflexivity.
    - apply IZR_lt in L, L'. rewrite Rmin_right, Rmax_left by lra. reflexivity.
    - apply IZR_lt in L. apply IZR_le in L'. rewrite Rmin_right, Rmax_right by lra. reflexivity. }
  rewrite K. unfold MvtGeo_Props.within. apply ab. unfold Rmax, Rmin. repeat destruct (Rle_dec _ _); lra.
Qed.
Lemma q_next p : placed p -> next_to p (q p) /\ near_tile t e eb (q p).
Proof.
  intros ((F1 & F2) & HL & HC & HR). rewrite ecol_k in HC. rewrite erow_k in HR. destruct (k_rng _ HC) as [C1 C2]. destruct (k_rng _ HR) as [R1 R2].
  destruct (col_near m mExp G t e M He' HN (fst p) (B2R (fst p)) (conj F1 eq_refl) C1 C2) as [X1 X2]. destruct (row_near m mExp G t e M He' HN (snd p) (B2R (snd p)) (conj F2 eq_refl) HL R1 R2) as [Y1 Y2].
  rewrite <- ecol_k in HC, X2. rewrite <- erow_k in HR, Y2. rewrite <- mult_IZR in X2, Y2. set (N := IZR (e * 2 ^ tZ t)) in *. assert (N0 : 0 <= N <= 68719476736) by (unfold N; split; apply IZR_le; pose proof (nz t e M He' HN); nia).
  assert (EQ : q p = (let x := round32 (fmul (fdiv (fsub (fmul pole180 (fst p)) (e6W (k6B (NewCursorExtent64 m t e true)))) (k6DX (NewCursorExtent64 m t e true))) (fint e)) in
                      let y := round32 (fmul (fdiv (fsub (e6N (k6B (NewCursorExtent64 m t e true))) (Merc64 m (snd p))) (k6DY (NewCursorExtent64 m t e true))) (fint e)) in
                      if eb then (clampExtent e x, clampExtent e y) else (x, y))) by reflexivity.
  set (x := round32 (fmul (fdiv (fsub (fmul pole180 (fst p)) _) _) _)) in *. set (y := round32 (fmul (fdiv (fsub _ (Merc64 m (snd p))) _) _)) in *. cbv zeta in EQ. clearbody x y.
  assert (XB : (- e <= x <= 2 * e)%Z). { apply ab in X2. clear - X2 HC N0 He. split; apply Z.lt_succ_r, lt_IZR; unfold Z.succ; rewrite plus_IZR, ?opp_IZR, ?mult_IZR; lra. }
  assert (YB : (- e <= y <= 2 * e)%Z). { apply ab in Y2. clear - Y2 HR N0 He. split; apply Z.lt_succ_r, lt_IZR; unfold Z.succ; rewrite plus_IZR, ?opp_IZR, ?mult_IZR; lra. }
  assert (YM : (0 <= e * tY t + y <= e * 2 ^ tZ t)%Z).
  { destruct (lat_limit_merc (B2R (snd p)) HL) as [_ PQ]. pose proof PI_range as PR. assert (RW : 0 <= IZR (e * tY t) + erow p <= N).
    { rewrite erow_k. unfold rowk, N. rewrite !mult_IZR. set (mu := merc (B2R (snd p) * (PI / 180))) in *. assert (Q : 0 <= (1 - mu / PI) / 2 <= 1). { assert (-1 <= mu / PI <= 1) by (split; apply Rmult_le_reg_r with PI; try lra; unfold Rdiv; rewrite Rmult_assoc, Rinv_l; lra). lra. }
      replace (IZR e * IZR (tY t) + ((1 - mu / PI) / 2 * IZR (2 ^ tZ t) - IZR (tY t)) * IZR e) with ((1 - mu / PI) / 2 * (IZR e * IZR (2 ^ tZ t))) by ring. rewrite <- mult_IZR. fold N. split; [apply Rmult_le_pos; lra|]. rewrite <- (Rmult_1_l N) at 2. apply Rmult_le_compat_r; lra. }
    apply ab in Y2. split; apply Z.lt_succ_r, lt_IZR; unfold Z.succ; rewrite ?plus_IZR; fold N; lra. }
  assert (YT : (0 <= e * tY t /\ e * tY t + e <= e * 2 ^ tZ t)%Z) by (destruct M as (_ & _ & HY); nia).
  rewrite EQ. unfold next_to, near_tile, target. fold N. destruct eb; cbn [fst snd].
  - pose proof (clampExtent_range e x ltac:(lia)) as CX. pose proof (clampExtent_range e y ltac:(lia)) as CY. split; [split; apply clamp_near; assumption|]. lia.
  - split; [split; assumption|]. repeat split; try lia; discriminate.
Qed.
Lemma q_same a b : finite2 a -> finite2 b -> same_place a b -> q a = q b.
Proof.
  intros (A1 & A2) (B1 & B2) (S1 & S2). apply same_grid. unfold peq64. rewrite (Beqb_f _ _ _ _ (conj A1 eq_refl) (conj B1 eq_refl)), (Beqb_f _ _ _ _ (conj B2 eq_refl) (conj A2 eq_refl)). destruct (Reqb_spec (B2R (fst a)) (B2R (fst b))), (Reqb_spec (B2R (snd b)) (B2R (snd a))); auto; congruence.
Qed.
Lemma q_gridding : gridding q.
Proof. split; [exact q_same|]. intros p Hp. apply (q_next p Hp). Qed.
Lemma u_at g : near_tile t e eb g -> at_grid g (u g).
Proof.
  intros (Hx & Hy & Hr & _). pose proof M as (Z0 & HX & HY). assert (U : 0 < uu <= / 9000000000000000) by (unfold uu; lra).
  assert (ZX : (0 <= e * tX t /\ e * tX t + e <= e * 2 ^ tZ t)%Z) by nia.
  destruct (ProjLon_near _ _ _ _ _ (off_f t e M He' HN (fst g) (tX t) HX Hx) (size_f t e M He' HN) ltac:(nia) ltac:(lia)) as (r & (F1 & F2) & D1).
  destruct (ProjLat_near m mExp G _ _ _ _ _ (off_f t e M He' HN (snd g) (tY t) HY Hy) (size_f t e M He' HN) ltac:(nia) ltac:(lia)) as (r' & (F1' & F2') & D2).
  unfold at_grid, u, unproject64, lp. cbn [fst snd]. split; [split; assumption|]. rewrite F2, F2'. rewrite (Z.add_comm (e * tX t)), (Z.add_comm (e * tY t)). split; [eapply Rle_trans; [exact D1|]; unfold uu; lra|]. eapply Rle_trans; [exact D2|]. unfold e12. lra.
Qed.

(** ** Geometries *)
Lemma u_all gs : Forall (near_tile t e eb) gs -> Forall2 at_grid gs (map u gs).
Proof. induction 1; constructor; auto. apply u_at. assumption. Qed.
Lemma squeezed_runs gs : MvtGeo_Props.squeezed gs (merge_runs gs).
Proof. pose proof (MvtGeo_Props.squeezed_merge (fun p : Z * Z => p) (fun a b H => H) gs) as H. rewrite !map_id in H. exact H. Qed.
Lemma q_all l : Forall placed l -> Forall (near_tile t e eb) (map q l).
Proof. intros H. apply Forall_map. eapply Forall_impl; [|exact H]. intros p Hp. apply q_next, Hp. Qed.
Lemma drawn_line l : Forall placed l -> drawn64 q l (map u (merge_runs (map q l))).
Proof. intros H. exists (merge_runs (map q l)). split; [apply squeezed_runs|]. apply u_all, merge_forall, q_all, H. Qed.
Lemma finite_peq a b : finite2 a -> finite2 b -> peq64 a b = true <-> same_place b a.
Proof.
  intros (A1 & A2) (B1 & B2). unfold peq64, same_place. rewrite (Beqb_f _ _ _ _ (conj A1 eq_refl) (conj B1 eq_refl)), (Beqb_f _ _ _ _ (conj B2 eq_refl) (conj A2 eq_refl)). rewrite andb_true_iff.
  destruct (Reqb_spec (B2R (fst a)) (B2R (fst b))), (Reqb_spec (B2R (snd b)) (B2R (snd a))); intuition congruence.
Qed.
Lemma last_in {A} (l : list A) d : l <> [] -> In (last l d) l.
Proof. induction l as [|a [|b l] IH]; intros H; [congruence|left; reflexivity|]. right. apply IH. discriminate. Qed.
Lemma closes_ring r : r <> [] -> Forall placed r -> closes64 r (close_ring peq64 r).
Proof.
  intros N F. destruct r as [|f r]; [congruence|]. exists f. split; [reflexivity|]. unfold close_ring. rewrite Forall_forall in F.
  assert (F1 : finite2 f) by (apply (F f); left; reflexivity). assert (F2 : finite2 (last (f :: r) f)) by (apply (F _ (last_in (f :: r) f ltac:(discriminate)))).
  destruct (peq64 f (last (f :: r) f)) eqn:E; [left|right]; (split; [|reflexivity]).
  - apply (finite_peq _ _ F1 F2). exact E.
  - intros K. apply (finite_peq _ _ F1 F2) in K. congruence.
Qed.
Lemma close_forall (P : lnglat64 -> Prop) r : Forall P r -> Forall P (close_ring peq64 r).
Proof. intros H. destruct r as [|f r]; [constructor|]. unfold close_ring. destruct (peq64 f (last (f :: r) f)); [exact H|]. apply Forall_app. split; [exact H|]. inversion H; subst. constructor; auto. Qed.
Lemma wind_forall (P : Z * Z -> Prop) o l : Forall P l -> Forall P (wind o l).
Proof. intros H. unfold wind. destruct (Bool.eqb _ _); [exact H|]. apply Forall_rev. exact H. Qed.
Lemma next_all o : Forall placed o -> Forall2 next_to o (map q o).
Proof. induction 1; cbn [map]; constructor; auto. apply q_next. assumption. Qed.
Lemma ring_seen outer r : r <> [] -> Forall placed r ->
  ring64 q outer r (map u (wind outer (merge_runs (map q (close_ring peq64 r))))).
Proof.
  intros N F. pose proof (closes_ring r N F) as C. set (c := close_ring peq64 r) in *. assert (FC : Forall placed c) by (apply close_forall, F).
  exists c, (merge_runs (map q c)), (wind outer (merge_runs (map q c))). split; [exact C|]. split; [apply squeezed_runs|]. split; [unfold wind; destruct (Bool.eqb _ _); auto|]. split.
  - apply seen_area.
  - apply u_all, wind_forall, merge_forall, q_all, FC.
Qed.
Lemma close_placed r : Forall close_by r -> Forall placed r.
Proof. apply Forall_impl. intros p (H & _). exact H. Qed.
Lemma shape_seen rs : rings_fit64 rs -> shape64 q rs (map (map u) (seen_polygon q peq64 rs)).
Proof.
  intros (N & F). destruct rs as [|o hs]; [congruence|]. inversion F as [|? ? (O1 & O2) Fh]; subst. unfold seen_polygon. cbn [map]. unfold shape64. split.
  - apply ring_seen; auto. apply close_placed, O2.
  - clear - Fh G M He HN. rewrite !map_map. induction Fh as [|h hs (H1 & H2) _ IH]; [constructor|]. cbn [map]. constructor; [|exact IH]. apply ring_seen; [exact H1|apply close_placed, H2].
Qed.
Lemma small_of g : near_tile t e eb g -> small g.
Proof. intros (A & B & _). unfold small. lia. Qed.
Lemma q_fits p : placed p -> small (q p) /\ near_tile t e eb (q p).
Proof. intros H. destruct (q_next p H) as [_ K]. split; [apply small_of, K|exact K]. Qed.
Lemma close_bounded p : close_by p -> (- 23170 <= fst (q p) <= 23170 /\ - 23170 <= snd (q p) <= 23170)%Z.
Proof.
  intros (H & B). destruct (q_next p H) as ((D1 & D2) & (A1 & A2 & _ & A3)). unfold target in *. destruct eb; [specialize (A3 eq_refl); lia|]. clear A3. assert (N0 : 0 <= IZR (e * 2 ^ tZ t) <= 68719476736) by (split; apply IZR_le; pose proof (nz t e M He' HN); nia).
  destruct B as [B1 B2]. apply ab in B1, B2, D1, D2. split; split; apply Z.lt_succ_r, lt_IZR; unfold Z.succ; rewrite plus_IZR; lra.
Qed.
Lemma line_re_of l : (Z.of_nat (length l) < 2 ^ 29)%Z -> line_fits64 l -> line_re q (near_tile t e eb) l.
Proof. intros L (A & B). split; [exact A|]. split; [exact L|]. eapply Forall_impl; [|exact B]. exact q_fits. Qed.
Lemma writable_of rs : Forall short rs -> rings_fit64 rs -> writable q rs.
Proof.
  intros S (A & B). split; [exact A|]. rewrite Forall_forall in *. intros r Hr. destruct (B r Hr) as (B1 & B2). split; [exact B1|]. split; [|apply S, Hr]. unfold bounded. rewrite Forall_map. eapply Forall_impl; [|exact B2]. exact close_bounded.
Qed.
Lemma area_of rs : rings_fit64 rs -> area64 rs -> match rs with [] => False | o :: _ => surveyor (map q o) <> 0%Z end.
Proof. intros (A & B) C. destruct rs as [|o hs]; [congruence|]. inversion B as [|? ? (_ & O) _]; subst. apply C, next_all, close_placed, O. Qed.
Lemma writable_within rs : writable q rs -> Forall (Forall (Decode64_Props.within (2 ^ 15))) (seen_polygon q peq64 rs).
Proof.
  intros (_ & F). assert (K : forall o r, bounded 23170 (map q r) -> Forall (Decode64_Props.within (2 ^ 15)) (wind o (merge_runs (map q (close_ring peq64 r))))).
  { intros o r B. apply wind_within. assert (B' : Forall (Decode64_Props.within (2 ^ 15)) (map q r)) by (eapply Forall_impl; [|exact B]; intros p Hp; cbn beta in Hp; change (2 ^ 15)%Z with 32768%Z; destruct Hp; split; lia).
    unfold close_ring. destruct r as [|f r]; [constructor|]. destruct (peq64 _ _); [exact B'|]. rewrite map_app. apply Forall_app. split; [exact B'|]. inversion B'; subst. constructor; auto. }
  unfold seen_polygon. destruct rs as [|o hs]; [constructor|]. inversion F as [|? ? (_ & O & _) Fh]; subst. cbn [map]. constructor; [apply K, O|].
  rewrite !Forall_map. eapply Forall_impl; [|exact Fh]. intros r (_ & Br & _). apply K, Br.
Qed.
Lemma total_in {A} (f : A -> nat) l a : In a l -> (f a <= total f l)%nat.
Proof. induction l as [|b l IH]; [intros []|]. intros [->|H]; cbn [total]; [lia|]. specialize (IH H). lia. Qed.
Lemma ring_short (rs : list (list lnglat64)) : (Z.of_nat (ring_words rs) <= 2 ^ 21)%Z -> Forall short rs.
Proof. intros H. apply Forall_forall. intros r Hr. pose proof (total_in (fun r : list lnglat64 => 2 * length r + 5)%nat rs r Hr). unfold ring_words, short in *. lia. Qed.
Definition rings_only (g : geometry lnglat64) : Prop := match g with XPolygon _ | XMultiPolygon _ => True | _ => False end.
Lemma drawable_re g : drawable64 g -> ~ rings_only g -> rewritable q (near_tile t e eb) g.
Proof.
  intros (W & H) NR. assert (KP : forall p, placed p /\ ~ next_to p (0, 0)%Z -> small (q p) /\ near_tile t e eb (q p) /\ q p <> (0, 0)%Z).
  { intros p (A & B). destruct (q_next p A) as [C D]. split; [apply small_of, D|]. split; [exact D|]. intros E. rewrite E in C. contradiction. }
  destruct g as [p|l|rs|ps|ls|mps|]; cbn [rewritable words] in *.
  - apply KP, H.
  - apply line_re_of; [lia|exact H].
  - exfalso. apply NR. exact I.
  - destruct ps as [|p [|]]; [contradiction|apply KP, H|contradiction].
  - destruct H as [H1 H2]. split; [exact H1|]. rewrite Forall_forall in *. intros l Hl. apply line_re_of; [|apply H2, Hl]. pose proof (total_in (fun l : list lnglat64 => 2 * length l + 2)%nat ls l Hl). cbn beta in *. lia.
  - exfalso. apply NR. exact I.
  - contradiction.
Qed.
(** The rings of polygons, whatever they enclose *)
Lemma rings_seen g : drawable64 g -> rings_only g -> exists cmds, geom_cmds q peq64 g = Ok (Some cmds) /\ LoadGeometryCmds (wire_type g) cmds = Ok (seen_geom q peq64 g) /\
  Forall (Forall (Decode64_Props.within (2 ^ 15))) (rings_of (seen_geom q peq64 g)).
Proof.
  intros (W & H) NR. assert (SG : forall a b, peq64 a b = true -> q a = q b) by (intros a b; apply same_grid). destruct g as [p|l|rs|ps|ls|mps|]; try contradiction NR; cbn [words seen_geom wire_type geom_cmds] in *.
  - pose proof (writable_of rs (ring_short rs W) H) as K. destruct (C152_polygon _ q peq64 rs SG K) as (c & E & D). exists (geo c). rewrite E. split; [reflexivity|]. split; [exact D|]. apply writable_within, K.
  - destruct H as (H1 & H2 & H3). assert (K : Forall (writable q) mps). { rewrite Forall_forall in *. intros rs Hr. apply writable_of; [|apply H2, Hr]. apply ring_short. pose proof (total_in (@ring_words lnglat64) mps rs Hr). lia. }
    destruct (C152_multipolygon _ q peq64 mps SG H1 K) as (c & ps & E & D & (A & _) & _). rewrite A in D.
    + exists (geo c). rewrite E. split; [reflexivity|]. split; [rewrite D; unfold read_as; destruct (map (seen_polygon q peq64) mps) as [|x [|y z]]; reflexivity|].
      assert (KW : Forall (Forall (Decode64_Props.within (2 ^ 15))) (concat (map (seen_polygon q peq64) mps))) by (apply (proj2 (ClipFeature_Proofs.Forall_concat _ _)); apply Forall_map; eapply Forall_impl; [|exact K]; intros rs; apply writable_within).
      destruct (map (seen_polygon q peq64) mps) as [|x [|y z]]; cbn [rings_of concat] in *; [constructor|rewrite app_nil_r in KW; exact KW|exact KW].
    + destruct mps as [|r0 mps]; [congruence|]. cbn [tl] in *. pose proof (Forall_inv_tail H2) as H2'. clear A E D K H2 H1 W NR. induction H3 as [|r l Hr _ IH]; [constructor|]. constructor; [apply area_of; [exact (Forall_inv H2')|exact Hr]|apply IH; exact (Forall_inv_tail H2')].
Qed.
Lemma seen_faithful g : drawable64 g -> faithful64 q g (back u (seen_geom q peq64 g)) /\ seen_geom q peq64 g <> GNil.
Proof.
  intros (_ & H). destruct g as [p|l|rs|ps|ls|mps|]; cbn [seen_geom back faithful64] in *.
  - split; [|discriminate]. apply u_at, q_next, H.
  - split; [|discriminate]. apply drawn_line, H.
  - split; [|discriminate]. apply shape_seen, H.
  - destruct ps as [|p [|]]; [contradiction| |contradiction]. split; [|discriminate]. apply u_at, q_next, H.
  - destruct H as [H1 H2]. assert (F : Forall2 (drawn64 q) ls (map (map u) (map merge_runs (map (map q) ls)))).
    { clear H1. induction H2 as [|l ls (_ & Hl) _ IH]; [constructor|]. cbn [map]. constructor; [apply drawn_line; exact Hl|exact IH]. }
    destruct ls as [|a [|b ls]]; [congruence| |]; (split; [|discriminate]); [inversion F; subst; assumption|exact F].
  - destruct H as (H1 & H2 & _). assert (F : Forall2 (shape64 q) mps (map (map (map u)) (map (seen_polygon q peq64) mps))).
    { clear H1. induction H2 as [|l ls Hl _ IH]; [constructor|]. cbn [map]. constructor; [apply shape_seen; exact Hl|exact IH]. }
    destruct mps as [|a [|b ls]]; [congruence| |]; (split; [|discriminate]); [inversion F; subst; assumption|exact F].
  - contradiction.
Qed.
Lemma geometry_seen g : drawable64 g -> exists cmds gd,
  geom_cmds q peq64 g = Ok (Some cmds) /\ LoadGeometry64 (wire_type g) cmds = Ok gd /\ gd <> GNil64 /\ faithful64 q g (geo64_of m mExp t e gd).
Proof.
  intros H. destruct (seen_faithful g H) as [F N].
  assert (EB : geo64_of m mExp t e (lift (seen_geom q peq64 g)) = back u (seen_geom q peq64 g)) by (destruct (seen_geom q peq64 g); cbn [lift geo64_of back]; f_equal; rewrite ?map_map; try reflexivity; apply map_ext; intros; rewrite ?map_map; try reflexivity; apply map_ext; intros; rewrite ?map_map; reflexivity).
  assert (NL : lift (seen_geom q peq64 g) <> GNil64) by (destruct (seen_geom q peq64 g); try discriminate; congruence).
  assert (D : rings_only g \/ ~ rings_only g) by (destruct g; cbn [rings_only]; tauto). destruct D as [D|D].
  - destruct (rings_seen g H D) as (cmds & E1 & E2 & EW). exists cmds, (lift (seen_geom q peq64 g)). split; [exact E1|]. split; [|split; [exact NL|rewrite EB; exact F]].
    rewrite C123_tile; [rewrite E2; reflexivity|apply geom_u32 in E1; exact E1|apply words_len in E1; destruct H as (W & _); unfold zlen; lia|]. intros d E _. rewrite E2 in E. injection E as <-. exact EW.
  - destruct (seen_read m mExp t e eb g G M He' HN (drawable_re g H D)) as (cmds & E1 & _ & E2 & _). fold q in E1, E2. exists cmds, (lift (seen_geom q peq64 g)).
    split; [exact E1|]. split; [apply E2; apply words_len in E1; destruct H as (W & _); unfold zlen; lia|]. split; [exact NL|]. rewrite EB. exact F.
Qed.
End Geometry.

(** ** C136 *)
(** The tile of a layer and its extent: a tile of the map, up to 2^29 units per tile and 2^36 units around the map *)
Definition fine (t : TileID) (e : Z) : Prop := on_map t /\ (1 <= e < 2 ^ 29)%Z /\ (e * 2 ^ tZ t <= 2 ^ 36)%Z.
(** A written geometry is read as its grid points; the choice of the grid points depends on the tile alone *)
Theorem C136_geometry : forall m mExp eb t e, good_proj m mExp -> fine t e -> exists gr, gridding eb t e gr /\
  forall g, drawable64 eb t e g -> exists cmds gd,
    geom_cmds (SinglePoint64 m (NewCursorExtent64 m t e eb)) peq64 g = Ok (Some cmds) /\ LoadGeometry64 (wire_type g) cmds = Ok gd /\ gd <> GNil64 /\ faithful64 t e gr g (geo64_of m mExp t e gd).
Proof.
  intros m mExp eb t e G (M & He & HN). exists (SinglePoint64 m (NewCursorExtent64 m t e eb)). split; [eapply q_gridding; eauto|]. intros g H. apply geometry_seen with (eb := eb); auto.
Qed.
Print Assumptions C136_geometry.
(** A polygon after another one that gets no area on the grid is read as a ring of the one before: two polygons are read as one with two rings, in any tile. *)
Theorem C152_read_refuted : forall m mExp eb t e, good_proj m mExp -> fine t e -> (3 <= e)%Z ->
  let q := SinglePoint64 m (NewCursorExtent64 m t e eb) in
  exists a b cmds rs, map q a = [(1, 1); (3, 1); (3, 3); (1, 1)]%Z /\ map q b = [(1, 1); (2, 2); (3, 3); (1, 1)]%Z /\
  geom_cmds q peq64 (XMultiPolygon [[a]; [b]]) = Ok (Some cmds) /\ LoadGeometry64 3 cmds = Ok (GPolygon64 rs) /\ length rs = 2%nat.
Proof.
  intros m mExp eb t e G (M & He & HN) H3 q. set (u := fun p => unproject64 m mExp t e (lp p)). pose proof M as (Z0 & HX & HY).
  assert (D : forall k j, (1 <= k <= 3)%Z -> (1 <= j <= 3)%Z -> near_tile t e eb (k, j) /\ small (k, j)).
  { intros k j Hk Hj. unfold near_tile, small. cbn [fst snd]. assert (e * tY t + e <= e * 2 ^ tZ t)%Z by nia. assert (0 <= e * tY t)%Z by nia. lia. }
  assert (QU : forall k j, (1 <= k <= 3)%Z -> (1 <= j <= 3)%Z -> q (u (k, j)) = (k, j)) by (intros k j Hk Hj; apply (q_u m mExp t e eb G M ltac:(lia) HN), D; assumption).
  assert (Q1 := QU 1%Z 1%Z ltac:(lia) ltac:(lia)). assert (Q2 := QU 2%Z 2%Z ltac:(lia) ltac:(lia)). assert (Q3 := QU 3%Z 3%Z ltac:(lia) ltac:(lia)). assert (Q4 := QU 3%Z 1%Z ltac:(lia) ltac:(lia)).
  assert (S1 : peq64 (u (1, 1)%Z) (u (1, 1)%Z) = true) by (apply (u_finite m mExp t e eb G M ltac:(lia) HN), D; lia).
  assert (K : geom_cmds q peq64 (XMultiPolygon [[map u [(1, 1); (3, 1); (3, 3); (1, 1)]%Z]; [map u [(1, 1); (2, 2); (3, 3); (1, 1)]%Z]]) =
    geom_cmds (fun p => p) (fun _ _ => true) (XMultiPolygon [[[(1, 1); (3, 1); (3, 3); (1, 1)]%Z]; [[(1, 1); (2, 2); (3, 3); (1, 1)]%Z]])).
  { unfold geom_cmds, MakeMultiPolygonFloat. cbn [fold_res map]. unfold MakePolygonFloat. cbn [map_res TrimRing last bind]. rewrite S1. cbn [bind fold_res]. unfold AssertConvert. cbn [map]. rewrite Q1, Q2, Q3, Q4. reflexivity. }
  exists (map u [(1, 1); (3, 1); (3, 3); (1, 1)]%Z), (map u [(1, 1); (2, 2); (3, 3); (1, 1)]%Z), [9; 2; 2; 26; 4; 0; 0; 4; 3; 3; 15; 9; 0; 0; 26; 4; 4; 1; 1; 1; 1; 15]%Z, (map (map lp) [[(1, 1); (3, 1); (3, 3); (1, 1)]; [(1, 1); (3, 3); (2, 2); (1, 1)]]%Z).
  split; [cbn [map]; rewrite Q1, Q3, Q4; reflexivity|]. split; [cbn [map]; rewrite Q1, Q2, Q3; reflexivity|]. split; [rewrite K; vm_compute; reflexivity|]. split; [|reflexivity].
  rewrite C123_tile.
  - vm_compute (LoadGeometryCmds _ _). reflexivity.
  - unfold word. repeat (apply Forall_cons; [lia|]). apply Forall_nil.
  - vm_compute. discriminate.
  - intros d E _. vm_compute in E. injection E as <-. cbn [rings_of]. repeat first [apply Forall_cons|apply Forall_nil]; vm_compute; split; discriminate.
Qed.
Print Assumptions C152_read_refuted.
(** Places of grid points, in units of the grid *)
Lemma at_units t e g p : fine t e -> (0 <= e * tY t + snd g <= e * 2 ^ tZ t)%Z -> at_grid t e g p ->
  Rabs (ecol t e p - IZR (fst g)) <= IZR (e * 2 ^ tZ t) * (1 / 1000000000000000) /\ Rabs (erow t e p - IZR (snd g)) <= IZR (e * 2 ^ tZ t) * (1 / 10000000000000).
Proof.
  intros (M & He & HN) Hr (_ & A & B). rewrite ecol_k, erow_k by exact M. unfold colk, rowk. set (l := B2R (fst p)) in *. set (f := B2R (snd p)) in *. assert (P0 : (1 <= 2 ^ tZ t)%Z) by (pose proof (pz _ (proj1 M)); lia). pose proof PI_range as PR.
  assert (E1 : 1 <= IZR e) by (apply IZR_le; lia). assert (N1 : 1 <= IZR (2 ^ tZ t)) by (apply IZR_le; lia). assert (N0 : 1 <= IZR (e * 2 ^ tZ t)) by (apply IZR_le; nia). split.
  - rewrite plus_IZR, mult_IZR in A. rewrite mult_IZR in *. set (n := IZR (2 ^ tZ t)) in *. set (k := IZR e) in *. clearbody n k l.
    replace (((l + 180) / 360 * n - IZR (tX t)) * k - IZR (fst g)) with ((l - (360 * ((k * IZR (tX t) + IZR (fst g)) / (k * n)) - 180)) * (k * n / 360)) by (field; split; lra). rewrite Rabs_mult, (Rabs_pos_eq (k * n / 360)) by lra.
    eapply Rle_trans; [apply Rmult_le_compat_r; [|exact A]; lra|]. lra.
  - set (w := PI * (1 - 2 * (IZR (e * tY t + snd g) / IZR (e * 2 ^ tZ t)))) in *. change (atan (sinh w)) with (gd w) in B.
    assert (Q : 0 <= IZR (e * tY t + snd g) / IZR (e * 2 ^ tZ t) <= 1). { assert (0 <= IZR (e * tY t + snd g) <= IZR (e * 2 ^ tZ t)) by (split; apply IZR_le; lia). split; [apply Rmult_le_pos; [lra|apply Rlt_le, Rinv_0_lt_compat; lra]|]. apply Rmult_le_reg_r with (IZR (e * 2 ^ tZ t)); [lra|]. unfold Rdiv. rewrite Rmult_assoc, Rinv_l by lra. lra. }
    assert (WR : - PI <= w <= PI) by (unfold w; set (x := IZR (e * tY t + snd g) / IZR (e * 2 ^ tZ t)) in *; clearbody x; clear - Q PR; split; nra).
    pose proof (gd_bound w) as GB. assert (G1 : - gd PI <= gd w <= gd PI) by (rewrite <- gd_odd; split; apply (proj1 (gd_le _ _)); lra).
    assert (GLW : gd PI + / 1000000 <= gd (3142 / 1000)). { pose proof (gd_low (3142 / 1000) PI ltac:(apply ab; lra) ltac:(apply ab; lra)) as L. assert (gd PI <= gd (3142 / 1000)) by (apply (proj1 (gd_le _ _)); lra). rewrite !Rabs_pos_eq in L by lra. lra. } pose proof (gd_bound (3142 / 1000)) as GB2.
    assert (D : Rabs (f * (PI / 180) - gd w) <= 48 / 1000000000000000). { replace (f * (PI / 180) - gd w) with ((f - 180 / PI * gd w) * (PI / 180)) by (field; lra). rewrite Rabs_mult, (Rabs_pos_eq (PI / 180)) by lra. eapply Rle_trans; [apply Rmult_le_compat_r; [lra|exact B]|]. lra. }
    pose proof D as D'. apply ab in D'. assert (GM : gd (merc (f * (PI / 180))) = f * (PI / 180)) by (apply gd_merc; lra). set (mu := merc (f * (PI / 180))) in *.
    assert (BM : Rabs mu <= 3142 / 1000) by (apply ab; split; apply gd_le; rewrite ?gd_odd, GM; lra). pose proof (gd_low mu w BM ltac:(apply ab; lra)) as DW. rewrite GM in DW.
    replace (((1 - mu / PI) / 2 * IZR (2 ^ tZ t) - IZR (tY t)) * IZR e - IZR (snd g)) with ((mu - w) * (- (IZR e * IZR (2 ^ tZ t) * / (2 * PI)))) by (unfold w; rewrite plus_IZR, !mult_IZR; field; repeat split; lra).
    rewrite Rabs_mult, Rabs_Ropp. assert (I0 : 0 < / (2 * PI) <= 16 / 100). { split; [apply Rinv_0_lt_compat; lra|]. apply Rmult_le_reg_r with (2 * PI); [lra|]. rewrite Rinv_l by lra. lra. }
    rewrite <- mult_IZR. set (N := IZR (e * 2 ^ tZ t)) in *. rewrite (Rabs_pos_eq (N * / (2 * PI))) by (apply Rmult_le_pos; lra). apply Rle_trans with (581 / 1000000000000000 * (N * (16 / 100))); [|lra]. apply Rmult_le_compat; [apply Rabs_pos|apply Rmult_le_pos; lra|lra|apply Rmult_le_compat_l; lra].
Qed.
Lemma next_rows eb t e p g : fine t e -> placed t e p -> next_to eb t e p g -> (0 <= e * tY t + snd g <= e * 2 ^ tZ t)%Z.
Proof.
  intros (M & He & HN) (_ & HL & _ & _) (_ & H). destruct (lat_limit_merc (B2R (snd p)) HL) as [_ PQ]. pose proof PI_range as PR. assert (P0 : (1 <= 2 ^ tZ t)%Z) by (pose proof (pz _ (proj1 M)); lia). assert (N0 : 1 <= IZR (e * 2 ^ tZ t) <= 68719476736) by (split; apply IZR_le; nia).
  assert (E1 : 1 <= IZR e) by (apply IZR_le; lia). assert (RW : 0 <= IZR (e * tY t) + erow t e p <= IZR (e * 2 ^ tZ t)).
  { rewrite erow_k by exact M. unfold rowk. set (mu := merc (B2R (snd p) * (PI / 180))) in *. assert (Q : 0 <= (1 - mu / PI) / 2 <= 1). { assert (-1 <= mu / PI <= 1) by (split; apply Rmult_le_reg_r with PI; try lra; unfold Rdiv; rewrite Rmult_assoc, Rinv_l; lra). lra. }
    replace (IZR (e * tY t) + ((1 - mu / PI) / 2 * IZR (2 ^ tZ t) - IZR (tY t)) * IZR e) with ((1 - mu / PI) / 2 * IZR (e * 2 ^ tZ t)) by (rewrite !mult_IZR; ring). split; [apply Rmult_le_pos; lra|]. rewrite <- (Rmult_1_l (IZR (e * 2 ^ tZ t))) at 2. apply Rmult_le_compat_r; lra. }
  assert (YT : 0 <= IZR (e * tY t) /\ IZR (e * tY t) + IZR e <= IZR (e * 2 ^ tZ t)) by (rewrite <- plus_IZR; split; apply IZR_le; destruct M as (_ & _ & HY); nia).
  assert (TR : 0 <= IZR (e * tY t) + target eb e (erow t e p) <= IZR (e * 2 ^ tZ t)). { unfold target, MvtGeo_Props.within. destruct eb; [|lra]. unfold Rmax, Rmin. repeat destruct (Rle_dec _ _); lra. }
  apply ab in H. split; apply Z.lt_succ_r, lt_IZR; unfold Z.succ; rewrite ?plus_IZR; lra.
Qed.
(** How far a position is moved, in units of the grid; in the longitude, in degrees *)
Theorem C136_accuracy : forall eb t e gr p p', fine t e -> gridding eb t e gr -> placed t e p -> at_grid t e (gr p) p' ->
  Rabs (ecol t e p' - target eb e (ecol t e p)) <= 1 / 2 + IZR (e * 2 ^ tZ t) * (5 / 1000000000000000) /\
  Rabs (erow t e p' - target eb e (erow t e p)) <= 1 / 2 + IZR (e * 2 ^ tZ t) * (51 / 10000000000000) /\
  (target eb e (ecol t e p) = ecol t e p -> Rabs (B2R (fst p') - B2R (fst p)) <= 180 / IZR (e * 2 ^ tZ t) + 18 / 10000000000000).
Proof.
  intros eb t e gr p p' F (_ & GN) Hp A. pose proof (GN p Hp) as NX. pose proof (next_rows eb t e p _ F Hp NX) as RW. destruct (at_units t e _ _ F RW A) as [U1 U2]. destruct NX as [B1 B2]. destruct F as (M & He & HN). assert (P0 : (1 <= 2 ^ tZ t)%Z) by (pose proof (pz _ (proj1 M)); lia). assert (N0 : 1 <= IZR (e * 2 ^ tZ t)) by (apply IZR_le; nia).
  assert (C : Rabs (ecol t e p' - target eb e (ecol t e p)) <= 1 / 2 + IZR (e * 2 ^ tZ t) * (5 / 1000000000000000)) by (apply ab in U1, B1; apply ab; lra).
  split; [exact C|]. split; [apply ab in U2, B2; apply ab; lra|]. intros E. rewrite E in C. rewrite !ecol_k in C by exact M. unfold colk in C.
  replace (((B2R (fst p') + 180) / 360 * IZR (2 ^ tZ t) - IZR (tX t)) * IZR e - ((B2R (fst p) + 180) / 360 * IZR (2 ^ tZ t) - IZR (tX t)) * IZR e) with ((B2R (fst p') - B2R (fst p)) * (IZR (e * 2 ^ tZ t) / 360)) in C by (rewrite mult_IZR; field).
  set (N := IZR (e * 2 ^ tZ t)) in *. rewrite Rabs_mult, (Rabs_pos_eq (N / 360)) in C by lra. apply Rmult_le_reg_r with (N / 360); [lra|]. replace ((180 / N + 18 / 10000000000000) * (N / 360)) with (1 / 2 + N * (5 / 1000000000000000)) by (field; lra). exact C.
Qed.
Print Assumptions C136_accuracy.

(** ** Layers *)
Record geosource64 := mkGS64 { g6Feats : list (feature lnglat64); g6Cfg : Config }.
Definition g6_extent (S : geosource64) : Z := if (gExtent (g6Cfg S) =? 0)%Z then 4096%Z else gExtent (g6Cfg S).
Definition geo_written64 (m : libm) (pt : Z) (S : geosource64) (bs : bytes) : Prop :=
  WriteLayer64 m (g6Feats S) (g6Cfg S) = Ok bs /\ gProto (g6Cfg S) = pt /\ Forall go_feature (g6Feats S) /\
  (0 <= gExtent (g6Cfg S))%Z /\ (- 2 ^ 63 <= gVersion (g6Cfg S) < 2 ^ 63)%Z /\ fine (gTile (g6Cfg S)) (g6_extent S) /\
  (fold_right (fun f n => zlen (fProps f) + n) 0 (g6Feats S) <= 2 ^ 32)%Z.
Definition source64_of (m : libm) (S : geosource64) : source lnglat64 := mkSrc (SinglePoint64 m (cursor64_of m (g6Cfg S))) peq64 (g6Feats S) (cfg_of (g6Cfg S)).
Lemma g6_extent_eq S : cfgExtent (cfg_of (g6Cfg S)) = g6_extent S.
Proof. destruct S as [fs [t n e v b p]]. reflexivity. Qed.
Lemma g6_extent_of S : extent_of (cfg_of (g6Cfg S)) = g6_extent S.
Proof. destruct S as [fs [t n e v b p]]. reflexivity. Qed.
Lemma geo_written_written m pt S bs : geo_written64 m pt S bs -> written pt (source64_of m S) bs.
Proof.
  intros (E & P & F & X & V & (_ & (_ & FX) & _) & N). assert (X1 : (gExtent (g6Cfg S) < 2 ^ 31)%Z) by (unfold g6_extent in FX; destruct (Z.eqb_spec (gExtent (g6Cfg S)) 0); lia). clear FX.
  destruct S as [fs [t n e v b p]]. cbn [g6Feats g6Cfg gProto gExtent gVersion] in *. split; [exact E|]. split; [exact P|]. split; [exact F|]. split; [|exact N].
  split; cbn [source64_of sCfg cfg_of cExtent cVersion gExtent gVersion g6Cfg MvtLayer_Model.cExtent MvtLayer_Model.cVersion]; lia.
Qed.
Lemma all_written m pt Ss bss : Forall2 (geo_written64 m pt) Ss bss -> Forall2 (written pt) (map (source64_of m) Ss) bss.
Proof. induction 1; cbn [map]; constructor; auto. apply geo_written_written. assumption. Qed.

(** Layer by layer: every feature with a drawable geometry is read back by ToGeoJSON with its id, its properties and its
    geometry on the grid of the tile; all features of a layer use the same grid points *)
Theorem C136_lazy : forall m mExp pt Ss bss, good_proj m mExp -> Forall2 (geo_written64 m pt) Ss bss -> (zlen (concat bss) < 2 ^ 62)%Z -> NoDup (map (fun S => gName (g6Cfg S)) Ss) ->
  exists tl, (forall fuel, (length (concat bss) < fuel)%nat -> NewTile fuel pt (concat bss) = Ok tl) /\
  Forall (fun S => exists l gr, mget (gName (g6Cfg S)) (tMap tl) = Some l /\ gridding (gExtentBool (g6Cfg S)) (gTile (g6Cfg S)) (g6_extent S) gr /\
    forall i f g, nth_error (g6Feats S) i = Some f -> fGeom f = Some g -> drawable64 (gExtentBool (g6Cfg S)) (gTile (g6Cfg S)) (g6_extent S) g ->
      exists rf gf, (forall fuel, (4 <= fuel)%nat -> Feature fuel (getProto pt) (concat bss) l i = Ok rf) /\
        ToGeoJSON64 m mExp (concat bss) l rf (gTile (g6Cfg S)) = OValue gf /\ g6ID gf = id_of (fID f) /\ wire_props (fProps f) (g6Props gf) /\ faithful64 (gTile (g6Cfg S)) (g6_extent S) gr g (g6Geom gf)) Ss.
Proof.
  intros m mExp pt Ss bss G W B N. destruct (C19_lazy_round_trip lnglat64 pt (map (source64_of m) Ss) bss (all_written m pt Ss bss W) B) as (tl & E & _ & _ & L).
  { rewrite map_map. exact N. }
  exists tl. split; [exact E|]. rewrite Forall_map in L. apply Forall_forall. intros S HS. rewrite Forall_forall in L. specialize (L S HS). destruct L as (l & GE & (_ & X & _ & _ & H)).
  assert (WS : exists bs, geo_written64 m pt S bs). { clear - W HS. induction W as [|S0 b0 Ss bss H _ IH]; [destruct HS|]. destruct HS as [->|HS]; [exists b0; exact H|apply IH, HS]. }
  destruct WS as (bs & (_ & _ & _ & _ & _ & Hf & _)). destruct Hf as (M & He & HN).
  exists l, (SinglePoint64 m (NewCursorExtent64 m (gTile (g6Cfg S)) (g6_extent S) (gExtentBool (g6Cfg S)))). split; [exact GE|]. split; [eapply q_gridding; eauto|]. intros i f g Hi Hg Hd.
  destruct (H i f Hi) as (rf & F & R1 & R2 & R3). rewrite Hg in R3. destruct R3 as (R3 & R4).
  destruct (geometry_seen (gExtentBool (g6Cfg S)) (gTile (g6Cfg S)) (g6_extent S) m mExp G M He HN g Hd) as (cmds & gd & C1 & C2 & C3 & C4).
  destruct (R4 cmds) as [R6 R5]. { unfold source64_of, cursor64_of. cbn [sProj sPeq]. rewrite g6_extent_eq. exact C1. }
  exists rf. eexists. split; [exact F|]. unfold ToGeoJSON64. rewrite R6. cbn [bind]. rewrite R3. change (geom_code g) with (wire_type g). rewrite C2. cbn [source64_of sCfg] in X. rewrite X, g6_extent_of. split; [destruct gd; try reflexivity; congruence|].
  cbn [g6ID g6Props g6Geom]. split; [exact R1|]. split; [exact R2|exact C4].
Qed.
Print Assumptions C136_lazy.

(** ** Layers made with NewLayer, AddFeature and Flush: extent 4096, version 0, nothing moved into the tile *)
Theorem C136_new_layer : forall m mExp pt t name fs bs, good_proj m mExp -> NewLayerFlush64 m t name pt fs = Ok bs -> Forall go_feature fs -> fine t 4096 ->
  (fold_right (fun f n => zlen (fProps f) + n) 0 fs <= 2 ^ 32)%Z -> (zlen bs < 2 ^ 62)%Z ->
  exists tl l gr, (forall fuel, (length bs < fuel)%nat -> NewTile fuel pt bs = Ok tl) /\ tMap tl = [(name, l)] /\
    lName l = name /\ lExtent l = 4096%Z /\ lVersion l = 0%Z /\ length (lFeats l) = length fs /\ gridding false t 4096 gr /\
    forall i f g, nth_error fs i = Some f -> fGeom f = Some g -> drawable64 false t 4096 g ->
      exists rf gf, (forall fuel, (4 <= fuel)%nat -> Feature fuel (getProto pt) bs l i = Ok rf) /\
        ToGeoJSON64 m mExp bs l rf t = OValue gf /\ g6ID gf = id_of (fID f) /\ wire_props (fProps f) (g6Props gf) /\ faithful64 t 4096 gr g (g6Geom gf).
Proof.
  intros m mExp pt t name fs bs GP E Hf Ht Hp Hb. pose proof (getProto_dialect pt) as HP. unfold NewLayerFlush64 in E. set (q := SinglePoint64 m (NewCursorExtent64 m t 4096 false)) in *.
  destruct (fold_res (AddFeature q peq64 (getProto pt)) fs layerw0) as [s| |] eqn:E1; cbn [bind] in E; try discriminate. apply fold_describe in E1 as (ws & D & E1).
  assert (Eb : bs = Flush (getProto pt) name 0 0 s) by congruence. clear E.
  assert (HL : is_layer (getProto pt) (mkWL name 0 0 ws) bs).
  { rewrite Eb. apply flush_is_layer; auto.
    - rewrite (total_describe _ _ _ _ D). auto.
    - intros w k v Hw Hk. clear - D Hf Hw Hk. induction D as [|f w0 fs ws (_ & E & _) _ IH]; [destruct Hw|]. inversion Hf as [|? ? ((_ & G) & _)]; subst.
      destruct Hw as [<-|Hw]; [|auto]. rewrite E in Hk. eauto. }
  clear Eb. assert (A0 : at_ bs 0 (concat [bs])) by (exists []; cbn [concat app]; rewrite app_nil_r; auto).
  assert (Lb : length (concat [bs]) = length bs) by (cbn [concat]; rewrite app_nil_r; auto).
  destruct (tile_loop_at (getProto pt) bs HP Hb [mkWL name 0 0 ws] [bs] ltac:(constructor; auto) 0%Z (mkTileV [] []) (S (length bs)) A0 ltac:(lia)) as (ls & ET & F).
  cbn [combine] in F. inversion F as [|? l ? ls' (r & bd & HR & Ebs & Hat & Hend & El) F2]; subst ls. inversion F2; subst. cbn [fst snd] in *.
  pose proof HR as (bodies & vt & B1 & B2 & B3 & B4 & B5 & B6 & B7 & B8). cbn [wlName wlExt wlVer wlFeats] in *.
  assert (Nl : lName l = name) by (rewrite El; auto). pose proof Ht as (M & He & HN).
  exists (mkTileV (name_list name) [(name, l)]), l, q. split.
  { intros fuel Hfu. unfold NewTile.
    destruct (tile_loop_at (getProto pt) _ HP Hb [mkWL name 0 0 ws] [bs] ltac:(constructor; auto) 0%Z (mkTileV [] []) fuel A0 ltac:(lia)) as (ls' & ET' & _).
    pose proof (tile_loop_det _ _ _ _ _ _ _ _ ET ET') as X. rewrite ET', <- X. cbn [tNames tMap flat_map put_all mput wlName app]. rewrite app_nil_r, Nl. reflexivity. }
  split; [reflexivity|]. split; [exact Nl|]. assert (Hx : lExtent l = 4096%Z) by (rewrite El; cbn [lExtent]; rewrite B6; reflexivity). split; [exact Hx|].
  split; [rewrite El; cbn [lVersion]; rewrite B7; reflexivity|].
  split. { rewrite El. cbn [lFeats]. rewrite (Forall2_len _ _ _ B8), <- (Forall2_len _ _ _ B1), <- (Forall2_len _ _ _ D). auto. }
  split; [exact (q_gridding false t 4096 m mExp GP M He HN)|].
  intros i f g Hi Hg Hd. destruct (Forall2_nth _ _ _ D i f Hi) as (w & Hw & Dw). rewrite Forall_forall in Hf. pose proof (Hf f (nth_error_In _ _ Hi)) as Gf.
  destruct (describe_ok _ _ f w Gf Dw) as [K1 K2].
  destruct (nth_feature 0 (getProto pt) _ _ r i w 0%Z 0%Z 0%Z HP Hb ltac:(lia) HR Hw K1) as (p & size & p1 & mm & gp & N1 & N2 & N3 & N4 & N5).
  destruct (geometry_seen false t 4096 m mExp GP M He HN g Hd) as (cmds & gd & C1 & C2 & C3 & C4). fold q in C1, C4.
  destruct Dw as (D1 & D2 & D3 & D4). rewrite Hg in D3, D4. cbn [option_map] in D3. rewrite C1 in D4. injection D4 as D4. rewrite <- D4 in N4. destruct K1 as (_ & _ & K3). assert (Hb' : (zlen bs < 2 ^ 63)%Z) by lia.
  destruct (holds_read _ gp cmds Hb' (K3 _ (eq_sym D4)) N4) as (e & Er).
  eexists. eexists. split; [|split].
  - intros fuel Hfu. unfold Feature. rewrite El. cbn [lFeats lKeys lVals]. rewrite N1, N2. cbn [bind]. apply N5. auto.
  - unfold ToGeoJSON64, LoadGeometryRaw. cbn [rfGeomPos rfType rfID rfProps]. rewrite Er. cbn [bind]. rewrite D3; change (geom_code g) with (wire_type g); rewrite C2, Hx. destruct gd; try reflexivity. congruence.
  - cbn [g6ID g6Props g6Geom]. split; [|split; [rewrite D2 in N3; exact N3|exact C4]]. rewrite D1. unfold id_of. destruct (fID f) eqn:E; auto. apply wrap64_id. apply K2. rewrite D1. reflexivity.
Qed.
Print Assumptions C136_new_layer.

(** The place of the first grid point of a tile is written and cannot be read, in any tile *)
Theorem C136_corner_refuted : forall m mExp eb t e, good_proj m mExp -> fine t e -> exists p cmds, at_grid t e (0, 0)%Z p /\
  geom_cmds (SinglePoint64 m (NewCursorExtent64 m t e eb)) peq64 (XPoint p) = Ok (Some cmds) /\ LoadGeometry64 (wire_type (XPoint p)) cmds = Panic.
Proof.
  intros m mExp eb t e G (M & He & HN). assert (NT : near_tile t e eb (0, 0)%Z). { destruct M as (_ & _ & HY). unfold near_tile. cbn [fst snd]. assert (0 <= e * tY t /\ e * tY t + e <= e * 2 ^ tZ t)%Z by nia. lia. }
  exists (unproject64 m mExp t e (lp (0, 0)%Z)), [9%Z]. split; [apply (u_at eb t e m mExp G M He HN _ NT)|]. split; [|reflexivity].
  cbn [geom_cmds]. unfold MakePointFloat. pose proof (q_u m mExp t e eb G M ltac:(lia) HN (0, 0)%Z ltac:(split; [exact NT|unfold small; cbn; lia])) as Q. cbv beta in Q. rewrite Q. reflexivity.
Qed.
Print Assumptions C136_corner_refuted.

(** ** An example *)
Lemma at_next t e g g' p : fine t e -> (0 <= e * tY t + snd g <= e * 2 ^ tZ t)%Z -> at_grid t e g p -> next_to false t e p g' -> g' = g.
Proof.
  intros F Hr A (B1 & B2). destruct (at_units t e g p F Hr A) as [U1 U2]. destruct F as (M & He & HN). assert (P0 : (1 <= 2 ^ tZ t)%Z) by (pose proof (pz _ (proj1 M)); lia). assert (N0 : 1 <= IZR (e * 2 ^ tZ t) <= 68719476736) by (split; apply IZR_le; nia).
  unfold target in *. apply ab in U1, U2, B1, B2. destruct g as [x y], g' as [x' y']. cbn [fst snd] in *. f_equal.
  - assert (X : -1 < IZR x' - IZR x < 1) by lra. rewrite <- minus_IZR in X. destruct X as [X1 X2]. change (-1) with (IZR (-1)) in X1. change 1 with (IZR 1) in X2. apply lt_IZR in X1, X2. lia.
  - assert (X : -1 < IZR y' - IZR y < 1) by lra. rewrite <- minus_IZR in X. destruct X as [X1 X2]. change (-1) with (IZR (-1)) in X1. change 1 with (IZR 1) in X2. apply lt_IZR in X1, X2. lia.
Qed.
Lemma at_placed t e g p : fine t e -> (0 < e * tY t + snd g < e * 2 ^ tZ t)%Z -> (- e + 2 <= fst g <= 2 * e - 2)%Z -> (- e + 2 <= snd g <= 2 * e - 2)%Z -> at_grid t e g p -> 
  - (180 / PI * atan (sinh PI)) <= B2R (snd p) <= 180 / PI * atan (sinh PI) -> placed t e p.
Proof.
  intros F Hr Hx Hy A HL. destruct (at_units t e g p F ltac:(lia) A) as [U1 U2]. destruct A as (A0 & _). destruct F as (M & He & HN). assert (P0 : (1 <= 2 ^ tZ t)%Z) by (pose proof (pz _ (proj1 M)); lia). assert (N0 : 1 <= IZR (e * 2 ^ tZ t) <= 68719476736) by (split; apply IZR_le; nia).
  split; [exact A0|]. split; [exact HL|]. apply ab in U1, U2. assert (HX : - IZR e + 2 <= IZR (fst g) <= 2 * IZR e - 2) by (rewrite <- opp_IZR, <- mult_IZR, <- plus_IZR, <- minus_IZR; split; apply IZR_le; lia). assert (HY : - IZR e + 2 <= IZR (snd g) <= 2 * IZR e - 2) by (rewrite <- opp_IZR, <- mult_IZR, <- plus_IZR, <- minus_IZR; split; apply IZR_le; lia). lra.
Qed.
(** The places of the grid points of a square, south of the equator, with a hole *)
Example C136_nonvacuous : exists r h : list lnglat64, let t := mkTile 3 5 3 in
  good_proj exact_libm exact_exp /\ fine t 4096 /\ Forall2 (at_grid t 4096) [(-5, 0); (95, 0); (95, 100); (-5, 100)]%Z r /\ Forall2 (at_grid t 4096) [(10, 10); (20, 30); (30, 10); (10, 10)]%Z h /\
  drawable64 false t 4096 (XPolygon [r; h]) /\ drawable64 false t 4096 (XLineString r) /\ drawable64 false t 4096 (XMultiPolygon [[h]; [r; h]]).
Proof.
  pose proof (proj1 C120_nonvacuous) as G. set (t := mkTile 3 5 3). set (u := fun p : Z * Z => unproject64 exact_libm exact_exp t 4096 (lp p)). assert (M : on_map t) by (unfold on_map, t; cbn; lia). assert (F : fine t 4096) by (split; [exact M|split; [lia|discriminate]]).
  assert (UA : forall g, near_tile t 4096 false g -> at_grid t 4096 g (u g)) by (intros g Hg; apply (u_at false t 4096 exact_libm exact_exp G M); [lia|discriminate|exact Hg]).
  assert (NT : forall g, (-5 <= fst g <= 100 /\ 0 <= snd g <= 100)%Z -> near_tile t 4096 false g) by (intros g H; unfold near_tile; change (tY t) with 5%Z; change (2 ^ tZ t)%Z with 8%Z; lia).
  pose proof PI_range as PR.
  assert (PL : forall g, (-5 <= fst g <= 100 /\ 0 <= snd g <= 100)%Z -> close_by false t 4096 (u g)).
  { intros g H. pose proof (UA g (NT g H)) as A. assert (RW : (0 <= 4096 * tY t + snd g <= 4096 * 2 ^ tZ t)%Z) by (change (tY t) with 5%Z; change (2 ^ tZ t)%Z with 8%Z; lia). destruct (at_units t 4096 g (u g) F RW A) as [U1 U2]. change (IZR (4096 * 2 ^ tZ t)) with 32768 in U1, U2.
    assert (P : placed t 4096 (u g)).
    { apply at_placed with (g := g); auto; [change (tY t) with 5%Z; change (2 ^ tZ t)%Z with 8%Z; lia|lia|lia|].
      destruct A as (_ & _ & A). change (4096 * tY t)%Z with 20480%Z in A. change (IZR (4096 * 2 ^ tZ t)) with 32768 in A. set (w := PI * (1 - 2 * (IZR (20480 + snd g) / 32768))) in *. change (atan (sinh w)) with (gd w) in A. change (atan (sinh PI)) with (gd PI).
      assert (Y : 20480 <= IZR (20480 + snd g) <= 20580) by (split; apply IZR_le; lia). assert (W : - (PI * (26 / 100)) <= w <= 0) by (unfold w; clear - Y PR; split; nra).
      pose proof (gd_low (- PI) w ltac:(apply ab; lra) ltac:(apply ab; lra)) as L. assert (G1 : gd (- PI) <= gd w) by (apply (proj1 (gd_le _ _)); lra). assert (G2 : gd w <= gd 0) by (apply (proj1 (gd_le _ _)); lra). assert (G0 : gd 0 = 0) by (unfold gd; rewrite sinh_0; apply atan_0). assert (G3 : gd (- PI) = - gd PI) by apply gd_odd.
      rewrite Rabs_minus_sym, (Rabs_pos_eq (w - - PI)), (Rabs_minus_sym (gd (- PI))), (Rabs_pos_eq (gd w - gd (- PI))) in L by lra.
      assert (D0 : 57 <= 180 / PI <= 58). { assert (E : 180 / PI * PI = 180) by (field; lra). set (d := 180 / PI) in *. clearbody d. clear - E PR. nra. } set (d := 180 / PI) in *. apply ab in A. assert (K : d * gd w + 1 <= d * gd PI) by (clear - D0 L W G0 G1 G2 G3 PR; nra). assert (K' : - (d * gd PI) + 1 <= d * gd w) by (clear - D0 L W G0 G1 G2 G3 PR; nra). lra. }
    split; [exact P|]. apply ab in U1, U2. assert (-5 <= IZR (fst g) <= 100 /\ 0 <= IZR (snd g) <= 100) by (repeat split; apply IZR_le; lia). split; apply ab; lra. }
  assert (RG : forall l, forallb (fun g => (-5 <=? fst g) && (fst g <=? 100) && (0 <=? snd g) && (snd g <=? 100))%Z l = true -> Forall (fun g => (-5 <= fst g <= 100 /\ 0 <= snd g <= 100)%Z) l) by (intros l H; apply Forall_forall; intros g Hg; rewrite forallb_forall in H; specialize (H g Hg); lia).
  assert (AG : forall l, Forall (fun g => (-5 <= fst g <= 100 /\ 0 <= snd g <= 100)%Z) l -> Forall2 (at_grid t 4096) l (map u l)) by (induction 1; cbn [map]; constructor; auto).
  assert (CB : forall l, Forall (fun g => (-5 <= fst g <= 100 /\ 0 <= snd g <= 100)%Z) l -> Forall (close_by false t 4096) (map u l)) by (induction 1; cbn [map]; constructor; auto).
  exists (map u [(-5, 0); (95, 0); (95, 100); (-5, 100)]%Z), (map u [(10, 10); (20, 30); (30, 10); (10, 10)]%Z). cbv zeta. fold t.
  assert (R1 := RG [(-5, 0); (95, 0); (95, 100); (-5, 100)]%Z eq_refl). assert (R2 := RG [(10, 10); (20, 30); (30, 10); (10, 10)]%Z eq_refl).
  split; [exact G|]. split; [exact F|]. split; [apply AG, R1|]. split; [apply AG, R2|].
  assert (RF : forall l, l <> [] -> Forall (fun g => (-5 <= fst g <= 100 /\ 0 <= snd g <= 100)%Z) l -> map u l <> [] /\ Forall (close_by false t 4096) (map u l)) by (intros l N HL; split; [intros K; apply map_eq_nil in K; contradiction|apply CB, HL]).
  split; [|split]; (split; [vm_compute; discriminate|]).
  - split; [discriminate|]. apply Forall_cons; [|apply Forall_cons; [|apply Forall_nil]]; apply RF; solve [discriminate|assumption].
  - split; [discriminate|]. apply close_placed with (eb := false). apply CB, R1.
  - split; [discriminate|]. split; [apply Forall_cons; [|apply Forall_cons; [|apply Forall_nil]]; (split; [discriminate|]); repeat (apply Forall_cons; [apply RF; solve [discriminate|assumption]|]); apply Forall_nil|].
    cbn [tl]. apply Forall_cons; [|apply Forall_nil].
    intros gs H. assert (E : gs = [(-5, 0); (95, 0); (95, 100); (-5, 100)]%Z); [|rewrite E; discriminate].
    revert gs H. clear CB RG RF R2. set (l := [(-5, 0); (95, 0); (95, 100); (-5, 100)]%Z) in *. clearbody l. induction R1 as [|g l Hg _ IH]; intros gs H; cbn [map] in H; inversion H; subst; [reflexivity|]. f_equal; [|apply IH; assumption].
    apply (at_next t 4096 g _ (u g) F); [change (tY t) with 5%Z; change (2 ^ tZ t)%Z with 8%Z; lia|apply UA, NT, Hg|assumption].
Qed.
