(** The cover of a polygon in binary64 (C138). *)
From Coq Require Import ZArith Reals Rtrigo1 Ratan List Lia Lra Bool.
From Flocq Require Import Core BinarySingleNaN.
From Verif Require Import GoBase Num Tileid_Model TileR_Model TileR_Proofs Clip_Spec Cover_Spec Cover_Model Cover_Proofs TileF64_Model TileF64_Proofs F64 ColorF64_Model ColorF64_Proofs ColorF64_Props Tile64_Model Tile64_Proofs Tile64_Props Pip64_Model Pip64_Props Line64_Model Line64_Props Poly64_Model Poly64_Proofs.
From Verif Require Cover_Props Simplify64_Proofs.
Import ListNotations.
Open Scope R_scope.

(** math.Sinh(0) and math.Atan(0) are zeros (special cases documented in package math) *)
Definition zero_libm (m : libm) : Prop :=
  forall x, is_finite x = true -> B2R x = 0 -> B2R (mSinh m x) = 0 /\ B2R (mAtan m x) = 0.
(** No edge comes within 1e-12 degrees of longitude and 1e-11 of latitude of [c]. *)
Definition clear_corner (rings : list (list rpt)) (c : rpt) : Prop :=
  forall e q, In e (all_edges rings) -> seg (fst e) (snd e) q -> / 10 ^ 12 < Rabs (fst q - fst c) \/ / 10 ^ 11 < Rabs (snd q - snd c).
(** The box around the vertices [outer] reaches into the tile. *)
Definition reaches (outer : list (f64 * f64)) (t : TileID) : Prop :=
  let b := Bounds t in
  exists w e s n, In w outer /\ In e outer /\ In s outer /\ In n outer /\
    B2R (fst w) <= eE b - / 10 ^ 12 /\ eW b <= B2R (fst e) /\ B2R (snd s) <= eN b - 3 / 10 ^ 9 /\ eS b + 3 / 10 ^ 9 <= B2R (snd n).
(** The point lies in the tile, 3e-9 degrees or more from its edges other than the western one. *)
Definition well_inside (t : TileID) (p : f64 * f64) : Prop :=
  let b := Bounds t in eW b <= B2R (fst p) <= eE b - 3 / 10 ^ 9 /\ eS b + 3 / 10 ^ 9 <= B2R (snd p) <= eN b - 3 / 10 ^ 9.

(** *** The bounding box *)
Definition box_f (b : Ext64) (r : Extrema) : Prop := is_f (e6W b) (eW r) /\ is_f (e6E b) (eE r) /\ is_f (e6N b) (eN r) /\ is_f (e6S b) (eS r).
Definition fin_pt (p : f64 * f64) : Prop := is_finite (fst p) = true /\ is_finite (snd p) = true.
Lemma bbox_val pts : forall b r, box_f b r -> Forall fin_pt pts -> box_f (fold_left bbox_step64 pts b) (fold_left bbox_step (map val pts) r).
Proof.
  induction pts as [|[x y] pts IH]; intros b r (W & E & N & S) H; [repeat split; auto; try apply W; try apply E; try apply N; try apply S|]. cbn [fold_left map]. inversion H; subst. apply IH; auto. destruct H2 as [F1 F2]. cbn [fst snd] in *.
  assert (IX : is_f x (B2R x)) by (split; auto). assert (IY : is_f y (B2R y)) by (split; auto). unfold bbox_step64, bbox_step, val. cbn [fst snd]. rewrite (Bltb_f _ _ _ _ IX W), (Bltb_f _ _ _ _ E IX), (Bltb_f _ _ _ _ IY S), (Bltb_f _ _ _ _ N IY).
  destruct (Rltb (B2R x) (eW r)), (Rltb (eE r) (B2R x)), (Rltb (B2R y) (eS r)), (Rltb (eN r) (B2R y)); unfold box_f; cbn [e6W e6E e6N e6S eW eE eN eS]; auto.
Qed.
Definition c4 : Ext64 := mkExt64 (fint 180) (fint (-180)) (fint (-90)) (fint 90).
Lemma bbox_pick pts : forall b, let r := fold_left bbox_step64 pts b in
  (e6W r = e6W b \/ In (e6W r) (map fst pts)) /\ (e6E r = e6E b \/ In (e6E r) (map fst pts)) /\ (e6N r = e6N b \/ In (e6N r) (map snd pts)) /\ (e6S r = e6S b \/ In (e6S r) (map snd pts)).
Proof.
  induction pts as [|[x y] pts IH]; intros b; cbn [fold_left map]; [auto|]. destruct (IH (bbox_step64 b (x, y))) as (W & E & N & S). cbv zeta in *. cbn [In fst snd].
  assert (W1 : e6W (bbox_step64 b (x, y)) = e6W b \/ e6W (bbox_step64 b (x, y)) = x) by (unfold bbox_step64; destruct (Bltb x (e6W b)), (Bltb (e6E b) x), (Bltb y (e6S b)), (Bltb (e6N b) y); cbn [e6W]; auto).
  assert (E1 : e6E (bbox_step64 b (x, y)) = e6E b \/ e6E (bbox_step64 b (x, y)) = x) by (unfold bbox_step64; destruct (Bltb x (e6W b)), (Bltb (e6E b) x), (Bltb y (e6S b)), (Bltb (e6N b) y); cbn [e6E]; auto).
  assert (N1 : e6N (bbox_step64 b (x, y)) = e6N b \/ e6N (bbox_step64 b (x, y)) = y) by (unfold bbox_step64; destruct (Bltb x (e6W b)), (Bltb (e6E b) x), (Bltb y (e6S b)), (Bltb (e6N b) y); cbn [e6N]; auto).
  assert (S1 : e6S (bbox_step64 b (x, y)) = e6S b \/ e6S (bbox_step64 b (x, y)) = y) by (unfold bbox_step64; destruct (Bltb x (e6W b)), (Bltb (e6E b) x), (Bltb y (e6S b)), (Bltb (e6N b) y); cbn [e6S]; auto).
  split; [|split; [|split]].
  - destruct W as [->|W]; [destruct W1 as [->|W1]|]; auto.
  - destruct E as [->|E]; [destruct E1 as [->|E1]|]; auto.
  - destruct N as [->|N]; [destruct N1 as [->|N1]|]; auto.
  - destruct S as [->|S]; [destruct S1 as [->|S1]|]; auto.
Qed.
Lemma strict (x : f64) : is_finite x = true -> B2R x <> 0 -> is_finite_strict x = true.
Proof. destruct x; cbn; auto; discriminate. Qed.
Lemma picked (x c : f64) (n : Z) (l : list f64) : is_f c (IZR n) -> n <> 0%Z -> x = c \/ In x l -> (exists y, In y l /\ is_finite y = true /\ B2R y = B2R x) -> In x l.
Proof.
  intros [F V] N [->|H] (y & Hy & Fy & Ey); auto. replace c with y; auto. assert (V0 : B2R c <> 0) by (rewrite V; apply IZR_neq; auto). apply B2R_inj; auto; apply strict; auto. rewrite Ey. exact V0.
Qed.
Lemma world_rng p : in_world p -> fin_pt p /\ -180 <= B2R (fst p) <= 180 /\ -90 < B2R (snd p) < 90.
Proof.
  intros H. apply world_eq in H. destruct H as (F1 & F2 & X & u & E & U). split; [split; auto|]. split; [exact X|]. rewrite E. pose proof (gd_bound u). pose proof PI_range as P. assert (E9 : 180 / PI * (PI / 2) = 90) by (field; lra). assert (0 < 180 / PI) by (apply Rdiv_lt_0_compat; lra). nra.
Qed.
(** the box of a closed ring: bounds of the vertices, each one the coordinate of a vertex *)
Lemma box64 (f : f64 * f64) l : Forall in_world (f :: l) -> let b := BoundingBoxPoints64 (f :: l ++ [f]) in
  box_f b (BoundingBoxPoints (map val (f :: l ++ [f]))) /\
  (forall p, In p (f :: l) -> B2R (e6W b) <= B2R (fst p) <= B2R (e6E b) /\ B2R (e6S b) <= B2R (snd p) <= B2R (e6N b)) /\
  (exists p, In p (f :: l) /\ fst p = e6W b) /\ (exists p, In p (f :: l) /\ fst p = e6E b) /\ (exists p, In p (f :: l) /\ snd p = e6S b) /\ (exists p, In p (f :: l) /\ snd p = e6N b).
Proof.
  intros HW b. rewrite Forall_forall in HW. assert (FI : forall n, (Z.abs n <= 2 ^ 53)%Z -> is_f (fint n) (IZR n)) by (intros; apply fint_f; auto).
  assert (B : box_f b (BoundingBoxPoints (map val (f :: l ++ [f])))).
  { unfold b, BoundingBoxPoints64, BoundingBoxPoints. apply bbox_val; [unfold box_f; cbn [e6W e6E e6N e6S eW eE eN eS]; repeat split; apply FI; lia|]. apply Forall_forall. intros p Hp. apply (world_rng p), HW. cbn [In] in *. rewrite in_app_iff in Hp. cbn [In] in Hp. tauto. }
  assert (EM : map val (f :: l ++ [f]) = val f :: map val l ++ [val f]) by (cbn [map]; rewrite map_app; reflexivity).
  destruct (Cover_Props.C38_closed_ring_box (val f) (map val l)) as (B0 & Bw & Be & Bs & Bn). { intros p Hp. change (val f :: map val l) with (map val (f :: l)) in Hp. apply in_map_iff in Hp. destruct Hp as (q & <- & Hq). apply HW, world_rng in Hq. unfold val. cbn [fst snd]. lra. }
  rewrite EM in B. change (val f :: map val l) with (map val (f :: l)) in B0, Bw, Be, Bs, Bn. set (r := BoundingBoxPoints (val f :: map val l ++ [val f])) in *. destruct B as ([FW VW] & [FE VE] & [FN VN] & [FS VS]).
  assert (IN : forall p, In p (f :: l ++ [f]) -> In p (f :: l)) by (intros p Hp; cbn [In] in *; rewrite in_app_iff in Hp; cbn [In] in Hp; tauto).
  destruct (bbox_pick (f :: l ++ [f]) (mkExt64 (fint 180) (fint (-180)) (fint (-90)) (fint 90))) as (PW & PE & PN & PS). cbv zeta in *. fold (BoundingBoxPoints64 (f :: l ++ [f])) in PW, PE, PN, PS. fold b in PW, PE, PN, PS. cbn [e6W e6E e6N e6S] in PW, PE, PN, PS.
  assert (SUB : forall p, In p (f :: l) -> In p (f :: l ++ [f])) by (intros p Hp; cbn [In] in *; rewrite in_app_iff; tauto).
  split; [rewrite EM; fold r; unfold box_f, is_f; auto 10|]. split; [intros p Hp; rewrite VW, VE, VS, VN; apply (B0 (val p)), in_map; exact Hp|].
  assert (C : forall (g : f64 * f64 -> f64) (h : rpt -> R) x c n, (forall p, h (val p) = B2R (g p)) -> (forall p, in_world p -> is_finite (g p) = true) -> is_f c (IZR n) -> n <> 0%Z -> x = c \/ In x (map g (f :: l ++ [f])) -> (exists q, In q (map val (f :: l)) /\ h q = B2R x) -> exists p, In p (f :: l) /\ g p = x).
  { intros g h x c n Hh Hg Fc Nn Hx (q & Hq & Eq). apply in_map_iff in Hq. destruct Hq as (p & <- & Hp). rewrite Hh in Eq. assert (X : In x (map g (f :: l ++ [f]))). { eapply picked; eauto. exists (g p). split; [apply in_map, SUB, Hp|]. split; [apply Hg, HW, Hp|exact Eq]. } apply in_map_iff in X. destruct X as (p' & E' & Hp'). exists p'. auto. }
  assert (K1 : forall p, in_world p -> is_finite (fst p) = true) by (intros p Hp; apply world_rng in Hp; apply Hp). assert (K2 : forall p, in_world p -> is_finite (snd p) = true) by (intros p Hp; apply world_rng in Hp; apply Hp).
  rewrite <- VW in Bw. rewrite <- VE in Be. rewrite <- VS in Bs. rewrite <- VN in Bn. split; [|split; [|split]].
  - apply (C fst fst _ _ 180%Z (fun _ => eq_refl) K1 (FI 180%Z ltac:(lia)) ltac:(lia) PW Bw).
  - apply (C fst fst _ _ (-180)%Z (fun _ => eq_refl) K1 (FI (-180)%Z ltac:(lia)) ltac:(lia) PE Be).
  - apply (C snd snd _ _ 90%Z (fun _ => eq_refl) K2 (FI 90%Z ltac:(lia)) ltac:(lia) PS Bs).
  - apply (C snd snd _ _ (-90)%Z (fun _ => eq_refl) K2 (FI (-90)%Z ltac:(lia)) ltac:(lia) PN Bn).
Qed.

Section Poly.
Variable m : libm.
Hypothesis G : good_libm m.
Hypothesis G0 : zero_libm m.
Variable z : Z.
Hypothesis Hz : (0 <= z <= 28)%Z.

(** *** Rows reached *)
Lemma row_reach (p : f64 * f64) r : in_world p -> (0 <= r < 2 ^ z)%Z -> (Nr z (r + 1) + 3 / 10 ^ 9 <= B2R (snd p) -> (tile_row m (snd p) z <= r)%Z) /\ (B2R (snd p) <= Nr z r - 3 / 10 ^ 9 -> (r <= tile_row m (snd p) z)%Z).
Proof.
  intros Hp HR. destruct (row_val m G z Hz p Hp) as (u & v & E & U & -> & V). rewrite E, !Nr_eq. pose proof (n_rng z Hz) as N. pose proof PI_range as P. apply ab in V. set (n := IZR (2 ^ z)) in *.
  assert (C : forall x, (1 - x / PI) / 2 * n = (PI - x) * (n / (2 * PI))) by (intros; field; lra). assert (Cr : forall k, IZR k = (PI - ur z k) * (n / (2 * PI))) by (intros; unfold ur; fold n; field; lra). rewrite C in V. set (a := n / (2 * PI)) in *.
  assert (NA : n = a * (2 * PI)) by (unfold a; field; lra). rewrite NA in V. assert (A0 : 0 < a) by (unfold a; apply Rdiv_lt_0_compat; lra). pose proof (Cr r) as Cr1. pose proof (Cr (r + 1)%Z) as Cr2. clearbody a. clear NA C Cr.
  assert (Q : a * (2 * PI) * (7 / 10 ^ 12) <= a * (45 / 10 ^ 12)) by (rewrite Rmult_assoc; apply Rmult_le_compat_l; lra). split; intros L.
  - pose proof (gd_inner (ur z (r + 1)) u (3 / 10 ^ 9) L ltac:(lra)) as I. assert (v < IZR (r + 1)). { rewrite Cr2. assert (a * (ur z (r + 1) + 3 / 10 ^ 9 * (PI / 180)) <= a * u) by (apply Rmult_le_compat_l; lra). nra. } assert (Zfloor v < r + 1)%Z by (apply lt_IZR; eapply Rle_lt_trans; [apply Zfloor_lb|auto]). lia.
  - pose proof (gd_inner u (ur z r) (3 / 10 ^ 9) ltac:(lra) ltac:(lra)) as I. apply Zfloor_lub. rewrite Cr1. assert (a * (u + 3 / 10 ^ 9 * (PI / 180)) <= a * ur z r) by (apply Rmult_le_compat_l; lra). nra.
Qed.

(** *** The corners *)
Lemma ok_lon x : (0 <= x <= 2 ^ z)%Z -> ok_coord 8 (ul_lon x z).
Proof.
  intros Hx. pose proof (lon_f z Hz x Hx) as [F V]. pose proof (Wc_rng z Hz x Hx) as R. split; [exact F|]. rewrite V. change (bpow radix2 8) with 256. split; [apply ab; lra|].
  destruct (ul_lon_f x z ltac:(lia) Hx) as [_ V']. rewrite <- V, V'. unfold dy. destruct (Z.eq_dec (360 * x - 180 * 2 ^ z) 0) as [E|E]; [left; rewrite E; ring|right]. rewrite Rabs_mult, <- abs_IZR, (Rabs_right (bpow radix2 (- z))) by (apply Rle_ge, bpow_ge_0).
  apply Rle_trans with (1 * bpow radix2 (- z)); [rewrite Rmult_1_l; apply bpow_le; lia|]. apply Rmult_le_compat_r; [apply bpow_ge_0|]. apply IZR_le. lia.
Qed.
Lemma gd_small u : 0 <= u <= 3142 / 1000 -> u / 13 <= gd u.
Proof.
  intros H. pose proof (gd_low u 0 ltac:(apply ab; lra) ltac:(rewrite Rabs_R0; lra)) as L. assert (Z0 : gd 0 = 0) by (unfold gd; rewrite sinh_0; apply atan_0). rewrite Z0, !Rminus_0_r in L. rewrite (Rabs_right u) in L by lra. assert (0 <= gd u) by (rewrite <- Z0; apply (proj1 (gd_le 0 u)); lra). rewrite Rabs_right in L by lra. lra.
Qed.
Lemma ok_lat y : (0 <= y <= 2 ^ z)%Z -> ok_coord 8 (ul_lat m y z) /\ Rabs (B2R (ul_lat m y z) - Nr z y) <= 8 / 10 ^ 12.
Proof.
  intros Hy. destruct (ul_lat_near m G y z ltac:(lia) Hy) as (r & [F V] & E). fold (Nr z y) in E. pose proof (edge_lat_range (IZR y) (IZR (2 ^ z))) as R. fold (Nr z y) in R. rewrite V. pose proof E as E'. apply ab in E'. split; [|eapply Rle_trans; [exact E|lra]].
  split; [exact F|]. rewrite V. change (bpow radix2 8) with 256. split; [apply ab; lra|].
  destruct (Z.eq_dec (2 * y) (2 ^ z)) as [M|M].
  - left. rewrite <- V. unfold ul_lat. destruct (frac_f y z ltac:(lia) Hy) as [F1 _]. pose proof (n_rng z Hz) as N. replace (1 - 2 * IZR y / IZR (2 ^ z)) with 0 in F1 by (rewrite <- mult_IZR, M; field; lra).
    pose proof (fmul_f _ _ _ _ pi_f F1 ltac:(rewrite Rmult_0_r; apply big, ab; lra)) as F2. rewrite Rmult_0_r, round_0 in F2 by auto with typeclass_instances. destruct F2 as [F2 V2]. destruct (G0 _ F2 V2) as [V3 _].
    destruct G as (GS & GA & _). destruct (GS _ F2 ltac:(rewrite V2; apply ab; lra)) as [F3 _]. destruct (G0 _ F3 V3) as [_ V4]. destruct (GA _ F3 ltac:(rewrite V3; apply ab; lra)) as [F4 _].
    pose proof (fmul_f _ _ _ _ deg_f (conj F4 V4) ltac:(rewrite Rmult_0_r; apply big, ab; lra)) as F5. rewrite Rmult_0_r, round_0 in F5 by auto with typeclass_instances. apply F5.
  - right. pose proof (n_rng z Hz) as N. pose proof PI_range as P. pose proof d180 as D. apply Rle_trans with (/ 10 ^ 9); [apply Rle_trans with (bpow radix2 (-30)); [apply bpow_le; lia|change (bpow radix2 (-30)) with (/ 1073741824); lra]|].
    set (n := IZR (2 ^ z)) in *. assert (K : / 10 ^ 8 <= Rabs (ur z y)).
    { unfold ur. fold n. replace (PI * (1 - 2 * IZR y / n)) with (PI / n * IZR (2 ^ z - 2 * y)) by (rewrite minus_IZR, mult_IZR; fold n; field; lra). assert (Q : / 10 ^ 8 <= PI / n). { apply Rmult_le_reg_r with n; [lra|]. unfold Rdiv. rewrite Rmult_assoc, Rinv_l by lra. lra. }
      rewrite Rabs_mult, <- abs_IZR, (Rabs_right (PI / n)) by lra. assert (1 <= IZR (Z.abs (2 ^ z - 2 * y))) by (apply IZR_le; lia). nra. }
    pose proof (ur_rng z Hz y Hy) as UR. rewrite Nr_eq in E'. assert (GG : / 10 ^ 8 / 13 <= Rabs (gd (ur z y))).
    { unfold Rabs in K. destruct (Rcase_abs (ur z y)) as [L|L].
      - pose proof (gd_small (- ur z y) ltac:(lra)) as Q. rewrite gd_odd in Q. rewrite <- Rabs_Ropp. rewrite Rabs_right; lra.
      - pose proof (gd_small (ur z y) ltac:(lra)) as Q. rewrite Rabs_right; lra. }
    set (g := gd (ur z y)) in *. set (d := 180 / PI) in *. clearbody g d. clear - GG D E'. unfold Rabs in *. destruct (Rcase_abs g), (Rcase_abs r); nra.
Qed.
Definition corners64 (t : TileID) : list (f64 * f64) :=
  let b := Bounds64 m t in [(e6W b, e6N b); (e6W b, e6S b); (e6E b, e6N b); (e6E b, e6S b)].
Definition near_corner (q : f64 * f64) (c : rpt) : Prop := B2R (fst q) = fst c /\ Rabs (B2R (snd q) - snd c) <= 8 / 10 ^ 12 /\ ok_pt 8 q.
Lemma corner_parts t : on_map t -> tZ t = z -> let b := Bounds64 m t in let r := Bounds t in
  (ok_coord 8 (e6W b) /\ B2R (e6W b) = eW r) /\ (ok_coord 8 (e6E b) /\ B2R (e6E b) = eE r) /\
  (ok_coord 8 (e6N b) /\ Rabs (B2R (e6N b) - eN r) <= 8 / 10 ^ 12) /\ (ok_coord 8 (e6S b) /\ Rabs (B2R (e6S b) - eS r) <= 8 / 10 ^ 12).
Proof.
  intros M E b r. pose proof M as (Z0 & HX & HY). destruct (Bounds_exact t M) as (W & Ea & N & S). fold r in W, Ea, N, S. rewrite E in *. unfold b, Bounds64, Ul64. cbn [e6W e6E e6N e6S fst snd tX tY tZ]. rewrite E. rewrite W, Ea, N, S.
  split; [split; [apply ok_lon; lia|apply (lon_f z Hz (tX t)); lia]|]. split; [split; [apply ok_lon; lia|apply (lon_f z Hz (tX t + 1)); lia]|]. split; [apply (ok_lat (tY t)); lia|]. pose proof (ok_lat (tY t + 1) ltac:(lia)) as K. rewrite Nr_eq in K. unfold ur in K. rewrite plus_IZR in K. exact K.
Qed.
Lemma corner_out t q : on_map t -> tZ t = z -> In q (corners64 t) -> exists c, Cover_Props.tile_corner t c /\ near_corner q c.
Proof.
  intros M E H. destruct (corner_parts t M E) as ((W1 & W2) & (E1 & E2) & (N1 & N2) & (S1 & S2)). cbv zeta in *. unfold corners64 in H. cbv zeta in H. unfold Cover_Props.tile_corner, near_corner, ok_pt. cbn [In] in H.
  destruct H as [<-|[<-|[<-|[<-|[]]]]]; [exists (eW (Bounds t), eN (Bounds t))|exists (eW (Bounds t), eS (Bounds t))|exists (eE (Bounds t), eN (Bounds t))|exists (eE (Bounds t), eS (Bounds t))]; cbn [fst snd]; auto 10.
Qed.
Lemma corner_in t c : on_map t -> tZ t = z -> Cover_Props.tile_corner t c -> exists q, In q (corners64 t) /\ near_corner q c.
Proof.
  intros M E [H1 H2]. destruct (corner_parts t M E) as ((W1 & W2) & (E1 & E2) & (N1 & N2) & (S1 & S2)). cbv zeta in *. unfold corners64, near_corner, ok_pt. cbv zeta. cbn [In]. destruct c as [cx cy]. cbn [fst snd] in *.
  destruct H1 as [->| ->], H2 as [->| ->]; [exists (e6W (Bounds64 m t), e6N (Bounds64 m t))|exists (e6W (Bounds64 m t), e6S (Bounds64 m t))|exists (e6E (Bounds64 m t), e6N (Bounds64 m t))|exists (e6E (Bounds64 m t), e6S (Bounds64 m t))]; cbn [fst snd]; auto 10.
Qed.

(** Pip at a computed corner answers for the exact corner. *)
Lemma corner_pip (rings : list (list (f64 * f64))) q c : Forall (Forall (ok_pt 8)) rings -> (forall r, In r rings -> r <> []) -> near_corner q c -> clear_corner (map (map val) rings) c ->
  (Pip64 rings q = Ok true <-> inside (map (map val) rings) c).
Proof.
  intros O NE (Q1 & Q2 & Q3) C. apply ab in Q2. destruct (C124_pip 8 rings q ltac:(lia) O Q3 NE) as (b & -> & B).
  { intros e He _ _ p Sp Ep. destruct (C e p He Sp) as [L|L].
    - change (8 - 49)%Z with (-41)%Z. assert (E41 : bpow radix2 (-41) = / 2199023255552) by exact (bpm 41 2199023255552 ltac:(lia) eq_refl). rewrite E41. unfold val. cbn [fst]. rewrite Q1. lra.
    - exfalso. rewrite Ep in L. unfold val in L. cbn [snd] in L. unfold Rabs in L. destruct (Rcase_abs (B2R (snd q) - snd c)); lra. }
  transitivity (b = true); [split; [intros K; injection K; auto|intros ->; auto]|]. rewrite B. apply inside_move; [unfold val; cbn [fst]; exact Q1|]. intros e r He Sr Er K. destruct (C e r He Sr) as [L|L].
  - unfold val in Er. cbn [fst] in Er. rewrite Er, Q1, Rminus_diag_eq, Rabs_R0 in L by auto. lra.
  - unfold val in K. cbn [snd] in K. pose proof (Rmm_cases (B2R (snd q)) (snd c)) as [[M1 M2]|[M1 M2]]; rewrite M1, M2 in K; unfold Rabs in L; destruct (Rcase_abs (snd r - snd c)); lra.
Qed.

Lemma pip64_ok (rings : list (list (f64 * f64))) q : (forall r, In r rings -> r <> []) -> exists b, Pip64 rings q = Ok b.
Proof.
  intros H. unfold Pip64. assert (K : exists n, pip_count64 rings q = Ok n).
  { induction rings as [|c rs IH]; cbn [pip_count64]; [eauto|]. destruct c as [|f l]; [destruct (H [] (or_introl eq_refl)); reflexivity|]. cbn [pip_ring64 bind]. destruct IH as (k & ->); [intros; apply H; right; auto|]. cbn [bind]. eauto. }
  destruct K as (n & ->). cbn [bind]. eauto.
Qed.
Lemma tile_test (rings : list (list (f64 * f64))) pb t : (forall r, In r rings -> r <> []) -> let b := Bounds64 m t in
  (exists v, TilePolygon64 m rings pb t = Ok v) /\
  (TilePolygon64 m rings pb t = Ok true <-> (Bltb (e6N pb) (e6N b) && Bltb (e6S b) (e6S pb) && Bltb (e6E pb) (e6E b) && Bltb (e6W b) (e6W pb) = true) \/
    (exists q, In q (corners64 t) /\ Pip64 rings q = Ok true) \/ RunPolygon64 m rings t = true).
Proof.
  intros H b. unfold TilePolygon64. fold b. cbv zeta. destruct (Bltb (e6N pb) (e6N b) && _ && _ && _); [split; eauto; split; auto|].
  assert (HP : forall c, exists x, Pip64 rings c = Ok x) by (intros c; apply pip64_ok, H).
  destruct (Cover_Props.or_res_ok (Pip64 rings (e6E b, e6S b)) (Ok (RunPolygon64 m rings t)) (HP _) ltac:(eauto)) as [O1 O1'].
  destruct (Cover_Props.or_res_ok (Pip64 rings (e6E b, e6N b)) _ (HP _) O1) as [O2 O2'].
  destruct (Cover_Props.or_res_ok (Pip64 rings (e6W b, e6S b)) _ (HP _) O2) as [O3 O3'].
  destruct (Cover_Props.or_res_ok (Pip64 rings (e6W b, e6N b)) _ (HP _) O3) as [O4 O4'].
  split; [exact O4|]. rewrite O4', O3', O2', O1'. unfold corners64. fold b. cbv zeta. cbn [In].
  assert (HR : Ok (RunPolygon64 m rings t) = Ok true <-> RunPolygon64 m rings t = true) by (split; [intros E; injection E; auto|intros ->; auto]). rewrite HR. split.
  - intros [K|[K|[K|[K|K]]]]; auto; right; left; eexists; (split; [|exact K]); auto.
  - intros [K|[(q & Hq & K)|K]]; [discriminate| |auto]. destruct Hq as [<-|[<-|[<-|[<-|[]]]]]; auto.
Qed.
Lemma run_iff (rings : list (list (f64 * f64))) t : tZ t = z -> (RunPolygon64 m rings t = true <-> exists r p, In r rings /\ In p r /\ Tile64 m (fst p) (snd p) z = t).
Proof.
  intros Ht. unfold RunPolygon64. rewrite existsb_exists, Ht, wrap64_id by (unfold in_i64; lia). split.
  - intros (r & Hr & H). apply existsb_exists in H. destruct H as (p & Hp & E). exists r, p. split; auto. split; auto. cbv zeta in E. destruct t as [tx ty tz]. unfold Tile64 in *. cbn [tX tY tZ] in *. subst tz. rewrite u64z by auto. f_equal; lia.
  - intros (r & p & Hr & Hp & E). exists r. split; auto. apply existsb_exists. exists p. split; auto. cbv zeta. rewrite E. lia.
Qed.
End Poly.

(** The cover of a polygon of the map whose outer ring is closed.  No tile twice.  Every tile of
    the map into which the box of the outer ring reaches is there if a vertex lies well inside it
    or a corner of it lies inside the polygon, clear of the edges.  Conversely every tile returned
    is, by row and column, between tiles of outer vertices, and it is the tile of a vertex, or (if
    it is a tile of the map) it holds the whole outer ring but for 1e-11 degrees of latitude, or
    one of its corners is inside the polygon, if clear of the edges. *)
Theorem C138_polygon : forall m f l inner zoom, good_libm m -> zero_libm m -> (0 <= zoom <= 28)%Z ->
  let polygon := (f :: l ++ [f]) :: inner in let exact := map (map val) polygon in
  Forall in_world (f :: l) -> Forall (Forall (ok_pt 8)) polygon -> (forall r, In r inner -> r <> []) ->
  let T := fun p : f64 * f64 => Tile64 m (fst p) (snd p) zoom in
  exists tiles, GetTilesPolygon64 m polygon zoom = Ok tiles /\ NoDup tiles /\
    (forall t, on_map t -> tZ t = zoom -> reaches (f :: l) t ->
      (exists r p, In r polygon /\ In p r /\ well_inside t p) \/ (exists c, Cover_Props.tile_corner t c /\ inside exact c /\ clear_corner exact c) -> In t tiles) /\
    (forall t, In t tiles -> tZ t = zoom /\
      (exists p q, In p (f :: l) /\ In q (f :: l) /\ (tX (T p) <= tX t <= tX (T q))%Z) /\ (exists p q, In p (f :: l) /\ In q (f :: l) /\ (tY (T p) <= tY t <= tY (T q))%Z) /\
      ((exists r p, In r polygon /\ In p r /\ T p = t) \/
       (on_map t -> (forall p, In p (f :: l) -> eW (Bounds t) < B2R (fst p) < eE (Bounds t) /\ eS (Bounds t) - / 10 ^ 11 < B2R (snd p) < eN (Bounds t) + / 10 ^ 11) \/
         (exists c, Cover_Props.tile_corner t c /\ (clear_corner exact c -> inside exact c))))).
Proof.
  intros m f l inner z G G0 Hz polygon exact HW HO HI T. destruct (box64 f l HW) as (BF & B0 & (pw & Bw & Ew) & (pe & Be & Ee) & (ps & Bs & Es) & (pn & Bn & En)). cbv zeta in *. set (b := BoundingBoxPoints64 (f :: l ++ [f])) in *.
  assert (NE : forall r, In r polygon -> r <> []) by (intros r [<-|Hr]; [discriminate|auto]). rewrite Forall_forall in HW.
  unfold GetTilesPolygon64, polygon. fold polygon. fold b. cbv zeta.
  set (xs := GetDif (tX (Tile64 m (e6W b) (e6N b) z)) (tX (Tile64 m (e6E b) (e6S b) z))). set (ys := GetDif (tY (Tile64 m (e6W b) (e6N b) z)) (tY (Tile64 m (e6E b) (e6S b) z))).
  destruct (Cover_Props.filter_res_ok (TilePolygon64 m polygon b) (flat_map (fun x => map (fun y => mkTile x y (u64 z)) ys) xs)) as (ts & E). { intros t _. apply (tile_test m polygon b t NE). }
  exists ts. split; [exact E|]. destruct (Cover_Props.filter_res_spec _ _ _ E) as [F1 F2]. split. { apply F2. apply Cover_Props.pot_nodup; apply Cover_Props.ssorted_nodup, Cover_Props.C37_get_dif. }
  assert (WN : in_world (fst pw, snd pn)). { pose proof (HW _ Bw) as (X1 & _ & X3 & _). pose proof (HW _ Bn) as (_ & Y2 & _ & Y4). unfold in_world in *. cbn [fst snd]. auto. }
  assert (WS : in_world (fst pe, snd ps)). { pose proof (HW _ Be) as (X1 & _ & X3 & _). pose proof (HW _ Bs) as (_ & Y2 & _ & Y4). unfold in_world in *. cbn [fst snd]. auto. }
  assert (UZ : u64 z = z) by (apply u64z; auto).
  split.
  - intros t M TZ (w & e & s & n & Iw & Ie & Is & In_ & Lw & Le & Ls & Ln) H. apply F1. rewrite Cover_Props.pot_in, UZ. pose proof M as (Z0 & MX & MY). rewrite TZ in MX, MY. destruct (Bounds_exact t M) as (BW & BE & BN & BS). rewrite TZ in BW, BE, BN, BS. split; [split; [|split; [|exact TZ]]|].
    + unfold xs. destruct (Cover_Props.C37_get_dif (tX (Tile64 m (e6W b) (e6N b) z)) (tX (Tile64 m (e6E b) (e6S b) z))) as [GD _]. apply GD. right. unfold Tile64. cbn [tX]. rewrite <- Ew, <- Ee.
      pose proof (world_rng _ (HW _ Bw)) as ([Fw _] & Rw & _). pose proof (world_rng _ (HW _ Be)) as ([Fe _] & Re & _). pose proof (proj1 (B0 _ Iw)) as Q1. pose proof (proj1 (B0 _ Ie)) as Q2. rewrite <- Ew in Q1. rewrite <- Ee in Q2. rewrite BE in Lw. rewrite BW in Le.
      pose proof (Tile64_Proofs.col_lt (fst pw) (tX t + 1) z ltac:(lia) ltac:(lia) Fw ltac:(lra)). pose proof (Tile64_Proofs.col_ge (fst pe) (tX t) z ltac:(lia) ltac:(lia) Fe ltac:(lra)). lia.
    + unfold ys. destruct (Cover_Props.C37_get_dif (tY (Tile64 m (e6W b) (e6N b) z)) (tY (Tile64 m (e6E b) (e6S b) z))) as [GD _]. apply GD. right. unfold Tile64. cbn [tY]. rewrite <- En, <- Es.
      pose proof (proj2 (B0 _ Is)) as Q1. pose proof (proj2 (B0 _ In_)) as Q2. rewrite <- Es in Q1. rewrite <- En in Q2. rewrite BN in Ls. rewrite BS in Ln. rewrite <- plus_IZR in Ln. fold (ur z (tY t)) in Ls. fold (ur z (tY t + 1)) in Ln. rewrite <- Nr_eq in Ls. rewrite <- Nr_eq in Ln.
      pose proof (proj1 (row_reach m G z Hz _ (tY t) (HW _ Bn) ltac:(lia)) ltac:(lra)). pose proof (proj2 (row_reach m G z Hz _ (tY t) (HW _ Bs) ltac:(lia)) ltac:(lra)). lia.
    + apply (tile_test m polygon b t NE). right. destruct H as [(r & p & Hr & Hp & [WX WY])|(c & TC & IC & CC)].
      * right. apply (run_iff m z Hz); auto. exists r, p. split; auto. split; auto. rewrite Forall_forall in HO. pose proof (HO r Hr) as HO'. rewrite Forall_forall in HO'. destruct (HO' p Hp) as [[O1 _] [O2 _]]. rewrite <- TZ. apply C118_locate; auto. lia.
      * left. destruct (corner_in m G G0 z Hz t c M TZ TC) as (q & Hq & NQ). exists q. split; auto. apply (corner_pip polygon q c); auto.
  - intros t Ht. apply F1 in Ht. destruct Ht as [Hp Ht]. rewrite Cover_Props.pot_in, UZ in Hp. destruct Hp as (PX & PY & TZ). split; [exact TZ|]. split; [|split].
    + unfold xs in PX. destruct (Cover_Props.C37_get_dif (tX (Tile64 m (e6W b) (e6N b) z)) (tX (Tile64 m (e6E b) (e6S b) z))) as [GD _]. apply GD in PX. unfold T. unfold Tile64 in *. cbn [tX] in *. rewrite <- Ew, <- Ee in PX. destruct PX as [PX|PX]; [exists pw, pw; split; auto; split; auto; lia|exists pw, pe; auto].
    + unfold ys in PY. destruct (Cover_Props.C37_get_dif (tY (Tile64 m (e6W b) (e6N b) z)) (tY (Tile64 m (e6E b) (e6S b) z))) as [GD _]. apply GD in PY. unfold T. unfold Tile64 in *. cbn [tY] in *. rewrite <- En, <- Es in PY. destruct PY as [PY|PY]; [exists pn, pn; split; auto; split; auto; lia|exists pn, ps; auto].
    + apply (tile_test m polygon b t NE) in Ht. destruct Ht as [Ht|[(q & Hq & PQ)|Ht]].
      * right. intros M. left. destruct (bounds_near m G t M ltac:(lia)) as (FW & FE & (rn & FN & EN) & (rs & FS & ES)). unfold e12 in *. apply ab in EN, ES. destruct BF as ([GW _] & [GE _] & [GN _] & [GS _]).
        apply andb_true_iff in Ht. destruct Ht as [Ht H4]. apply andb_true_iff in Ht. destruct Ht as [Ht H3]. apply andb_true_iff in Ht. destruct Ht as [H1 H2].
        rewrite (Bltb_f _ _ _ _ (conj GN eq_refl) FN), Rltb_true in H1. rewrite (Bltb_f _ _ _ _ FS (conj GS eq_refl)), Rltb_true in H2. rewrite (Bltb_f _ _ _ _ (conj GE eq_refl) FE), Rltb_true in H3. rewrite (Bltb_f _ _ _ _ FW (conj GW eq_refl)), Rltb_true in H4.
        intros p Hp. pose proof (B0 p Hp). lra.
      * right. intros M. right. destruct (corner_out m G G0 z Hz t q M TZ Hq) as (c & TC & NQ). exists c. split; [exact TC|]. intros CC. apply (corner_pip polygon q c); auto.
      * left. apply (run_iff m z Hz) in Ht; auto.
Qed.
Print Assumptions C138_polygon.

(** Whole degrees *)
Definition ipt (a b : Z) : f64 * f64 := (fint a, fint b).
Lemma ipt_val a b : (Z.abs a <= 180)%Z -> (Z.abs b <= 180)%Z -> val (ipt a b) = (IZR a, IZR b).
Proof. intros. unfold val, ipt. cbn [fst snd]. rewrite (proj2 (fz a ltac:(lia))), (proj2 (fz b ltac:(lia))). reflexivity. Qed.
Lemma ipt_world a b : (Z.abs a <= 180)%Z -> (Z.abs b <= 83)%Z -> in_world (ipt a b).
Proof.
  intros HA HB. unfold ipt. destruct (fz a ltac:(lia)) as [A1 A2], (fz b ltac:(lia)) as [B1 B2]. pose proof gd1. apply world_iff; cbn [fst snd]; auto; [rewrite A2; split; apply IZR_le; lia|]. rewrite B2, <- abs_IZR. apply Rle_trans with 83; [apply IZR_le; lia|lra].
Qed.
Lemma ipt_ok a b : (Z.abs a <= 180)%Z -> (Z.abs b <= 180)%Z -> ok_pt 8 (ipt a b).
Proof.
  assert (K : forall n, (Z.abs n <= 180)%Z -> ok_coord 8 (fint n)).
  { intros n Hn. destruct (fz n ltac:(lia)) as [F V]. split; [exact F|]. rewrite V, <- abs_IZR. change (bpow radix2 8) with 256. split; [apply IZR_le; lia|]. destruct (Z.eq_dec n 0) as [->|N]; [left; reflexivity|right]. apply Rle_trans with 1; [change 1 with (bpow radix2 0); apply bpow_le; lia|apply IZR_le; lia]. }
  intros HA HB. split; cbn [ipt fst snd]; apply K; auto.
Qed.
Lemma edges22 : let e := Bounds (mkTile 1 1 2) in eW e = -90 /\ eE e = 0 /\ eS e = 0 /\ 60 <= eN e /\ eW (Bounds (mkTile 2 1 2)) = 0 /\ eE (Bounds (mkTile 2 1 2)) = 90 /\ eS (Bounds (mkTile 2 1 2)) = 0 /\ 60 <= eN (Bounds (mkTile 2 1 2)).
Proof.
  assert (M : on_map (mkTile 1 1 2)) by (unfold on_map; cbn; lia). assert (M' : on_map (mkTile 2 1 2)) by (unfold on_map; cbn; lia). destruct (Bounds_exact _ M) as (W & E & N & S). destruct (Bounds_exact _ M') as (W' & E' & N' & S'). cbn [tX tY tZ] in *. change (2 ^ 2)%Z with 4%Z in *. change (1 + 1)%Z with 2%Z in *. change (2 + 1)%Z with 3%Z in *.
  pose proof gd2 as G2. replace (PI * (1 - 2 * 1 / 4)) with (PI / 2) in * by field. replace (PI * (1 - 2 * (1 + 1) / 4)) with 0 in * by field. assert (Z0 : 180 / PI * gd 0 = 0) by (unfold gd; rewrite sinh_0, atan_0; ring). rewrite Z0 in *. cbv zeta. rewrite W, E, N, S, W', E', N', S'. repeat split; lra.
Qed.

(** A polygon thinner than a tile runs through tile 2/1/1 (longitudes -90 to 0, latitudes 0 to
    66.5): the point (-45, 10.1) of that tile is inside, yet the tile is not returned. *)
Theorem C138_thin_refuted : forall m, good_libm m -> zero_libm m ->
  let polygon := [[ipt (-170) 10; ipt 80 10; ipt 80 11; ipt (-170) 10]] in
  exists tiles q, let e := Bounds (mkTile 1 1 2) in
    GetTilesPolygon64 m polygon 2 = Ok tiles /\ inside (map (map val) polygon) q /\ eW e < fst q < eE e /\ eS e < snd q < eN e /\ ~ In (mkTile 1 1 2) tiles.
Proof.
  intros m G G0 polygon. destruct edges22 as (EW & EE & ES & EN & _). cbv zeta in *.
  assert (HW : Forall in_world [ipt (-170) 10; ipt 80 10; ipt 80 11]) by (repeat (apply Forall_cons; [apply ipt_world; lia|]); apply Forall_nil).
  assert (HO : Forall (Forall (ok_pt 8)) polygon) by (apply Forall_cons; [|apply Forall_nil]; repeat (apply Forall_cons; [apply ipt_ok; lia|]); apply Forall_nil).
  assert (VP : map (map val) polygon = [[(-170, 10); (80, 10); (80, 11); (-170, 10)]]) by (unfold polygon; cbn [map]; rewrite !ipt_val by lia; reflexivity).
  destruct (C138_polygon m (ipt (-170) 10) [ipt 80 10; ipt 80 11] [] 2 G G0 ltac:(lia) HW HO ltac:(intros r [])) as (tiles & E & _ & _ & HI). cbn [app] in E, HI. fold polygon in E, HI. rewrite VP in *. exists tiles, (-45, 101 / 10). cbn [fst snd]. rewrite EW, EE, ES. split; [exact E|]. split.
  - apply inside_iff. unfold all_edges. cbn [flat_map ring_edges app edges]. rewrite !cnt_cons. change (cnt (-45, 101/10) []) with 0%nat. cbn [fst snd]. rewrite pip_edge_refl.
    assert (H1 : pip_edge (-45, 101 / 10) (-170, 10) (80, 10) = false). { apply not_true_is_false. rewrite pip_edge_spec. intros [[?|?] _]; cbn [fst snd] in *; lra. }
    assert (H2 : pip_edge (-45, 101 / 10) (80, 10) (80, 11) = true). { apply pip_edge_spec. split; [left; cbn [fst snd]; lra|]. exists (80, 101 / 10). cbn [fst snd]. split; [|lra]. exists (1 / 10). cbn [fst snd]. lra. }
    assert (H3 : pip_edge (-45, 101 / 10) (80, 11) (-170, 10) = false). { apply not_true_is_false. rewrite pip_edge_spec. intros [_ ([qx qy] & (t & Ht & E1 & E2) & E3 & E4)]; cbn [fst snd] in *. assert (t = 9 / 10) by lra. lra. }
    rewrite H1, H2, H3. reflexivity.
  - split; [lra|]. split; [lra|]. intros H. apply HI in H. destruct H as (_ & _ & _ & H). assert (M : on_map (mkTile 1 1 2)) by (unfold on_map; cbn; lia).
    destruct H as [(r & p & [<-|[]] & Hp & ET)|H]; [|destruct (H M) as [H'|(c & TC & IC)]; clear H].
    + apply (f_equal tX) in ET. unfold Tile64 in ET. cbn [tX] in ET.
      assert (C0 : tile_col (fint (-170)) 2 = 0%Z). { destruct (fz (-170) ltac:(lia)) as [F V]. pose proof (Tile64_Proofs.col_ge (fint (-170)) 0 2 ltac:(lia) ltac:(lia) F) as X1. pose proof (Tile64_Proofs.col_lt (fint (-170)) 1 2 ltac:(lia) ltac:(lia) F) as X2. rewrite V in X1, X2. change (2 ^ 2)%Z with 4%Z in *. specialize (X1 ltac:(lra)). specialize (X2 ltac:(lra)). lia. }
      assert (C2 : (2 <= tile_col (fint 80) 2)%Z). { destruct (fz 80 ltac:(lia)) as [F V]. apply Tile64_Proofs.col_ge; auto; try lia. rewrite V. change (2 ^ 2)%Z with 4%Z. lra. }
      destruct Hp as [<-|[<-|[<-|[<-|[]]]]]; unfold ipt in ET; cbn [fst] in ET; lia.
    + destruct (H' (ipt (-170) 10) (or_introl eq_refl)) as [[L _] _]. unfold ipt in L. cbn [fst] in L. rewrite (proj2 (fz (-170) ltac:(lia))), EW in L. lra.
    + destruct c as [cx cy]. destruct TC as [_ T2]. cbn [fst snd] in T2. assert (HC : cy = 0 \/ 60 <= cy) by (destruct T2 as [->| ->]; [right; exact EN|left; exact ES]).
      assert (CC : clear_corner [[(-170, 10); (80, 10); (80, 11); (-170, 10)]] (cx, cy)).
      { intros e q He (t & Ht & _ & Eq). right. assert (RE : 10 <= snd (fst e) <= 11 /\ 10 <= snd (snd e) <= 11). { unfold all_edges in He. cbn [flat_map ring_edges app edges In] in He. destruct He as [<-|[<-|[<-|[<-|[]]]]]; cbn [fst snd]; lra. } cbn [snd] in *. assert (10 <= snd q <= 11) by nra. unfold Rabs. destruct (Rcase_abs (snd q - cy)); lra. }
      specialize (IC CC). apply inside_iff in IC. unfold all_edges in IC. cbn [flat_map ring_edges app edges] in IC. rewrite !cnt_cons in IC. change (cnt (cx, cy) []) with 0%nat in IC. cbn [fst snd] in IC.
      assert (HF : forall a b, 10 <= snd a <= 11 -> 10 <= snd b <= 11 -> pip_edge (cx, cy) a b = false). { intros a b Ha Hb. apply not_true_is_false. rewrite pip_edge_spec. intros [[?|?] _]; cbn [fst snd] in *; lra. }
      rewrite !HF in IC by (cbn [fst snd]; lra). discriminate.
Qed.
Print Assumptions C138_thin_refuted.

(** The correctly rounded functions qualify; the corner (0, 0) of tile 2/2/1 is inside a triangle
    and clear of its edges, and the tile is returned. *)
Example C138_nonvacuous : good_libm exact_libm /\ zero_libm exact_libm /\
  exists tiles, GetTilesPolygon64 exact_libm [[ipt (-10) (-10); ipt 10 (-10); ipt 0 20; ipt (-10) (-10)]] 2 = Ok tiles /\ In (mkTile 2 1 2) tiles.
Proof.
  pose proof C118_nonvacuous as (G & _). assert (G0 : zero_libm exact_libm).
  { intros x F V. unfold exact_libm. cbn [mSinh mAtan]. rewrite V, sinh_0, atan_0. assert (R0 : rnd 0 = 0) by (apply round_0; auto with typeclass_instances). rewrite R0. assert (K : is_f (of_R 0) 0) by (apply of_R_f; [apply generic_format_0|apply ab; lra]). split; apply K. }
  split; [exact G|]. split; [exact G0|]. set (polygon := [[ipt (-10) (-10); ipt 10 (-10); ipt 0 20; ipt (-10) (-10)]]). destruct edges22 as (_ & _ & _ & _ & EW & EE & ES & EN).
  assert (HW : Forall in_world [ipt (-10) (-10); ipt 10 (-10); ipt 0 20]) by (repeat (apply Forall_cons; [apply ipt_world; lia|]); apply Forall_nil).
  assert (HO : Forall (Forall (ok_pt 8)) polygon) by (apply Forall_cons; [|apply Forall_nil]; repeat (apply Forall_cons; [apply ipt_ok; lia|]); apply Forall_nil).
  assert (VP : map (map val) polygon = [[(-10, -10); (10, -10); (0, 20); (-10, -10)]]) by (unfold polygon; cbn [map]; rewrite !ipt_val by lia; reflexivity).
  destruct (C138_polygon exact_libm (ipt (-10) (-10)) [ipt 10 (-10); ipt 0 20] [] 2 G G0 ltac:(lia) HW HO ltac:(intros r [])) as (tiles & E & _ & HI & _). cbn [app] in E, HI. fold polygon in E, HI. rewrite VP in *. exists tiles. split; [exact E|]. apply HI; [unfold on_map; cbn; lia|reflexivity| |].
  - exists (ipt (-10) (-10)), (ipt 10 (-10)), (ipt (-10) (-10)), (ipt 0 20). unfold ipt. cbn [In fst snd]. rewrite (proj2 (fz (-10) ltac:(lia))), (proj2 (fz 10 ltac:(lia))), (proj2 (fz 20 ltac:(lia))), EW, EE, ES. repeat split; auto; lra.
  - right. exists (0, 0). split; [unfold Cover_Props.tile_corner; cbn [fst snd]; rewrite EW, ES; auto|]. split.
    + apply inside_iff. unfold all_edges. cbn [flat_map ring_edges app edges]. rewrite !cnt_cons. change (cnt (0, 0) []) with 0%nat. cbn [fst snd]. rewrite pip_edge_refl.
      assert (H1 : pip_edge (0, 0) (-10, -10) (10, -10) = false) by (apply pip_no; cbn [snd]; lra).
      destruct (pip_at 0 0 (10, -10) (0, 20) ltac:(cbn [snd]; lra)) as (t & Ht & Et & Pt). destruct (pip_at 0 0 (0, 20) (-10, -10) ltac:(cbn [snd]; lra)) as (s & Hs & Es & Ps). cbn [fst snd] in *.
      assert (H2 : pip_edge (0, 0) (10, -10) (0, 20) = true) by (apply Pt; lra). assert (H3 : pip_edge (0, 0) (0, 20) (-10, -10) = false) by (apply not_true_is_false; rewrite Ps; lra). rewrite H1, H2, H3. reflexivity.
    + intros e [qx qy] He (t & Ht & E1 & E2). unfold all_edges in He. cbn [flat_map ring_edges app edges In] in He. cbn [fst snd] in *. rewrite !Rminus_0_r.
      destruct (Rlt_le_dec (/ 10 ^ 12) (Rabs qx)) as [L|L]; [left; exact L|right]. apply ab in L. unfold Rabs. destruct He as [<-|[<-|[<-|[<-|[]]]]]; cbn [fst snd] in *; destruct (Rcase_abs qy); nra.
Qed.
