(** Property C134, continued: which polygons ClipDownTile takes for the whole tile, in binary64. *)
From Coq Require Import ZArith Reals Lia Lra Bool List.
From Flocq Require Import Core BinarySingleNaN.
From Verif Require Import GoBase Num MvtGeom_Model Tileid_Model TileR_Model TileR_Proofs TileF64_Model TileF64_Proofs F64 ColorF64_Proofs Clip_Model Clip_Spec Clip_Proofs
  Tile64_Model Tile64_Proofs Tile64_Props Clip64_Proofs Clip64_Props ClipTile64_Model ClipTile64_Proofs ClipTile64_Props.
Import ListNotations.
Open Scope R_scope.

(** ** Specification *)
(** The smallest box around the ring is that of the tile, up to [d]: no vertex is further outside, and next to every edge
    there is one. *)
Definition box_near (d : R) (t : TileID) (r : list (f64 * f64)) : Prop :=
  (forall p, In p r -> eW (Bounds t) - d <= B2R (fst p) <= eE (Bounds t) + d /\ eS (Bounds t) - d <= B2R (snd p) <= eN (Bounds t) + d) /\
  (exists p, In p r /\ B2R (fst p) <= eW (Bounds t) + d) /\ (exists p, In p r /\ eE (Bounds t) - d <= B2R (fst p)) /\
  (exists p, In p r /\ B2R (snd p) <= eS (Bounds t) + d) /\ (exists p, In p r /\ eN (Bounds t) - d <= B2R (snd p)).

(** ** Lemmas *)
Definition all_fin (l : list f64) : Prop := forall x, In x l -> is_finite x = true.
Lemma fold_fmin l : forall a, all_fin (a :: l) -> let w := fold_left fmin l a in In w (a :: l) /\ forall x, In x (a :: l) -> B2R w <= B2R x.
Proof.
  induction l as [|b l IH]; intros a H; cbn [fold_left]; [split; [left; reflexivity|intros x [->|[]]; lra]|].
  assert (Fa : is_finite a = true) by (apply H; left; auto). assert (Fb : is_finite b = true) by (apply H; right; left; auto).
  assert (M : (fmin a b = a \/ fmin a b = b) /\ B2R (fmin a b) <= B2R a /\ B2R (fmin a b) <= B2R b).
  { unfold fmin. rewrite (Bltb_f b a (B2R b) (B2R a)) by (split; auto). destruct (Rltb_spec (B2R b) (B2R a)); split; auto; lra. }
  destruct M as (M0 & M1 & M2). destruct (IH (fmin a b)) as [I L]. { intros x [<-|Hx]; [destruct M0 as [-> | ->]; auto|apply H; right; right; auto]. }
  cbv zeta in *. set (w := fold_left fmin l (fmin a b)) in *. split.
  - destruct I as [I|I]; [|right; right; auto]. rewrite <- I. destruct M0 as [-> | ->]; [left|right; left]; auto.
  - pose proof (L _ (or_introl eq_refl)) as L0. intros x [<-|[<-|Hx]]; [lra|lra|apply L; right; auto].
Qed.
Lemma fold_fmax l : forall a, all_fin (a :: l) -> let w := fold_left fmax l a in In w (a :: l) /\ forall x, In x (a :: l) -> B2R x <= B2R w.
Proof.
  induction l as [|b l IH]; intros a H; cbn [fold_left]; [split; [left; reflexivity|intros x [->|[]]; lra]|].
  assert (Fa : is_finite a = true) by (apply H; left; auto). assert (Fb : is_finite b = true) by (apply H; right; left; auto).
  assert (M : (fmax a b = a \/ fmax a b = b) /\ B2R a <= B2R (fmax a b) /\ B2R b <= B2R (fmax a b)).
  { unfold fmax. rewrite (Bltb_f a b (B2R a) (B2R b)) by (split; auto). destruct (Rltb_spec (B2R a) (B2R b)); split; auto; lra. }
  destruct M as (M0 & M1 & M2). destruct (IH (fmax a b)) as [I L]. { intros x [<-|Hx]; [destruct M0 as [-> | ->]; auto|apply H; right; right; auto]. }
  cbv zeta in *. set (w := fold_left fmax l (fmax a b)) in *. split.
  - destruct I as [I|I]; [|right; right; auto]. rewrite <- I. destruct M0 as [-> | ->]; [left|right; left]; auto.
  - pose proof (L _ (or_introl eq_refl)) as L0. intros x [<-|[<-|Hx]]; [lra|lra|apply L; right; auto].
Qed.
(** Two numbers are compared *)
Lemma apart eps a b : is_finite eps = true -> is_finite a = true -> is_finite b = true -> Rabs (B2R a) <= 255 -> Rabs (B2R b) <= 255 ->
  (Bltb (Babs (fsub a b)) eps = true -> Rabs (B2R a - B2R b) < B2R eps + / 10 ^ 12) /\ (Rabs (B2R a - B2R b) < B2R eps - / 10 ^ 12 -> Bltb (Babs (fsub a b)) eps = true).
Proof.
  intros FE FA FB HA HB. apply ab in HA, HB. assert (H : Rabs (B2R a - B2R b) <= 1024) by (apply ab; lra).
  assert (S : is_f (fsub a b) (rnd (B2R a - B2R b))) by (apply fsub_f; [split; auto|split; auto|]; eapply Rle_trans; [exact H|]; change 1024 with (bpow radix2 10); apply bpow_le; lia).
  pose proof (re1024 _ H) as E. assert (U : 1024 * uu <= / 10 ^ 12 / 2) by (unfold uu; lra). destruct S as [SF SV].
  assert (A : is_f (Babs (fsub a b)) (Rabs (rnd (B2R a - B2R b)))) by (split; [rewrite is_finite_Babs; exact SF|rewrite B2R_Babs, SV; reflexivity]).
  rewrite (Bltb_f _ _ _ (B2R eps) A (conj FE eq_refl)). pose proof (Rabs_triang_inv (rnd (B2R a - B2R b)) (B2R a - B2R b)) as T1. pose proof (Rabs_triang_inv (B2R a - B2R b) (rnd (B2R a - B2R b))) as T2. rewrite (Rabs_minus_sym (B2R a - B2R b)) in T2.
  destruct (Rltb_spec (Rabs (rnd (B2R a - B2R b))) (B2R eps)); split; intros K; try discriminate; auto; lra.
Qed.
Lemma bounds_small t : on_map t -> (-180 <= eW (Bounds t) <= 180) /\ (-180 <= eE (Bounds t) <= 180) /\ (-90 < eS (Bounds t) < 90) /\ (-90 < eN (Bounds t) < 90) /\ eW (Bounds t) < eE (Bounds t) /\ eS (Bounds t) < eN (Bounds t).
Proof.
  intros M. destruct (Bounds_exact t M) as (A & B & C' & D'). pose proof M as (M0 & M1 & M2). pose proof (ul_lon_range (tX t) (tZ t) M0 ltac:(lia)) as R1. pose proof (ul_lon_range (tX t + 1) (tZ t) M0 ltac:(lia)) as R2.
  destruct (Bounds_eq t) as (_ & _ & C & D). pose proof (edge_lat_range (IZR (tY t)) (pow2 (tZ t))) as R3. pose proof (edge_lat_range (IZR (tY t) + 1) (pow2 (tZ t))) as R4. rewrite <- C in R3. rewrite <- D in R4. rewrite <- A in R1. rewrite <- B in R2.
  destruct (u_range t M) as (U1 & U2 & U3 & U4). pose proof PI_range as PR. assert (N0 : 0 < / IZR (2 ^ tZ t)) by (apply Rinv_0_lt_compat, IZR_lt, Z.pow_pos_nonneg; lia). assert (U5 : 0 < 2 * PI / IZR (2 ^ tZ t)) by (apply Rmult_lt_0_compat; lra). split; [lra|]. split; [lra|]. split; [lra|]. split; [lra|]. split.
  - rewrite A, B, plus_IZR. assert (0 < / IZR (2 ^ tZ t)) by (apply Rinv_0_lt_compat, IZR_lt, Z.pow_pos_nonneg; lia). unfold Rdiv. nra.
  - rewrite C', D'. apply Rmult_lt_compat_l; [apply Rdiv_lt_0_compat; lra|]. apply Rnot_le_lt. intros K. apply gd_le in K. lra.
Qed.
Lemma near_square_cases m eps t rings : near_square64 m eps t (CPolygon rings) = true <-> exists f r, rings = [f :: r] /\ (length r = 3 \/ length r = 4)%nat /\ DeltaBounds64 eps (ring_box64 f r) (Bounds64 m t) = true.
Proof.
  split.
  - destruct rings as [|[|f r] [|r2 rs]]; cbn [near_square64]; try discriminate. intros H. apply andb_true_iff in H. destruct H as [H1 H2]. apply orb_true_iff in H1. rewrite !Nat.eqb_eq in H1. eauto 6.
  - intros (f & r & -> & L & D). cbn [near_square64]. rewrite D, andb_true_r, orb_true_iff, !Nat.eqb_eq. exact L.
Qed.

(** ** Theorems *)
(** The ring has four or five vertices and its box is that of the tile; Power7 decides up to a hundredth of it. *)
Theorem C134_near_square : forall m eps t rings, good_libm m -> tol_ok eps -> on_map t -> (tZ t <= 44)%Z -> coords_ok rings ->
  (near_square64 m eps t (CPolygon rings) = true -> exists r, rings = [r] /\ (length r = 4 \/ length r = 5)%nat /\ box_near (111 / 10 ^ 9) t r) /\
  (99 / 10 ^ 9 <= B2R eps -> forall r, rings = [r] -> (length r = 4 \/ length r = 5)%nat -> box_near (98 / 10 ^ 9) t r -> near_square64 m eps t (CPolygon rings) = true).
Proof.
  intros m eps t rings G (FE & E0) M Hz HC. pose proof (edges64 m t G M Hz) as HE. cbv zeta in HE. destruct HE as ((Fw & Fe & Fs & Fn) & Ew & Ee & Es & En). apply ab in Es, En.
  destruct (bounds_small t M) as (BW & BE & BS & BN & WE & SN). set (b := Bounds64 m t) in *.
  assert (BOX : forall f r, Forall (inb 255) (f :: r) -> let k := ring_box64 f r in
    (exists p, In p (f :: r) /\ e6W k = fst p) /\ (exists p, In p (f :: r) /\ e6E k = fst p) /\ (exists p, In p (f :: r) /\ e6N k = snd p) /\ (exists p, In p (f :: r) /\ e6S k = snd p) /\
    forall p, In p (f :: r) -> B2R (e6W k) <= B2R (fst p) <= B2R (e6E k) /\ B2R (e6S k) <= B2R (snd p) <= B2R (e6N k)).
  { intros f r HI k. rewrite Forall_forall in HI. assert (A1 : all_fin (fst f :: map fst r)) by (intros x Hx; change (In x (map fst (f :: r))) in Hx; apply in_map_iff in Hx; destruct Hx as (q & <- & Hq); apply (HI q Hq)). assert (A2 : all_fin (snd f :: map snd r)) by (intros x Hx; change (In x (map snd (f :: r))) in Hx; apply in_map_iff in Hx; destruct Hx as (q & <- & Hq); apply (HI q Hq)).
    destruct (fold_fmin (map fst r) (fst f) A1) as [W1 W2]. destruct (fold_fmax (map fst r) (fst f) A1) as [X1 X2]. destruct (fold_fmax (map snd r) (snd f) A2) as [N1 N2]. destruct (fold_fmin (map snd r) (snd f) A2) as [S1 S2].
    assert (P1 : forall x, In x (fst f :: map fst r) -> exists p, In p (f :: r) /\ x = fst p) by (intros x Hx; change (In x (map fst (f :: r))) in Hx; apply in_map_iff in Hx; destruct Hx as (q & <- & Hq); eauto).
    assert (P2 : forall x, In x (snd f :: map snd r) -> exists p, In p (f :: r) /\ x = snd p) by (intros x Hx; change (In x (map snd (f :: r))) in Hx; apply in_map_iff in Hx; destruct Hx as (q & <- & Hq); eauto).
    unfold k, ring_box64. cbn [e6W e6E e6N e6S]. split; [apply P1, W1|]. split; [apply P1, X1|]. split; [apply P2, N1|]. split; [apply P2, S1|].
    intros p Hp. pose proof (in_map fst _ _ Hp) as Q1. pose proof (in_map snd _ _ Hp) as Q2. cbn [map] in Q1, Q2. split; split; [apply W2|apply X2|apply S2|apply N2]; assumption. }
  assert (CMP : forall f r, Forall (inb 255) (f :: r) -> let k := ring_box64 f r in
    (DeltaBounds64 eps k b = true -> Rabs (B2R (e6W k) - B2R (e6W b)) < B2R eps + / 10 ^ 12 /\ Rabs (B2R (e6E k) - B2R (e6E b)) < B2R eps + / 10 ^ 12 /\ Rabs (B2R (e6N k) - B2R (e6N b)) < B2R eps + / 10 ^ 12 /\ Rabs (B2R (e6S k) - B2R (e6S b)) < B2R eps + / 10 ^ 12) /\
    (Rabs (B2R (e6W k) - B2R (e6W b)) < B2R eps - / 10 ^ 12 -> Rabs (B2R (e6E k) - B2R (e6E b)) < B2R eps - / 10 ^ 12 -> Rabs (B2R (e6N k) - B2R (e6N b)) < B2R eps - / 10 ^ 12 -> Rabs (B2R (e6S k) - B2R (e6S b)) < B2R eps - / 10 ^ 12 -> DeltaBounds64 eps k b = true)).
  { intros f r HI k. destruct (BOX f r HI) as ((p1 & I1 & V1) & (p2 & I2 & V2) & (p3 & I3 & V3) & (p4 & I4 & V4) & _). fold k in V1, V2, V3, V4. rewrite Forall_forall in HI.
    destruct (HI _ I1) as ((f1 & _) & s1 & _). destruct (HI _ I2) as ((f2 & _) & s2 & _). destruct (HI _ I3) as ((_ & f3) & _ & s3). destruct (HI _ I4) as ((_ & f4) & _ & s4). rewrite <- V1 in f1, s1. rewrite <- V2 in f2, s2. rewrite <- V3 in f3, s3. rewrite <- V4 in f4, s4.
    destruct (apart eps _ (e6W b) FE f1 Fw s1 ltac:(apply ab; lra)) as [a1 c1]. destruct (apart eps _ (e6E b) FE f2 Fe s2 ltac:(apply ab; lra)) as [a2 c2]. destruct (apart eps _ (e6N b) FE f3 Fn s3 ltac:(apply ab; lra)) as [a3 c3]. destruct (apart eps _ (e6S b) FE f4 Fs s4 ltac:(apply ab; lra)) as [a4 c4].
    unfold DeltaBounds64. rewrite !andb_true_iff. split; [intros (((H1 & H2) & H3) & H4); auto|]. intros H1 H2 H3 H4. auto. }
  split.
  - intros H. apply near_square_cases in H. destruct H as (f & r & -> & L & D). exists (f :: r). split; [reflexivity|]. split; [cbn [length]; lia|]. destruct (HC _ (or_introl eq_refl)) as [_ HI].
    destruct (BOX f r HI) as ((p1 & I1 & V1) & (p2 & I2 & V2) & (p3 & I3 & V3) & (p4 & I4 & V4) & AL). destruct (CMP f r HI) as [CM _]. destruct (CM D) as (D1 & D2 & D3 & D4).
    apply Rabs_def2 in D1, D2, D3, D4. split; [intros p Hp; specialize (AL p Hp); lra|]. split; [exists p1; split; auto; rewrite <- V1; lra|]. split; [exists p2; split; auto; rewrite <- V2; lra|]. split; [exists p4; split; auto; rewrite <- V4; lra|exists p3; split; auto; rewrite <- V3; lra].
  - intros E9 r -> L (B0 & (q1 & J1 & B1) & (q2 & J2 & B2) & (q3 & J3 & B3) & (q4 & J4 & B4)). apply near_square_cases. destruct r as [|f r]; [cbn [length] in L; lia|]. exists f, r. split; [reflexivity|]. split; [cbn [length] in L; lia|].
    destruct (HC _ (or_introl eq_refl)) as [_ HI]. destruct (BOX f r HI) as ((p1 & I1 & V1) & (p2 & I2 & V2) & (p3 & I3 & V3) & (p4 & I4 & V4) & AL). destruct (CMP f r HI) as [_ CM].
    pose proof (B0 _ I1) as C1. pose proof (B0 _ I2) as C2. pose proof (B0 _ I3) as C3. pose proof (B0 _ I4) as C4. rewrite <- V1 in C1. rewrite <- V2 in C2. rewrite <- V3 in C3. rewrite <- V4 in C4.
    pose proof (AL _ J1) as A1. pose proof (AL _ J2) as A2. pose proof (AL _ J3) as A3. pose proof (AL _ J4) as A4. apply CM; apply Rabs_def1; lra.
Qed.
Print Assumptions C134_near_square.

(** ** An example: the square of a tile is taken for the tile, in every tile *)
Example C134_square_nonvacuous : forall m t, good_libm m -> on_map t -> (tZ t <= 44)%Z -> tol_ok power7_64 /\ 99 / 10 ^ 9 <= B2R power7_64 /\ coords_ok [tile_square64 m t] /\ near_square64 m power7_64 t (CPolygon [tile_square64 m t]) = true.
Proof.
  intros m t G M Hz. assert (P : is_finite power7_64 = true /\ 99 / 10 ^ 9 <= B2R power7_64 <= 11 / 10 ^ 8) by (split; [reflexivity|]; unfold B2R, power7_64, F2R; cbn [Fnum Fexp cond_Zopp]; change (-76)%Z with (- (76))%Z; rewrite (bpm 76 75557863725914323419136) by (lia || reflexivity); lra).
  destruct P as (P1 & P2 & P3). assert (T : tol_ok power7_64) by (split; [exact P1|lra]). split; [exact T|]. split; [exact P2|].
  pose proof (edges64 m t G M Hz) as HE. cbv zeta in HE. destruct HE as ((Fw & Fe & Fs & Fn) & Ew & Ee & Es & En). apply ab in Es, En. destruct (bounds_small t M) as (BW & BE & BS & BN & WE & SN).
  assert (C : coords_ok [tile_square64 m t]).
  { intros r [<-|[]]. split; [discriminate|]. unfold tile_square64. cbv zeta. repeat apply Forall_cons; try apply Forall_nil; unfold inb, fin; cbn [fst snd]; (split; [auto|]); split; apply ab; lra. }
  split; [exact C|]. destruct (C134_near_square m power7_64 t _ G T M Hz C) as [_ K]. apply (K P2 (tile_square64 m t) eq_refl); [right; reflexivity|]. unfold box_near, tile_square64. cbv zeta. set (b := Bounds64 m t) in *. split.
  - intros p Hp. cbn [In] in Hp. destruct Hp as [<-|[<-|[<-|[<-|[<-|[]]]]]]; cbn [fst snd]; lra.
  - split; [exists (e6W b, e6N b); split; [right; left; auto|cbn [fst]; lra]|]. split; [exists (e6E b, e6N b); split; [left; auto|cbn [fst]; lra]|]. split; [exists (e6W b, e6S b); split; [right; right; left; auto|cbn [snd]; lra]|exists (e6W b, e6N b); split; [right; left; auto|cbn [snd]; lra]].
Qed.
