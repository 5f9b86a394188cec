(** Proofs for C136: how many words a geometry takes, and how far the float64 projections are from the exact ones. *)
From Coq Require Import ZArith List Lia Bool Reals Lra.
From Flocq Require Import Core BinarySingleNaN.
From Verif Require Import GoBase Num Tileid_Model TileR_Model TileR_Proofs TileF64_Model TileF64_Proofs F64 ColorF64_Model ColorF64_Proofs Tile64_Model Tile64_Proofs Tile64_Props MvtProj_Model MvtProj_Proofs MvtProj64_Model MvtProj64_Proofs MvtProj64_Props MvtGeom_Model MvtLayer_Model.
Import ListNotations.
Open Scope R_scope.

(** ** Words *)
Section Words.
Open Scope nat_scope.
Definition glen (c : cursor) : nat := length (geo c).
Lemma LinePoint_len c p : glen (LinePoint c p) <= glen c + 2.
Proof. unfold LinePoint, glen. destruct (negb _); cbn [geo]; rewrite ?app_length; cbn [length]; lia. Qed.
Lemma fold_len {A} (f : A -> pt) l : forall c, glen (fold_left (fun c p => LinePoint c (f p)) l c) <= glen c + 2 * length l.
Proof. induction l as [|a l IH]; intros c; cbn [fold_left length]; [lia|]. pose proof (IH (LinePoint c (f a))). pose proof (LinePoint_len c (f a)). lia. Qed.
Lemma set_nth_len n v l : length (set_nth n v l) = length l.
Proof. revert n. induction l as [|a l IH]; intros [|n]; cbn [set_nth length]; auto. Qed.
Lemma MakeLineFloat_len {P} (q : P -> pt) c l c' : MakeLineFloat q c l = Ok c' -> glen c' <= glen c + 2 * length l + 2.
Proof.
  unfold MakeLineFloat. destruct l as [|p r]; [discriminate|]. intros E. injection E as <-. unfold glen at 1. cbn [geo]. rewrite set_nth_len.
  match goal with |- context [fold_left _ r ?c0] => pose proof (fold_len q r c0) as H end. unfold glen in *. cbn [geo] in *. unfold MovePoint in *. cbn [geo] in *. rewrite !app_length in H. cbn [length] in *. lia.
Qed.
Lemma MakeLine_len c l c' : MakeLine c l = Ok c' -> glen c' <= glen c + 2 * length l + 2.
Proof. intros H. apply (MakeLineFloat_len (fun p => p)). exact H. Qed.
Lemma AssertConvert_len {P} (q : P -> pt) cw c l c' : AssertConvert q cw c l = Ok c' -> glen c' <= glen c + 2 * length l + 3.
Proof.
  unfold AssertConvert. destruct l as [|p r]; [discriminate|]. intros E. cbv zeta in E.
  match type of E with (let! _ := MakeLine ?x ?y in _) = _ => destruct (MakeLine x y) as [nc| |] eqn:E1; cbn [bind] in E; try discriminate; assert (L : length y = length (p :: r)) by (destruct (Bool.eqb _ _); rewrite ?rev_length, map_length; reflexivity) end.
  injection E as <-. apply MakeLine_len in E1. unfold glen in *. cbn [geo] in *. rewrite !app_length in *. cbn [length] in *. lia.
Qed.
Fixpoint total {A} (f : A -> nat) (l : list A) : nat := match l with [] => 0 | a :: r => f a + total f r end.
Lemma fold_res_len {A} (f : cursor -> A -> res cursor) (w : A -> nat) : (forall c a c', f c a = Ok c' -> glen c' <= glen c + w a) ->
  forall l c c', fold_res f l c = Ok c' -> glen c' <= glen c + total w l.
Proof.
  intros H l. induction l as [|a l IH]; intros c c' E; cbn [fold_res total] in *; [injection E as <-; lia|].
  destruct (f c a) as [c1| |] eqn:E1; cbn [bind] in E; try discriminate. apply H in E1. apply IH in E. lia.
Qed.
Lemma trim_len {P} (peq : P -> P -> bool) r r' : TrimRing peq r = Ok r' -> length r' <= length r + 1.
Proof. unfold TrimRing. destruct r as [|f r]; [discriminate|]. destruct (peq _ _); intros E; injection E as <-; cbn [length app]; rewrite ?app_length; cbn [length]; lia. Qed.
Lemma map_res_len {P} (peq : P -> P -> bool) rs : forall rs', map_res (TrimRing peq) rs = Ok rs' -> total (fun r => 2 * length r + 3) rs' <= total (fun r => 2 * length r + 5) rs.
Proof.
  induction rs as [|r rs IH]; intros rs' E; cbn [map_res] in E; [injection E as <-; cbn [total]; lia|].
  destruct (TrimRing peq r) as [r1| |] eqn:E1; cbn [bind] in E; try discriminate. destruct (map_res (TrimRing peq) rs) as [rs1| |]; cbn [bind] in E; try discriminate. injection E as <-.
  apply trim_len in E1. specialize (IH _ eq_refl). cbn [total]. lia.
Qed.
Definition ring_words {P} (rs : list (list P)) : nat := total (fun r => 2 * length r + 5) rs.
Lemma MakePolygonFloat_len {P} (q : P -> pt) peq c rs c' : MakePolygonFloat q peq c rs = Ok c' -> glen c' <= glen c + ring_words rs.
Proof.
  unfold MakePolygonFloat, ring_words. intros E. destruct (map_res (TrimRing peq) rs) as [[|o hs]| |] eqn:E0; cbn [bind] in E; try discriminate. apply map_res_len in E0.
  destruct (AssertConvert q true c o) as [c1| |] eqn:E1; cbn [bind] in E; try discriminate. apply AssertConvert_len in E1.
  apply (fold_res_len (AssertConvert q false) (fun r => 2 * length r + 3)) in E; [|intros ? ? ? H; apply AssertConvert_len in H; lia]. cbn [total] in E0. lia.
Qed.
(** At most so many words *)
Definition words {P} (g : geometry P) : nat :=
  match g with
  | XPoint _ => 3
  | XLineString l => 2 * length l + 2
  | XPolygon rs => ring_words rs
  | XMultiPoint ps => 2 * length ps + 1
  | XMultiLineString ls => total (fun l => 2 * length l + 2) ls
  | XMultiPolygon ps => total ring_words ps
  | XOther => 0
  end.
Lemma words_len {P} (q : P -> pt) peq g cmds : geom_cmds q peq g = Ok (Some cmds) -> length cmds <= words g.
Proof.
  destruct g as [p|l|rs|ps|ls|mps|]; cbn [geom_cmds words]; intros E.
  - injection E as <-. pose proof (LinePoint_len (mkCur [moveTo 1] (last_pt cursor0) (cnt cursor0)) (q p)) as H. unfold glen in H. cbn [geo length] in H. exact H.
  - destruct (MakeLineFloat q cursor0 l) eqn:E1; cbn [bind] in E; try discriminate. injection E as <-. apply MakeLineFloat_len in E1. exact E1.
  - destruct (MakePolygonFloat q peq cursor0 rs) eqn:E1; cbn [bind] in E; try discriminate. injection E as <-. apply MakePolygonFloat_len in E1. exact E1.
  - injection E as <-. pose proof (fold_len q ps (mkCur [moveTo (u32 (zlen ps))] (last_pt cursor0) (cnt cursor0))) as H. unfold glen in H. cbn [geo length] in H. unfold MakeMultiPointFloat. lia.
  - destruct (MakeMultiLineFloat q cursor0 ls) eqn:E1; cbn [bind] in E; try discriminate. injection E as <-.
    apply (fold_res_len (MakeLineFloat q) (fun l => 2 * length l + 2)) in E1; [exact E1|]. intros ? ? ? H. apply MakeLineFloat_len in H. lia.
  - destruct (MakeMultiPolygonFloat q peq cursor0 mps) eqn:E1; cbn [bind] in E; try discriminate. injection E as <-.
    apply (fold_res_len (MakePolygonFloat q peq) ring_words) in E1; [exact E1|]. intros; eapply MakePolygonFloat_len; eauto.
  - discriminate.
Qed.
End Words.

(** ** Writing *)
Lemma ZnearestA_half x : Rabs (IZR (ZnearestA x) - x) <= / 2.
Proof. rewrite <- Rabs_Ropp. replace (- (IZR (ZnearestA x) - x)) with (x - IZR (ZnearestA x)) by ring. apply Znearest_half. Qed.
(** As grid_back of MvtProj64_Proofs, between grid points *)
Lemma grid_near num den a b D k e nu eta eps : is_f num a -> is_f den b -> 0 < D -> Rabs (a - k * D) <= nu -> Rabs (b - D) <= eta -> Rabs k <= 2 -> (1 <= e < 2 ^ 31)%Z -> Rabs (k * IZR e) <= IZR (2 ^ 31 - 2) ->
  0 <= eta < D -> nu + 2 * eta <= eps * (D - eta) -> 0 <= eps -> eps * IZR e <= 4 / 10 ->
  in_i32 (round32 (fmul (fdiv num den) (fint e))) /\ Rabs (IZR (round32 (fmul (fdiv num den) (fint e))) - k * IZR e) <= 1 / 2 + (eps + 12 * uu) * IZR e.
Proof.
  intros FA FB D0 HA HB HK He EV Heta Heps E0 E1. apply ab in HA. apply ab in HB. apply ab in HK. assert (U : 0 < uu <= / 9000000000000000) by (unfold uu; lra). assert (B0 : 0 < b) by lra.
  assert (ER : 1 <= IZR e <= 2147483648) by (split; apply IZR_le; lia).
  assert (DF : Rabs (a / b - k) <= eps). { replace (a / b - k) with ((a - k * b) * / b) by (field; lra). rewrite Rabs_mult, (Rabs_pos_eq (/ b)) by (apply Rlt_le, Rinv_0_lt_compat, B0). apply Rmult_le_reg_r with b; [exact B0|]. rewrite Rmult_assoc, Rinv_l, Rmult_1_r by lra.
    replace (a - k * b) with ((a - k * D) + - (k * (b - D))) by ring. eapply Rle_trans; [apply Rabs_triang|]. rewrite Rabs_Ropp, Rabs_mult. assert (Rabs (a - k * D) <= nu) by (apply ab; lra). assert (Rabs k * Rabs (b - D) <= 2 * eta) by (apply Rmult_le_compat; try apply Rabs_pos; apply ab; lra). assert (eps * (D - eta) <= eps * b) by (apply Rmult_le_compat_l; lra). lra. }
  assert (EP : eps <= 4 / 10) by (clear - E0 E1 ER; nra). apply ab in DF. pose proof (fdiv_f _ _ _ _ FA FB ltac:(lra) ltac:(apply big, ab; lra)) as F1. pose proof (re4 (a / b) ltac:(apply ab; lra)) as E2. apply ab in E2. set (f := rnd (a / b)) in *.
  assert (FE : is_f (fint e) (IZR e)) by (apply fint_f; lia).
  assert (DV : Rabs (f * IZR e - k * IZR e) <= (eps + 4 * uu) * IZR e). { replace (f * IZR e - k * IZR e) with ((f - k) * IZR e) by ring. rewrite Rabs_mult, (Rabs_pos_eq (IZR e)) by lra. apply Rmult_le_compat_r; [lra|]. apply ab; lra. }
  assert (UE : 0 <= uu * IZR e <= / 1000000) by (clear - U ER; nra).
  apply ab in DV. replace ((eps + 4 * uu) * IZR e) with (eps * IZR e + 4 * (uu * IZR e)) in DV by ring. replace ((eps + 12 * uu) * IZR e) with (eps * IZR e + 12 * (uu * IZR e)) by ring.
  assert (BV : - 2147483646 <= k * IZR e <= 2147483646) by (apply ab; exact EV).
  assert (BF : Rabs (f * IZR e) <= 4 * IZR e). { rewrite Rabs_mult, (Rabs_pos_eq (IZR e)) by lra. apply Rmult_le_compat_r; [lra|]. apply ab. lra. }
  pose proof (fmul_f _ _ _ _ F1 FE ltac:(apply big; lra)) as F2.
  assert (E3 : Rabs (rnd (f * IZR e) - f * IZR e) <= 8 * (uu * IZR e)).
  { pose proof (Z.log2_up_spec e) as L. assert (P2 : (0 <= Z.log2_up e)%Z) by apply Z.log2_up_nonneg. assert (K : (4 * e <= 2 ^ (Z.log2_up e + 2) <= 8 * e)%Z).
    { rewrite Z.pow_add_r by lia. change (2 ^ 2)%Z with 4%Z. destruct (Z.eq_dec e 1) as [->|]; [cbn; lia|]. specialize (L ltac:(lia)). assert (0 <= Z.pred (Z.log2_up e))%Z by (pose proof (Z.log2_up_pos e ltac:(lia)); lia).
      remember (Z.pred (Z.log2_up e)) as j eqn:Ek. replace (Z.log2_up e) with (j + 1)%Z in * by lia. clear Ek. rewrite Z.pow_add_r in * by lia. lia. }
    assert (KR : 4 * IZR e <= IZR (2 ^ (Z.log2_up e + 2)) <= 8 * IZR e) by (rewrite <- !mult_IZR; split; apply IZR_le; lia).
    eapply Rle_trans; [apply (re (Z.log2_up e + 2) _ ltac:(lia) ltac:(lia) eq_refl); lra|]. replace (8 * (uu * IZR e)) with (8 * IZR e * uu) by ring. apply Rmult_le_compat_r; lra. }
  apply ab in E3. set (r := rnd (f * IZR e)) in *. unfold round32.
  destruct (Bnearbyint_correct 53 1024 _ mode_NA (fmul (fdiv num den) (fint e))) as (K1 & _ & _). rewrite (proj2 F2) in K1.
  assert (K2 : B2R (Bnearbyint mode_NA (fmul (fdiv num den) (fint e))) = IZR (ZnearestA r)). { rewrite K1. unfold round, F2R, scaled_mantissa, cexp, FIX_exp. cbn [Fnum Fexp round_mode]. change (bpow radix2 (- 0)) with 1. change (bpow radix2 0) with 1. rewrite !Rmult_1_r. reflexivity. }
  rewrite (trunc_int _ _ K2). pose proof (ZnearestA_half r) as H. apply ab in H. assert (I : in_i32 (ZnearestA r)). { unfold in_i32. split; [apply le_IZR; change (- 2 ^ 31)%Z with (-2147483648)%Z|apply lt_IZR; change (2 ^ 31)%Z with 2147483648%Z]; lra. }
  rewrite wrap32_id by exact I. split; [exact I|]. apply ab. lra.
Qed.

Section Lib.
Variable m : libm.
Variable mExp : f64 -> f64.
Hypothesis G : good_proj m mExp.
Variable t : TileID.
Variable e : Z.
Hypothesis M : on_map t.
Hypothesis He : (1 <= e < 2 ^ 31)%Z.
Hypothesis HN : (e * 2 ^ tZ t <= 2 ^ 36)%Z.
Let n := IZR (2 ^ tZ t).
(** Columns and rows of the exact projection, in tiles from the corner of the tile *)
Definition colk (lon : R) : R := (lon + 180) / 360 * n - IZR (tX t).
Definition rowk (lat : R) : R := (1 - merc (lat * (PI / 180)) / PI) / 2 * n - IZR (tY t).

Lemma col_near (lon : f64) r : is_f lon r -> -1 <= colk r <= 2 -> Rabs (colk r * IZR e) <= IZR (2 ^ 31 - 2) ->
  let c := NewCursorExtent64 m t e true in
  let x := round32 (fmul (fdiv (fsub (fmul pole180 lon) (e6W (k6B c))) (k6DX c)) (fint e)) in
  in_i32 x /\ Rabs (IZR x - colk r * IZR e) <= 1 / 2 + IZR e * n * (4 / 1000000000000000).
Proof.
  intros FR BK KI c x. destruct M as (Z0 & HX & HY). pose proof (z36 t e M He HN) as Z36. pose proof (nz t e M He HN) as NZ. pose proof (n_rng t e M He HN) as NR. pose proof (e_rng t e He) as ER. pose proof (en_rng t e HN) as EN. fold n in NR, EN. assert (U : 0 < uu <= / 9000000000000000) by (unfold uu; lra).
  destruct (bounds_near m (proj1 G) t M ltac:(lia)) as (FW & FE & _). destruct (Bounds_exact t M) as (BW & BE & _). fold n in BW, BE. rewrite BW in FW. rewrite BE in FE. set (w := IZR (tX t) / n * 360 - 180) in *. set (ee := IZR (tX t + 1) / n * 360 - 180) in *.
  assert (I0 : 0 < / n <= 1) by (split; [apply Rinv_0_lt_compat; lra|rewrite <- Rinv_1; apply Rinv_le_contravar; lra]). set (k := colk r) in *.
  assert (EL : r = w + k * (360 * / n)). { unfold w, k, colk. field. lra. } assert (EE : ee = w + 360 * / n). { unfold ee, w. rewrite plus_IZR. field. lra. }
  assert (RW : -180 <= w <= 180 /\ -180 <= ee <= 180). { pose proof (ul_lon_range (tX t) (tZ t) Z0 ltac:(lia)) as A. pose proof (ul_lon_range (tX t + 1) (tZ t) Z0 ltac:(lia)) as B. fold n in A, B. unfold w, ee. lra. } clearbody w ee k.
  assert (C1 : 11131949 / 100 <= vp180 <= 1113195 / 10) by (unfold vp180; lra). set (c1 := vp180) in *. assert (RL : -540 <= r <= 540) by (clear - EL EE BK I0 RW; nra).
  assert (B1 : Rabs (c1 * r) <= 67108864) by (apply ab; clear - RL C1 U; nra). pose proof (fmul_f _ _ _ _ p180_f FR ltac:(apply big; fold c1; lra)) as F1. fold c1 in F1. pose proof (re 26 67108864 ltac:(lia) ltac:(lia) eq_refl _ B1) as E1. apply ab in E1. apply ab in B1.
  assert (B2 : Rabs (c1 * w) <= 33554432) by (apply ab; clear - RW C1; nra). pose proof (fmul_f _ _ _ _ p180_f FW ltac:(apply big; fold c1; lra)) as F2. fold c1 in F2. pose proof (re 25 33554432 ltac:(lia) ltac:(lia) eq_refl _ B2) as E2. apply ab in E2. apply ab in B2.
  assert (B3 : Rabs (c1 * ee) <= 33554432) by (apply ab; clear - RW C1; nra). pose proof (fmul_f _ _ _ _ p180_f FE ltac:(apply big; fold c1; lra)) as F3. fold c1 in F3. pose proof (re 25 33554432 ltac:(lia) ltac:(lia) eq_refl _ B3) as E3. apply ab in E3. apply ab in B3.
  unfold x, c, NewCursorExtent64, ConvertCursor64, ConvertPoint64. cbn [fst snd k6B k6DX e6W]. set (xm := rnd (c1 * r)) in *. set (wm := rnd (c1 * w)) in *. set (em := rnd (c1 * ee)) in *.
  pose proof (fsub_f _ _ _ _ F1 F2 ltac:(apply big, ab; lra)) as F4. pose proof (re 27 134217728 ltac:(lia) ltac:(lia) eq_refl (xm - wm) ltac:(apply ab; lra)) as E4. apply ab in E4.
  pose proof (fsub_f _ _ _ _ F3 F2 ltac:(apply big, ab; lra)) as F5. pose proof (re 27 134217728 ltac:(lia) ltac:(lia) eq_refl (em - wm) ltac:(apply ab; lra)) as E5. apply ab in E5.
  set (D := c1 * (360 * / n)). assert (D0 : 40075000 * / n <= D) by (unfold D; clear - C1 I0; nra). assert (ND : n * / n = 1) by (apply Rinv_r; lra). set (i := / n) in *. assert (IL : / 68719476736 <= i) by (unfold i; apply Rinv_le_contravar; lra).
  assert (CL : c1 * r = c1 * w + k * D) by (rewrite EL; unfold D; ring). assert (CE : c1 * ee = c1 * w + D) by (rewrite EE; unfold D; ring).
  assert (EPN : n * (3 / 1000000000000000) + 12 * uu <= n * (4 / 1000000000000000) + 12 * uu) by lra.
  destruct (grid_near _ _ _ _ D k e (234881024 * uu) (201326592 * uu) (n * (2 / 1000000000000000)) F4 F5) as [I ER2]; auto; try lra; try lia.
  - apply ab. lra.
  - apply ab. lra.
  - apply ab. lra.
  - apply Rle_trans with (n * i * (2 / 1000000000000000 * 40000000)); [rewrite ND; lra|]. replace (n * i * (2 / 1000000000000000 * 40000000)) with (n * (2 / 1000000000000000) * (40000000 * i)) by ring. apply Rmult_le_compat_l; lra.
  - split; [exact I|]. eapply Rle_trans; [exact ER2|]. apply Rplus_le_compat_l. replace (IZR e * n * (4 / 1000000000000000)) with ((n * (2 / 1000000000000000) + n * (2 / 1000000000000000)) * IZR e) by field. apply Rmult_le_compat_r; lra.
Qed.

Lemma row_near (lat : f64) r : is_f lat r -> - lat_limit <= r <= lat_limit -> -1 <= rowk r <= 2 -> Rabs (rowk r * IZR e) <= IZR (2 ^ 31 - 2) ->
  let c := NewCursorExtent64 m t e true in
  let y := round32 (fmul (fdiv (fsub (e6N (k6B c)) (Merc64 m lat)) (k6DY c)) (fint e)) in
  in_i32 y /\ Rabs (IZR y - rowk r * IZR e) <= 1 / 2 + IZR e * n * (5 / 1000000000000).
Proof.
  intros FR HL BK KI c y. destruct (lat_limit_merc r HL) as [L90 PQ]. destruct M as (Z0 & HX & HY). pose proof (z36 t e M He HN) as Z36. pose proof (nz t e M He HN) as NZ. pose proof (n_rng t e M He HN) as NR. pose proof (e_rng t e He) as ER. pose proof (en_rng t e HN) as EN. fold n in NR, EN. assert (U : 0 < uu <= / 9000000000000000) by (unfold uu; lra). pose proof PI_range as PR.
  destruct (bounds_near m (proj1 G) t M ltac:(lia)) as (_ & _ & (rn & FN & DN) & (rs & FS & DS)). destruct (Bounds_exact t M) as (_ & _ & BN & BS). fold n in BN, BS. rewrite BN in DN. rewrite BS in DS. destruct (u_range t M) as (U1 & U2 & U3 & _). fold n in U1, U2, U3.
  assert (I0 : 0 < / n <= 1) by (split; [apply Rinv_0_lt_compat; lra|rewrite <- Rinv_1; apply Rinv_le_contravar; lra]). set (k := rowk r) in *.
  set (u := merc (r * (PI / 180))) in *. assert (GU : 180 / PI * gd u = r). { unfold u. rewrite gd_merc; [field; lra|]. assert (P2 : r * (PI / 180) = r / 90 * (PI / 2)) by field. rewrite P2. clear - L90 PR. split; nra. }
  assert (EQ : u = PI * (1 - 2 * (IZR (tY t) * / n) - 2 * (k * / n))). { unfold k, rowk. fold u. field. lra. }
  destruct (Merc64_near m mExp G _ _ _ _ FN (conj (Rle_trans _ _ _ U1 U2) U3) DN ltac:(unfold e12; lra)) as (ym & FNm & DNm). destruct (Merc64_near m mExp G _ _ _ _ FS (conj U1 (Rle_trans _ _ _ U2 U3)) DS ltac:(unfold e12; lra)) as (ys & FSm & DSm).
  destruct (Merc64_near m mExp G _ _ u 0 FR PQ ltac:(rewrite GU; apply ab; lra) ltac:(lra)) as (yr & FRm & DRm).
  replace (PI * (1 - 2 * IZR (tY t) / n) / PI) with (1 - 2 * (IZR (tY t) * / n)) in DNm by (field; lra). replace (PI * (1 - 2 * (IZR (tY t) + 1) / n) / PI) with (1 - 2 * (IZR (tY t) * / n) - 2 * / n) in DSm by (field; lra). replace (u / PI) with (1 - 2 * (IZR (tY t) * / n) - 2 * (k * / n)) in DRm by (rewrite EQ; field; lra).
  assert (RY : 0 <= IZR (tY t) * / n <= 1). { assert (0 <= IZR (tY t) <= n) by (unfold n; split; apply IZR_le; lia). assert (n * / n = 1) by (apply Rinv_r; lra). clear - H H0 I0. nra. } set (b := IZR (tY t) * / n) in *.
  assert (Q01 : 0 <= b + k * / n <= 1). { rewrite EQ in PQ. clear - PQ PR. assert (-1 <= 1 - 2 * b - 2 * (k * / n) <= 1) by (split; apply Rmult_le_reg_l with PI; lra). lra. } clear EQ PQ DN DS FR FN FS GU. clearbody k u.
  assert (VB : 20037508 <= vpole <= 20037509) by (unfold vpole; lra). set (P := vpole) in *. clearbody P b. assert (ND : n * / n = 1) by (apply Rinv_r; lra). assert (IL : / 68719476736 <= / n) by (apply Rinv_le_contravar; lra). set (i := / n) in *. clearbody i. unfold e12 in *. apply ab in DNm. apply ab in DSm. apply ab in DRm.
  assert (PB : 0 <= P * b <= P) by (clear - VB RY; nra). assert (PI_ : 0 <= P * i <= P) by (clear - VB I0; nra). assert (PK : - P <= P * (k * i) <= 2 * P) by (assert (-1 <= k * i <= 2) by (clear - BK I0; nra); clear - VB H; nra).
  assert (XB : 0 <= P * b + P * (k * i) <= P) by (clear - VB Q01; nra). assert (XS : P * b + P * i <= 2 * P) by lra.
  replace (P * (1 - 2 * b)) with (P - 2 * (P * b)) in DNm by ring. replace (P * (1 - 2 * b - 2 * i)) with (P - 2 * (P * b) - 2 * (P * i)) in DSm by ring. replace (P * (1 - 2 * b - 2 * (k * i))) with (P - 2 * (P * b) - 2 * (P * (k * i))) in DRm by ring.
  assert (XK : P * (k * i) = k * (P * i)) by ring. set (Pb := P * b) in *. set (Pi := P * i) in *. set (Pk := P * (k * i)) in *.
  unfold y, c, NewCursorExtent64, ConvertCursor64, ConvertPoint64. cbn [fst snd k6B k6DY e6N e6S].
  pose proof (fsub_f _ _ _ _ FNm FRm ltac:(apply big, ab; lra)) as F4. pose proof (re 27 134217728 ltac:(lia) ltac:(lia) eq_refl (ym - yr) ltac:(apply ab; lra)) as E4. apply ab in E4.
  pose proof (fsub_f _ _ _ _ FNm FSm ltac:(apply big, ab; lra)) as F5. pose proof (re 27 134217728 ltac:(lia) ltac:(lia) eq_refl (ym - ys) ltac:(apply ab; lra)) as E5. apply ab in E5.
  assert (DI : P * / 68719476736 <= Pi) by (unfold Pi; apply Rmult_le_compat_l; lra).
  destruct (grid_near _ _ _ _ (2 * Pi) k e (P * (242 / 100 / 1000000000000)) (P * (279 / 100 / 1000000000000)) (n * (46 / 10 / 1000000000000)) F4 F5) as [I ER2]; auto; try lra; try lia.
  - apply ab. replace (k * (2 * Pi)) with (2 * Pk) by (rewrite XK; ring). lra.
  - apply ab. lra.
  - apply ab. lra.
  - assert (EX : n * (46 / 10 / 1000000000000) * (2 * Pi - P * (279 / 100 / 1000000000000)) = P * (n * i) * (92 / 10 / 1000000000000) - P * n * (46 / 10 / 1000000000000 * (279 / 100 / 1000000000000))) by (unfold Pi; field). rewrite EX, ND. assert (PN : P * n <= P * 68719476736) by (apply Rmult_le_compat_l; lra). lra.
  - split; [exact I|]. eapply Rle_trans; [exact ER2|]. apply Rplus_le_compat_l. replace (IZR e * n * (5 / 1000000000000)) with ((n * (46 / 10 / 1000000000000) + n * (4 / 10 / 1000000000000)) * IZR e) by field. apply Rmult_le_compat_r; lra.
Qed.
End Lib.
