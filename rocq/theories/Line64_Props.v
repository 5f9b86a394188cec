(** The cover of a line in binary64 (C137). *)
From Coq Require Import ZArith Reals Rtrigo1 Ratan List Lia Lra Bool.
From Flocq Require Import Core BinarySingleNaN.
From Verif Require Import GoBase Num Tileid_Model TileR_Model TileR_Proofs Clip_Model Cover_Model Cover_Proofs TileF64_Model TileF64_Proofs F64 ColorF64_Model ColorF64_Proofs ColorF64_Props Tile64_Model Tile64_Proofs Tile64_Props Line64_Model Line64_Proofs.
From Verif Require Cover_Props MvtAgain64_Props Style64_Props.
Import ListNotations.
Open Scope R_scope.
#[local] Existing Instance vexp.

(** A point of the map: finite, within the bounds of tile 0/0/0 *)
Definition in_world (p : f64 * f64) : Prop :=
  let w := Bounds (mkTile 0 0 0) in
  is_finite (fst p) = true /\ is_finite (snd p) = true /\ eW w <= B2R (fst p) <= eE w /\ eS w <= B2R (snd p) <= eN w.
(** [p] lies within 1e-11 degrees of the straight line through [a] and [b], and overshoots the
    segment by at most 1.1e-7 degrees in one of the coordinates *)
Definition near_line (a b p : f64 * f64) : Prop :=
  let ax := B2R (fst a) in let ay := B2R (snd a) in let bx := B2R (fst b) in let by_ := B2R (snd b) in
  is_finite (fst p) = true /\ is_finite (snd p) = true /\
  exists s, Rabs (B2R (fst p) - (ax + s * (bx - ax))) <= / 10 ^ 11 /\ Rabs (B2R (snd p) - (ay + s * (by_ - ay))) <= / 10 ^ 11 /\
    (Rmin ax bx - 11 / 10 ^ 8 <= B2R (fst p) <= Rmax ax bx + 11 / 10 ^ 8 \/ Rmin ay by_ - 11 / 10 ^ 8 <= B2R (snd p) <= Rmax ay by_ + 11 / 10 ^ 8).

Lemma world_eq p : in_world p -> is_finite (fst p) = true /\ is_finite (snd p) = true /\ -180 <= B2R (fst p) <= 180 /\ exists u, B2R (snd p) = 180 / PI * gd u /\ - PI <= u <= PI.
Proof.
  intros (F1 & F2 & HX & HY). assert (M : on_map (mkTile 0 0 0)) by (unfold on_map; cbn; lia). destruct (Bounds_exact _ M) as (W & E & N & S). cbn [tX tY tZ] in W, E, N, S. change (2 ^ 0)%Z with 1%Z in *. change (0 + 1)%Z with 1%Z in E. rewrite W, E in HX. rewrite N, S in HY.
  replace (PI * (1 - 2 * 0 / 1)) with PI in HY by field. replace (PI * (1 - 2 * (0 + 1) / 1)) with (- PI) in HY by field. split; [exact F1|]. split; [exact F2|]. split; [lra|].
  pose proof PI_range as P. pose proof (gd_bound PI) as B1. pose proof (gd_bound (- PI)) as B2. assert (E9 : 180 / PI * (PI / 2) = 90) by (field; lra). assert (0 < 180 / PI) by (apply Rdiv_lt_0_compat; lra).
  destruct (lat_gd (B2R (snd p))) as (u & U); [nra|]. exists u. split; [exact U|]. rewrite U in HY. split; apply gd_le; apply Rmult_le_reg_l with (180 / PI); lra.
Qed.

Lemma Beqb_val (x y : f64) : Beqb x y = true -> is_finite x = true -> is_finite y = true /\ B2R y = B2R x.
Proof. intros H F. apply MvtAgain64_Props.Beqb_cases in H. destruct H as [<-|(s1 & s2 & -> & ->)]; auto. Qed.
Lemma dedup_sub {A} (eqb : A -> A -> bool) l : forall x, In x (dedup eqb l) -> In x l.
Proof. induction l as [|a l IH]; intros x; cbn [dedup]; [auto|]. destruct (existsb (eqb a) l); cbn [In]; intros H; [right; auto|]. destruct H; auto. Qed.
Lemma dedup_val l : forall x : f64, In x l -> is_finite x = true -> exists y, In y (dedup Beqb l) /\ is_finite y = true /\ B2R y = B2R x.
Proof.
  induction l as [|a l IH]; intros x H F; [destruct H|]. cbn [dedup]. destruct (existsb (Beqb a) l) eqn:E.
  - destruct H as [<-|H]; [|apply IH; auto]. apply existsb_exists in E. destruct E as (y & Hy & E). destruct (Beqb_val a y E F) as [F' V]. destruct (IH y Hy F') as (y' & I' & G' & V'). exists y'. rewrite V', V. auto.
  - destruct H as [<-|H]; [exists a; cbn [In]; auto|]. destruct (IH x H F) as (y & I & G' & V). exists y. cbn [In]. auto.
Qed.

Lemma Rmm x y : Rmin x y <= x <= Rmax x y /\ Rmin x y <= y <= Rmax x y.
Proof. pose proof (Rmin_l x y). pose proof (Rmin_r x y). pose proof (Rmax_l x y). pose proof (Rmax_r x y). lra. Qed.

Section Cover.
Variable m : libm.
Hypothesis G : good_libm m.
Variable z : Z.
Hypothesis Hz : (0 <= z <= 28)%Z.
Let n := IZR (2 ^ z).

Lemma n_rng : 1 <= n <= 268435456.
Proof. unfold n. pose proof (pz z ltac:(lia)). pose proof (p43 z 28 ltac:(lia)). change (2 ^ 28)%Z with 268435456%Z in *. split; apply IZR_le; lia. Qed.
Lemma u64z : u64 z = z. Proof. apply u64_id. unfold in_u64. lia. Qed.
Lemma pow28 : (0 < 2 ^ z)%Z. Proof. apply pz. lia. Qed.

(** *** Columns *)
Definition Wc (c : Z) : R := IZR c / n * 360 - 180.
Lemma Wc_succ c : Wc (c + 1) = Wc c + 360 / n.
Proof. unfold Wc. rewrite plus_IZR. pose proof n_rng. field. lra. Qed.
Lemma width : 13 / 10 ^ 7 <= 360 / n <= 360.
Proof. pose proof n_rng. split; apply Rmult_le_reg_r with n; try lra; unfold Rdiv; rewrite (Rmult_assoc 360), Rinv_l by lra; lra. Qed.
Lemma Wc_rng c : (0 <= c <= 2 ^ z)%Z -> -180 <= Wc c <= 180.
Proof. intros H. apply ul_lon_range; auto; lia. Qed.
Lemma lon_f c : (0 <= c <= 2 ^ z)%Z -> is_f (ul_lon c z) (Wc c).
Proof. intros H. pose proof (ul_lon_f c z ltac:(lia) H) as K. rewrite ul_lon_eq in K by lia. exact K. Qed.
Lemma col_rng p : in_world p -> (0 <= tile_col (fst p) z <= 2 ^ z)%Z.
Proof.
  intros H. apply world_eq in H. destruct H as (F & _ & R & _). pose proof pow28. pose proof n_rng as N. split.
  - apply Tile64_Proofs.col_ge; auto; try lia. fold n. unfold Rdiv. rewrite Rmult_0_l. lra.
  - apply Tile64_Proofs.col_le; auto; try lia. fold n. replace (n / n) with 1 by (field; lra). lra.
Qed.
Lemma col_sep p q c : in_world p -> in_world q -> (tile_col (fst p) z < c < tile_col (fst q) z)%Z -> (0 <= c < 2 ^ z)%Z /\ B2R (fst p) < Wc c /\ Wc (c + 1) - / 10 ^ 12 < B2R (fst q).
Proof.
  intros Hp Hq H. pose proof (col_rng p Hp). pose proof (col_rng q Hq). apply world_eq in Hp, Hq. destruct Hp as (Fp & _ & Rp & _), Hq as (Fq & _ & Rq & _). split; [lia|]. split.
  - destruct (Rlt_le_dec (B2R (fst p)) (Wc c)) as [L|L]; [exact L|]. pose proof (Tile64_Proofs.col_ge (fst p) c z ltac:(lia) ltac:(lia) Fp (conj L (proj2 Rp))). lia.
  - destruct (Rlt_le_dec (Wc (c + 1) - / 10 ^ 12) (B2R (fst q))) as [L|L]; [exact L|]. assert (L' : B2R (fst q) <= Wc (c + 1) - / 4398046511104) by lra. pose proof (Tile64_Proofs.col_lt (fst q) (c + 1) z ltac:(lia) ltac:(lia) Fq (conj (proj1 Rq) L')). lia.
Qed.

(** *** Rows *)
Definition Nr (r : Z) : R := edge_lat (IZR r) n.
Definition ur (r : Z) : R := PI * (1 - 2 * IZR r / n).
Lemma Nr_eq r : Nr r = 180 / PI * gd (ur r). Proof. reflexivity. Qed.
Lemma d180 : 57 <= 180 / PI <= 58.
Proof. pose proof PI_range. assert (E : 180 / PI * PI = 180) by (field; lra). set (d := 180 / PI) in *. clearbody d. nra. Qed.
Lemma ur_succ r : ur (r + 1) = ur r - 2 * PI / n.
Proof. unfold ur. rewrite plus_IZR. pose proof n_rng. field. lra. Qed.
Lemma ur_rng r : (0 <= r <= 2 ^ z)%Z -> - PI <= ur r <= PI.
Proof.
  intros H. pose proof n_rng. pose proof PI_range. assert (0 <= IZR r / n <= 1). { assert (0 <= IZR r <= n) by (split; apply IZR_le; lia). split; [apply Rmult_le_pos; [lra|apply Rlt_le, Rinv_0_lt_compat; lra]|]. apply Rmult_le_reg_r with n; [lra|]. unfold Rdiv. rewrite Rmult_assoc, Rinv_l by lra. lra. }
  unfold ur. replace (2 * IZR r / n) with (2 * (IZR r / n)) by (unfold Rdiv; ring). nra.
Qed.
Lemma height r : (0 <= r < 2 ^ z)%Z -> 11 / 10 ^ 8 <= Nr r - Nr (r + 1) <= 180.
Proof.
  intros H. pose proof n_rng as N. pose proof PI_range as P. pose proof d180 as D. rewrite !Nr_eq. pose proof (ur_rng r ltac:(lia)) as U1. pose proof (ur_rng (r + 1) ltac:(lia)) as U2. pose proof (ur_succ r) as US.
  pose proof (gd_low (ur r) (ur (r + 1)) ltac:(apply ab; lra) ltac:(apply ab; lra)) as L. assert (IN : / 268435456 <= / n) by (apply Rinv_le_contravar; lra). assert (Q : 2 * PI / n = 2 * PI * / n) by reflexivity.
  assert (Q1 : 2 * PI * / 268435456 <= 2 * PI / n) by (rewrite Q; apply Rmult_le_compat_l; lra). assert (GL : gd (ur (r + 1)) <= gd (ur r)) by (apply (proj1 (gd_le _ _)); lra). rewrite !Rabs_pos_eq in L by lra. set (g1 := gd (ur r)) in *. set (g2 := gd (ur (r + 1))) in *.
  pose proof (edge_lat_range (IZR r) n) as E1. pose proof (edge_lat_range (IZR (r + 1)) n) as E2. fold (Nr r) in E1. fold (Nr (r + 1)) in E2. rewrite Nr_eq in E1, E2. fold g1 in E1. fold g2 in E2. split; [|lra].
  replace (180 / PI * g1 - 180 / PI * g2) with (180 / PI * (g1 - g2)) by ring. assert (A : PI * / 134217728 / (121 / 10) <= g1 - g2) by lra. apply Rle_trans with (180 / PI * (PI * / 134217728 / (121 / 10))); [|apply Rmult_le_compat_l; lra]. replace (180 / PI * (PI * / 134217728 / (121 / 10))) with (180 * / 134217728 / (121 / 10)) by (field; lra). lra.
Qed.
Lemma lat_f r : (0 <= r <= 2 ^ z)%Z -> exists v, is_f (ul_lat m r z) v /\ Rabs (v - Nr r) <= / 10 ^ 11.
Proof. intros H. destruct (ul_lat_near m G r z ltac:(lia) H) as (v & F & E). exists v. split; [exact F|]. fold n in E. fold (Nr r) in E. lra. Qed.
Lemma row_val p : in_world p -> exists u v, B2R (snd p) = 180 / PI * gd u /\ - PI <= u <= PI /\ tile_row m (snd p) z = Zfloor v /\ Rabs (v - (1 - u / PI) / 2 * n) <= n * (7 / 10 ^ 12).
Proof.
  intros H. apply world_eq in H. destruct H as (_ & F & _ & u & U & R). pose proof PI_range. destruct (row_near m G (snd p) u z F U ltac:(apply ab; lra) ltac:(lia)) as (v & V1 & V2). exists u, v. split; auto. split; auto. split; auto. fold n in V2. unfold e12 in V2. lra.
Qed.
Lemma upi u : - PI <= u <= PI -> -1 <= u / PI <= 1.
Proof. intros H. pose proof PI_range. split; apply Rmult_le_reg_r with PI; try lra; unfold Rdiv; rewrite Rmult_assoc, Rinv_l by lra; lra. Qed.
Lemma row_rng p : in_world p -> (-1 <= tile_row m (snd p) z <= 2 ^ z)%Z.
Proof.
  intros H. destruct (row_val p H) as (u & v & _ & U & -> & V). apply upi in U. apply ab in V. pose proof n_rng as N. set (k := u / PI) in *. split.
  - apply Zfloor_lub. nra.
  - apply le_IZR. assert (v < n + 1) by nra. assert (IZR (Zfloor v) < n + 1) by (eapply Rle_lt_trans; [apply Zfloor_lb|auto]). unfold n in *. rewrite <- plus_IZR in H1. apply lt_IZR in H1. apply IZR_le. lia.
Qed.
(** crossing an edge, in latitudes *)
Lemma lat_step (u w : R) : - PI <= u <= PI -> - PI <= w <= PI -> u <= w + 45 / 10 ^ 12 -> 180 / PI * gd u < 180 / PI * gd w + 3 / 10 ^ 9.
Proof.
  intros _ _ H. pose proof d180 as D. destruct (Rle_lt_dec u w) as [L|L].
  - apply (proj1 (gd_le _ _)) in L. assert (180 / PI * gd u <= 180 / PI * gd w) by (apply Rmult_le_compat_l; lra). lra.
  - pose proof (gd_up u w) as K. assert (L' : gd w <= gd u) by (apply (proj1 (gd_le _ _)); lra). rewrite !Rabs_pos_eq in K by lra. assert (180 / PI * (gd u - gd w) <= 58 * (45 / 10 ^ 12)) by (apply Rmult_le_compat; lra). lra.
Qed.
Lemma row_sep p q r : in_world p -> in_world q -> (tile_row m (snd p) z < r < tile_row m (snd q) z)%Z ->
  (0 <= r < 2 ^ z)%Z /\ Nr r - 3 / 10 ^ 9 < B2R (snd p) /\ B2R (snd q) < Nr (r + 1) + 3 / 10 ^ 9.
Proof.
  intros Hp Hq H. pose proof (row_rng p Hp) as R1. pose proof (row_rng q Hq) as R2. assert (Hr : (0 <= r < 2 ^ z)%Z) by lia. split; [exact Hr|]. pose proof n_rng as N. pose proof PI_range as P.
  destruct (row_val p Hp) as (u & v & E & U & Ev & V). destruct (row_val q Hq) as (u' & v' & E' & U' & Ev' & V'). rewrite Ev, Ev' in H. rewrite E, E', !Nr_eq. apply ab in V, V'.
  assert (A : v < IZR r). { pose proof (Zfloor_ub v). assert (IZR (Zfloor v) + 1 <= IZR r) by (rewrite <- plus_IZR; apply IZR_le; lia). lra. }
  assert (A' : IZR (r + 1) <= v') by (apply Rle_trans with (IZR (Zfloor v')); [apply IZR_le; lia|apply Zfloor_lb]).
  assert (C : forall x, (1 - x / PI) / 2 * n = (PI - x) * (n / (2 * PI))) by (intros; field; lra). assert (Cr : forall k, IZR k = (PI - ur k) * (n / (2 * PI))) by (intros; unfold ur; field; lra). rewrite C in V, V'. rewrite (Cr r) in A. rewrite (Cr (r + 1)%Z) in A'. set (a := n / (2 * PI)) in *.
  assert (NA : n = a * (2 * PI)) by (unfold a; field; lra). rewrite NA in V, V'. assert (A0 : 0 < a) by (unfold a; apply Rdiv_lt_0_compat; lra). clearbody a.
  pose proof (ur_rng r ltac:(lia)) as UR. pose proof (ur_rng (r + 1) ltac:(lia)) as UR'.
  assert (S1 : ur r <= u + 45 / 10 ^ 12). { apply Rmult_le_reg_r with a; [lra|]. assert (a * (2 * PI) * (7 / 10 ^ 12) <= a * (45 / 10 ^ 12)) by (rewrite Rmult_assoc; apply Rmult_le_compat_l; lra). nra. }
  assert (S2 : u' <= ur (r + 1) + 45 / 10 ^ 12). { apply Rmult_le_reg_r with a; [lra|]. assert (a * (2 * PI) * (7 / 10 ^ 12) <= a * (45 / 10 ^ 12)) by (rewrite Rmult_assoc; apply Rmult_le_compat_l; lra). nra. }
  pose proof (lat_step _ _ UR U S1). pose proof (lat_step _ _ U' UR' S2). lra.
Qed.

(** *** The values and the tiles produced *)
Lemma produce_in vals c (xb : bool) v : In v (ProduceVals64 m vals c xb z) -> exists x k, In x vals /\ (v = fsub k eps64 \/ v = fadd k eps64) /\
  (if xb then k = ul_lon x z \/ k = ul_lon (x + 1) z else k = ul_lat m x z \/ k = ul_lat m (x + 1) z).
Proof.
  unfold ProduceVals64. rewrite in_flat_map. intros (k & Hk & Hv). apply dedup_sub in Hk. apply in_flat_map in Hk. destruct Hk as (x & Hx & Hk). exists x, k. split; auto. split; [destruct Hv as [<-|[<-|[]]]; auto|].
  rewrite u64z in Hk. destruct xb; cbn [Bounds64 Ul64 e6W e6E e6N e6S tX tY tZ fst snd] in Hk; destruct Hk as [<-|[<-|[]]]; auto.
Qed.
Lemma produce_out vals c (xb : bool) x k : In x vals -> (if xb then k = ul_lon x z else k = ul_lat m (x + 1) z) -> is_finite k = true ->
  exists k', is_finite k' = true /\ B2R k' = B2R k /\ In (fadd k' eps64) (ProduceVals64 m vals c xb z) /\ In (fsub k' eps64) (ProduceVals64 m vals c xb z).
Proof.
  intros Hx Hk F. unfold ProduceVals64. set (ks := flat_map _ vals). assert (I : In k ks). { unfold ks. apply in_flat_map. exists x. split; auto. rewrite u64z. destruct xb; subst k; cbn [Bounds64 Ul64 e6W e6E e6N e6S tX tY tZ fst snd]; left; auto. }
  destruct (dedup_val ks k I F) as (k' & I' & F' & V). exists k'. split; auto. split; auto. split; apply in_flat_map; exists k'; (split; [auto|]); [right; left; auto|left; auto].
Qed.
Lemma between_in a b t : let ta := tile_at m z a in let tb := tile_at m z b in
  In t (BetweenTiles64 m a b z) <-> t = ta \/ t = tb \/
    (~ (tX ta = tX tb /\ tY ta = tY tb) /\
     ((exists v, In v (ProduceVals64 m (FillVals (tX ta) (tX tb)) (tY ta) true z) /\ t = tile_at m z (Interpolate64 a b v false)) \/
      (exists v, In v (ProduceVals64 m (FillVals (tY ta) (tY tb)) (tX ta) false z) /\ t = tile_at m z (Interpolate64 a b v true)))).
Proof.
  intros ta tb. unfold BetweenTiles64. fold ta tb. destruct ((tX ta =? tX tb)%Z && (tY ta =? tY tb)%Z) eqn:E.
  - cbn [In]. split; [intros [<-|[<-|[]]]; auto|]. intros [-> |[-> |[H _]]]; auto. lia.
  - rewrite Cover_Props.existsb_dedup by apply tile_eqb_eq. cbn [In]. rewrite in_app_iff, !in_map_iff. split.
    + intros [<-|[<-|[(v & <- & Hv)|(v & <- & Hv)]]]; auto; right; right; (split; [lia|]); [left|right]; eauto.
    + intros [-> |[-> |[_ [(v & Hv & ->)|(v & Hv & ->)]]]]; eauto 6.
Qed.

(** the edge moved by 1e-7 *)
Lemma moved k r : is_f k r -> Rabs r <= 180 -> exists d e, is_f (fsub k eps64) d /\ Rabs (d - (r - / 10 ^ 7)) <= / 10 ^ 12 /\ is_f (fadd k eps64) e /\ Rabs (e - (r + / 10 ^ 7)) <= / 10 ^ 12.
Proof.
  intros F B. apply ab in B. pose proof veps_near as V. apply ab in V. assert (U : 0 < uu <= / 9000000000000000) by (unfold uu; lra).
  pose proof (fsub_f _ _ _ _ F eps_f ltac:(apply big, ab; lra)) as F1. pose proof (fadd_f _ _ _ _ F eps_f ltac:(apply big, ab; lra)) as F2. pose proof (re256 (r - veps) ltac:(apply ab; lra)) as E1. pose proof (re256 (r + veps) ltac:(apply ab; lra)) as E2. apply ab in E1, E2.
  exists (rnd (r - veps)), (rnd (r + veps)). split; [exact F1|]. split; [apply ab; lra|]. split; [exact F2|]. apply ab; lra.
Qed.
Lemma same_f k k' r : is_f k r -> is_finite k' = true -> B2R k' = B2R k -> is_f k' r.
Proof. intros [F V] F' E. split; congruence. Qed.

Lemma line_at_s x1 y1 x2 y2 v : x2 - x1 <> 0 -> let s := (v - x1) / (x2 - x1) in x1 + s * (x2 - x1) = v /\ y1 + s * (y2 - y1) = line_at x1 y1 x2 y2 v.
Proof. intros H s. unfold line_at, s. split; field; auto. Qed.
Lemma lng_lat p : in_world p -> Rabs (B2R (fst p)) <= 180 /\ Rabs (B2R (snd p)) <= 90.
Proof.
  intros H. apply world_eq in H. destruct H as (_ & _ & R & u & -> & _). split; [apply ab; lra|]. pose proof (gd_bound u). pose proof PI_range. assert (E9 : 180 / PI * (PI / 2) = 90) by (field; lra). pose proof d180. apply ab. nra.
Qed.

Lemma col_point a b v c : in_world a -> in_world b -> In c (FillVals (tile_col (fst a) z) (tile_col (fst b) z)) ->
  (exists k, (v = fsub k eps64 \/ v = fadd k eps64) /\ (k = ul_lon c z \/ k = ul_lon (c + 1) z)) -> near_line a b (Interpolate64 a b v false).
Proof.
  intros Ha Hb Hc (k & Hv & Hk). apply Cover_Props.C37_fill_vals in Hc. pose proof width as WD. pose proof (lng_lat a Ha) as [A1 A2]. pose proof (lng_lat b Hb) as [B1 B2].
  assert (S : (0 <= c < 2 ^ z)%Z /\ ((B2R (fst a) < Wc c /\ Wc (c + 1) - / 10 ^ 12 < B2R (fst b)) \/ (B2R (fst b) < Wc c /\ Wc (c + 1) - / 10 ^ 12 < B2R (fst a)))).
  { destruct (Z_lt_ge_dec (tile_col (fst a) z) (tile_col (fst b) z)); [destruct (col_sep a b c Ha Hb ltac:(lia)) as (? & ? & ?)|destruct (col_sep b a c Hb Ha ltac:(lia)) as (? & ? & ?)]; auto. }
  destruct S as [HC S]. rewrite Wc_succ in S. pose proof (Wc_rng c ltac:(lia)) as R1. pose proof (Wc_rng (c + 1) ltac:(lia)) as R2. rewrite Wc_succ in R2.
  assert (K : exists r, is_f k r /\ Wc c <= r <= Wc c + 360 / n). { destruct Hk as [-> | ->]; [exists (Wc c)|exists (Wc (c + 1))]; (split; [apply lon_f; lia|]); rewrite ?Wc_succ; lra. }
  destruct K as (r & Fk & Rk). destruct (moved k r Fk ltac:(apply ab; lra)) as (d & e & Fd & Ed & Fe & Ee). apply ab in Ed, Ee.
  assert (V : exists w, is_f v w /\ Wc c - / 10 ^ 7 - / 10 ^ 12 <= w <= Wc c + 360 / n + / 10 ^ 7 + / 10 ^ 12) by (destruct Hv as [-> | ->]; [exists d|exists e]; (split; [assumption|lra])). destruct V as (w & [Fv Vv] & Rw).
  apply world_eq in Ha, Hb. destruct Ha as (Fa1 & Fa2 & _), Hb as (Fb1 & Fb2 & _). pose proof (Rmm (B2R (fst a)) (B2R (fst b))) as MM. apply ab in A1, A2, B1, B2.
  assert (DD : 12 / 10 ^ 7 <= Rabs (B2R (fst b) - B2R (fst a))) by (unfold Rabs; destruct (Rcase_abs (B2R (fst b) - B2R (fst a))); lra).
  destruct (interp_near (fst a) (snd a) (fst b) (snd b) v) as (q & [Fq Vq] & Eq); auto.
  - rewrite Vv. repeat apply conj; apply ab; lra.
  - lra.
  - rewrite Vv. unfold Rabs in *. destruct (Rcase_abs (B2R (fst b) - B2R (fst a))), (Rcase_abs (w - B2R (fst a))); lra.
  - assert (ND : B2R (fst b) - B2R (fst a) <> 0) by (intros E; rewrite E, Rabs_R0 in DD; lra). destruct (line_at_s (B2R (fst a)) (B2R (snd a)) (B2R (fst b)) (B2R (snd b)) (B2R v) ND) as [L1 L2]. unfold near_line, Interpolate64. cbn [fst snd].
    split; [exact Fv|]. split; [exact Fq|]. exists ((B2R v - B2R (fst a)) / (B2R (fst b) - B2R (fst a))). rewrite L1, L2, Vq. split; [rewrite Rminus_diag_eq, Rabs_R0 by reflexivity; lra|]. split; [exact Eq|]. left. rewrite Vv. lra.
Qed.
Lemma row_point a b v c : in_world a -> in_world b -> In c (FillVals (tile_row m (snd a) z) (tile_row m (snd b) z)) ->
  (exists k, (v = fsub k eps64 \/ v = fadd k eps64) /\ (k = ul_lat m c z \/ k = ul_lat m (c + 1) z)) -> near_line a b (Interpolate64 a b v true).
Proof.
  intros Ha Hb Hc (k & Hv & Hk). apply Cover_Props.C37_fill_vals in Hc. pose proof (lng_lat a Ha) as [A1 A2]. pose proof (lng_lat b Hb) as [B1 B2].
  assert (S : (0 <= c < 2 ^ z)%Z /\ ((Nr c - 3 / 10 ^ 9 < B2R (snd a) /\ B2R (snd b) < Nr (c + 1) + 3 / 10 ^ 9) \/ (Nr c - 3 / 10 ^ 9 < B2R (snd b) /\ B2R (snd a) < Nr (c + 1) + 3 / 10 ^ 9))).
  { destruct (Z_lt_ge_dec (tile_row m (snd a) z) (tile_row m (snd b) z)); [destruct (row_sep a b c Ha Hb ltac:(lia)) as (? & ? & ?)|destruct (row_sep b a c Hb Ha ltac:(lia)) as (? & ? & ?)]; auto. }
  destruct S as [HC S]. pose proof (height c HC) as HT. pose proof (edge_lat_range (IZR c) n) as R1. pose proof (edge_lat_range (IZR (c + 1)) n) as R2. fold (Nr c) in R1. fold (Nr (c + 1)) in R2.
  assert (K : exists r, is_f k r /\ Nr (c + 1) - / 10 ^ 11 <= r <= Nr c + / 10 ^ 11). { destruct Hk as [-> | ->]; [destruct (lat_f c ltac:(lia)) as (r & Fr & Er)|destruct (lat_f (c + 1) ltac:(lia)) as (r & Fr & Er)]; exists r; (split; [exact Fr|]); apply ab in Er; lra. }
  destruct K as (r & Fk & Rk). destruct (moved k r Fk ltac:(apply ab; lra)) as (d & e & Fd & Ed & Fe & Ee). apply ab in Ed, Ee.
  assert (V : exists w, is_f v w /\ Nr (c + 1) - / 10 ^ 7 - 2 / 10 ^ 11 <= w <= Nr c + / 10 ^ 7 + 2 / 10 ^ 11) by (destruct Hv as [-> | ->]; [exists d|exists e]; (split; [assumption|lra])). destruct V as (w & [Fv Vv] & Rw).
  apply world_eq in Ha, Hb. destruct Ha as (Fa1 & Fa2 & _), Hb as (Fb1 & Fb2 & _). pose proof (Rmm (B2R (snd a)) (B2R (snd b))) as MM. apply ab in A1, A2, B1, B2.
  assert (DD : 103 / 10 ^ 9 <= Rabs (B2R (snd b) - B2R (snd a))) by (unfold Rabs; destruct (Rcase_abs (B2R (snd b) - B2R (snd a))); lra).
  destruct (interp_near (snd a) (fst a) (snd b) (fst b) v) as (q & [Fq Vq] & Eq); auto.
  - rewrite Vv. repeat apply conj; apply ab; lra.
  - lra.
  - rewrite Vv. unfold Rabs in *. destruct (Rcase_abs (B2R (snd b) - B2R (snd a))), (Rcase_abs (w - B2R (snd a))); lra.
  - assert (ND : B2R (snd b) - B2R (snd a) <> 0) by (intros E; rewrite E, Rabs_R0 in DD; lra). destruct (line_at_s (B2R (snd a)) (B2R (fst a)) (B2R (snd b)) (B2R (fst b)) (B2R v) ND) as [L1 L2]. unfold near_line, Interpolate64. cbn [fst snd].
    split; [exact Fq|]. split; [exact Fv|]. exists ((B2R v - B2R (snd a)) / (B2R (snd b) - B2R (snd a))). rewrite L1, L2, Vq. split; [exact Eq|]. split; [rewrite Rminus_diag_eq, Rabs_R0 by reflexivity; lra|]. right. rewrite Vv. lra.
Qed.
End Cover.

(** Every tile produced for a segment is the tile of a computed point close to its straight line. *)
Theorem C137_between_sound : forall m a b zoom t, good_libm m -> (0 <= zoom <= 28)%Z -> in_world a -> in_world b ->
  In t (BetweenTiles64 m a b zoom) -> exists p, t = Tile64 m (fst p) (snd p) zoom /\ near_line a b p.
Proof.
  intros m a b z t G Hz Ha Hb H. apply between_in in H. pose proof (world_eq a Ha) as (FA1 & FA2 & _). pose proof (world_eq b Hb) as (FB1 & FB2 & _). pose proof (Rmm (B2R (fst a)) (B2R (fst b))) as MM. assert (Z0 : forall x, x = 0 -> Rabs x <= / 10 ^ 11) by (intros x ->; rewrite Rabs_R0; lra).
  destruct H as [-> |[-> |[_ [(v & Hv & ->)|(v & Hv & ->)]]]].
  - exists a. split; [reflexivity|]. unfold near_line. split; auto. split; auto. exists 0. split; [apply Z0; ring|]. split; [apply Z0; ring|]. left. lra.
  - exists b. split; [reflexivity|]. unfold near_line. split; auto. split; auto. exists 1. split; [apply Z0; ring|]. split; [apply Z0; ring|]. left. lra.
  - apply produce_in in Hv; auto. destruct Hv as (x & k & Hx & Hv & Hk). eexists. split; [reflexivity|]. apply (col_point z Hz a b v x Ha Hb Hx). exists k. auto.
  - apply produce_in in Hv; auto. destruct Hv as (x & k & Hx & Hv & Hk). eexists. split; [reflexivity|]. apply (row_point m G z Hz a b v x Ha Hb Hx). exists k. auto.
Qed.
Print Assumptions C137_between_sound.

(** Every column and every row strictly between those of the ends is visited. *)
Theorem C137_every_column : forall m a b zoom c, good_libm m -> (0 <= zoom <= 28)%Z -> in_world a -> in_world b ->
  let ca := tX (Tile64 m (fst a) (snd a) zoom) in let cb := tX (Tile64 m (fst b) (snd b) zoom) in
  (Z.min ca cb < c < Z.max ca cb)%Z -> exists t, In t (BetweenTiles64 m a b zoom) /\ tX t = c.
Proof.
  intros m a b z c G Hz Ha Hb ca cb Hc. unfold ca, cb, Tile64 in *. cbn [tX] in *.
  assert (HC : (0 <= c < 2 ^ z)%Z). { pose proof (col_rng z Hz a Ha). pose proof (col_rng z Hz b Hb). lia. }
  pose proof (lon_f z Hz c ltac:(lia)) as FK. assert (IC : In c (FillVals (tile_col (fst a) z) (tile_col (fst b) z))) by (apply Cover_Props.C37_fill_vals; exact Hc).
  destruct (produce_out m z Hz (FillVals (tile_col (fst a) z) (tile_col (fst b) z)) (tile_row m (snd a) z) true c _ IC eq_refl (proj1 FK)) as (k & F1 & V1 & I1 & _). pose proof (same_f _ _ _ FK F1 V1) as FK'.
  pose proof (Wc_rng z Hz c ltac:(lia)) as R1. pose proof (Wc_rng z Hz (c + 1) ltac:(lia)) as R2. rewrite Wc_succ in R2 by auto. pose proof (width z Hz) as WD. destruct (moved k _ FK' ltac:(apply ab; lra)) as (_ & e & _ & _ & [Fe Ve] & Ee). apply ab in Ee.
  exists (tile_at m z (Interpolate64 a b (fadd k eps64) false)). split.
  - apply between_in; auto. right. right. unfold tile_at, Tile64. cbn [tX tY]. split; [lia|]. left. eauto.
  - unfold tile_at, Tile64, Interpolate64. cbn [tX fst]. pose proof (Tile64_Proofs.col_ge (fadd k eps64) c z ltac:(lia) ltac:(lia) Fe) as C1. pose proof (Tile64_Proofs.col_lt (fadd k eps64) (c + 1) z ltac:(lia) ltac:(lia) Fe) as C2. fold (Wc z c) in C1. fold (Wc z (c + 1)) in C2. rewrite Wc_succ in C2 by auto. rewrite Ve in C1, C2. specialize (C1 ltac:(lra)). specialize (C2 ltac:(lra)). lia.
Qed.
Print Assumptions C137_every_column.
Theorem C137_every_row : forall m a b zoom r, good_libm m -> (0 <= zoom <= 28)%Z -> in_world a -> in_world b ->
  let ra := tY (Tile64 m (fst a) (snd a) zoom) in let rb := tY (Tile64 m (fst b) (snd b) zoom) in
  (Z.min ra rb < r < Z.max ra rb)%Z -> exists t, In t (BetweenTiles64 m a b zoom) /\ tY t = r.
Proof.
  intros m a b z c G Hz Ha Hb ca cb Hc. unfold ca, cb, Tile64 in *. cbn [tY] in *.
  assert (HC : (0 <= c < 2 ^ z)%Z). { pose proof (row_rng m G z Hz a Ha). pose proof (row_rng m G z Hz b Hb). lia. }
  destruct (lat_f m G z Hz (c + 1) ltac:(lia)) as (w & FK & EK). assert (IC : In c (FillVals (tile_row m (snd a) z) (tile_row m (snd b) z))) by (apply Cover_Props.C37_fill_vals; exact Hc).
  destruct (produce_out m z Hz (FillVals (tile_row m (snd a) z) (tile_row m (snd b) z)) (tile_col (fst a) z) false c _ IC eq_refl (proj1 FK)) as (k & F1 & V1 & I1 & _). pose proof (same_f _ _ _ FK F1 V1) as FK'. apply ab in EK.
  pose proof (edge_lat_range (IZR (c + 1)) (IZR (2 ^ z))) as R2. fold (Nr z (c + 1)) in R2. pose proof (height z Hz c HC) as HT. destruct (moved k _ FK' ltac:(apply ab; lra)) as (_ & e & _ & _ & [Fe Ve] & Ee). apply ab in Ee.
  exists (tile_at m z (Interpolate64 a b (fadd k eps64) true)). split.
  - apply between_in; auto. right. right. unfold tile_at, Tile64. cbn [tX tY]. split; [lia|]. right. eauto.
  - unfold tile_at, Tile64, Interpolate64. cbn [tY snd]. assert (M : on_map (mkTile 0 c z)) by (unfold on_map; cbn [tX tY tZ]; lia). destruct (Bounds_exact _ M) as (BW & BE & BN & BS). cbn [tX tY tZ] in BW, BE, BN, BS.
    pose proof (lon_f z Hz 0 ltac:(lia)) as [F0 V0]. pose proof (width z Hz) as WD. pose proof (Wc_succ z Hz 0) as WS. change (IZR 0 / IZR (2 ^ z) * 360 - 180) with (Wc z 0) in BW. change (IZR (0 + 1) / IZR (2 ^ z) * 360 - 180) with (Wc z (0 + 1)) in BE. change (180 / PI * gd (PI * (1 - 2 * IZR c / IZR (2 ^ z)))) with (Nr z c) in BN. rewrite <- plus_IZR in BS. change (180 / PI * gd (PI * (1 - 2 * IZR (c + 1) / IZR (2 ^ z)))) with (Nr z (c + 1)) in BS.
    pose proof (C118_locate m (mkTile 0 c z) (ul_lon 0 z) (fadd k eps64) G M ltac:(cbn [tZ]; lia) F0 Fe) as L. rewrite V0, BW, BE, BN, BS, WS, Ve in L. specialize (L ltac:(lra) ltac:(lra)). apply (f_equal tY) in L. exact L.
Qed.
Print Assumptions C137_every_row.

Section Far.
Variable m : libm.
Hypothesis G : good_libm m.
Variable z : Z.
Hypothesis Hz : (0 <= z <= 28)%Z.
Variables (f : f64 * f64) (rest : list (f64 * f64)) (a b : f64 * f64).
Hypothesis M : on_map (tile_at m z f).
Hypothesis Ha : in_world a.
Hypothesis Hb : in_world b.
Let B := Bounds (tile_at m z f).
Lemma tz : tZ (tile_at m z f) = z. Proof. unfold tile_at, Tile64. cbn [tZ]. apply u64z, Hz. Qed.
Lemma far_eq : exists w h x y, Rabs (w - (eE B - eW B)) <= / 10 ^ 12 /\ Rabs (h - (eN B - eS B)) <= 3 / 10 ^ 11 /\ Rabs (x - Rabs (B2R (fst b) - B2R (fst a))) <= / 10 ^ 12 /\ Rabs (y - Rabs (B2R (snd b) - B2R (snd a))) <= / 10 ^ 12 /\
  far64 m (f :: rest) z a b = Rltb w x || Rltb h y.
Proof.
  pose proof tz as TZ. destruct (bounds_near m G _ M ltac:(rewrite TZ; lia)) as (FW & FE & (n & FN & EN) & (s & FS & ES)). fold B in FW, FE, EN, ES. unfold e12 in *. apply ab in EN, ES. pose proof M as (Z0 & HX & HY). rewrite TZ in *.
  destruct (Bounds_eq (tile_at m z f)) as (BW & BE & BN & BS). fold B in BW, BE, BN, BS. cbv zeta in BW, BE, BN, BS. pose proof (edge_lat_range (IZR (tY (tile_at m z f))) (pow2 (tZ (tile_at m z f)))) as R1. pose proof (edge_lat_range (IZR (tY (tile_at m z f)) + 1) (pow2 (tZ (tile_at m z f)))) as R2. rewrite <- BN in R1. rewrite <- BS in R2.
  destruct (Bounds_exact _ M) as (BW' & BE' & _). fold B in BW', BE'. rewrite TZ in BW', BE'. pose proof (Wc_rng z Hz (tX (tile_at m z f)) ltac:(lia)) as Q1. pose proof (Wc_rng z Hz (tX (tile_at m z f) + 1) ltac:(lia)) as Q2. unfold Wc in Q1, Q2. rewrite <- BW' in Q1. rewrite <- BE' in Q2.
  pose proof (lng_lat a Ha) as [A1 A2]. pose proof (lng_lat b Hb) as [B1 B2]. apply ab in A1, A2, B1, B2. apply world_eq in Ha, Hb. destruct Ha as (Fa1 & Fa2 & _), Hb as (Fb1 & Fb2 & _). assert (U : 0 < uu <= / 9000000000000000) by (unfold uu; lra).
  pose proof (fsub_f _ _ _ _ FE FW ltac:(apply big, ab; lra)) as F1. pose proof (fsub_f _ _ _ _ FN FS ltac:(apply big, ab; lra)) as F2. pose proof (fsub_f _ _ _ _ (conj Fb1 eq_refl) (conj Fa1 eq_refl) ltac:(apply big, ab; lra)) as F3. pose proof (fsub_f _ _ _ _ (conj Fb2 eq_refl) (conj Fa2 eq_refl) ltac:(apply big, ab; lra)) as F4.
  pose proof (re1024 (eE B - eW B) ltac:(apply ab; lra)) as E1. pose proof (re1024 (n - s) ltac:(apply ab; lra)) as E2. pose proof (re1024 (B2R (fst b) - B2R (fst a)) ltac:(apply ab; lra)) as E3. pose proof (re1024 (B2R (snd b) - B2R (snd a)) ltac:(apply ab; lra)) as E4.
  exists (rnd (eE B - eW B)), (rnd (n - s)), (Rabs (rnd (B2R (fst b) - B2R (fst a)))), (Rabs (rnd (B2R (snd b) - B2R (snd a)))).
  split; [lra|]. split; [apply ab in E2; apply ab; lra|]. split; [eapply Rle_trans; [apply Rabs_triang_inv2|]; lra|]. split; [eapply Rle_trans; [apply Rabs_triang_inv2|]; lra|].
  unfold far64. cbv zeta. rewrite (Bltb_f _ _ _ _ F1 (Style64_Props.fabs_f _ _ F3)), (Bltb_f _ _ _ _ F2 (Style64_Props.fabs_f _ _ F4)). reflexivity.
Qed.
End Far.

Lemma col_hit z p q c : (0 <= z <= 28)%Z -> in_world p -> in_world q -> (0 <= c < 2 ^ z)%Z -> B2R (fst p) <= Wc z c - / 10 ^ 11 -> Wc z (c + 1) + / 10 ^ 11 <= B2R (fst q) -> (tile_col (fst p) z < c < tile_col (fst q) z)%Z.
Proof.
  intros Hz Hp Hq HC L1 L2. apply world_eq in Hp, Hq. destruct Hp as (Fp & _ & Rp & _), Hq as (Fq & _ & Rq & _). pose proof (Tile64_Proofs.col_lt (fst p) c z ltac:(lia) ltac:(lia) Fp) as C1. pose proof (Tile64_Proofs.col_ge (fst q) (c + 1) z ltac:(lia) ltac:(lia) Fq) as C2. unfold Wc in L1, L2. specialize (C1 ltac:(lra)). specialize (C2 ltac:(lra)). lia.
Qed.
Lemma row_hit m z p q r : good_libm m -> (0 <= z <= 28)%Z -> in_world p -> in_world q -> (0 <= r < 2 ^ z)%Z -> Nr z r + / 10 ^ 8 <= B2R (snd p) -> B2R (snd q) <= Nr z (r + 1) - / 10 ^ 8 -> (tile_row m (snd p) z < r < tile_row m (snd q) z)%Z.
Proof.
  intros G Hz Hp Hq HR L1 L2. destruct (row_val m G z Hz p Hp) as (u & v & E & U & Ev & V). destruct (row_val m G z Hz q Hq) as (u' & v' & E' & U' & Ev' & V'). rewrite E, Nr_eq in L1. rewrite E', Nr_eq in L2.
  pose proof (gd_inner (ur z r) u (/ 10 ^ 8) L1 ltac:(lra)) as I1. pose proof (gd_inner u' (ur z (r + 1)) (/ 10 ^ 8) ltac:(lra) ltac:(lra)) as I2. pose proof (n_rng z Hz) as N. pose proof PI_range as P. apply ab in V, V'. set (n := IZR (2 ^ z)) in *.
  assert (C : forall x, (1 - x / PI) / 2 * n = (PI - x) * (n / (2 * PI))) by (intros; field; lra). assert (Cr : forall k, IZR k = (PI - ur z k) * (n / (2 * PI))) by (intros; unfold ur; fold n; field; lra). rewrite C in V, V'. set (a := n / (2 * PI)) in *.
  assert (NA : n = a * (2 * PI)) by (unfold a; field; lra). rewrite NA in V, V'. assert (A0 : 0 < a) by (unfold a; apply Rdiv_lt_0_compat; lra). rewrite Ev, Ev'. pose proof (Cr r) as Cr1. pose proof (Cr (r + 1)%Z) as Cr2. clearbody a. clear NA C Cr.
  assert (Q : a * (2 * PI) * (7 / 10 ^ 12) <= a * (45 / 10 ^ 12)) by (rewrite Rmult_assoc; apply Rmult_le_compat_l; lra). split.
  - assert (v < IZR r). { rewrite Cr1. assert (a * (ur z r + / 10 ^ 8 * (PI / 180)) <= a * u) by (apply Rmult_le_compat_l; lra). nra. } apply lt_IZR. eapply Rle_lt_trans; [apply Zfloor_lb|auto].
  - assert (IZR (r + 1) <= v'). { rewrite Cr2. assert (a * (u' + / 10 ^ 8 * (PI / 180)) <= a * ur z (r + 1)) by (apply Rmult_le_compat_l; lra). nra. } assert (r + 1 <= Zfloor v')%Z by (apply Zfloor_lub; auto). lia.
Qed.
Lemma Rmm_cases x y : (Rmin x y = x /\ Rmax x y = y) \/ (Rmin x y = y /\ Rmax x y = x).
Proof. destruct (Rle_dec x y) as [L|L]; [left|right]; split; try (apply Rmin_left; lra); try (apply Rmin_right; lra); try (apply Rmax_left; lra); try (apply Rmax_right; lra). Qed.

(** The cover of a line of the map, whatever the order of map iteration: no tile twice; the tile
    of every vertex; every tile is close to the line; every column a segment crosses from side to
    side is there, and every row a segment crosses that is longer than the tile of the first
    vertex is high. *)
Theorem C137_line : forall m between f rest zoom, good_libm m -> (0 <= zoom <= 28)%Z ->
  (forall a b t, In t (between a b zoom) <-> In t (BetweenTiles64 m a b zoom)) -> Forall in_world (f :: rest) -> on_map (Tile64 m (fst f) (snd f) zoom) ->
  exists tiles, GetTilesLine64 m between (f :: rest) zoom = Ok tiles /\ NoDup tiles /\
    (forall p, In p (f :: rest) -> In (Tile64 m (fst p) (snd p) zoom) tiles) /\
    (forall t, In t tiles -> (exists p, In p (f :: rest) /\ t = Tile64 m (fst p) (snd p) zoom) \/
      (exists l a b r p, f :: rest = l ++ a :: b :: r /\ near_line a b p /\ t = Tile64 m (fst p) (snd p) zoom)) /\
    (forall l a b r c, f :: rest = l ++ a :: b :: r -> (0 <= c < 2 ^ zoom)%Z -> let e := Bounds (mkTile c 0 zoom) in
      Rmin (B2R (fst a)) (B2R (fst b)) <= eW e - / 10 ^ 11 -> eE e + / 10 ^ 11 <= Rmax (B2R (fst a)) (B2R (fst b)) -> exists t, In t tiles /\ tX t = c) /\
    (forall l a b r c, f :: rest = l ++ a :: b :: r -> (0 <= c < 2 ^ zoom)%Z -> let e := Bounds (mkTile 0 c zoom) in let e0 := Bounds (Tile64 m (fst f) (snd f) zoom) in
      Rmin (B2R (snd a)) (B2R (snd b)) <= eS e - / 10 ^ 8 -> eN e + / 10 ^ 8 <= Rmax (B2R (snd a)) (B2R (snd b)) ->
      eN e0 - eS e0 + / 10 ^ 10 <= Rabs (B2R (snd b) - B2R (snd a)) -> exists t, In t tiles /\ tY t = c).
Proof.
  intros m bt f rest z G Hz HB HW M. change (Tile64 m (fst f) (snd f) z) with (tile_at m z f) in M. destruct (Cover_Props.C40_line_cover _ _ (tile_at m z) tile_eqb (far64 m (f :: rest) z) (fun a b => bt a b z) tile_eqb_eq f rest) as (tiles & E & ND & _ & HV & HI & HF).
  exists tiles. split; [exact E|]. split; [exact ND|]. split; [exact HV|]. assert (IW : forall l a b r, f :: rest = l ++ a :: b :: r -> in_world a /\ in_world b). { intros l a b r El. rewrite Forall_forall in HW. split; apply HW; rewrite El; apply in_or_app; right; cbn [In]; auto. }
  split; [|split].
  - intros t Ht. apply HI in Ht. destruct Ht as [(q & Hq & Et)|(a & b & l & r & El & _ & Ht)]; [left; exists q; auto|right]. destruct (IW _ _ _ _ El) as [Wa Wb]. apply HB in Ht. destruct (C137_between_sound m a b z t G Hz Wa Wb Ht) as (p & Ep & Np). exists l, a, b, r, p. auto.
  - intros l a b r c El HC e L1 L2. destruct (IW _ _ _ _ El) as [Wa Wb]. assert (Me : on_map (mkTile c 0 z)) by (unfold on_map; cbn [tX tY tZ]; lia). destruct (Bounds_exact _ Me) as (BW & BE & _). fold e in BW, BE. cbn [tX tY tZ] in BW, BE. fold (Wc z c) in BW. fold (Wc z (c + 1)) in BE. rewrite BW in L1. rewrite BE in L2.
    assert (FT : far64 m (f :: rest) z a b = true). { destruct (far_eq m G z Hz f rest a b M Wa Wb) as (w & h & x & y & Ew & _ & Ex & _ & ->). destruct (Bounds_exact _ M) as (FW & FE & _). rewrite tz in FW, FE by auto. fold (Wc z (tX (tile_at m z f))) in FW. fold (Wc z (tX (tile_at m z f) + 1)) in FE. rewrite Wc_succ in L2 by auto. rewrite Wc_succ in FE by auto. rewrite FW, FE in Ew. apply ab in Ew, Ex.
      destruct (Rltb_spec w x) as [_|NL]; [reflexivity|exfalso]. destruct (Rmm_cases (B2R (fst a)) (B2R (fst b))) as [[Q1 Q2]|[Q1 Q2]]; rewrite Q1 in L1; rewrite Q2 in L2; unfold Rabs in Ex; destruct (Rcase_abs (B2R (fst b) - B2R (fst a))); pose proof (width z Hz); lra. }
    assert (HX : (Z.min (tX (Tile64 m (fst a) (snd a) z)) (tX (Tile64 m (fst b) (snd b) z)) < c < Z.max (tX (Tile64 m (fst a) (snd a) z)) (tX (Tile64 m (fst b) (snd b) z)))%Z).
    { unfold Tile64. cbn [tX]. destruct (Rmm_cases (B2R (fst a)) (B2R (fst b))) as [[Q1 Q2]|[Q1 Q2]]; rewrite Q1 in L1; rewrite Q2 in L2; [pose proof (col_hit z a b c Hz Wa Wb HC L1 L2)|pose proof (col_hit z b a c Hz Wb Wa HC L1 L2)]; lia. }
    destruct (C137_every_column m a b z c G Hz Wa Wb HX) as (t & Ht & Et). exists t. split; [|exact Et]. apply (HF a b l r t El FT). apply HB. exact Ht.
  - intros l a b r c El HC e e0 L1 L2 L3. destruct (IW _ _ _ _ El) as [Wa Wb]. assert (Me : on_map (mkTile 0 c z)) by (unfold on_map; cbn [tX tY tZ]; lia). destruct (Bounds_exact _ Me) as (_ & _ & BN & BS). fold e in BN, BS. cbn [tX tY tZ] in BN, BS. change (180 / PI * gd (PI * (1 - 2 * IZR c / IZR (2 ^ z)))) with (Nr z c) in BN. rewrite <- plus_IZR in BS. change (180 / PI * gd (PI * (1 - 2 * IZR (c + 1) / IZR (2 ^ z)))) with (Nr z (c + 1)) in BS. rewrite BS in L1. rewrite BN in L2.
    assert (FT : far64 m (f :: rest) z a b = true). { destruct (far_eq m G z Hz f rest a b M Wa Wb) as (w & h & x & y & _ & Eh & _ & Ey & ->). change (Bounds (tile_at m z f)) with e0 in Eh. apply ab in Eh, Ey. destruct (Rltb_spec h y) as [_|NL]; [apply orb_true_r|exfalso; lra]. }
    assert (HX : (Z.min (tY (Tile64 m (fst a) (snd a) z)) (tY (Tile64 m (fst b) (snd b) z)) < c < Z.max (tY (Tile64 m (fst a) (snd a) z)) (tY (Tile64 m (fst b) (snd b) z)))%Z).
    { unfold Tile64. cbn [tY]. destruct (Rmm_cases (B2R (snd a)) (B2R (snd b))) as [[Q1 Q2]|[Q1 Q2]]; rewrite Q1 in L1; rewrite Q2 in L2; [pose proof (row_hit m z b a c G Hz Wb Wa HC L2 L1)|pose proof (row_hit m z a b c G Hz Wa Wb HC L2 L1)]; lia. }
    destruct (C137_every_row m a b z c G Hz Wa Wb HX) as (t & Ht & Et). exists t. split; [|exact Et]. apply (HF a b l r t El FT). apply HB. exact Ht.
Qed.
Print Assumptions C137_line.

(** *** Where the cover is not complete, or too large *)
Definition xa : f64 := @B754_finite 53 1024 true 6333186975989761 (-46) eq_refl.
Definition xb : f64 := @B754_finite 53 1024 true 4503599627370496 (-98) eq_refl.
Lemma col_sf x z mm k : B2SF (fmul (fdiv (fadd x c180) c360) (fpow2 z)) = SpecFloat.S754_finite false mm (Z.neg k) -> tile_col x z = (Z.pos mm / 2 ^ Z.pos k)%Z.
Proof.
  intros H. unfold tile_col. rewrite <- SF2R_B2SF, H. cbn [SF2R cond_Zopp]. unfold F2R. cbn [Fnum Fexp]. rewrite <- Zfloor_div by (apply Z.pow_nonzero; lia). reflexivity.
Qed.
Lemma xa_col : tile_col xa 2 = 0%Z.
Proof. eapply eq_trans; [eapply col_sf; vm_compute; reflexivity|]. vm_compute. reflexivity. Qed.
Lemma xb_col : tile_col xb 2 = 2%Z.
Proof. eapply eq_trans; [eapply col_sf; vm_compute; reflexivity|]. vm_compute. reflexivity. Qed.
Lemma xa_val : is_f xa (-90 - / 70368744177664).
Proof. assert (E : bpow radix2 (-46) = / 70368744177664) by exact (bpm 46 70368744177664 ltac:(lia) eq_refl). split; [reflexivity|]. unfold xa, B2R, F2R. cbn [Fnum Fexp cond_Zopp Z.opp]. rewrite E. lra. Qed.
Lemma xb_val : is_f xb (- / 70368744177664).
Proof. assert (E : bpow radix2 (-98) = / 316912650057057350374175801344) by exact (bpm 98 316912650057057350374175801344 ltac:(lia) eq_refl). split; [reflexivity|]. unfold xb, B2R, F2R. cbn [Fnum Fexp cond_Zopp Z.opp]. rewrite E. lra. Qed.

Lemma world_iff (p : f64 * f64) : is_finite (fst p) = true -> is_finite (snd p) = true -> -180 <= B2R (fst p) <= 180 -> Rabs (B2R (snd p)) <= 180 / PI * gd PI -> in_world p.
Proof.
  intros F1 F2 HX HY. assert (M : on_map (mkTile 0 0 0)) by (unfold on_map; cbn; lia). unfold in_world. destruct (Bounds_exact _ M) as (W & E & N & S). cbn [tX tY tZ] in W, E, N, S. cbv zeta. rewrite W, E, N, S. change (2 ^ 0)%Z with 1%Z. change (0 + 1)%Z with 1%Z.
  replace (PI * (1 - 2 * 0 / 1)) with PI by field. replace (PI * (1 - 2 * (0 + 1) / 1)) with (- PI) by field. rewrite gd_odd. apply ab in HY. repeat split; auto; lra.
Qed.
Lemma atan_lo y : 0 <= y -> y / (1 + y * y) <= atan y.
Proof.
  intros H. destruct (mvt atan (fun c => / (1 + c ^ 2)) 0 y derivable_pt_lim_atan H) as (c & E & C). rewrite atan_0, !Rminus_0_r in E. rewrite E. unfold Rdiv. rewrite Rmult_comm. apply Rmult_le_compat_r; [lra|]. apply Rinv_le_contravar; nra.
Qed.
Lemma e4 : 211 / 100 <= exp (PI / 4).
Proof.
  pose proof PI_range as P. pose proof (exp_ineq1_le (PI / 32)) as E. replace (PI / 4) with (PI / 32 + PI / 32 + (PI / 32 + PI / 32) + (PI / 32 + PI / 32 + (PI / 32 + PI / 32))) by field. rewrite !exp_plus. set (x := exp (PI / 32)) in *. assert (X : 1098 / 1000 <= x) by lra. clearbody x.
  assert (X2 : 12056 / 10000 <= x * x) by nra. assert (X4 : 14534 / 10000 <= x * x * (x * x)) by nra. nra.
Qed.
Lemma sinh_lo u a : 1 <= a <= exp u -> (a - / a) / 2 <= sinh u.
Proof.
  intros H. unfold sinh. rewrite exp_Ropp. assert (/ exp u <= / a) by (apply Rinv_le_contravar; lra). lra.
Qed.
Lemma gd4 : 28 <= 180 / PI * gd (PI / 4).
Proof.
  pose proof PI_range as P. pose proof (sinh_lo (PI / 4) _ ltac:(split; [|apply e4]; lra)) as S. unfold gd. assert (S' : 818 / 1000 <= sinh (PI / 4)) by lra. assert (A : atan (818 / 1000) <= atan (sinh (PI / 4))) by (destruct S' as [S'|S']; [left; apply atan_increasing; auto|right; rewrite S'; auto]).
  pose proof (atan_lo (818 / 1000) ltac:(lra)) as L. assert (490 / 1000 <= atan (sinh (PI / 4))) by lra. assert (D : 572 / 10 <= 180 / PI). { apply Rmult_le_reg_r with PI; [lra|]. replace (180 / PI * PI) with 180 by (field; lra). lra. } nra.
Qed.
Lemma gd2 : 60 <= 180 / PI * gd (PI / 2).
Proof.
  pose proof PI_range as P. pose proof e4 as E. assert (E2 : 445 / 100 <= exp (PI / 2)) by (replace (PI / 2) with (PI / 4 + PI / 4) by field; rewrite exp_plus; nra). pose proof (sinh_lo (PI / 2) _ ltac:(split; [|apply E2]; lra)) as S. unfold gd.
  assert (S' : sqrt 3 < sinh (PI / 2)). { assert (sqrt 3 < 2); [|lra]. apply Rsqr_incrst_0; [rewrite Rsqr_sqrt by lra; unfold Rsqr; lra|apply sqrt_pos|lra]. }
  apply atan_increasing in S'. assert (T : atan (sqrt 3) = PI / 3). { rewrite <- tan_PI3. apply atan_tan. lra. } rewrite T in S'. apply Rle_trans with (180 / PI * (PI / 3)); [right; field; lra|]. apply Rmult_le_compat_l; [apply Rlt_le, Rdiv_lt_0_compat; lra|lra].
Qed.
Lemma atan_compl s : 0 < s -> atan s = PI / 2 - atan (/ s).
Proof. intros H. rewrite atan_inv by auto. ring. Qed.
Lemma gd34 : 180 / PI * gd (PI * (1 - 2 * 1 / 8)) <= 815 / 10.
Proof.
  pose proof PI_range as P. replace (PI * (1 - 2 * 1 / 8)) with (3 * PI / 4) by field. assert (X : exp (3 * PI / 4) <= 1293 / 100).
  { pose proof (exp_hi (3 * PI / 64) ltac:(lra)) as E0. assert (A0 : exp (3 * PI / 64) <= 11727 / 10000). { eapply Rle_trans; [exact E0|]. replace (11727 / 10000) with (/ (10000 / 11727)) by field. apply Rinv_le_contravar; lra. }
    pose proof (sq_step _ _ (137525 / 100000) A0 ltac:(lra)) as A1. pose proof (sq_step _ _ (18914 / 10000) A1 ltac:(lra)) as A2. pose proof (sq_step _ _ (35774 / 10000) A2 ltac:(lra)) as A3. pose proof (sq_step _ _ (1293 / 100) A3 ltac:(lra)) as A4. replace (3 * PI / 4) with (2 * (2 * (2 * (2 * (3 * PI / 64))))) by field. exact A4. }
  assert (S0 : 0 < sinh (3 * PI / 4)). { pose proof (sinh_lo (3 * PI / 4) (2) ). pose proof (exp_ineq1_le (3 * PI / 4)). specialize (H ltac:(lra)). lra. }
  assert (S1 : sinh (3 * PI / 4) <= 6465 / 1000) by (unfold sinh; pose proof (exp_pos (- (3 * PI / 4))); lra). unfold gd. rewrite atan_compl by auto. set (s := sinh (3 * PI / 4)) in *.
  assert (I : 1546 / 10000 <= / s). { replace (1546 / 10000) with (/ (10000 / 1546)) by field. apply Rinv_le_contravar; lra. } assert (A : atan (1546 / 10000) <= atan (/ s)) by (destruct I as [I|I]; [left; apply atan_increasing; auto|right; rewrite I; auto]). pose proof (atan_lo (1546 / 10000) ltac:(lra)) as L.
  assert (L' : 1509 / 10000 <= atan (/ s)) by lra. replace (180 / PI * (PI / 2 - atan (/ s))) with (90 - 180 / PI * atan (/ s)) by (field; lra). assert (D : 572 / 10 <= 180 / PI). { apply Rmult_le_reg_r with PI; [lra|]. replace (180 / PI * PI) with 180 by (field; lra). lra. } nra.
Qed.
Lemma gd1 : 83 <= 180 / PI * gd PI.
Proof.
  pose proof PI_range as P. pose proof e4 as E. assert (E2 : 445 / 100 <= exp (PI / 2)) by (replace (PI / 2) with (PI / 4 + PI / 4) by field; rewrite exp_plus; nra). assert (E1 : 198 / 10 <= exp PI) by (replace PI with (PI / 2 + PI / 2) by field; rewrite exp_plus; nra). pose proof (sinh_lo PI _ ltac:(split; [|apply E1]; lra)) as S.
  unfold gd. rewrite atan_compl by lra. assert (I : / sinh PI <= 102 / 1000). { replace (102 / 1000) with (/ (1000 / 102)) by field. apply Rinv_le_contravar; lra. } assert (I0 : 0 < / sinh PI) by (apply Rinv_0_lt_compat; lra). pose proof (atan_lip (/ sinh PI) 0) as A. rewrite atan_0, !Rminus_0_r in A. apply ab in A. rewrite Rabs_pos_eq in A by lra.
  replace (180 / PI * (PI / 2 - atan (/ sinh PI))) with (90 - 180 / PI * atan (/ sinh PI)) by (field; lra). pose proof d180 as D. assert (180 / PI * atan (/ sinh PI) <= 58 * (102 / 1000)); [|lra]. destruct (Rle_lt_dec 0 (atan (/ sinh PI))); [apply Rmult_le_compat; lra|]. assert (0 <= 180 / PI * - atan (/ sinh PI)) by (apply Rmult_le_pos; lra). lra.
Qed.
Lemma fz n : (Z.abs n <= 2 ^ 53)%Z -> is_finite (fint n) = true /\ B2R (fint n) = IZR n.
Proof. apply fint_f. Qed.
Lemma row_on m z (p : f64 * f64) : good_libm m -> (1 <= z <= 28)%Z -> in_world p -> Rabs (B2R (snd p)) <= 83 - 1 -> (0 <= tile_row m (snd p) z < 2 ^ z)%Z.
Proof.
  intros G Hz H B. destruct (row_val m G z ltac:(lia) p H) as (u & v & E & U & -> & V). pose proof gd1 as G1. pose proof PI_range as P. pose proof (n_rng z ltac:(lia)) as N. apply ab in V. apply ab in B. rewrite E in B.
  assert (G1' : 180 / PI * gd (- PI) <= -83) by (rewrite gd_odd; lra). pose proof (gd_inner u PI 1 ltac:(lra) ltac:(lra)) as I1. pose proof (gd_inner (- PI) u 1 ltac:(lra) ltac:(lra)) as I2.
  assert (K : - (1 - / 200) <= u / PI <= 1 - / 200). { split; apply Rmult_le_reg_r with PI; try lra; unfold Rdiv; rewrite Rmult_assoc, Rinv_l by lra; lra. } set (k := u / PI) in *. split.
  - apply Zfloor_lub. nra.
  - apply lt_IZR. eapply Rle_lt_trans; [apply Zfloor_lb|]. nra.
Qed.

(** A column of width 90 that the segment crosses but for 2^-46 degrees is not in the cover: the
    eastern end is located in the column after it, and the segment counts as short. *)
Theorem C137_column_refuted : forall m between, good_libm m -> (forall a b t, In t (between a b 2%Z) <-> In t (BetweenTiles64 m a b 2)) ->
  exists a b tiles, in_world a /\ in_world b /\ on_map (Tile64 m (fst a) (snd a) 2) /\
    B2R (fst a) < eW (Bounds (mkTile 1 0 2)) /\ eE (Bounds (mkTile 1 0 2)) - / 10 ^ 13 <= B2R (fst b) /\
    GetTilesLine64 m between [a; b] 2 = Ok tiles /\ forall t, In t tiles -> tX t <> 1%Z.
Proof.
  intros m bt G HB. set (a := (xa, fint 10)). set (b := (xb, fint 10)). pose proof xa_val as [XA1 XA2]. pose proof xb_val as [XB1 XB2]. pose proof (fz 10 ltac:(lia)) as [L1 L2]. pose proof gd1 as G1.
  assert (Wa : in_world a) by (apply world_iff; unfold a; cbn [fst snd]; auto; [rewrite XA2; lra|rewrite L2; apply ab; lra]). assert (Wb : in_world b) by (apply world_iff; unfold b; cbn [fst snd]; auto; [rewrite XB2; lra|rewrite L2; apply ab; lra]).
  pose proof (row_on m 2 a G ltac:(lia) Wa) as RO. unfold a in RO at 1. cbn [snd] in RO. rewrite L2 in RO. specialize (RO ltac:(apply ab; lra)).
  assert (M : on_map (tile_at m 2 a)). { unfold on_map, tile_at, Tile64, a. cbn [tX tY tZ fst snd]. rewrite xa_col. change (u64 2) with 2%Z. unfold a in RO. cbn [snd] in RO. lia. }
  destruct (Cover_Props.C40_line_cover _ _ (tile_at m 2) tile_eqb (far64 m [a; b] 2) (fun a b => bt a b 2%Z) tile_eqb_eq a [b]) as (tiles & E & _ & _ & _ & HI & _). exists a, b, tiles. split; [exact Wa|]. split; [exact Wb|]. split; [exact M|].
  assert (Me : on_map (mkTile 1 0 2)) by (unfold on_map; cbn; lia). destruct (Bounds_exact _ Me) as (BW & BE & _). cbn [tX tY tZ] in BW, BE. change (1 + 1)%Z with 2%Z in BE. change (2 ^ 2)%Z with 4%Z in *. rewrite BW, BE. unfold a, b. cbn [fst]. rewrite XA2, XB2. split; [lra|]. split; [lra|]. split; [exact E|].
  assert (FF : far64 m [a; b] 2 a b = false).
  { unfold far64. cbv zeta. destruct (bounds_near m G _ M ltac:(unfold tile_at, Tile64; cbn [tZ]; change (u64 2) with 2%Z; lia)) as (_ & _ & (n & FN & EN) & (s & FS & ES)).
    assert (HT : 11 / 10 ^ 8 <= eN (Bounds (tile_at m 2 a)) - eS (Bounds (tile_at m 2 a)) <= 180).
    { destruct (Bounds_exact _ M) as (_ & _ & BN & BS). pose proof M as (_ & _ & HY). assert (TZ : tZ (tile_at m 2 a) = 2%Z) by reflexivity. rewrite TZ in BN, BS, HY. pose proof (height 2 ltac:(lia) (tY (tile_at m 2 a)) HY) as H. rewrite !Nr_eq in H. unfold ur in H. rewrite BN, BS, <- plus_IZR. exact H. }
    unfold e12 in *. apply ab in EN, ES. pose proof (fsub_f _ _ _ _ FN FS ltac:(apply big, ab; lra)) as F2. pose proof (rnd_nonneg (n - s) ltac:(lra)) as R0. apply orb_false_intro.
    - unfold tile_at, Tile64, Bounds64, Ul64. cbn [e6E e6W fst snd tX tZ]. unfold a at 1 2. cbn [fst]. rewrite xa_col. change (u64 2) with 2%Z. unfold a, b. cbn [fst]. vm_compute. reflexivity.
    - pose proof (fsub_f _ _ _ _ (conj L1 L2) (conj L1 L2)) as F4. rewrite Rminus_diag_eq in F4 by reflexivity. specialize (F4 ltac:(apply big; rewrite Rabs_R0; lra)). rewrite round_0 in F4 by apply valid_rnd_N. apply Style64_Props.fabs_f in F4. rewrite Rabs_R0 in F4. change (snd b) with (fint 10); change (snd a) with (fint 10). rewrite (Bltb_f _ _ _ _ F2 F4). destruct (Rltb_spec (rnd (n - s)) 0); [lra|reflexivity]. }
  intros t Ht. apply HI in Ht. destruct Ht as [(q & [<-|[<-|[]]] & ->)|(a' & b' & l & r & El & FT & _)].
  - unfold tile_at, Tile64, a. cbn [tX fst]. rewrite xa_col. discriminate.
  - unfold tile_at, Tile64, b. cbn [tX fst]. rewrite xb_col. discriminate.
  - exfalso. assert (a' = a /\ b' = b) as [-> ->]; [|congruence]. destruct l as [|x [|y [|w l]]]; cbn [app] in El; try discriminate. injection El as -> -> _. auto.
Qed.
Print Assumptions C137_column_refuted.

(** A row that a segment crosses with more than a tenth of a degree to spare on both sides is not
    in the cover, because the tile of the first vertex is higher than the segment. *)
Theorem C137_row_refuted : forall m between, good_libm m -> (forall a b t, In t (between a b 3%Z) <-> In t (BetweenTiles64 m a b 3)) ->
  exists f rest tiles l a b, Forall in_world (f :: rest) /\ on_map (Tile64 m (fst f) (snd f) 3) /\ f :: rest = l ++ [a; b] /\
    B2R (snd a) <= eS (Bounds (mkTile 0 1 3)) - / 10 /\ eN (Bounds (mkTile 0 1 3)) + / 10 <= B2R (snd b) /\
    GetTilesLine64 m between (f :: rest) 3 = Ok tiles /\ forall t, In t tiles -> tY t <> 1%Z.
Proof.
  intros m bt G HB. set (P := fun k => (fint 1, fint k) : f64 * f64). pose proof gd1 as G1. pose proof (fz 1 ltac:(lia)) as [L1 L2]. pose proof PI_range as PR.
  assert (FP : forall k, (Z.abs k <= 82)%Z -> is_f (snd (P k)) (IZR k)) by (intros k Hk; apply fint_f; lia).
  assert (W : forall k, (Z.abs k <= 82)%Z -> in_world (P k)). { intros k Hk. destruct (FP k Hk) as [F1 F2]. apply world_iff; auto; [cbn [P fst]; rewrite L2; lra|]. rewrite F2. assert (IZR (Z.abs k) <= 82) by (apply IZR_le; lia). rewrite abs_IZR in H. lra. }
  assert (N0 : Nr 3 1 <= 815 / 10) by (rewrite Nr_eq; unfold ur; change (2 ^ 3)%Z with 8%Z; exact gd34). assert (N1 : 60 <= Nr 3 (1 + 1)). { change (1 + 1)%Z with 2%Z. rewrite Nr_eq. unfold ur. change (2 ^ 3)%Z with 8%Z. replace (PI * (1 - 2 * 2 / 8)) with (PI / 2) by field. exact gd2. }
  assert (RW : forall k, (0 <= k <= 59)%Z -> (tile_row m (snd (P 82%Z)) 3 < 1 < tile_row m (snd (P k)) 3)%Z). { intros k Hk. apply row_hit; auto; try lia; try (apply W; lia). - destruct (FP 82%Z ltac:(lia)) as [_ ->]. lra. - destruct (FP k ltac:(lia)) as [_ ->]. assert (IZR k <= 59) by (apply IZR_le; lia). lra. }
  set (f := P 20%Z). set (rest := [P 46%Z; P 59%Z; P 82%Z]). assert (M0 : on_map (mkTile 4 3 3)) by (unfold on_map; cbn; lia). destruct (Bounds_exact _ M0) as (BW & BE & BN & BS). cbn [tX tY tZ] in BW, BE, BN, BS. change (4 + 1)%Z with 5%Z in BE. change (2 ^ 3)%Z with 8%Z in BW, BE, BN, BS.
  replace (PI * (1 - 2 * (3 + 1) / 8)) with 0 in BS by field. assert (Z0 : gd 0 = 0) by (unfold gd; rewrite sinh_0; apply atan_0). rewrite Z0, Rmult_0_r in BS. replace (PI * (1 - 2 * 3 / 8)) with (PI / 4) in BN by field. pose proof gd4 as G4. rewrite <- BN in G4.
  assert (TF : tile_at m 3 f = mkTile 4 3 3). { pose proof (C118_locate m (mkTile 4 3 3) (fst f) (snd f) G M0 ltac:(cbn; lia)) as L. cbn [tZ] in L. destruct (FP 20%Z ltac:(lia)) as [F1 F2]. apply L; auto; [unfold f; cbn [P fst]; rewrite L2, BW, BE; lra|]. unfold f. rewrite F2, BS. lra. }
  assert (M : on_map (tile_at m 3 f)) by (rewrite TF; exact M0).
  assert (FF : forall j k, (0 <= j <= 82)%Z -> (0 <= k <= 82)%Z -> (Z.abs (k - j) <= 27)%Z -> far64 m (f :: rest) 3 (P j) (P k) = false).
  { intros j k Hj Hk D. destruct (far_eq m G 3 ltac:(lia) f rest (P j) (P k) M (W j ltac:(lia)) (W k ltac:(lia))) as (w & h & x & y & Ew & Eh & Ex & Ey & ->). rewrite TF in Ew, Eh. rewrite BW, BE in Ew. rewrite BS in Eh. destruct (FP j ltac:(lia)) as [_ Vj]. destruct (FP k ltac:(lia)) as [_ Vk]. rewrite Vj, Vk, <- minus_IZR, <- abs_IZR in Ey. apply IZR_le in D. cbn [P fst] in Ex. rewrite L2 in Ex. replace (1 - 1) with 0 in Ex by ring. rewrite Rabs_R0 in Ex. apply ab in Ew, Eh, Ex, Ey.
    destruct (Rltb_spec w x) as [X|_]; [lra|]. destruct (Rltb_spec h y) as [X|_]; [lra|]. reflexivity. }
  destruct (Cover_Props.C40_line_cover _ _ (tile_at m 3) tile_eqb (far64 m (f :: rest) 3) (fun a b => bt a b 3%Z) tile_eqb_eq f rest) as (tiles & E & _ & _ & _ & HI & _).
  exists f, rest, tiles, [P 20%Z; P 46%Z], (P 59%Z), (P 82%Z). split; [apply Forall_forall; intros q Hq; unfold f, rest in Hq; cbn [In] in Hq; destruct Hq as [<-|[<-|[<-|[<-|[]]]]]; apply W; lia|]. split; [exact M|]. split; [reflexivity|].
  assert (M1 : on_map (mkTile 0 1 3)) by (unfold on_map; cbn; lia). destruct (Bounds_exact _ M1) as (_ & _ & BN1 & BS1). cbn [tX tY tZ] in BN1, BS1. rewrite <- (plus_IZR 1 1) in BS1. change (eN (Bounds (mkTile 0 1 3)) = Nr 3 1) in BN1. change (eS (Bounds (mkTile 0 1 3)) = Nr 3 (1 + 1)) in BS1. rewrite BN1, BS1. destruct (FP 59%Z ltac:(lia)) as [_ ->]. destruct (FP 82%Z ltac:(lia)) as [_ ->]. split; [lra|]. split; [lra|]. split; [exact E|].
  intros t Ht. apply HI in Ht. destruct Ht as [(q & Hq & ->)|(a' & b' & l & r & El & FT & _)].
  - unfold tile_at, Tile64. cbn [tY]. unfold f, rest in Hq. cbn [In] in Hq. destruct Hq as [<-|[<-|[<-|[<-|[]]]]]; [pose proof (RW 20%Z ltac:(lia))|pose proof (RW 46%Z ltac:(lia))|pose proof (RW 59%Z ltac:(lia))|pose proof (RW 59%Z ltac:(lia))]; lia.
  - exfalso. unfold rest in El. destruct l as [|q1 [|q2 [|q3 [|q4 [|q5 l]]]]]; cbn [app] in El; try discriminate; injection El; intros; subst; unfold f in FT; rewrite FF in FT by lia; discriminate.
Qed.
Print Assumptions C137_row_refuted.

Definition na : f64 := @B754_finite 53 1024 true 4503599627370496 (-82) eq_refl.
Definition nb : f64 := @B754_finite 53 1024 false 4503599627370496 (-63) eq_refl.
Lemma na_val : is_f na (- / 1073741824).
Proof. assert (E : bpow radix2 (-82) = / 4835703278458516698824704) by exact (bpm 82 4835703278458516698824704 ltac:(lia) eq_refl). split; [reflexivity|]. unfold na, B2R, F2R. cbn [Fnum Fexp cond_Zopp Z.opp]. rewrite E. lra. Qed.
Lemma nb_val : is_f nb (/ 2048).
Proof. assert (E : bpow radix2 (-63) = / 9223372036854775808) by exact (bpm 63 9223372036854775808 ltac:(lia) eq_refl). split; [reflexivity|]. unfold nb, B2R, F2R. cbn [Fnum Fexp cond_Zopp Z.opp]. rewrite E. lra. Qed.
(** A steep segment gives a tile more than 25 rows away from both of its ends, outside its range
    of latitudes. *)
Theorem C137_overshoot_refuted : forall m, good_libm m -> exists a b t, in_world a /\ in_world b /\ B2R (snd a) < B2R (snd b) /\
  In t (BetweenTiles64 m a b 20) /\ (tY t >= tY (Tile64 m (fst a) (snd a) 20) + 25)%Z /\ (tY t >= tY (Tile64 m (fst b) (snd b) 20) + 25)%Z.
Proof.
  intros m G. set (a := (na, fint 0) : f64 * f64). set (b := (nb, fint 64) : f64 * f64). pose proof na_val as [XA1 XA2]. pose proof nb_val as [XB1 XB2]. pose proof (fz 0 ltac:(lia)) as [L1 L2]. pose proof (fz 64 ltac:(lia)) as [K1 K2]. pose proof gd1 as G1. pose proof PI_range as PR.
  assert (Wa : in_world a) by (apply world_iff; unfold a; cbn [fst snd]; auto; [rewrite XA2; lra|rewrite L2; apply ab; lra]). assert (Wb : in_world b) by (apply world_iff; unfold b; cbn [fst snd]; auto; [rewrite XB2; lra|rewrite K2; apply ab; lra]).
  set (c := 524288%Z). assert (H2 : (2 ^ 20 = 1048576)%Z) by reflexivity. assert (WC : Wc 20 c = 0) by (unfold Wc, c; rewrite H2; lra). assert (WC1 : Wc 20 (c + 1) = 360 / 1048576) by (rewrite Wc_succ by lia; rewrite WC, H2; lra).
  assert (HC : (tile_col (fst a) 20 < c < tile_col (fst b) 20)%Z) by (apply col_hit; auto; [lia|unfold c; lia|rewrite WC; unfold a; cbn [fst]; rewrite XA2; lra|rewrite WC1; unfold b; cbn [fst]; rewrite XB2; lra]).
  pose proof (lon_f 20 ltac:(lia) c ltac:(unfold c; lia)) as FK. rewrite WC in FK. assert (IC : In c (FillVals (tile_col (fst a) 20) (tile_col (fst b) 20))) by (apply Cover_Props.C37_fill_vals; lia).
  destruct (produce_out m 20 ltac:(lia) (FillVals (tile_col (fst a) 20) (tile_col (fst b) 20)) (tile_row m (snd a) 20) true c _ IC eq_refl (proj1 FK)) as (k & F1 & V1 & _ & I1). pose proof (same_f _ _ _ FK F1 V1) as FK'.
  destruct (moved k _ FK' ltac:(rewrite Rabs_R0; lra)) as (d & _ & [Fd Vd] & Ed & _). apply ab in Ed. set (v := fsub k eps64) in *.
  destruct (interp_near (fst a) (snd a) (fst b) (snd b) v) as (q & [Fq Vq] & Eq); unfold a, b; cbn [fst snd]; rewrite ?XA2, ?XB2, ?L2, ?K2, ?Vd; auto.
  1:{ repeat apply conj; apply ab; lra. } 1:{ rewrite Rabs_pos_eq; lra. } 1:{ rewrite (Rabs_left1 (d - - / 1073741824)), Rabs_pos_eq; lra. }
  unfold line_at, a, b in Eq. cbn [fst snd] in Eq. rewrite XA2, XB2, L2, K2, Vd in Eq. replace ((64 - 0) / (/ 2048 - - / 1073741824)) with (68719476736 / 524289) in Eq by field. set (p := fadd _ _) in *. apply ab in Eq.
  assert (QB : - 2 / 100 <= q <= - 125 / 10000) by lra. exists a, b, (tile_at m 20 (Interpolate64 a b v false)). split; [exact Wa|]. split; [exact Wb|]. split; [unfold a, b; cbn [snd]; rewrite L2, K2; lra|].
  split. { apply (between_in m 20). right. right. unfold tile_at, Tile64. cbn [tX tY]. split; [lia|]. left. eauto. }
  assert (RT : (c + 30 <= tile_row m p 20)%Z).
  { destruct (lat_gd q ltac:(lra)) as (u & U). rewrite U in QB. pose proof d180 as D. assert (GU : - 4 / 10000 <= gd u <= - 215 / 1000000) by nra. assert (Z0 : gd 0 = 0) by (unfold gd; rewrite sinh_0; apply atan_0).
    assert (U0 : u <= 0) by (apply gd_le; lra). pose proof (gd_up u 0) as GU1. rewrite Z0, !Rminus_0_r in GU1. rewrite !Rabs_left1 in GU1 by lra. assert (U1 : -1 <= u). { pose proof (gd_low (-1) 0 ltac:(apply ab; lra) ltac:(apply ab; lra)) as GL. rewrite Z0, !Rminus_0_r in GL. assert (GN : gd (-1) <= 0) by (rewrite <- Z0; apply (proj1 (gd_le _ _)); lra). rewrite !Rabs_left1 in GL by lra. apply gd_le. lra. }
    destruct (row_near m G p u 20 Fq ltac:(rewrite Vq; exact U) ltac:(apply ab; lra) ltac:(lia)) as (w & -> & EW). rewrite H2 in EW. unfold e12 in EW. apply ab in EW. apply Zfloor_lub. unfold c. change (524288 + 30)%Z with 524318%Z.
    assert (UP : u / PI <= - 6 / 100000). { apply Rmult_le_reg_r with PI; [lra|]. unfold Rdiv at 1. rewrite Rmult_assoc, Rinv_l by lra. lra. } lra. }
  assert (RA : forall e, in_world e -> 0 <= B2R (snd e) -> (tile_row m (snd e) 20 <= c)%Z).
  { intros e We H0. destruct (row_val m G 20 ltac:(lia) e We) as (u & w & E & U & -> & V). rewrite H2 in V. apply ab in V. assert (Z0 : gd 0 = 0) by (unfold gd; rewrite sinh_0; apply atan_0). assert (U0 : 0 <= u). { apply gd_le. rewrite Z0. rewrite E in H0. pose proof d180. apply Rmult_le_reg_l with (180 / PI); lra. }
    assert (0 <= u / PI) by (apply Rmult_le_pos; [lra|apply Rlt_le, Rinv_0_lt_compat; lra]). assert (Zfloor w < c + 1)%Z; [|lia]. apply lt_IZR. eapply Rle_lt_trans; [apply Zfloor_lb|]. unfold c. change (524288 + 1)%Z with 524289%Z. lra. }
  pose proof (RA a Wa ltac:(unfold a; cbn [snd]; rewrite L2; lra)). pose proof (RA b Wb ltac:(unfold b; cbn [snd]; rewrite K2; lra)). unfold tile_at, Tile64. cbn [tY]. change (snd (Interpolate64 a b v false)) with p. lia.
Qed.
Print Assumptions C137_overshoot_refuted.

(** The hypotheses of C137 hold for a line across the map. *)
Example C137_nonvacuous : good_libm exact_libm /\ Forall in_world [(fint 1, fint 20); (fint 100, fint (-30))] /\ on_map (Tile64 exact_libm (fint 1) (fint 20) 3) /\
  exists tiles, GetTilesLine64 exact_libm (BetweenTiles64 exact_libm) [(fint 1, fint 20); (fint 100, fint (-30))] 3 = Ok tiles /\ exists t, In t tiles /\ tX t = 5%Z.
Proof.
  pose proof C118_nonvacuous as (G & _). pose proof gd1 as G1. pose proof (fz 1 ltac:(lia)) as [A1 A2]. pose proof (fz 20 ltac:(lia)) as [B1 B2]. pose proof (fz 100 ltac:(lia)) as [C1 C2]. pose proof (fz (-30) ltac:(lia)) as [D1 D2].
  assert (W1 : in_world (fint 1, fint 20)) by (apply world_iff; cbn [fst snd]; auto; [rewrite A2; lra|rewrite B2; apply ab; lra]). assert (W2 : in_world (fint 100, fint (-30))) by (apply world_iff; cbn [fst snd]; auto; [rewrite C2; lra|rewrite D2; apply ab; lra]).
  assert (FW : Forall in_world [(fint 1, fint 20); (fint 100, fint (-30))]) by (apply Forall_cons; [exact W1|]; apply Forall_cons; [exact W2|apply Forall_nil]).
  assert (M : on_map (Tile64 exact_libm (fint 1) (fint 20) 3)). { pose proof (row_on exact_libm 3 (fint 1, fint 20) G ltac:(lia) W1 ltac:(cbn [snd]; rewrite B2; apply ab; lra)) as R. cbn [snd] in R. unfold on_map, Tile64. cbn [tX tY tZ]. change (u64 3) with 3%Z. split; [lia|]. split; [|exact R]. pose proof (Tile64_Proofs.col_ge (fint 1) 4 3 ltac:(lia) ltac:(lia) A1) as X1. pose proof (Tile64_Proofs.col_lt (fint 1) 5 3 ltac:(lia) ltac:(lia) A1) as X2. rewrite A2 in X1, X2. change (2 ^ 3)%Z with 8%Z in *. specialize (X1 ltac:(lra)). specialize (X2 ltac:(lra)). lia. }
  split; [exact G|]. split; [exact FW|]. split; [exact M|]. destruct (C137_line exact_libm (BetweenTiles64 exact_libm) (fint 1, fint 20) [(fint 100, fint (-30))] 3 G ltac:(lia) ltac:(intros; reflexivity) FW M) as (tiles & E & _ & _ & _ & HX & _). exists tiles. split; [exact E|].
  assert (Me : on_map (mkTile 5 0 3)) by (unfold on_map; cbn; lia). destruct (Bounds_exact _ Me) as (BW & BE & _). cbn [tX tY tZ] in BW, BE. change (5 + 1)%Z with 6%Z in BE. change (2 ^ 3)%Z with 8%Z in BW, BE.
  destruct (HX [] (fint 1, fint 20) (fint 100, fint (-30)) [] 5%Z eq_refl ltac:(lia)) as (t & Ht & Et); cbn [fst snd]; rewrite ?A2, ?C2, ?BW, ?BE; [rewrite Rmin_left; lra|rewrite Rmax_right; lra|]. exists t. auto.
Qed.
