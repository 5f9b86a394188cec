(** Great-circle distances. *)
From Coq Require Import Reals List Lra Lia ZArith.
From Verif Require Import GoBase Num Sphere_Model.
Import ListNotations.
Open Scope R_scope.

(** The point of the unit sphere with these degrees of longitude and latitude *)
Definition vec := (R * R * R)%type.
Definition on_sphere (lng lat : R) : vec :=
  let l := lng * (PI / 180) in let p := lat * (PI / 180) in (cos p * cos l, cos p * sin l, sin p).
Definition dot (u v : vec) : R := let '(a, b, c) := u in let '(x, y, z) := v in a * x + b * y + c * z.
(** The angle between two unit vectors *)
Definition angle (u v : vec) : R := acos (dot u v).

Lemma on_sphere_unit l p : dot (on_sphere l p) (on_sphere l p) = 1.
Proof.
  unfold on_sphere, dot. pose proof (sin2_cos2 (l * (PI / 180))) as A. pose proof (sin2_cos2 (p * (PI / 180))) as B. unfold Rsqr in *. nra.
Qed.

Lemma dot_bound u v : dot u u = 1 -> dot v v = 1 -> -1 <= dot u v <= 1.
Proof.
  destruct u as [[a b] c], v as [[x y] z]. unfold dot. intros A B.
  pose proof (pow2_ge_0 (a - x)). pose proof (pow2_ge_0 (b - y)). pose proof (pow2_ge_0 (c - z)).
  pose proof (pow2_ge_0 (a + x)). pose proof (pow2_ge_0 (b + y)). pose proof (pow2_ge_0 (c + z)). lra.
Qed.

Lemma cos_atan2 a : 0 <= a <= 1 -> 2 * atan2 (sqrt a) (sqrt (1 - a)) = acos (1 - 2 * a).
Proof.
  intros Ha. assert (E : exists t, atan2 (sqrt a) (sqrt (1 - a)) = t /\ 0 <= t <= PI / 2 /\ cos t * cos t = 1 - a).
  { eexists. split; [reflexivity|]. unfold atan2. destruct (Rltb_spec 0 (sqrt (1 - a))) as [H|H].
    - assert (H1 : 0 < 1 - a). { destruct (Req_dec (1 - a) 0) as [E|E]; [rewrite E, sqrt_0 in H; lra|lra]. }
      set (t := sqrt a / sqrt (1 - a)). assert (T0 : 0 <= t). { unfold t. apply Rmult_le_pos; [apply sqrt_pos|]. left. apply Rinv_0_lt_compat. auto. }
      pose proof (atan_bound t) as AB. split.
      + split; [|lra]. destruct T0 as [T0| <-]; [|rewrite atan_0; lra]. rewrite <- atan_0. left. apply atan_increasing. auto.
      + pose proof (tan_atan t) as TT. assert (C0 : 0 < cos (atan t)) by (apply cos_gt_0; lra). unfold tan in TT.
        assert (S : sin (atan t) = t * cos (atan t)). { apply Rmult_eq_reg_r with (/ cos (atan t)); [|apply Rinv_neq_0_compat; lra]. rewrite Rmult_assoc, Rinv_r by lra. unfold Rdiv in TT. lra. }
        pose proof (sin2_cos2 (atan t)) as P. unfold Rsqr in P. rewrite S in P.
        assert (T2 : t * t = a / (1 - a)).
        { unfold t. replace (sqrt a / sqrt (1 - a) * (sqrt a / sqrt (1 - a))) with ((sqrt a * sqrt a) / (sqrt (1 - a) * sqrt (1 - a))) by (field; lra). rewrite !sqrt_sqrt by lra. reflexivity. }
        assert (P' : (t * t + 1) * (cos (atan t) * cos (atan t)) = 1) by lra. rewrite T2 in P'.
        replace (a / (1 - a) + 1) with (/ (1 - a)) in P' by (field; lra).
        apply Rmult_eq_reg_l with (/ (1 - a)); [|apply Rinv_neq_0_compat; lra]. rewrite P', Rinv_l by lra. reflexivity.
    - assert (E : a = 1). { destruct (Req_dec a 1); auto. exfalso. apply H. apply sqrt_lt_R0. lra. } subst a.
      replace (1 - 1) with 0 by ring. rewrite sqrt_0, sqrt_1. destruct (Rltb_spec 0 0); [lra|]. destruct (Rltb_spec 0 1); [|lra].
      pose proof PI_RGT_0. split; [lra|]. rewrite cos_PI2. ring. }
  destruct E as (t & -> & Ht & C). replace (1 - 2 * a) with (cos (2 * t)); [|rewrite cos_2a_cos; lra].
  symmetry. apply acos_cos. lra.
Qed.

(** Distance is the length of the arc: the radius times the angle between the two points, seen from the centre. *)
Theorem C106_arc : forall x1 y1 r1 x2 y2 r2,
  Distance (x1 :: y1 :: r1) (x2 :: y2 :: r2) = Ok (EarthRadius * angle (on_sphere x1 y1) (on_sphere x2 y2)).
Proof.
  intros x1 y1 r1 x2 y2 r2. unfold Distance. f_equal.
  set (a := sin (deg2rad (y2 - y1) / 2) * sin (deg2rad (y2 - y1) / 2) + cos (deg2rad y1) * cos (deg2rad y2) * sin (Rabs (deg2rad (x2 - x1)) / 2) * sin (Rabs (deg2rad (x2 - x1)) / 2)).
  assert (H2 : forall z, sin (z / 2) * sin (z / 2) = (1 - cos z) / 2). { intros z. replace (cos z) with (cos (2 * (z / 2))) by (f_equal; field). rewrite cos_2a_sin. field. }
  assert (AB : cos (Rabs (deg2rad (x2 - x1))) = cos (deg2rad (x2 - x1))). { unfold Rabs. destruct (Rcase_abs _); auto. apply cos_neg. }
  assert (E : 1 - 2 * a = dot (on_sphere x1 y1) (on_sphere x2 y2)).
  { unfold a. rewrite Rmult_assoc with (r1 := cos (deg2rad y1) * cos (deg2rad y2)). rewrite !H2, AB.
    unfold dot, on_sphere, deg2rad. replace ((y2 - y1) * PI / 180) with (y2 * (PI / 180) - y1 * (PI / 180)) by field. replace ((x2 - x1) * PI / 180) with (x2 * (PI / 180) - x1 * (PI / 180)) by field.
    replace (y1 * PI / 180) with (y1 * (PI / 180)) by field. replace (y2 * PI / 180) with (y2 * (PI / 180)) by field. rewrite !cos_minus. field. }
  pose proof (dot_bound _ _ (on_sphere_unit x1 y1) (on_sphere_unit x2 y2)) as D.
  rewrite (Rmult_comm 2), Rmult_assoc, cos_atan2 by lra. unfold angle. rewrite E. reflexivity.
Qed.
Print Assumptions C106_arc.

Theorem C106_panics : forall p q, Distance p q = Panic <-> (length p < 2 \/ length q < 2)%nat.
Proof.
  intros p q. destruct p as [|x1 [|y1 r1]]; [|destruct q|destruct q as [|x2 [|y2 r2]]]; cbn [Distance length]; split; intros H; auto; try discriminate; try lia.
Qed.
Print Assumptions C106_panics.

Lemma dot_one u v : dot u u = 1 -> dot v v = 1 -> dot u v = 1 -> u = v.
Proof.
  destruct u as [[a b] c], v as [[x y] z]. unfold dot. intros A B C.
  assert (S : (a - x) ^ 2 + (b - y) ^ 2 + (c - z) ^ 2 = 0) by lra.
  pose proof (pow2_ge_0 (a - x)). pose proof (pow2_ge_0 (b - y)). pose proof (pow2_ge_0 (c - z)).
  assert (Z : forall t, t ^ 2 = 0 -> t = 0). { intros t Ht. apply Rsqr_0_uniq. unfold Rsqr. lra. }
  pose proof (Z (a - x) ltac:(lra)). pose proof (Z (b - y) ltac:(lra)). pose proof (Z (c - z) ltac:(lra)).
  replace a with x by lra. replace b with y by lra. replace c with z by lra. reflexivity.
Qed.

(** The Gram determinant of three vectors of space is the square of their determinant. *)
Lemma gram u v w : dot u u = 1 -> dot v v = 1 -> dot w w = 1 ->
  (dot u w - dot u v * dot v w) ^ 2 <= (1 - dot u v ^ 2) * (1 - dot v w ^ 2).
Proof.
  intros A B C.
  assert (G : 0 <= dot u u * dot v v * dot w w + 2 * dot u v * dot v w * dot u w - dot u u * dot v w ^ 2 - dot v v * dot u w ^ 2 - dot w w * dot u v ^ 2).
  { destruct u as [[a b] c], v as [[x y] z], w as [[p q] r]. unfold dot.
    replace (_ - _) with ((a * (y * r - z * q) - b * (x * r - z * p) + c * (x * q - y * p)) ^ 2) by ring. apply pow2_ge_0. }
  rewrite A, B, C in G. nra.
Qed.

Lemma acos_mono x y : -1 <= x -> x <= y -> y <= 1 -> acos y <= acos x.
Proof.
  intros H1 H2 H3. destruct (Rle_lt_dec (acos y) (acos x)) as [K|K]; auto. pose proof (acos_bound x). pose proof (acos_bound y).
  assert (Q := cos_decreasing_1 (acos x) (acos y) ltac:(lra) ltac:(lra) ltac:(lra) ltac:(lra) K). rewrite !cos_acos in Q by lra. lra.
Qed.

Lemma angle_triangle u v w : dot u u = 1 -> dot v v = 1 -> dot w w = 1 -> angle u w <= angle u v + angle v w.
Proof.
  intros A B C. unfold angle. pose proof (dot_bound u v A B) as D1. pose proof (dot_bound v w B C) as D2. pose proof (dot_bound u w A C) as D3.
  set (al := acos (dot u v)). set (be := acos (dot v w)). pose proof (acos_bound (dot u v)) as B1. pose proof (acos_bound (dot v w)) as B2. fold al in B1. fold be in B2.
  destruct (Rle_lt_dec PI (al + be)) as [K|K]; [pose proof (acos_bound (dot u w)); lra|].
  assert (Q : cos (al + be) <= dot u w).
  { rewrite cos_plus. assert (Ca : cos al = dot u v) by (apply cos_acos; auto). assert (Cb : cos be = dot v w) by (apply cos_acos; auto).
    assert (Sa : 0 <= sin al) by (apply sin_ge_0; lra). assert (Sb : 0 <= sin be) by (apply sin_ge_0; lra).
    pose proof (gram u v w A B C) as G. rewrite <- Ca, <- Cb in *.
    pose proof (sin2_cos2 al) as Pa. pose proof (sin2_cos2 be) as Pb. unfold Rsqr in *.
    assert (G' : (dot u w - cos al * cos be) ^ 2 <= (sin al * sin be) ^ 2). { replace ((sin al * sin be) ^ 2) with ((sin al * sin al) * (sin be * sin be)) by ring. replace (sin al * sin al) with (1 - cos al ^ 2) by lra. replace (sin be * sin be) with (1 - cos be ^ 2) by lra. auto. }
    assert (S0 : 0 <= sin al * sin be) by (apply Rmult_le_pos; auto). destruct (Rle_lt_dec (cos al * cos be - sin al * sin be) (dot u w)) as [|L]; auto. exfalso. nra. }
  replace (al + be) with (acos (cos (al + be))) by (apply acos_cos; lra).
  apply acos_mono; [pose proof (COS_bound (al + be)); lra|auto|lra].
Qed.

(** So it is a metric on the points of the sphere, bounded by half the circumference. *)
Theorem C106_metric : forall x1 y1 x2 y2 x3 y3, exists d12 d21 d23 d13 d11,
  Distance [x1; y1] [x2; y2] = Ok d12 /\ Distance [x2; y2] [x1; y1] = Ok d21 /\ Distance [x2; y2] [x3; y3] = Ok d23 /\
  Distance [x1; y1] [x3; y3] = Ok d13 /\ Distance [x1; y1] [x1; y1] = Ok d11 /\
  0 <= d12 <= PI * EarthRadius /\ d11 = 0 /\ d12 = d21 /\ d13 <= d12 + d23 /\
  (d12 = 0 <-> on_sphere x1 y1 = on_sphere x2 y2).
Proof.
  intros x1 y1 x2 y2 x3 y3. rewrite !C106_arc. do 5 eexists. do 5 (split; [reflexivity|]).
  set (u := on_sphere x1 y1). set (v := on_sphere x2 y2). set (w := on_sphere x3 y3).
  assert (U : dot u u = 1) by apply on_sphere_unit. assert (V : dot v v = 1) by apply on_sphere_unit. assert (W : dot w w = 1) by apply on_sphere_unit.
  assert (R0 : 0 < EarthRadius) by (unfold EarthRadius; lra). pose proof (acos_bound (dot u v)) as AB. unfold angle at 1 2.
  split; [split; nra|]. split; [unfold angle; rewrite U, acos_1; ring|].
  split. { unfold angle. replace (dot v u) with (dot u v); auto. destruct u as [[a b] c], v as [[x y] z]. unfold dot. ring. }
  split. { rewrite <- Rmult_plus_distr_l. apply Rmult_le_compat_l; [lra|]. apply angle_triangle; auto. }
  pose proof (dot_bound u v U V) as D. unfold angle. split.
  - intros H. assert (Z : acos (dot u v) = 0) by (destruct (Rmult_integral _ _ H); [lra|auto]). apply dot_one; auto. rewrite <- (cos_acos (dot u v)) by auto. rewrite Z. apply cos_0.
  - intros ->. rewrite V, acos_1. ring.
Qed.
Print Assumptions C106_metric.

(** A quarter of the equator *)
Example C106_nonvacuous : Distance [0; 0] [90; 0] = Ok (EarthRadius * (PI / 2)) /\ on_sphere 0 0 <> on_sphere 90 0.
Proof.
  assert (E1 : on_sphere 0 0 = (1, 0, 0)). { unfold on_sphere. rewrite !Rmult_0_l, cos_0, sin_0. do 2 (f_equal; try ring). }
  assert (E2 : on_sphere 90 0 = (0, 1, 0)). { unfold on_sphere. replace (90 * (PI / 180)) with (PI / 2) by field. rewrite !Rmult_0_l, cos_0, sin_0, cos_PI2, sin_PI2. do 2 (f_equal; try ring). }
  split.
  - rewrite C106_arc. f_equal. f_equal. unfold angle. rewrite E1, E2. unfold dot. replace (1 * 0 + 0 * 1 + 0 * 0) with 0 by ring. apply acos_0.
  - rewrite E1, E2. intros H. injection H as H _. lra.
Qed.
