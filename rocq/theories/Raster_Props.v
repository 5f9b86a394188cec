(** Elevation tiles. *)
From Coq Require Import ZArith Reals List Lia Lra Bool.
From Verif Require Import GoBase GoArr Num TileR_Model TileR_Proofs MvtProj_Proofs Sdf_Proofs Sdf_Props Raster_Model Raster_Proofs.
Import ListNotations.
Open Scope Z_scope.

Definition byte_px (v : px) : Prop := is_byte (pR v) /\ is_byte (pG v) /\ is_byte (pB v).

(** ** C54 *)

Theorem C54_mapbox_pack_decode : forall p h, (-10000 <= h < 16677216 / 10)%R ->
  let v := PackMapbox p h in
  byte_px v /\ pA v = 255 /\ (decode 0 v <= h < decode 0 v + 1 / 10)%R.
Proof.
  intros p h H v. pose proof (PackMapbox_digits p h) as E. cbv zeta in E. fold v in E. set (n := Rfloor (10 * (h + 10000))%R) in *.
  pose proof (proj1 (Rfloor_spec (10 * (h + 10000)) _) eq_refl) as B. fold n in B.
  assert (N : 0 <= n < 2 ^ 24). { split; [apply Rfloor_ge0; lra|]. apply lt_IZR. change (2 ^ 24) with 16777216. lra. }
  rewrite E. unfold byte_px, is_byte. cbn [pR pG pB pA]. repeat split; try (apply Z.mod_pos_bound; lia); rewrite decode_mapbox; cbn [pR pG pB]; rewrite digits24 by auto; lra.
Qed.
Print Assumptions C54_mapbox_pack_decode.

Theorem C54_mapbox_decode_pack : forall p v, byte_px v -> pA v = 255 -> PackMapbox p (decode 0 v) = v.
Proof.
  intros p [r g b a] (Hr & Hg & Hb) Ha. unfold is_byte in *. cbn [pR pG pB pA] in *. subst a. pose proof (PackMapbox_digits p (decode 0 (mkPx r g b 255))) as E. cbv zeta in E. rewrite E.
  rewrite decode_mapbox. cbn [pR pG pB]. replace (10 * (IZR (r * 65536 + g * 256 + b) / 10 - 10000 + 10000))%R with (IZR (r * 65536 + g * 256 + b)) by field. rewrite Rfloor_IZR.
  f_equal; lia.
Qed.
Print Assumptions C54_mapbox_decode_pack.

(** Beyond the range heights wrap around. *)
Theorem C54_mapbox_wraps : forall p p' h, PackMapbox p (h + 16777216 / 10) = PackMapbox p' h.
Proof.
  intros p p' h. pose proof (PackMapbox_digits p (h + 16777216 / 10)) as E. pose proof (PackMapbox_digits p' h) as E'. cbv zeta in E, E'. rewrite E, E'.
  set (n := Rfloor (10 * (h + 10000))%R). assert (F : Rfloor (10 * (h + 16777216 / 10 + 10000))%R = n + 16777216).
  { apply Rfloor_unique. pose proof (proj1 (Rfloor_spec (10 * (h + 10000)) _) eq_refl) as B. fold n in B. rewrite plus_IZR. lra. }
  rewrite F. f_equal; lia.
Qed.
Print Assumptions C54_mapbox_wraps.
Example C54_nonvacuous : PackMapbox (mkMP 0 0) (1 / 4) = mkPx 1 134 162 255.
Proof.
  pose proof (PackMapbox_digits (mkMP 0 0) (1 / 4)) as E. cbv zeta in E. rewrite E.
  replace (Rfloor (10 * (1 / 4 + 10000))) with 100002 by (symmetry; apply Rfloor_unique; lra). reflexivity.
Qed.

(** ** C55 *)

Theorem C55_terrarium_within_a_metre : forall h, (-32768 <= h < 32768)%R ->
  let v := PackTerrarium h in
  byte_px v /\ pA v = 255 /\ pR v * 256 + pG v = Rfloor (h + 32768) /\ 0 <= pB v < 25 /\
  (- 1 < decode 1 v - h < 25 / 256)%R.
Proof.
  intros h H v. destruct (PackTerrarium_digits h H) as [B E]. cbv zeta in *. fold v in E. set (n := Rfloor (256 * (h + 32768))%R) in *.
  pose proof (proj1 (Rfloor_spec (256 * (h + 32768)) _) eq_refl) as F. fold n in F.
  assert (V : Rfloor (h + 32768)%R = n / 256). { unfold n. rewrite <- Rfloor_div by lia. f_equal. field. }
  pose proof (proj1 (Rfloor_spec (h + 32768) _) V) as G.
  rewrite E. unfold byte_px, is_byte. cbn [pR pG pB pA]. rewrite V. repeat split; try lia; rewrite decode_terrarium by lia; cbn [pR pG pB];
    replace (n / 65536 * 256 + n / 256 mod 256) with (n / 256) by lia; assert (Q : 0 <= n mod 25 <= 24) by lia; destruct Q as [Q1 Q2]; apply IZR_le in Q1, Q2; lra.
Qed.
Print Assumptions C55_terrarium_within_a_metre.

(** A height that Terrarium can represent, n/256 - 32768, survives exactly when n mod 256 = n mod 25. *)
Theorem C55_terrarium_exact_iff : forall n, 0 <= n < 2 ^ 24 ->
  (decode 1 (PackTerrarium (IZR n / 256 - 32768)) = (IZR n / 256 - 32768)%R <-> n mod 256 = n mod 25).
Proof.
  intros n Hn. assert (B : (-32768 <= IZR n / 256 - 32768 < 32768)%R).
  { destruct Hn as [A1 A2]. apply IZR_le in A1. apply IZR_lt in A2. change (2 ^ 24) with 16777216 in A2. lra. }
  destruct (PackTerrarium_digits _ B) as [_ E]. cbv zeta in E. rewrite E. replace (256 * (IZR n / 256 - 32768 + 32768))%R with (IZR n) by field. rewrite Rfloor_IZR.
  rewrite decode_terrarium by lia. cbn [pR pG pB]. replace (n / 65536 * 256 + n / 256 mod 256) with (n / 256) by lia.
  assert (Q : (IZR n = 256 * IZR (n / 256) + IZR (n mod 256))%R) by (rewrite <- mult_IZR, <- plus_IZR; f_equal; lia). rewrite Q. split.
  - intros K. apply eq_IZR. lra.
  - intros K. rewrite K. lra.
Qed.
Print Assumptions C55_terrarium_exact_iff.

(** Even sea level is shifted: 0 becomes 8/256. *)
Theorem C55_terrarium_exact_refuted : exists h, (-32768 <= h < 32768)%R /\ decode 1 (PackTerrarium h) <> h /\ decode 1 (PackTerrarium h) = (8 / 256)%R /\ h = 0%R.
Proof.
  exists 0%R. assert (B : (-32768 <= 0 < 32768)%R) by lra. split; auto.
  assert (E : decode 1 (PackTerrarium 0) = (8 / 256)%R).
  { destruct (PackTerrarium_digits 0 B) as [_ E]. cbv zeta in E. rewrite E. replace (Rfloor (256 * (0 + 32768))) with 8388608 by (symmetry; apply Rfloor_unique; lra).
    rewrite decode_terrarium by lia. cbn [pR pG pB]. replace (8388608 / 65536 * 256 + 8388608 / 256 mod 256) with 32768 by reflexivity. replace (8388608 mod 25) with 8 by reflexivity. lra. }
  split; [rewrite E; lra|]. auto.
Qed.
Print Assumptions C55_terrarium_exact_refuted.

(** ** C56 *)

Definition clampZ (n v : Z) : Z := Z.max 0 (Z.min (n - 1) v).

Lemma sqrt_unique n k : (k * k <= n < (k + 1) * (k + 1))%nat -> Nat.sqrt n = k.
Proof. intros. apply Nat.sqrt_unique. replace (S k) with (k + 1)%nat by lia. lia. Qed.

Theorem C56_replicated_border : forall (A : Type) (zero : A) data encoding dim,
  Nat.Even (length data) -> 1 <= dim -> dim * dim <= zlen data < (dim + 1) * (dim + 1) ->
  exists d, NewDEMData zero data encoding = Ok (Some d) /\ dEncoding d = encoding /\ dDim d = dim /\ dStride d = dim + 2 /\ zlen (dData d) = (dim + 2) * (dim + 2) /\
    forall x y, -1 <= x <= dim -> -1 <= y <= dim ->
      nth_res (dData d) (idx d x y) = nth_res data (clampZ dim y * dim + clampZ dim x).
Proof.
  intros A zero data enc dimz HE H1 HS. unfold zlen in HS. set (dim := Z.to_nat dimz). assert (DZ : dimz = Z.of_nat dim) by (unfold dim; lia). rewrite DZ in *. clearbody dim.
  unfold NewDEMData. assert (O : Nat.odd (length data) = false) by (rewrite <- Nat.negb_even; apply Nat.even_spec in HE; rewrite HE; reflexivity). rewrite O.
  rewrite (sqrt_unique (length data) dim) by lia.
  destruct (fill_rows_ok zero data dim (repeat zero ((dim + 2) * (dim + 2)))) as (i1 & E1 & L1 & C1); [lia|apply repeat_length|]. rewrite E1. cbn [bind].
  destruct (fill_sides_ok zero dim i1) as (i2 & E2 & L2 & C2); [lia|auto|]. rewrite E2. cbn [bind].
  destruct (fill_ends_ok zero dim i2) as (i3 & E3 & L3 & C3); [lia|auto|]. rewrite E3. cbn [bind].
  eexists. split; [reflexivity|]. cbn [dEncoding dDim dStride dData]. split; auto. split; auto. split; [lia|]. split; [unfold zlen; rewrite L3; lia|].
  intros x y Hx Hy. unfold idx. cbn [dStride]. set (j := Z.to_nat (x + 1)). set (i := Z.to_nat (y + 1)).
  replace ((y + 1) * Z.of_nat (dim + 2) + (x + 1)) with (Z.of_nat (i * (dim + 2) + j)) by (unfold i, j; nia).
  assert (Hi : (i < dim + 2)%nat) by (unfold i; lia). assert (Hj : (j < dim + 2)%nat) by (unfold j; lia).
  rewrite (nth_res_get _ _ zero) by (unfold zlen; rewrite L3; pose proof (cell_lt _ _ j i Hj Hi); lia). rewrite Nat2Z.id, C3 by auto. rewrite C2, C1 by lia.
  set (ci := Nat.max 1 (Nat.min dim i)). set (cj := Nat.max 1 (Nat.min dim j)).
  replace (1 <=? ci)%nat with true by (symmetry; apply Nat.leb_le; lia). replace (ci <=? dim)%nat with true by (symmetry; apply Nat.leb_le; lia). cbn [andb].
  replace (1 <=? cj)%nat with true by (symmetry; apply Nat.leb_le; lia). replace (cj <=? dim)%nat with true by (symmetry; apply Nat.leb_le; lia). cbn [andb].
  replace (clampZ (Z.of_nat dim) y * Z.of_nat dim + clampZ (Z.of_nat dim) x) with (Z.of_nat ((ci - 1) * dim + (cj - 1))).
  2:{ replace (clampZ (Z.of_nat dim) y) with (Z.of_nat (ci - 1)) by (unfold clampZ, ci, i; lia). replace (clampZ (Z.of_nat dim) x) with (Z.of_nat (cj - 1)) by (unfold clampZ, cj, j; lia). lia. }
  assert (K : ((ci - 1) * dim + (cj - 1) < dim * dim)%nat) by (apply cell_lt; lia).
  set (q := ((ci - 1) * dim + (cj - 1))%nat) in *. clearbody q.
  rewrite (nth_res_get data _ zero) by (unfold zlen; lia). rewrite Nat2Z.id. reflexivity.
Qed.
Print Assumptions C56_replicated_border.

(** Tiles with an odd number of pixels, such as 257 by 257, are silently nil. *)
Theorem C56_odd_rejected : forall (A : Type) (zero : A) data encoding, NewDEMData zero data encoding = Ok None <-> Nat.Odd (length data).
Proof.
  intros A zero data enc. unfold NewDEMData. rewrite <- Nat.odd_spec. destruct (Nat.odd (length data)) eqn:O; [tauto|]. split; [|discriminate].
  intros K. exfalso. set (dim := Nat.sqrt (length data)) in *.
  destruct (for_each (fill_row data dim (dim + 2)) (seq 0 dim) _) as [i1| |]; cbn [bind] in K; try discriminate.
  destruct (for_each (fill_sides dim (dim + 2)) (seq 0 dim) i1) as [i2| |]; cbn [bind] in K; try discriminate.
  destruct (for_each (fill_ends dim (dim + 2)) (seq 0 (dim + 2)) i2) as [i3| |]; cbn [bind] in K; discriminate.
Qed.
Print Assumptions C56_odd_rejected.
Example C56_nonvacuous : NewDEMData 0 [1; 2; 3; 4] 0 = Ok (Some (mkDEM 0 2 4 [1; 1; 2; 2; 1; 1; 2; 2; 3; 3; 4; 4; 3; 3; 4; 4])).
Proof. reflexivity. Qed.

(** ** C57 *)

Theorem C57_same_size_unchanged : forall (A : Type) (d e : DEM A) dx dy, dDim d = dDim e -> BackfillBorder d e dx dy = Ok d.
Proof. intros A d e dx dy H. unfold BackfillBorder. rewrite H, Z.eqb_refl. reflexivity. Qed.
Print Assumptions C57_same_size_unchanged.

(** The cells the neighbour at offset dx (dy) is meant to fill, and the cells of the neighbour they come from *)
Definition in_strip (n dx x : Z) : bool := if dx =? -1 then x =? -1 else if dx =? 1 then x =? n else (0 <=? x) && (x <? n).
Definition last_read (n dx : Z) : Z := if dx =? 1 then 0 else n - 1.

(** For a neighbour of a different size the strip is copied with the wrong stride: cell (x,y) comes from flat position
    (y'+1)*stride + x'+1 of the neighbour with this tile's stride; it panics exactly when the last such position is
    beyond the neighbour's data. *)
Theorem C57_other_size : forall (A : Type) (d e : DEM A) dx dy, 1 <= dDim d -> dStride d = dDim d + 2 -> zlen (dData d) = dStride d * dStride d -> dDim d <> dDim e ->
  -1 <= dx <= 1 -> -1 <= dy <= 1 ->
  let n := dDim d in
  if (last_read n dy + 1) * (n + 2) + last_read n dx + 1 <? zlen (dData e)
  then exists d', BackfillBorder d e dx dy = Ok d' /\ dEncoding d' = dEncoding d /\ dDim d' = n /\ dStride d' = n + 2 /\ zlen (dData d') = zlen (dData d) /\
    forall x y, -1 <= x <= n -> -1 <= y <= n ->
      nth_res (dData d') ((y + 1) * (n + 2) + x + 1) =
        if in_strip n dx x && in_strip n dy y then nth_res (dData e) ((y - dy * n + 1) * (n + 2) + (x - dx * n) + 1) else nth_res (dData d) ((y + 1) * (n + 2) + x + 1)
  else BackfillBorder d e dx dy = Panic.
Proof.
  intros A d e dx dy H1 Hs HL HD Hdx Hdy n. unfold BackfillBorder. destruct (Z.eqb_spec (dDim d) (dDim e)) as [K|_]; [contradiction|]. fold n. fold n in H1, Hs.
  set (xlo := if dx =? -1 then -1 else if dx =? 1 then n else 0). set (nx := if (dx =? -1) || (dx =? 1) then 1%nat else Z.to_nat n).
  set (ylo := if dy =? -1 then -1 else if dy =? 1 then n else 0). set (ny := if (dy =? -1) || (dy =? 1) then 1%nat else Z.to_nat n).
  assert (EX : (if dx =? -1 then (dx * n + n - 1, dx * n + n) else if dx =? 1 then (dx * n, dx * n + 1) else (dx * n, dx * n + n)) = (xlo, xlo + Z.of_nat nx)).
  { unfold xlo, nx. destruct (Z.eqb_spec dx (-1)) as [->|]; [change (-1 =? -1) with true; cbn [orb]; f_equal; lia|]. destruct (Z.eqb_spec dx 1) as [->|]; [change (1 =? 1) with true; cbn [orb]; f_equal; lia|]. replace dx with 0 by lia. cbn [orb]. f_equal; lia. }
  assert (EY : (if dy =? -1 then (dy * n + n - 1, dy * n + n) else if dy =? 1 then (dy * n, dy * n + 1) else (dy * n, dy * n + n)) = (ylo, ylo + Z.of_nat ny)).
  { unfold ylo, ny. destruct (Z.eqb_spec dy (-1)) as [->|]; [change (-1 =? -1) with true; cbn [orb]; f_equal; lia|]. destruct (Z.eqb_spec dy 1) as [->|]; [change (1 =? 1) with true; cbn [orb]; f_equal; lia|]. replace dy with 0 by lia. cbn [orb]. f_equal; lia. }
  rewrite EX, EY. replace (Z.to_nat (xlo + Z.of_nat nx - xlo)) with nx by lia. replace (Z.to_nat (ylo + Z.of_nat ny - ylo)) with ny by lia.
  change (for_each _ (zseq ylo ny) (dData d)) with (bf_loop d e (- dx * n) (- dy * n) xlo ylo nx ny (dData d)).
  assert (BX : -1 <= xlo /\ xlo + Z.of_nat nx <= n + 1 /\ xlo + (- dx * n) >= 0 /\ xlo + Z.of_nat nx - 1 - dx * n = last_read n dx /\ (1 <= nx)%nat).
  { unfold xlo, nx, last_read. destruct (Z.eqb_spec dx (-1)) as [->|]; [cbn [orb Z.eqb]; lia|]. destruct (Z.eqb_spec dx 1) as [->|]; [cbn [orb]; lia|]. replace dx with 0 by lia. cbn [orb]; lia. }
  assert (BY : -1 <= ylo /\ ylo + Z.of_nat ny <= n + 1 /\ ylo + (- dy * n) >= 0 /\ ylo + Z.of_nat ny - 1 - dy * n = last_read n dy /\ (1 <= ny)%nat).
  { unfold ylo, ny, last_read. destruct (Z.eqb_spec dy (-1)) as [->|]; [cbn [orb Z.eqb]; lia|]. destruct (Z.eqb_spec dy 1) as [->|]; [cbn [orb]; lia|]. replace dy with 0 by lia. cbn [orb]; lia. }
  destruct BX as (X1 & X2 & X3 & X4 & X5). destruct BY as (Y1 & Y2 & Y3 & Y4 & Y5).
  destruct (Z.ltb_spec ((last_read n dy + 1) * (n + 2) + last_read n dx + 1) (zlen (dData e))) as [R|R].
  - destruct (bf_ok d e (- dx * n) (- dy * n) xlo ylo nx ny) as (img & E & L & N); auto; try (fold n; lia).
    { intros x y Hx Hy. unfold idx. rewrite Hs. nia. }
    rewrite E. cbn [bind]. eexists. split; [reflexivity|]. cbn [dEncoding dDim dStride dData]. split; auto. split; auto. split; auto. split; [lia|].
    intros x y Hx Hy. specialize (N x y Hx Hy). unfold idx in N. rewrite Hs in N. replace ((y + 1) * (n + 2) + x + 1) with ((y + 1) * (n + 2) + (x + 1)) by lia. rewrite N.
    assert (SX : (xlo <=? x) && (x <? xlo + Z.of_nat nx) = in_strip n dx x).
    { unfold xlo, nx, in_strip. destruct (Z.eqb_spec dx (-1)) as [->|]; [cbn [orb]; lia|]. destruct (Z.eqb_spec dx 1) as [->|]; [cbn [orb]; lia|]. cbn [orb]. lia. }
    assert (SY : (ylo <=? y) && (y <? ylo + Z.of_nat ny) = in_strip n dy y).
    { unfold ylo, ny, in_strip. destruct (Z.eqb_spec dy (-1)) as [->|]; [cbn [orb]; lia|]. destruct (Z.eqb_spec dy 1) as [->|]; [cbn [orb]; lia|]. cbn [orb]. lia. }
    rewrite <- SX, <- SY, !andb_assoc. replace ((y - dy * n + 1) * (n + 2) + (x - dx * n) + 1) with ((y + - dy * n + 1) * (n + 2) + (x + - dx * n + 1)) by lia. reflexivity.
  - rewrite (bf_panic d e (- dx * n) (- dy * n) xlo ylo nx ny) with (x0 := xlo + Z.of_nat nx - 1) (y0 := ylo + Z.of_nat ny - 1); auto; try (fold n; lia).
    unfold idx. rewrite Hs. replace (xlo + Z.of_nat nx - 1 + - dx * n) with (last_read n dx) by lia. replace (ylo + Z.of_nat ny - 1 + - dy * n) with (last_read n dy) by lia. lia.
Qed.
Print Assumptions C57_other_size.

(** So the border promised by the name never comes: equal sizes copy nothing, and the pixel copied from a larger neighbour
    is not the adjacent one. *)
Theorem C57_backfill_refuted : exists d e d', NewDEMData 0 [1; 2; 3; 4] 0 = Ok (Some d) /\
  NewDEMData 0 (map (fun k => 100 + Z.of_nat k) (seq 0 16)) 0 = Ok (Some e) /\ BackfillBorder d e (-1) 0 = Ok d' /\
  nth_res (dData e) (idx e 3 0) = Ok 103 /\ nth_res (dData d') (idx d' (-1) 0) = Ok 100.
Proof. do 3 eexists. split; [reflexivity|]. split; [reflexivity|]. split; [vm_compute; reflexivity|]. split; reflexivity. Qed.
Print Assumptions C57_backfill_refuted.
Example C57_nonvacuous : exists d, NewDEMData 0 [1; 2; 3; 4] 0 = Ok (Some d) /\ 1 <= dDim d /\ dStride d = dDim d + 2 /\ zlen (dData d) = dStride d * dStride d.
Proof. eexists. split; [reflexivity|]. cbn. lia. Qed.

(** ** C58 *)

Definition dem_wf (d : DEM px) : Prop := 0 <= dDim d /\ dStride d = dDim d + 2 /\ zlen (dData d) = dStride d * dStride d.

Theorem C58_bulk_read : forall d, dem_wf d ->
  exists l, GetData d = Ok l /\ zlen l = dDim d * dDim d /\
    forall x y, 0 <= x < dDim d -> 0 <= y < dDim d -> nth_res l (x * dDim d + y) = Get d x y.
Proof.
  intros d (H0 & Hs & HL). unfold GetData. set (n := dDim d) in *. set (nn := Z.to_nat n).
  assert (G : forall x y, 0 <= x < n -> 0 <= y < n -> exists v, Get d x y = Ok v).
  { intros x y Hx Hy. unfold Get. assert (R : 0 <= idx d x y < zlen (dData d)) by (rewrite HL; unfold idx; apply idx_range; lia).
    destruct (dData d) as [|a l] eqn:E; [unfold zlen in R; cbn in R; lia|]. rewrite (nth_res_get _ _ a R). cbn [bind]. eexists. reflexivity. }
  destruct (for_zseq (fun k (ret : list R) => zlen ret = n * n /\ forall x y, 0 <= x < k -> 0 <= y < n -> nth_res ret (x * n + y) = Get d x y)
    (fun ret x => for_each (fun ret y => let! v := Get d x y in set_res ret (x * n + y) v) (zseq 0 nn) ret) 0 nn (repeat 0%R (Z.to_nat (n * n)))) as (l & E & L & N).
  - split; [unfold zlen; rewrite repeat_length; nia|]. intros; lia.
  - intros x ret Hx [L N].
    destruct (for_zseq (fun k (r : list R) => zlen r = n * n /\ (forall x' y, 0 <= x' < x -> 0 <= y < n -> nth_res r (x' * n + y) = Get d x' y) /\ forall y, 0 <= y < k -> nth_res r (x * n + y) = Get d x y)
      (fun ret y => let! v := Get d x y in set_res ret (x * n + y) v) 0 nn ret) as (r & E & L' & N1 & N2).
    + split; auto. split; auto. intros; lia.
    + intros y r Hy (Lr & M1 & M2). destruct (G x y ltac:(lia) ltac:(lia)) as (v & Ev). rewrite Ev. cbn [bind].
      destruct (set_res_upd r (x * n + y) v) as (r' & E' & L' & N'); [nia|]. exists r'. split; auto. split; [lia|]. split.
      * intros x' y' Hx' Hy'. rewrite N' by nia. destruct (Z.eqb_spec (x' * n + y') (x * n + y)) as [Q|_]; [nia|]. auto.
      * intros y' Hy'. rewrite N' by nia. destruct (Z.eqb_spec (x * n + y') (x * n + y)) as [Q|Q]; [replace y' with y by lia; auto|]. apply M2. lia.
    + exists r. split; auto. split; auto. intros x' y' Hx' Hy'. destruct (Z.eq_dec x' x) as [->|]; [apply N2; lia|apply N1; lia].
  - exists l. split; auto. split; auto. intros x y Hx Hy. apply N; lia.
Qed.
Print Assumptions C58_bulk_read.

(** Of a tile made from a square of pixels, entry x*n+y is the elevation of input pixel y*n+x. *)
Theorem C58_transposed : forall data encoding n, Nat.Even (length data) -> 1 <= n -> zlen data = n * n ->
  exists d l, NewDEMData (mkPx 0 0 0 0) data encoding = Ok (Some d) /\ GetData d = Ok l /\ zlen l = n * n /\
    forall x y, 0 <= x < n -> 0 <= y < n ->
      nth (Z.to_nat (x * n + y)) l 0%R = decode encoding (nth (Z.to_nat (y * n + x)) data (mkPx 0 0 0 0)).
Proof.
  intros data enc n HE H1 HL. destruct (C56_replicated_border px (mkPx 0 0 0 0) data enc n HE H1) as (d & E & E1 & E2 & E3 & E4 & N); [nia|].
  destruct (C58_bulk_read d) as (l & El & Ll & Nl). { unfold dem_wf. rewrite E2, E3, E4. lia. }
  exists d, l. split; auto. split; auto. rewrite E2 in *. split; auto. intros x y Hx Hy. specialize (Nl x y Hx Hy). unfold Get in Nl. rewrite N in Nl by lia.
  replace (clampZ n y) with y in Nl by (unfold clampZ; lia). replace (clampZ n x) with x in Nl by (unfold clampZ; lia).
  rewrite (nth_res_get l _ 0%R) in Nl by nia. rewrite (nth_res_get data _ (mkPx 0 0 0 0)) in Nl by nia. cbn [bind] in Nl. rewrite E1 in Nl. congruence.
Qed.
Print Assumptions C58_transposed.

(** Reading one column beyond the right border gives the left border of the next row instead of a panic. *)
Theorem C58_reads_wrap : forall d y, dStride d = dDim d + 2 -> Get d (dDim d + 1) y = Get d (-1) (y + 1).
Proof. intros d y H. unfold Get, idx. rewrite H. replace ((y + 1) * (dDim d + 2) + (dDim d + 1 + 1)) with ((y + 1 + 1) * (dDim d + 2) + (-1 + 1)) by lia. reflexivity. Qed.
Print Assumptions C58_reads_wrap.
Example C58_nonvacuous : exists d, NewDEMData (mkPx 0 0 0 0) [mkPx 1 0 0 255; mkPx 2 0 0 255; mkPx 3 0 0 255; mkPx 4 0 0 255] 1 = Ok (Some d) /\ dem_wf d /\ Get d 1 0 = Ok (decode 1 (mkPx 2 0 0 255)).
Proof. eexists. split; [reflexivity|]. unfold dem_wf. cbn [dDim dStride dData]. split; [cbn; lia|reflexivity]. Qed.

(** ** C88 *)

(** Loading a picture keeps a colour byte exactly when the pixel is opaque or the byte is zero. *)
Theorem C88_premultiplied : forall c a, is_byte c -> is_byte a -> is_byte (premul c a) /\ premul c a <= c /\ (premul c a = c <-> c = 0 \/ a = 255).
Proof.
  intros c a Hc Ha. unfold is_byte, premul in *. rewrite Z.div_div by lia. change (255 * 256) with 65280.
  assert (U : c * 257 * a / 65280 <= c). { apply Z.lt_succ_r. apply Z.div_lt_upper_bound; nia. }
  assert (W : 0 <= c * 257 * a / 65280) by (apply Z.div_pos; nia).
  split; [lia|]. split; auto. split.
  - intros E. destruct (Z.eq_dec c 0) as [|Nc]; auto. right. destruct (Z.eq_dec a 255) as [|Na]; auto. exfalso.
    assert (a <= 254) by lia. assert (c * 257 * a / 65280 < c) by (apply Z.div_lt_upper_bound; nia). lia.
  - intros [->| ->]; [reflexivity|]. replace (c * 257 * 255) with (c * 255 + c * 65280) by ring. rewrite Z.div_add by lia. rewrite Z.div_small; lia.
Qed.
Print Assumptions C88_premultiplied.

Lemma loaded_opaque v : byte_px v -> pA v = 255 -> loaded v = v.
Proof.
  destruct v as [r g b a]. unfold byte_px, loaded. cbn [pR pG pB pA]. intros (Hr & Hg & Hb) ->.
  assert (P : forall c, is_byte c -> premul c 255 = c) by (intros c Hc; apply (C88_premultiplied c 255); auto; unfold is_byte; lia).
  rewrite !P by auto. reflexivity.
Qed.

Lemma flat_nth {A} (f : nat -> nat -> A) w d : forall h x y, (x < w)%nat -> (y < h)%nat ->
  nth (y * w + x) (flat_map (fun y => map (fun x => f x y) (seq 0 w)) (seq 0 h)) d = f x y.
Proof.
  intros h x y Hx. enough (G : forall k, (y < k + h)%nat -> (k <= y)%nat -> nth ((y - k) * w + x) (flat_map (fun y => map (fun x => f x y) (seq 0 w)) (seq k h)) d = f x y).
  { intros Hy. specialize (G 0%nat ltac:(lia) ltac:(lia)). rewrite Nat.sub_0_r in G. auto. }
  induction h as [|h IH]; intros k H1 H2; [lia|]. cbn [seq flat_map]. destruct (Nat.eq_dec y k) as [->|N].
  - rewrite Nat.sub_diag, Nat.mul_0_l, Nat.add_0_l. rewrite app_nth1 by (rewrite map_length, seq_length; auto).
    rewrite nth_map_lt with (da := 0%nat) by (rewrite seq_length; auto). rewrite seq_nth by auto. reflexivity.
  - rewrite app_nth2 by (rewrite map_length, seq_length; nia). rewrite map_length, seq_length.
    replace ((y - k) * w + x - w)%nat with ((y - S k) * w + x)%nat by nia. apply IH; lia.
Qed.
Lemma flat_len {A} (f : nat -> nat -> A) w h : forall k, length (flat_map (fun y => map (fun x => f x y) (seq 0 w)) (seq k h)) = (h * w)%nat.
Proof. induction h as [|h IH]; intros k; cbn [seq flat_map]; auto. rewrite app_length, map_length, seq_length, IH. lia. Qed.

(** Encoding a square grid of heights, loading the picture and reading it back loses less than 0.1 m per height. *)
Theorem C88_encode_load_read : forall n heights p, (1 <= n)%nat -> Nat.Even n -> length heights = (n * n)%nat -> (forall h, In h heights -> (-10000 <= h < 16677216 / 10)%R) ->
  exists d l, LoadDEM (DemEncode n n heights (PackMapbox p)) 0 = Some (Ok (Some d)) /\ GetData d = Ok l /\ length l = (n * n)%nat /\
    forall x y, (x < n)%nat -> (y < n)%nat ->
      (nth (x * n + y) l 0 <= nth (y * n + x) heights 0 < nth (x * n + y) l 0 + 1 / 10)%R.
Proof.
  intros n hs p H1 [k HE] HL HR. unfold LoadDEM, DemEncode. cbn [picW picH picAt]. rewrite Nat.eqb_refl. cbn [negb].
  set (data := flat_map _ _). assert (LD : length data = (n * n)%nat) by (unfold data; apply flat_len with (f := fun x y => loaded (PackMapbox p (nth (y * n + x) hs 0%R)))).
  destruct (C58_transposed data 0 (Z.of_nat n)) as (d & l & E & El & Ll & N); try (unfold zlen in *; lia).
  { rewrite LD. exists (k * n)%nat. lia. }
  exists d, l. split; [now rewrite E|]. split; auto. split; [unfold zlen in Ll; lia|]. intros x y Hx Hy.
  specialize (N (Z.of_nat x) (Z.of_nat y) ltac:(lia) ltac:(lia)). replace (Z.to_nat (Z.of_nat x * Z.of_nat n + Z.of_nat y)) with (x * n + y)%nat in N by lia.
  replace (Z.to_nat (Z.of_nat y * Z.of_nat n + Z.of_nat x)) with (y * n + x)%nat in N by lia. rewrite N.
  assert (F : nth (y * n + x) data (mkPx 0 0 0 0) = loaded (PackMapbox p (nth (y * n + x) hs 0%R))).
  { unfold data. apply flat_nth with (f := fun x y => loaded (PackMapbox p (nth (y * n + x) hs 0%R))); auto. }
  rewrite F. assert (I : (-10000 <= nth (y * n + x) hs 0 < 16677216 / 10)%R). { apply HR, nth_In. rewrite HL. apply cell_lt; auto. }
  destruct (C54_mapbox_pack_decode p _ I) as (B & A & D). rewrite loaded_opaque by auto. exact D.
Qed.
Print Assumptions C88_encode_load_read.

(** Saving and loading keeps every elevation inside the tile when its pixels are opaque. *)
Theorem C88_save_load : forall d, dem_wf d -> 1 <= dDim d -> Z.Even (dDim d) -> (forall v, In v (dData d) -> byte_px v /\ pA v = 255) ->
  exists d', LoadDEM (SaveDEM d) (dEncoding d) = Some (Ok (Some d')) /\ dDim d' = dDim d /\
    forall x y, 0 <= x < dDim d -> 0 <= y < dDim d -> Get d' x y = Get d x y.
Proof.
  intros d (_ & Hs & HL) H1 [k HE] HP. unfold LoadDEM, SaveDEM. cbn [picW picH picAt]. rewrite Nat.eqb_refl. cbn [negb].
  set (n := Z.to_nat (dDim d)). set (f := fun x y => loaded (nth (Z.to_nat (idx d (Z.of_nat x) (Z.of_nat y))) (dData d) (mkPx 0 0 0 0))).
  set (data := flat_map _ _). assert (LD : length data = (n * n)%nat) by (unfold data; apply flat_len with (f := f)).
  destruct (C56_replicated_border px (mkPx 0 0 0 0) data (dEncoding d) (dDim d)) as (d' & E & E1 & E2 & E3 & E4 & N); auto; try (unfold zlen, n in *; nia).
  { rewrite LD. exists (Z.to_nat k * n)%nat. unfold n. lia. }
  exists d'. split; [now rewrite E|]. split; auto. intros x y Hx Hy. unfold Get. rewrite N by lia. rewrite E1.
  replace (clampZ (dDim d) y) with y by (unfold clampZ; lia). replace (clampZ (dDim d) x) with x by (unfold clampZ; lia).
  rewrite (nth_res_get data _ (mkPx 0 0 0 0)) by (unfold zlen, n in *; nia).
  assert (R : 0 <= idx d x y < zlen (dData d)) by (rewrite HL; unfold idx; apply idx_range; lia).
  rewrite (nth_res_get (dData d) _ (mkPx 0 0 0 0) R). cbn [bind]. f_equal. f_equal.
  replace (Z.to_nat (y * dDim d + x)) with (Z.to_nat y * n + Z.to_nat x)%nat by (unfold n; nia).
  unfold data. rewrite (flat_nth f) by (unfold n; lia). unfold f. rewrite !Z2Nat.id by lia. 
  destruct (HP (nth (Z.to_nat (idx d x y)) (dData d) (mkPx 0 0 0 0))) as [B A]. { apply nth_In. unfold zlen in R. lia. }
  apply loaded_opaque; auto.
Qed.
Print Assumptions C88_save_load.

(** Loading an odd-sized square picture returns neither a tile nor an error; a non-square picture is an error. *)
Theorem C88_load_outcomes : forall m encoding,
  (LoadDEM m encoding = None <-> picW m <> picH m) /\ (picW m = picH m -> (LoadDEM m encoding = Some (Ok None) <-> Nat.Odd (picW m))).
Proof.
  intros m enc. unfold LoadDEM. destruct (Nat.eqb_spec (picW m) (picH m)) as [E|E]; cbn [negb].
  - split; [split; [discriminate|contradiction]|]. intros _. set (data := flat_map _ _).
    assert (LD : length data = (picH m * picW m)%nat) by (unfold data; apply flat_len with (f := fun x y => loaded (picAt m x y))).
    pose proof (C56_odd_rejected px (mkPx 0 0 0 0) data enc) as H. rewrite LD, E in H.
    assert (O : Nat.Odd (picH m * picH m) <-> Nat.Odd (picH m)). { rewrite <- !Nat.odd_spec, Nat.odd_mul. destruct (Nat.odd (picH m)); cbn; tauto. }
    rewrite E. rewrite <- O, <- H. split; [intros K; congruence|intros K; congruence].
  - split; [tauto|]. intros K. contradiction.
Qed.
Print Assumptions C88_load_outcomes.
Example C88_nonvacuous : premul 200 128 = 100 /\ loaded (mkPx 1 2 3 255) = mkPx 1 2 3 255.
Proof. split; reflexivity. Qed.
