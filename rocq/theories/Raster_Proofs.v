(** Elevation tiles: the grid loops and the packing arithmetic. *)
From Coq Require Import ZArith Reals List Lia Lra Bool.
From Verif Require Import GoBase GoArr Num TileR_Model TileR_Proofs MvtProj_Proofs Sdf_Proofs Raster_Model.
Import ListNotations.
Open Scope Z_scope.

Section Grid.
Context {A : Type} (dft : A).
Local Open Scope nat_scope.
Implicit Types (img data : list A).
Notation cell s img i j := (nth (i * s + j) img dft).

Lemma mget s img i j : length img = s * s -> i < s -> j < s -> get img (i * s + j) = Ok (cell s img i j).
Proof. intros L Hi Hj. apply get_ok. rewrite L. apply cell_lt; auto. Qed.
Lemma mset s img i j v : length img = s * s -> i < s -> j < s ->
  exists img', set_at img (i * s + j) v = Ok img' /\ length img' = s * s /\
    forall i' j', i' < s -> j' < s -> cell s img' i' j' = if (i' =? i) && (j' =? j) then v else cell s img i' j'.
Proof.
  intros L Hi Hj. exists (upd img (i * s + j) v). assert (B : i * s + j < length img) by (rewrite L; apply cell_lt; auto).
  rewrite set_at_ok by auto. split; auto. rewrite upd_length. split; auto. intros i' j' Hi' Hj'. rewrite nth_upd by auto.
  destruct (Nat.eqb_spec (i' * s + j') (i * s + j)) as [E|E].
  - apply cell_inj in E as [-> ->]; auto. now rewrite !Nat.eqb_refl.
  - destruct (Nat.eqb_spec i' i) as [->|]; cbn [andb]; auto. destruct (Nat.eqb_spec j' j) as [->|]; auto. congruence.
Qed.
Ltac eqbs := repeat match goal with
  | |- context [?a =? ?b] => destruct (Nat.eqb_spec a b)
  | |- context [?a <? ?b] => destruct (Nat.ltb_spec a b)
  | |- context [?a <=? ?b] => destruct (Nat.leb_spec a b)
  end; cbn [andb orb].

Lemma fill_row_ok data dim img r : length data >= dim * dim -> r < dim -> length img = (dim + 2) * (dim + 2) ->
  exists img', fill_row data dim (dim + 2) img r = Ok img' /\ length img' = (dim + 2) * (dim + 2) /\
    forall i j, i < dim + 2 -> j < dim + 2 -> cell (dim + 2) img' i j = if (i =? r + 1) && (1 <=? j) && (j <=? dim) then nth (r * dim + (j - 1)) data dft else cell (dim + 2) img i j.
Proof.
  intros LD Hr L. set (s := dim + 2) in *. unfold fill_row.
  destruct (for_seq (fun c img' => length img' = s * s /\ forall i j, i < s -> j < s -> cell s img' i j = if (i =? r + 1) && (1 <=? j) && (j <? c + 1) then nth (r * dim + (j - 1)) data dft else cell s img i j)
    (fun img c => let! p := get data (r * dim + c) in set_at img ((r + 1) * s + c + 1) p) 0 dim img) as (img' & E & L' & C).
  - split; auto. intros i j Hi Hj. eqbs; auto; lia.
  - intros c im Hc [Lc Ic]. rewrite (get_ok _ _ dft) by nia. cbn [bind]. rewrite <- Nat.add_assoc.
    destruct (mset s im (r + 1) (c + 1) (nth (r * dim + c) data dft)) as (im' & Es & Ls & Is); try (unfold s; lia).
    exists im'. split; auto. split; auto. intros i j Hi Hj. rewrite Is, Ic by auto. eqbs; subst; auto; try lia. f_equal. lia.
  - exists img'. split; auto. split; auto. intros i j Hi Hj. rewrite C by auto. eqbs; auto; lia.
Qed.

Lemma fill_rows_ok data dim img : length data >= dim * dim -> length img = (dim + 2) * (dim + 2) ->
  exists img', for_each (fill_row data dim (dim + 2)) (seq 0 dim) img = Ok img' /\ length img' = (dim + 2) * (dim + 2) /\
    forall i j, i < dim + 2 -> j < dim + 2 -> cell (dim + 2) img' i j = if (1 <=? i) && (i <=? dim) && (1 <=? j) && (j <=? dim) then nth ((i - 1) * dim + (j - 1)) data dft else cell (dim + 2) img i j.
Proof.
  intros LD L. set (s := dim + 2) in *.
  destruct (for_seq (fun r img' => length img' = s * s /\ forall i j, i < s -> j < s -> cell s img' i j = if (1 <=? i) && (i <? r + 1) && (1 <=? j) && (j <=? dim) then nth ((i - 1) * dim + (j - 1)) data dft else cell s img i j)
    (fill_row data dim s) 0 dim img) as (img' & E & L' & C).
  - split; auto. intros i j Hi Hj. eqbs; auto; lia.
  - intros r im Hr [Lr Ir]. destruct (fill_row_ok data dim im r) as (im' & Es & Ls & Is); auto; try lia.
    exists im'. split; auto. split; auto. intros i j Hi Hj. fold s in Is. rewrite Is, Ir by auto. eqbs; subst; auto; try lia. f_equal. f_equal. f_equal. lia.
  - exists img'. split; auto. split; auto. intros i j Hi Hj. rewrite C by auto. eqbs; auto; lia.
Qed.

Lemma fill_sides_ok dim img : 1 <= dim -> length img = (dim + 2) * (dim + 2) ->
  exists img', for_each (fill_sides dim (dim + 2)) (seq 0 dim) img = Ok img' /\ length img' = (dim + 2) * (dim + 2) /\
    forall i j, i < dim + 2 -> j < dim + 2 -> cell (dim + 2) img' i j =
      if (1 <=? i) && (i <=? dim) then cell (dim + 2) img i (Nat.max 1 (Nat.min dim j)) else cell (dim + 2) img i j.
Proof.
  intros Hd L. set (s := dim + 2) in *.
  destruct (for_seq (fun r img' => length img' = s * s /\ forall i j, i < s -> j < s -> cell s img' i j =
      if (1 <=? i) && (i <? r + 1) then cell s img i (Nat.max 1 (Nat.min dim j)) else cell s img i j)
    (fill_sides dim s) 0 dim img) as (img' & E & L' & C).
  - split; auto. intros i j Hi Hj. eqbs; auto; lia.
  - intros r im Hr [Lr Ir]. unfold fill_sides. cbv zeta. replace (s * (r + 1)) with ((r + 1) * s) by lia.
    rewrite mget by (unfold s in *; lia). cbn [bind]. replace (set_at im ((r + 1) * s)) with (set_at im ((r + 1) * s + 0)) by (f_equal; lia).
    destruct (mset s im (r + 1) 0 (cell s im (r + 1) 1)) as (im1 & E1 & L1 & C1); try (unfold s; lia). rewrite E1. cbn [bind].
    rewrite mget by (unfold s in *; lia). cbn [bind]. rewrite <- Nat.add_assoc.
    destruct (mset s im1 (r + 1) (dim + 1) (cell s im1 (r + 1) dim)) as (im2 & E2 & L2 & C2); try (unfold s; lia). exists im2. split; auto. split; auto.
    intros i j Hi Hj. rewrite C2 by auto. rewrite !C1 by (unfold s; lia). rewrite !Ir by (unfold s in *; lia).
    eqbs; subst; auto; try lia; f_equal; lia.
  - exists img'. split; auto. split; auto. intros i j Hi Hj. rewrite C by auto. eqbs; auto; lia.
Qed.

Lemma fill_ends_ok dim img : 1 <= dim -> length img = (dim + 2) * (dim + 2) ->
  exists img', for_each (fill_ends dim (dim + 2)) (seq 0 (dim + 2)) img = Ok img' /\ length img' = (dim + 2) * (dim + 2) /\
    forall i j, i < dim + 2 -> j < dim + 2 -> cell (dim + 2) img' i j = cell (dim + 2) img (Nat.max 1 (Nat.min dim i)) j.
Proof.
  intros Hd L. set (s := dim + 2) in *.
  destruct (for_seq (fun r img' => length img' = s * s /\ forall i j, i < s -> j < s -> cell s img' i j =
      if j <? r then cell s img (Nat.max 1 (Nat.min dim i)) j else cell s img i j)
    (fill_ends dim s) 0 s img) as (img' & E & L' & C).
  - split; auto.
  - intros r im Hr [Lr Ir]. unfold fill_ends. replace (s + r) with (1 * s + r) by lia. replace (s * dim + r) with (dim * s + r) by lia. replace (s * (dim + 1) + r) with ((dim + 1) * s + r) by lia.
    rewrite mget by (unfold s in *; lia). cbn [bind]. change (set_at im r) with (set_at im (0 * s + r)).
    destruct (mset s im 0 r (cell s im 1 r)) as (im1 & E1 & L1 & C1); try (unfold s in *; lia). rewrite E1. cbn [bind].
    rewrite mget by (unfold s in *; lia). cbn [bind].
    destruct (mset s im1 (dim + 1) r (cell s im1 dim r)) as (im2 & E2 & L2 & C2); try (unfold s in *; lia). exists im2. split; auto. split; auto.
    intros i j Hi Hj. rewrite C2 by auto. rewrite !C1 by (unfold s in *; lia). rewrite !Ir by (unfold s in *; lia).
    eqbs; subst; auto; try lia; f_equal; try lia; f_equal; f_equal; lia.
  - exists img'. split; auto. split; auto. intros i j Hi Hj. rewrite C by auto. eqbs; auto; lia.
Qed.
End Grid.

Lemma for_each_panic {S I} (P : S -> Prop) (f : S -> I -> res S) l : forall s j, P s ->
  (forall i s, In i l -> P s -> (exists s', f s i = Ok s' /\ P s') \/ f s i = Panic) -> In j l -> (forall s, P s -> f s j = Panic) -> for_each f l s = Panic.
Proof.
  induction l as [|i l IH]; intros s j H0 H Hj HP; cbn [for_each]; [destruct Hj|].
  destruct Hj as [->|Hj]; [rewrite HP by auto; reflexivity|].
  destruct (H i s (or_introl eq_refl) H0) as [(s' & E & H1)|E]; rewrite E; cbn [bind]; auto.
  apply (IH s' j); auto. intros; apply H; auto. now right.
Qed.

Lemma nth_res_get {A} (l : list A) i d : 0 <= i < zlen l -> nth_res l i = Ok (nth (Z.to_nat i) l d).
Proof. intros H. apply nth_res_ok. split; [lia|]. apply nth_error_nth'. unfold zlen in H. lia. Qed.
Lemma nth_res_panic {A} (l : list A) i : i < 0 \/ zlen l <= i -> nth_res l i = Panic.
Proof.
  intros H. unfold nth_res. destruct (Z.ltb_spec i 0); auto. destruct (nth_error l (Z.to_nat i)) eqn:E; auto.
  assert (nth_error l (Z.to_nat i) <> None) by congruence. apply nth_error_Some in H1. unfold zlen in H. lia.
Qed.
Lemma set_res_upd {A} (l : list A) i v : 0 <= i < zlen l ->
  exists l', set_res l i v = Ok l' /\ zlen l' = zlen l /\ forall j, 0 <= j < zlen l -> nth_res l' j = if j =? i then Ok v else nth_res l j.
Proof.
  intros H. unfold set_res. destruct (Z.ltb_spec i 0); [lia|]. unfold zlen in *. rewrite set_at_ok by lia. exists (upd l (Z.to_nat i) v). split; auto. rewrite upd_length. split; auto.
  intros j Hj. rewrite (nth_res_get _ _ v) by (unfold zlen; rewrite upd_length; lia). rewrite nth_upd by lia.
  destruct (Z.eqb_spec j i) as [->|N]; [now rewrite Nat.eqb_refl|]. destruct (Nat.eqb_spec (Z.to_nat j) (Z.to_nat i)); [lia|]. rewrite (nth_res_get _ _ v); auto.
Qed.

Lemma idx_inj s x y x' y' : 0 < s -> -1 <= x < s - 1 -> -1 <= x' < s - 1 -> (y + 1) * s + (x + 1) = (y' + 1) * s + (x' + 1) -> x = x' /\ y = y'.
Proof. intros Hs Hx Hx' E. assert (y = y') by nia. subst. lia. Qed.
Lemma idx_range s x y : 0 < s -> -1 <= x < s - 1 -> -1 <= y < s - 1 -> 0 <= (y + 1) * s + (x + 1) < s * s.
Proof. intros. nia. Qed.

Section Backfill.
Context {A : Type}.
Variables (d e : DEM A) (ox oy xlo ylo : Z) (nx ny : nat).
Hypothesis Hd : 1 <= dDim d.
Hypothesis Hs : dStride d = dDim d + 2.
Hypothesis HL : zlen (dData d) = dStride d * dStride d.
Hypothesis Hx : -1 <= xlo /\ xlo + Z.of_nat nx <= dDim d + 1.
Hypothesis Hy : -1 <= ylo /\ ylo + Z.of_nat ny <= dDim d + 1.
Definition bf_inner (y : Z) (img : list A) (x : Z) : res (list A) :=
  let! p := nth_res (dData e) (idx d (x + ox) (y + oy)) in set_res img (idx d x y) p.
Definition bf_loop (img : list A) : res (list A) :=
  for_each (fun img y => for_each (bf_inner y) (zseq xlo nx) img) (zseq ylo ny) img.

Hypothesis HR0 : 0 <= xlo + ox /\ 0 <= ylo + oy.

Lemma bf_inner_ok y x img : -1 <= y <= dDim d -> -1 <= x <= dDim d -> zlen img = dStride d * dStride d -> 0 <= idx d (x + ox) (y + oy) < zlen (dData e) ->
  exists img', bf_inner y img x = Ok img' /\ zlen img' = dStride d * dStride d /\
    forall x' y', -1 <= x' <= dDim d -> -1 <= y' <= dDim d ->
      nth_res img' (idx d x' y') = if (x' =? x) && (y' =? y) then nth_res (dData e) (idx d (x + ox) (y + oy)) else nth_res img (idx d x' y').
Proof.
  intros Hyy Hxx L R. unfold bf_inner.
  assert (p : exists p, nth_res (dData e) (idx d (x + ox) (y + oy)) = Ok p).
  { destruct (dData e) as [|a l] eqn:E; [unfold zlen in R; cbn in R; lia|]. eexists. apply (nth_res_get _ _ a). auto. }
  destruct p as (p & Ep). rewrite Ep. cbn [bind].
  destruct (set_res_upd img (idx d x y) p) as (l' & E & L' & N). { rewrite L. unfold idx. apply idx_range; lia. }
  exists l'. split; auto. split; [lia|]. intros x' y' Hx' Hy'. rewrite N.
  - destruct (Z.eqb_spec (idx d x' y') (idx d x y)) as [Q|Q].
    + unfold idx in Q. apply idx_inj in Q as [-> ->]; try lia. now rewrite !Z.eqb_refl.
    + destruct (Z.eqb_spec x' x) as [->|]; cbn [andb]; auto. destruct (Z.eqb_spec y' y) as [->|]; auto. congruence.
  - rewrite L. unfold idx. apply idx_range; lia.
Qed.

Lemma bf_ok : (forall x y, xlo <= x < xlo + Z.of_nat nx -> ylo <= y < ylo + Z.of_nat ny -> idx d (x + ox) (y + oy) < zlen (dData e)) ->
  exists img', bf_loop (dData d) = Ok img' /\ zlen img' = dStride d * dStride d /\
    forall x y, -1 <= x <= dDim d -> -1 <= y <= dDim d ->
      nth_res img' (idx d x y) = if (xlo <=? x) && (x <? xlo + Z.of_nat nx) && (ylo <=? y) && (y <? ylo + Z.of_nat ny)
        then nth_res (dData e) (idx d (x + ox) (y + oy)) else nth_res (dData d) (idx d x y).
Proof.
  intros HR. unfold bf_loop.
  destruct (for_zseq (fun k img => zlen img = dStride d * dStride d /\ forall x y, -1 <= x <= dDim d -> -1 <= y <= dDim d ->
      nth_res img (idx d x y) = if (xlo <=? x) && (x <? xlo + Z.of_nat nx) && (ylo <=? y) && (y <? k) then nth_res (dData e) (idx d (x + ox) (y + oy)) else nth_res (dData d) (idx d x y))
    (fun img y => for_each (bf_inner y) (zseq xlo nx) img) ylo ny (dData d)) as (img' & E & L & N).
  - split; auto. intros x y Hx' Hy'. replace ((ylo <=? y) && (y <? ylo)) with false by lia. now rewrite <- andb_assoc, (andb_comm (ylo <=? y)), andb_assoc, <- andb_assoc, (andb_comm (y <? ylo)), (ltac:(lia) : (ylo <=? y) && (y <? ylo) = false), andb_false_r.
  - intros k img Hk [L N].
    destruct (for_zseq (fun m img' => zlen img' = dStride d * dStride d /\ forall x y, -1 <= x <= dDim d -> -1 <= y <= dDim d ->
      nth_res img' (idx d x y) = if (xlo <=? x) && (x <? m) && (y =? k) then nth_res (dData e) (idx d (x + ox) (y + oy)) else nth_res img (idx d x y)) (bf_inner k) xlo nx img) as (img' & E & L' & N').
    + split; auto. intros x y Hx' Hy'. replace ((xlo <=? x) && (x <? xlo)) with false by lia. reflexivity.
    + intros m im Hm [Lm Nm]. destruct (bf_inner_ok k m im) as (im' & Ei & Li & Ni); try lia.
      { split; [unfold idx; nia|]. apply HR; lia. }
      exists im'. split; auto. split; auto. intros x y Hx' Hy'. rewrite Ni, Nm by auto.
      destruct (Z.eqb_spec x m) as [->|]; destruct (Z.eqb_spec y k) as [->|]; cbn [andb].
      * replace ((xlo <=? m) && (m <? m + 1)) with true by lia. reflexivity.
      * rewrite !andb_false_r. reflexivity.
      * replace (x <? m + 1) with (x <? m) by lia. reflexivity.
      * rewrite !andb_false_r. reflexivity.
    + exists img'. split; auto. split; auto. intros x y Hx' Hy'. rewrite N', N by auto.
      destruct (xlo <=? x); cbn [andb]; auto. destruct (x <? xlo + Z.of_nat nx); cbn [andb]; auto.
      destruct (Z.eqb_spec y k) as [->|].
      * replace (ylo <=? k) with true by lia. replace (k <? k + 1) with true by lia. reflexivity.
      * replace (y <? k + 1) with (y <? k) by lia. reflexivity.
  - exists img'. auto.
Qed.

Lemma bf_panic x0 y0 : xlo <= x0 < xlo + Z.of_nat nx -> ylo <= y0 < ylo + Z.of_nat ny -> zlen (dData e) <= idx d (x0 + ox) (y0 + oy) -> bf_loop (dData d) = Panic.
Proof.
  intros Hx0 Hy0 HR. unfold bf_loop.
  assert (Q : forall y x img, -1 <= y <= dDim d -> -1 <= x <= dDim d -> zlen img = dStride d * dStride d -> 0 <= idx d (x + ox) (y + oy) ->
     (exists s', bf_inner y img x = Ok s' /\ zlen s' = dStride d * dStride d) \/ bf_inner y img x = Panic).
  { intros y x img A1 A2 A3 A4. destruct (Z_lt_dec (idx d (x + ox) (y + oy)) (zlen (dData e))).
    - left. destruct (bf_inner_ok y x img) as (i' & E & L & _); auto. exists i'. auto.
    - right. unfold bf_inner. rewrite nth_res_panic by lia. reflexivity. }
  apply (for_each_panic (fun img => zlen img = dStride d * dStride d)) with (j := y0); auto.
  - intros y img Iy L. apply zseq_in in Iy.
    assert (G : forall l img, (forall x, In x l -> xlo <= x < xlo + Z.of_nat nx) -> zlen img = dStride d * dStride d ->
       (exists s', for_each (bf_inner y) l img = Ok s' /\ zlen s' = dStride d * dStride d) \/ for_each (bf_inner y) l img = Panic).
    { clear img L. induction l as [|x l IH]; intros img Hl L; cbn [for_each]; [left; exists img; auto|].
      assert (Hxx : xlo <= x < xlo + Z.of_nat nx) by (apply Hl; now left).
      destruct (Q y x img) as [(s' & E & L')|E]; try lia; [unfold idx; nia| |]; rewrite E; cbn [bind]; auto. apply IH; auto. intros; apply Hl; now right. }
    apply G; auto. intros x Hxx. now apply zseq_in in Hxx.
  - apply zseq_in. auto.
  - intros img L. apply (for_each_panic (fun img => zlen img = dStride d * dStride d)) with (j := x0); auto.
    + intros x im Ix Lm. apply zseq_in in Ix. apply Q; try lia. unfold idx. nia.
    + apply zseq_in. auto.
    + intros im Lm. unfold bf_inner. rewrite nth_res_panic by lia. reflexivity.
Qed.
End Backfill.

(** ** Packing *)

Lemma Rfloor_div r k : 0 < k -> Rfloor (r / IZR k)%R = Rfloor r / k.
Proof.
  intros Hk. pose proof (proj1 (Rfloor_spec r _) eq_refl) as [H1 H2]. set (n := Rfloor r) in *. apply Rfloor_unique.
  pose proof (Z.div_mod n k ltac:(lia)) as E. pose proof (Z.mod_pos_bound n k Hk) as B. set (q := n / k) in *. set (m := n mod k) in *.
  assert (Hk' : (0 < IZR k)%R) by now apply (IZR_lt 0).
  assert (A1 : (IZR k * IZR q <= r)%R). { rewrite <- mult_IZR. apply Rle_trans with (IZR n); auto. apply IZR_le. lia. }
  assert (A2 : (r < IZR k * (IZR q + 1))%R). { apply Rlt_le_trans with (IZR n + 1)%R; auto. rewrite <- plus_IZR. replace (IZR q + 1)%R with (IZR (q + 1)) by (rewrite plus_IZR; reflexivity). rewrite <- mult_IZR. apply IZR_le. nia. }
  split; [apply Rmult_le_reg_r with (IZR k)|apply Rmult_lt_reg_r with (IZR k)]; auto; unfold Rdiv; rewrite Rmult_assoc, Rinv_l by lra; lra.
Qed.
Lemma Rfloor_IZR n : Rfloor (IZR n) = n.
Proof. apply Rfloor_unique. lra. Qed.
Lemma Rfloor_ge0 r : (0 <= r)%R -> 0 <= Rfloor r.
Proof. intros H. pose proof (proj1 (Rfloor_spec r _) eq_refl) as [H1 H2]. apply Z.lt_succ_r. apply lt_IZR. rewrite succ_IZR. lra. Qed.
Lemma Rtrunc_pos r : (0 <= r)%R -> Rtrunc r = Rfloor r.
Proof. intros H. unfold Rtrunc. destruct (Rltb_spec r 0); auto. lra. Qed.
Lemma mod_R n k : 0 < k -> ((IZR n / IZR k - IZR (n / k)) * IZR k)%R = IZR (n mod k).
Proof.
  intros Hk. assert ((0 < IZR k)%R) by now apply (IZR_lt 0). rewrite (Zmod_eq n k) by lia. rewrite minus_IZR, mult_IZR. field. lra.
Qed.

Lemma to_byte_IZR n : 0 <= n < 256 -> to_byte (IZR n) = n.
Proof. intros H. unfold to_byte. rewrite Rtrunc_pos by (apply IZR_le; lia). rewrite Rfloor_IZR. unfold u8. apply Z.mod_small. lia. Qed.

(** The three bytes are the base-256 digits of the floor of the scaled height. *)
Lemma PackMapbox_digits p h : let n := Rfloor (10 * (h + 10000))%R in
  PackMapbox p h = mkPx (n / 65536 mod 256) (n / 256 mod 256) (n mod 256) 255.
Proof.
  cbv zeta. unfold PackMapbox. replace ((h + 10000) / (1 / 10))%R with (10 * (h + 10000))%R by field. set (v := (10 * (h + 10000))%R).
  pose proof (proj1 (Rfloor_spec v _) eq_refl) as [H1 H2]. set (n := Rfloor v) in *. unfold fl.
  rewrite !(Rfloor_div v 256) by lia. fold n. rewrite !(Rfloor_div (IZR (n / 256)) 256), !Rfloor_IZR by lia. rewrite (Rfloor_div (IZR (n / 256 / 256)) 256), Rfloor_IZR by lia.
  rewrite !mod_R by lia. rewrite Z.div_div by lia. change (256 * 256) with 65536.
  rewrite !to_byte_IZR by (apply Z.mod_pos_bound; lia). f_equal.
  unfold to_byte. assert (E : ((v / 256 - IZR (n / 256)) * 256 = v - IZR (256 * (n / 256)))%R) by (rewrite mult_IZR; field). rewrite E.
  assert (Q : n = 256 * (n / 256) + n mod 256) by (apply Z.div_mod; lia). pose proof (Z.mod_pos_bound n 256 ltac:(lia)) as B.
  assert (F : Rfloor (v - IZR (256 * (n / 256)))%R = n mod 256).
  { apply Rfloor_unique. rewrite Q in H1, H2. rewrite plus_IZR in H1, H2. lra. }
  rewrite Rtrunc_pos; [rewrite F; unfold u8; apply Z.mod_small; lia|].
  rewrite Q in H1. rewrite plus_IZR in H1. assert ((0 <= IZR (n mod 256))%R) by (apply IZR_le; lia). lra.
Qed.

Lemma digits24 n : 0 <= n < 2 ^ 24 -> n / 65536 mod 256 * 65536 + n / 256 mod 256 * 256 + n mod 256 = n.
Proof. Ltac Zify.zify_post_hook ::= Z.to_euclidean_division_equations. intros. lia. Qed.
Lemma digits24_mod n : n / 65536 mod 256 * 65536 + n / 256 mod 256 * 256 + n mod 256 = n mod 2 ^ 24.
Proof. intros. lia. Qed.
Ltac Zify.zify_post_hook ::= idtac.

Lemma decode_mapbox v : decode 0 v = (IZR (pR v * 65536 + pG v * 256 + pB v) / 10 - 10000)%R.
Proof. unfold decode, unpack_vector. cbn [Z.eqb]. rewrite !plus_IZR, !mult_IZR. field. Qed.
Lemma decode_terrarium e v : e <> 0 -> decode e v = (IZR (pR v * 256 + pG v) + IZR (pB v) / 256 - 32768)%R.
Proof. intros H. unfold decode, unpack_vector. destruct (Z.eqb_spec e 0); [contradiction|]. rewrite !plus_IZR, !mult_IZR. field. Qed.

Lemma PackTerrarium_digits h : (-32768 <= h < 32768)%R ->
  let n := Rfloor (256 * (h + 32768))%R in
  0 <= n < 2 ^ 24 /\ PackTerrarium h = mkPx (n / 65536) (n / 256 mod 256) (n mod 25) 255.
Proof.
  intros [H1 H2]. cbv zeta. unfold PackTerrarium. set (v := (h + 32768)%R). assert (V : (0 <= v < 65536)%R) by (unfold v; lra).
  set (n := Rfloor (256 * v)%R). assert (B : 0 <= n < 2 ^ 24).
  { split; [apply Rfloor_ge0; lra|]. apply lt_IZR. apply Rle_lt_trans with (256 * v)%R; [apply (proj1 (Rfloor_spec (256 * v) n) eq_refl)|]. change (2 ^ 24) with 16777216. lra. }
  split; auto. assert (E : Rfloor v = n / 256). { unfold n. rewrite <- Rfloor_div by lia. f_equal. field. }
  assert (E2 : Rfloor (v / 256) = n / 65536). { rewrite Rfloor_div, E by lia. rewrite Z.div_div by lia. reflexivity. }
  replace (v * 256)%R with (256 * v)%R by ring. rewrite !Rtrunc_pos by lra. unfold fl. rewrite E, E2. fold n.
  Ltac Zify.zify_post_hook ::= Z.to_euclidean_division_equations.
  rewrite to_byte_IZR by lia. rewrite !Z.rem_mod_nonneg by lia. unfold u8. f_equal; lia.
Qed.
