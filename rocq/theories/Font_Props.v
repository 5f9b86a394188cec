(** Fonts: language coverage, glyph ranges, glyph pictures. *)
From Coq Require Import ZArith Reals List Lia Lra Bool Permutation Sorting.
From Verif Require Import GoBase GoArr Num TileR_Model TileR_Proofs MvtProj_Model MvtProj_Proofs Sdf_Model Sdf_Spec Sdf_Proofs Sdf_Props Font_Model.
Import ListNotations.
Open Scope Z_scope.

(** ** C62 *)

(** Number of list elements satisfying a decidable predicate *)
Definition count {A} (p : A -> bool) (l : list A) : Z := Z.of_nat (length (filter p l)).
Definition inb (c : Z) (l : list Z) : bool := if in_dec Z.eq_dec c l then true else false.
(** first font that has the character *)
Definition first_in (c : Z) (before : list (list Z)) (f : list Z) : bool := inb c f && forallb (fun g => negb (inb c g)) before.

Lemma inb_true c l : inb c l = true <-> In c l.
Proof. unfold inb. destruct (in_dec Z.eq_dec c l); split; auto; discriminate. Qed.
Lemma existsb_inb c l : existsb (Z.eqb c) l = inb c l.
Proof.
  apply eq_true_iff_eq. rewrite existsb_exists, inb_true. split.
  - intros (x & Hx & E). apply Z.eqb_eq in E. subst. auto.
  - intros H. exists c. split; auto. apply Z.eqb_refl.
Qed.
Lemma key_set_in b c : In c (key_set b) <-> In c b.
Proof.
  unfold key_set. enough (G : forall m, In c (fold_left (fun m item => if existsb (Z.eqb item) m then m else m ++ [item]) b m) <-> In c m \/ In c b) by (rewrite G; cbn [In]; tauto).
  induction b as [|x b IH]; intros m; cbn [fold_left In]; [tauto|]. rewrite IH. rewrite existsb_inb. destruct (inb x m) eqn:E.
  - apply inb_true in E. split; [tauto|]. intros [H|[->|H]]; auto.
  - rewrite in_app_iff. cbn [In]. tauto.
Qed.
Lemma fold_filter {A} (p : A -> bool) l : forall acc, fold_left (fun d x => if p x then d else d ++ [x]) l acc = acc ++ filter (fun x => negb (p x)) l.
Proof.
  induction l as [|x l IH]; intros acc; cbn [fold_left filter]; [now rewrite app_nil_r|]. rewrite IH. destruct (p x); cbn [negb]; auto. now rewrite <- app_assoc.
Qed.
Lemma difference_filter a b : difference a b = filter (fun c => negb (inb c b)) a.
Proof.
  unfold difference. rewrite fold_filter. cbn [app]. apply filter_ext. intros c. f_equal. rewrite existsb_inb. apply eq_true_iff_eq. rewrite !inb_true. apply key_set_in.
Qed.
Lemma filter_split {A} (p : A -> bool) l : Z.of_nat (length (filter p l)) = zlen l - zlen (filter (fun x => negb (p x)) l).
Proof. unfold zlen. induction l as [|x l IH]; cbn [filter length]; [lia|]. destruct (p x); cbn [negb length]; lia. Qed.
Lemma filter_filter {A} (p q : A -> bool) l : filter p (filter q l) = filter (fun x => q x && p x) l.
Proof. induction l as [|x l IH]; cbn [filter]; auto. destruct (q x); cbn [filter andb]; [destruct (p x)|]; rewrite IH; auto. Qed.

Lemma filter_true {A} (l : list A) : filter (fun _ => true) l = l.
Proof. induction l; cbn [filter]; congruence. Qed.
Lemma cover_loop exs : forall pts before left covs,
  left = filter (fun c => forallb (fun g => negb (inb c g)) before) exs ->
  exists left' covs', fold_left cover_step pts (left, covs) = (left', covs ++ covs') /\
    left' = filter (fun c => forallb (fun g => negb (inb c g)) (before ++ pts)) exs /\ length covs' = length pts /\
    (forall i, (i < length pts)%nat -> nth i covs' 0 = count (fun c => first_in c (before ++ firstn i pts) (nth i pts [])) exs) /\
    fold_left Z.add covs' 0 = zlen left - zlen left'.
Proof.
  induction pts as [|p pts IH]; intros before left covs HL; cbn [fold_left].
  - exists left, []. rewrite !app_nil_r. repeat split; auto; cbn [fold_left length]; intros; lia.
  - unfold cover_step at 2. rewrite difference_filter. set (next := filter (fun c => negb (inb c p)) left).
    destruct (IH (before ++ [p]) next (covs ++ [zlen left - zlen next])) as (l' & c' & E & HL' & LL & HN & HS).
    { unfold next. rewrite HL, filter_filter. apply filter_ext. intros c. rewrite forallb_app. cbn [forallb]. now rewrite andb_true_r. }
    exists l', ((zlen left - zlen next) :: c'). split; [rewrite E, <- app_assoc; reflexivity|]. split; [rewrite HL', <- app_assoc; reflexivity|]. split; [cbn [length]; congruence|]. split.
    + intros [|i] Hi; cbn [nth firstn].
      * rewrite app_nil_r. unfold count, next. rewrite <- filter_split. f_equal. f_equal. rewrite HL, filter_filter. apply filter_ext. intros c. unfold first_in. apply andb_comm.
      * rewrite HN by (cbn [length] in Hi; lia). rewrite <- app_assoc. reflexivity.
    + cbn [fold_left]. assert (G : forall l a, fold_left Z.add l a = a + fold_left Z.add l 0).
      { induction l as [|x l IHl]; intros a; cbn [fold_left]; [lia|]. rewrite IHl, (IHl (0 + x)). lia. }
      rewrite G. rewrite HS. lia.
Qed.

Theorem C62_coverage : forall languages fonts,
  Forall2 (fun exs r =>
    lcTotal r = zlen exs /\
    lcCount r = count (fun c => existsb (fun f => inb c f) fonts) exs /\
    length (lcCoverages r) = length fonts /\
    (forall i, (i < length fonts)%nat -> nth i (lcCoverages r) 0 = count (fun c => first_in c (firstn i fonts) (nth i fonts [])) exs))
    languages (coverage languages fonts).
Proof.
  intros languages fonts. unfold coverage. induction languages as [|exs languages IH]; cbn [map]; constructor; auto.
  unfold cover_language. destruct (cover_loop exs fonts [] exs []) as (l' & c' & E & HL & LL & HN & HS).
  { cbn [forallb]. now rewrite filter_true. }
  rewrite E. cbn [app lcTotal lcCount lcCoverages] in *. repeat split; auto.
  rewrite HS, HL. unfold count. rewrite filter_split. f_equal. f_equal. apply filter_ext. intros c. clear. induction fonts as [|f fonts IH]; cbn [forallb existsb]; auto.
  rewrite IH, negb_orb. reflexivity.
Qed.
Print Assumptions C62_coverage.

(** The count does not depend on the order of the fonts. *)
Theorem C62_order_irrelevant : forall languages fonts fonts', Permutation fonts fonts' ->
  map lcCount (coverage languages fonts) = map lcCount (coverage languages fonts').
Proof.
  intros L f f' P. pose proof (C62_coverage L f) as H1. pose proof (C62_coverage L f') as H2. unfold coverage in *. rewrite !map_map in *.
  induction L as [|exs L IH]; cbn [map] in *; auto. inversion H1 as [|? ? ? ? (_ & A & _) B]; inversion H2 as [|? ? ? ? (_ & A' & _) B']; subst. f_equal; auto.
  rewrite A, A'. unfold count. f_equal. f_equal. apply filter_ext. intros c. apply eq_true_iff_eq. rewrite !existsb_exists.
  split; intros (x & Hx & Hi); exists x; split; auto; [eapply Permutation_in; eauto|eapply Permutation_in; [apply Permutation_sym|]; eauto].
Qed.
Print Assumptions C62_order_irrelevant.
Example C62_nonvacuous : coverage [[1; 2; 3; 4]] [[2; 9]; [2; 3]; []] = [mkLC 4 2 [1; 1; 0]].
Proof. reflexivity. Qed.

(** ** C63 *)

(** A code point the font can show *)
Definition renderable (f : font) (x : Z) : Prop :=
  x <> 0 /\ fIndex f x <> 0 /\ exists b, fFace f x = Some b /\ fx0 b < fx1 b /\ fy0 b < fy1 b.
(** The face reports sane rectangles and the canvas drawn has the requested size and 16-bit alphas. *)
Definition sane (f : font) : Prop :=
  (forall x b, fFace f x = Some b -> 0 <= fx1 b - fx0 b < 2 ^ 31 /\ 0 <= fy1 b - fy0 b < 2 ^ 31 /\ - 2 ^ 31 < fy0 b < 2 ^ 31 /\ in_i32 (fx0 b) /\ in_u32 (fadv b)) /\
  (forall x m w h, length (fDraw f x m w h) = (w * h)%nat /\ forall a, In a (fDraw f x m w h) -> 0 <= a <= 65535).
(** The message for code point x *)
Definition glyph_of (f : font) (buffer x : Z) (g : Glyph) : Prop :=
  exists b, fFace f x = Some b /\ gId g = x mod 2 ^ 32 /\ gWidth g = fx1 b - fx0 b /\ gHeight g = fy1 b - fy0 b /\
    gLeft g = fx0 b /\ gTop g = - fy0 b /\ gAdvance g = fadv b /\ zlen (gBitmap g) = (gWidth g + 2 * buffer) * (gHeight g + 2 * buffer).

Lemma renderable_dec f x : {renderable f x} + {~ renderable f x}.
Proof.
  unfold renderable. destruct (Z.eq_dec x 0) as [->|H0]; [right; tauto|]. destruct (Z.eq_dec (fIndex f x) 0) as [H1|H1]; [right; tauto|].
  destruct (fFace f x) as [b|] eqn:E; [|right; intros (_ & _ & b & H & _); discriminate].
  destruct (Z_lt_dec (fx0 b) (fx1 b)); [|right; intros (_ & _ & b' & H & H' & _); inversion H; subst; tauto].
  destruct (Z_lt_dec (fy0 b) (fy1 b)); [|right; intros (_ & _ & b' & H & _ & H'); inversion H; subst; tauto].
  left. split; auto. split; auto. exists b. auto.
Qed.

Lemma mk_glyph_ok f buffer x : sane f -> 1 <= buffer < 2 ^ 31 ->
  (renderable f x -> exists g, mk_glyph f buffer x = Ok (Some g) /\ glyph_of f buffer x g) /\ (~ renderable f x -> mk_glyph f buffer x = Ok None).
Proof.
  intros [SF SD] Hb. unfold mk_glyph. split.
  - intros (H0 & H1 & b & E & HX & HY). destruct (SF x b E) as (S1 & S2 & S3 & S4 & S5).
    destruct (Z.eqb_spec x 0); [tauto|]. destruct (Z.eqb_spec (fIndex f x) 0); [tauto|]. rewrite E.
    rewrite !u32_id by (unfold in_u32 in *; lia).
    destruct (Z.eqb_spec (fx1 b - fx0 b) 0); [lia|]. destruct (Z.eqb_spec (fy1 b - fy0 b) 0); [lia|]. cbn [orb].
    set (w := Z.to_nat (Z.abs (fx1 b - fx0 b + buffer * 2))). set (h := Z.to_nat (Z.abs (fy1 b - fy0 b + buffer * 2))).
    destruct (C61_sdf_formula w h (fDraw f x buffer w h) 8 (1 / 4)) as (bm & Ebm & Lbm & _); try (unfold w, h; lia).
    { apply SD. }
    { rewrite INR_IZR_INZ. replace (10 ^ 20)%R with 100000000000000000000%R by lra. apply IZR_le. unfold w, h. lia. }
    { apply SD. }
    rewrite Ebm. cbn [bind]. eexists. split; [reflexivity|]. exists b. cbn [gId gWidth gHeight gLeft gTop gAdvance gBitmap].
    rewrite (wrap32_id (fx0 b)) by auto. rewrite (wrap32_id (fy0 b)) by (unfold in_i32; lia). rewrite (wrap32_id (- fy0 b)) by (unfold in_i32; lia).
    rewrite (u32_id (fadv b)) by auto. split; [auto|]. split; [reflexivity|]. repeat (split; [auto|]). unfold zlen. rewrite Lbm. unfold w, h. nia.
  - intros N. destruct (Z.eqb_spec x 0); auto. destruct (Z.eqb_spec (fIndex f x) 0); auto. destruct (fFace f x) as [b|] eqn:E; auto.
    destruct (SF x b E) as (S1 & S2 & _). rewrite !u32_id by (unfold in_u32 in *; lia).
    destruct (Z.eqb_spec (fx1 b - fx0 b) 0); cbn [orb]; auto. destruct (Z.eqb_spec (fy1 b - fy0 b) 0); auto.
    exfalso. apply N. split; auto. split; auto. exists b. split; auto. lia.
Qed.

Lemma zseq_sorted n : forall a, StronglySorted Z.lt (zseq a n).
Proof. induction n as [|n IH]; intros a; cbn [zseq]; constructor; auto. apply Forall_forall. intros x Hx. apply zseq_in in Hx. lia. Qed.
Lemma filter_sorted (p : Z -> bool) l : StronglySorted Z.lt l -> StronglySorted Z.lt (filter p l).
Proof.
  induction 1 as [|a l H IH HF]; cbn [filter]; [constructor|]. destruct (p a); auto. constructor; auto.
  rewrite Forall_forall in *. intros x Hx. apply filter_In in Hx. apply HF. tauto.
Qed.

Theorem C63_glyph_range : forall f buffer min max, sane f -> 1 <= buffer < 2 ^ 31 -> - 2 ^ 31 <= min -> max <= 2 ^ 31 ->
  exists xs gs, GlyphsList f buffer min max = Ok gs /\
    StronglySorted Z.lt xs /\ (forall x, In x xs <-> min <= x < max /\ renderable f x) /\ Forall2 (glyph_of f buffer) xs gs.
Proof.
  intros f buffer min max SF Hb Hmin Hmax. set (p := fun x => if renderable_dec f x then true else false).
  assert (R : forall x, p x = true <-> renderable f x) by (intros x; unfold p; destruct (renderable_dec f x); split; auto; discriminate).
  exists (filter p (zseq min (Z.to_nat (max - min)))).
  assert (G : forall l acc, (forall x, In x l -> in_i32 x) ->
     exists gs, for_each (fun acc i => let! g := mk_glyph f buffer (wrap32 i) in match g with Some g => Ok (acc ++ [g]) | None => Ok acc end) l acc = Ok (acc ++ gs) /\
       Forall2 (glyph_of f buffer) (filter p l) gs).
  { induction l as [|x l IH]; intros acc Hl; cbn [for_each filter].
    - exists []. rewrite app_nil_r. split; auto.
    - rewrite wrap32_id by (apply Hl; now left). destruct (mk_glyph_ok f buffer x SF Hb) as [H1 H2].
      destruct (p x) eqn:E.
      + destruct (H1 (proj1 (R x) E)) as (g & Eg & Hg). rewrite Eg. cbn [bind]. destruct (IH (acc ++ [g])) as (gs & E1 & F); [intros; apply Hl; now right|].
        exists (g :: gs). rewrite E1, <- app_assoc. split; auto.
      + rewrite H2 by (intros K; apply R in K; congruence). cbn [bind]. apply IH. intros; apply Hl; now right. }
  destruct (G (zseq min (Z.to_nat (max - min))) []) as (gs & E & F).
  { intros x Hx. apply zseq_in in Hx. unfold in_i32. lia. }
  exists gs. split; [exact E|]. split; [apply filter_sorted, zseq_sorted|]. split; auto.
  intros x. rewrite filter_In, zseq_in, R. split; intros [? ?]; split; auto; lia.
Qed.
Print Assumptions C63_glyph_range.

(** Code points beyond int32 wrap around: the range 2^32.. shows the glyphs of 0.. *)
Theorem C63_range_wraps : forall f buffer min max, GlyphsList f buffer (min + 2 ^ 32) (max + 2 ^ 32) = GlyphsList f buffer min max.
Proof.
  intros f buffer min max. unfold GlyphsList. replace (max + 2 ^ 32 - (min + 2 ^ 32)) with (max - min) by lia.
  generalize (Z.to_nat (max - min)) as n. intros n. set (st := fun acc i => _).
  enough (G : forall acc, for_each st (zseq (min + 2 ^ 32) n) acc = for_each st (zseq min n) acc) by apply G.
  revert min. induction n as [|n IH]; intros min acc; cbn [zseq for_each]; auto. unfold st at 1 3.
  assert (E : wrap32 (min + 2 ^ 32) = wrap32 min). { unfold wrap32. f_equal. replace (min + 2 ^ 32 + 2 ^ 31) with (min + 2 ^ 31 + 1 * 2 ^ 32) by lia. apply Z.mod_add. lia. }
  rewrite E. replace (min + 2 ^ 32 + 1) with (min + 1 + 2 ^ 32) by lia. destruct (mk_glyph f buffer (wrap32 min)) as [[g|]| |]; cbn [bind]; try apply IH; reflexivity.
Qed.
Print Assumptions C63_range_wraps.

(** Without a margin (0 < Buffer < 1) a glyph one pixel wide and evenly covered panics, and so does every range holding it. *)
Theorem C63_no_margin_panics : forall f x b a, fIndex f x <> 0 -> x <> 0 -> in_i32 x -> fFace f x = Some b -> fx1 b - fx0 b = 1 -> 0 < fy1 b - fy0 b < 2 ^ 32 ->
  0 <= a <= 65535 -> fDraw f x 0 1 (Z.to_nat (fy1 b - fy0 b)) = repeat a (Z.to_nat (fy1 b - fy0 b)) ->
  mk_glyph f 0 x = Panic /\ GlyphsList f 0 x (x + 1) = Panic.
Proof.
  intros f x b a H1 H2 H3 E HX HY Ha HD.
  assert (G : mk_glyph f 0 x = Panic).
  { unfold mk_glyph. destruct (Z.eqb_spec x 0); [tauto|]. destruct (Z.eqb_spec (fIndex f x) 0); [tauto|]. rewrite E. rewrite !u32_id by (unfold in_u32; lia). rewrite HX.
    change (1 =? 0) with false. destruct (Z.eqb_spec (fy1 b - fy0 b) 0); [lia|]. cbn [orb]. replace (fy1 b - fy0 b + 0 * 2) with (fy1 b - fy0 b) by lia.
    change (Z.to_nat (Z.abs (1 + 0 * 2))) with 1%nat. rewrite Z.abs_eq by lia. rewrite HD.
    rewrite (proj1 (C61_thin_image_panics (Z.to_nat (fy1 b - fy0 b)) a 8 (1 / 4) ltac:(lia) Ha)). reflexivity. }
  split; auto. unfold GlyphsList. replace (x + 1 - x) with 1 by lia. change (Z.to_nat 1) with 1%nat. cbn [zseq for_each]. rewrite wrap32_id by auto. rewrite G. reflexivity.
Qed.
Print Assumptions C63_no_margin_panics.

Definition demo_font : font := mkFont (fun x => if x =? 65 then 7 else if x =? 70 then 8 else 0) (fun x => Some (mkFG 0 (-2) 3 2 5)) (fun _ _ w h => repeat 65535 (w * h)).
Example C63_nonvacuous : sane demo_font /\ renderable demo_font 65 /\ renderable demo_font 70 /\
  exists g, GlyphsList demo_font 3 60 70 = Ok [g] /\ gId g = 65.
Proof.
  assert (S : sane demo_font).
  { split; cbn [fFace demo_font fDraw].
    - intros x b E. inversion E. cbn. unfold in_i32, in_u32. lia.
    - intros x m w h. split; [apply repeat_length|]. intros a Ha. apply repeat_spec in Ha. lia. }
  split; auto. assert (R : forall x, renderable demo_font x <-> x = 65 \/ x = 70).
  { intros x. unfold renderable, demo_font. cbn [fIndex fFace]. split.
    - intros (_ & H & _). destruct (Z.eqb_spec x 65); auto. destruct (Z.eqb_spec x 70); auto. tauto.
    - intros [->| ->]; cbn; repeat split; try lia; eexists; (split; [reflexivity|cbn; lia]). }
  split; [apply R; auto|]. split; [apply R; auto|].
  destruct (C63_glyph_range demo_font 3 60 70 S ltac:(lia) ltac:(lia) ltac:(lia)) as (xs & gs & E & SS & I & F).
  assert (X : xs = [65]).
  { destruct xs as [|a [|b xs]].
    - exfalso. apply (proj2 (I 65)). split; [lia|apply R; auto].
    - f_equal. assert (H : In a [a]) by now left. apply I in H. rewrite R in H. lia.
    - exfalso. assert (H : In a (a :: b :: xs)) by now left. assert (H' : In b (a :: b :: xs)) by (right; now left). apply I in H, H'. rewrite R in H, H'.
      inversion SS as [|? ? _ FF]. inversion FF. lia. }
  subst xs. inversion F as [|? g ? gs' (b & _ & Hid & _) F']; subst. inversion F'; subst. exists g. split; auto.
Qed.

(** ** C85 *)

(** DrawGlyph shows the first (width+6)*(height+6) bytes of the bitmap, and panics when there are fewer. *)
Lemma row_ok (bm : list Z) (h : Z -> Z) n : forall off img, 0 <= off ->
  for_each (fun img x => let! a := nth_res bm (x + off) in Ok (img ++ [h a])) (zseq 0 n) img =
  if (off + Z.of_nat n <=? zlen bm) || (n =? 0)%nat then Ok (img ++ map h (firstn n (skipn (Z.to_nat off) bm))) else Panic.
Proof.
  intros off img Hoff. enough (G : forall n a img, 0 <= a ->
    for_each (fun img x => let! v := nth_res bm (x + off) in Ok (img ++ [h v])) (zseq a n) img =
    if (a + off + Z.of_nat n <=? zlen bm) || (n =? 0)%nat then Ok (img ++ map h (firstn n (skipn (Z.to_nat (a + off)) bm))) else Panic).
  { rewrite G by lia. reflexivity. }
  clear n img. induction n as [|n IH]; intros a img Ha; cbn [zseq for_each].
  - rewrite orb_true_r. cbn [firstn map]. now rewrite app_nil_r.
  - unfold nth_res. destruct (Z.ltb_spec (a + off) 0); [lia|]. change (S n =? 0)%nat with false. rewrite orb_false_r.
    destruct (nth_error bm (Z.to_nat (a + off))) as [v|] eqn:E.
    + assert (L : (Z.to_nat (a + off) < length bm)%nat) by (apply nth_error_Some; congruence). cbn [bind]. rewrite IH by lia.
      assert (Sk : skipn (Z.to_nat (a + off)) bm = v :: skipn (Z.to_nat (a + 1 + off)) bm).
      { replace (Z.to_nat (a + 1 + off)) with (S (Z.to_nat (a + off))) by lia. clear -E. revert E. generalize (Z.to_nat (a + off)) as k. induction bm as [|c bm IHb]; intros [|k] E; cbn in *; try discriminate; [congruence|auto]. }
      rewrite Sk. cbn [firstn map]. rewrite <- app_assoc. cbn [app]. unfold zlen.
      destruct n as [|n].
      * rewrite orb_true_r. destruct (Z.leb_spec (a + off + Z.of_nat 1) (Z.of_nat (length bm))); [reflexivity|lia].
      * rewrite orb_false_r. replace (a + 1 + off + Z.of_nat (S n)) with (a + off + Z.of_nat (S (S n))) by lia. reflexivity.
    + apply nth_error_None in E. cbn [bind]. unfold zlen. destruct (Z.leb_spec (a + off + Z.of_nat (S n)) (Z.of_nat (length bm))); [lia|reflexivity].
Qed.

Lemma firstn_skipn_add {A} (l : list A) a b : firstn a l ++ firstn b (skipn a l) = firstn (a + b) l.
Proof. revert l. induction a as [|a IH]; intros [|x l]; cbn; auto; [now rewrite firstn_nil|]. now rewrite IH. Qed.

Lemma skipn_add {A} (l : list A) a b : skipn a (skipn b l) = skipn (a + b) l.
Proof. revert l. induction b as [|b IH]; intros l; [now rewrite Nat.add_0_r|]. rewrite Nat.add_succ_r. destruct l; cbn [skipn]; [now rewrite skipn_nil|auto]. Qed.
Lemma rows_ok (bm : list Z) (h : Z -> Z) w : (0 < w)%nat -> forall n y img, 0 <= y ->
  for_each (fun img y => for_each (fun img x => let! a := nth_res bm (x + y * Z.of_nat w) in Ok (img ++ [h a])) (zseq 0 w) img) (zseq y n) img =
  if (y * Z.of_nat w + Z.of_nat w * Z.of_nat n <=? zlen bm) || (n =? 0)%nat then Ok (img ++ map h (firstn (w * n) (skipn (Z.to_nat (y * Z.of_nat w)) bm))) else Panic.
Proof.
  intros Hw. induction n as [|n IH]; intros y img Hy; cbn [zseq for_each].
  - rewrite orb_true_r, Nat.mul_0_r. cbn [firstn map]. now rewrite app_nil_r.
  - rewrite row_ok by lia. change (S n =? 0)%nat with false. rewrite orb_false_r. replace (w =? 0)%nat with false by (symmetry; apply Nat.eqb_neq; lia). rewrite orb_false_r.
    destruct (Z.leb_spec (y * Z.of_nat w + Z.of_nat w) (zlen bm)) as [H|H]; cbn [bind].
    + rewrite IH by lia. rewrite <- app_assoc, <- map_app.
      replace (Z.to_nat ((y + 1) * Z.of_nat w)) with (w + Z.to_nat (y * Z.of_nat w))%nat by nia.
      rewrite <- skipn_add, firstn_skipn_add. replace (w * S n)%nat with (w + w * n)%nat by nia.
      destruct n as [|n].
      * rewrite orb_true_r. destruct (Z.leb_spec (y * Z.of_nat w + Z.of_nat w * Z.of_nat 1) (zlen bm)); [reflexivity|nia].
      * rewrite orb_false_r. replace ((y + 1) * Z.of_nat w + Z.of_nat w * Z.of_nat (S n)) with (y * Z.of_nat w + Z.of_nat w * Z.of_nat (S (S n))) by nia. reflexivity.
    + destruct (Z.leb_spec (y * Z.of_nat w + Z.of_nat w * Z.of_nat (S n)) (zlen bm)); [nia|reflexivity].
Qed.

Theorem C85_draw_glyph : forall g smooth, 0 <= gWidth g < 2 ^ 32 - 6 -> 0 <= gHeight g < 2 ^ 32 - 6 ->
  DrawGlyph g smooth =
  if (gWidth g + 6) * (gHeight g + 6) <=? zlen (gBitmap g)
  then Ok (map (fun a => if smooth then alpha 136 168 (IZR a) else a) (firstn (Z.to_nat ((gWidth g + 6) * (gHeight g + 6))) (gBitmap g)))
  else Panic.
Proof.
  intros g smooth Hw Hh. unfold DrawGlyph. rewrite !u32_id by (unfold in_u32; lia).
  set (w := Z.to_nat (gWidth g + 6)). set (h := Z.to_nat (gHeight g + 6)). replace (gWidth g + 6) with (Z.of_nat w) by (unfold w; lia). replace (gHeight g + 6) with (Z.of_nat h) by (unfold h; lia).
  pose proof (rows_ok (gBitmap g) (fun a => if smooth then alpha 136 168 (IZR a) else a) w ltac:(unfold w; lia) h 0 [] ltac:(lia)) as E. cbv beta in E. rewrite E.
  replace (h =? 0)%nat with false by (symmetry; apply Nat.eqb_neq; unfold h; lia). rewrite orb_false_r. rewrite Z.mul_0_l, Z.add_0_l. cbn [Z.to_nat skipn app].
  replace (Z.to_nat (Z.of_nat w * Z.of_nat h)) with (w * h)%nat by nia. reflexivity.
Qed.
Print Assumptions C85_draw_glyph.

(** So a glyph made with margin b is drawn iff b >= 3, and only b = 3 shows its bitmap. *)
Theorem C85_margin : forall g smooth b, 1 <= gWidth g < 2 ^ 32 - 6 -> 1 <= gHeight g < 2 ^ 32 - 6 -> 0 <= b -> zlen (gBitmap g) = (gWidth g + 2 * b) * (gHeight g + 2 * b) ->
  (DrawGlyph g smooth = Panic <-> b < 3) /\
  (DrawGlyph g false = Ok (gBitmap g) <-> b = 3).
Proof.
  intros g smooth b Hw Hh Hb L. rewrite !C85_draw_glyph by lia. rewrite L. destruct (Z.leb_spec ((gWidth g + 6) * (gHeight g + 6)) ((gWidth g + 2 * b) * (gHeight g + 2 * b))) as [H|H].
  - assert (B : 3 <= b) by nia. split; [split; [discriminate|lia]|]. rewrite map_id. split.
    + intros E. assert (E' : firstn (Z.to_nat ((gWidth g + 6) * (gHeight g + 6))) (gBitmap g) = gBitmap g) by congruence.
      apply (f_equal (@length Z)) in E'. rewrite firstn_length in E'. unfold zlen in L. nia.
    + intros ->. f_equal. apply firstn_all2. unfold zlen in L. nia.
  - assert (B : b < 3) by nia. split; [tauto|]. split; [discriminate|lia].
Qed.
Print Assumptions C85_margin.
Example C85_nonvacuous : DrawGlyph (mkGlyph 65 1 1 0 0 1 (map Z.of_nat (seq 0 49))) false = Ok (map Z.of_nat (seq 0 49)).
Proof. vm_compute. reflexivity. Qed.

(** ** C86 *)

Lemma alpha_low x : (x <= 168)%R -> alpha 136 168 x = 0.
Proof.
  intros H. unfold alpha. replace ((x - 168) / (168 - 136))%R with ((x - 168) / 32)%R by (f_equal; lra). rewrite (Rmin_left ((x - 168) / 32) 1) by lra. rewrite Rmax_right by lra.
  apply Rfloor_unique. lra.
Qed.
Lemma alpha_high x : (200 <= x)%R -> alpha 136 168 x = Rfloor x.
Proof.
  intros H. unfold alpha. replace ((x - 168) / (168 - 136))%R with ((x - 168) / 32)%R by (f_equal; lra). rewrite (Rmin_right ((x - 168) / 32) 1) by lra. rewrite Rmax_left by lra.
  f_equal. lra.
Qed.
Lemma smooth_mono s t : (0 <= s -> s <= t -> t <= 1 -> s * s * (3 - 2 * s) <= t * t * (3 - 2 * t))%R.
Proof.
  intros. assert (0 <= 3 * (t + s) - 2 * (t * t + t * s + s * s))%R by nra.
  replace (t * t * (3 - 2 * t))%R with (s * s * (3 - 2 * s) + (t - s) * (3 * (t + s) - 2 * (t * t + t * s + s * s)))%R by ring.
  pose proof (Rmult_le_pos (t - s) _ ltac:(lra) H2). lra.
Qed.
Lemma smooth_range s : (0 <= s <= 1 -> 0 <= s * s * (3 - 2 * s) <= 1)%R.
Proof. intros. pose proof (smooth_mono s 1 ltac:(lra) ltac:(lra) ltac:(lra)). pose proof (smooth_mono 0 s ltac:(lra) ltac:(lra) ltac:(lra)). lra. Qed.
Lemma Rfloor_mono x y : (x <= y)%R -> Rfloor x <= Rfloor y.
Proof.
  intros H. pose proof (proj1 (Rfloor_spec x _) eq_refl). pose proof (proj1 (Rfloor_spec y _) eq_refl).
  apply Z.lt_succ_r. apply lt_IZR. rewrite succ_IZR. lra.
Qed.
Lemma ramp_range x : (0 <= Rmax (Rmin ((x - 168) / (168 - 136)) 1) 0 <= 1)%R.
Proof. unfold Rmax, Rmin. destruct (Rle_dec _ 1), (Rle_dec _ 0); lra. Qed.
Lemma ramp_mono x y : (x <= y)%R -> (Rmax (Rmin ((x - 168) / (168 - 136)) 1) 0 <= Rmax (Rmin ((y - 168) / (168 - 136)) 1) 0)%R.
Proof.
  intros H. assert (((x - 168) / (168 - 136) <= (y - 168) / (168 - 136))%R) by lra.
  apply Rle_max_compat_r. apply Rle_min_compat_r. auto.
Qed.

Theorem C86_edge_ramp : forall x y, 0 <= x <= y ->
  (x <= 168 -> alpha 136 168 (IZR x) = 0) /\ (200 <= x -> alpha 136 168 (IZR x) = x) /\ 0 <= alpha 136 168 (IZR x) <= x /\ alpha 136 168 (IZR x) <= alpha 136 168 (IZR y).
Proof.
  intros x y [H0 H1]. split; [intros H; apply alpha_low; now apply IZR_le|]. split.
  { intros H. rewrite alpha_high by (now apply IZR_le). apply Rfloor_unique. lra. }
  apply IZR_le in H0, H1. pose proof (ramp_range (IZR x)) as R1. pose proof (ramp_range (IZR y)) as R2. pose proof (ramp_mono _ _ H1) as R3. unfold alpha. cbv zeta.
  set (s := Rmax (Rmin ((IZR x - 168) / (168 - 136)) 1) 0) in *. set (t := Rmax (Rmin ((IZR y - 168) / (168 - 136)) 1) 0) in *.
  pose proof (smooth_range s R1) as S1. pose proof (smooth_mono s t ltac:(lra) R3 ltac:(lra)) as S2.
  set (u := (s * s * (3 - 2 * s))%R) in *. set (v := (t * t * (3 - 2 * t))%R) in *. split; [split|].
  - change 0 with (Rfloor 0%R) || replace 0 with (Rfloor 0%R) by (apply Rfloor_unique; lra). apply Rfloor_mono. nra.
  - rewrite <- (Rfloor_unique (IZR x) x) at 2 by lra. apply Rfloor_mono. nra.
  - apply Rfloor_mono. nra.
Qed.
Print Assumptions C86_edge_ramp.

(** The argument order makes the ramp start at the second edge: nothing between the two edges 136 and 168 is visible. *)
Theorem C86_first_edge_ignored : forall x, 136 <= x <= 168 -> alpha 136 168 (IZR x) = 0.
Proof. intros x H. apply (C86_edge_ramp x x); lia. Qed.
Print Assumptions C86_first_edge_ignored.

(** A glyph that is fully opaque or transparent everywhere is drawn with its outside invisible and its inside unchanged. *)
Theorem C86_bilevel_picture : forall w h alphas bs,
  (2 <= w)%nat -> (2 <= h)%nat -> length alphas = (w * h)%nat -> (INR (Nat.max w h) <= 10 ^ 20)%R -> (forall a, In a alphas -> a = 0 \/ a = 65535) ->
  CalcSDF w h alphas 8 (1 / 4) = Ok bs ->
  forall x y, (x < w)%nat -> (y < h)%nat ->
    let b := nth (y * w + x) bs 0 in
    (nth (y * w + x) alphas 0 = 65535 -> alpha 136 168 (IZR b) = b /\ 223 <= b) /\
    (nth (y * w + x) alphas 0 = 0 -> alpha 136 168 (IZR b) = 0).
Proof.
  intros w h al bs Hw Hh Hl Hm Ha E x y Hx Hy b.
  destruct (C61_bilevel_separates w h al bs Hw Hh Hl Hm Ha E x y Hx Hy) as [H1 H2].
  destruct (C61_sdf_formula w h al 8 (1 / 4) Hw Hh Hl Hm) as (bs' & E' & _ & F). { intros a Hi. destruct (Ha a Hi); lia. }
  rewrite E in E'. injection E' as <-. destruct (F x y Hx Hy) as (mo & mi & _ & _ & CR & _). fold b in CR, H1, H2.
  destruct (C86_edge_ramp b b ltac:(lia)) as (L & U & _). split; intros K; [specialize (H1 K)|specialize (H2 K)]; auto. split; auto. apply U. lia. apply L. lia.
Qed.
Print Assumptions C86_bilevel_picture.
Example C86_nonvacuous : alpha 136 168 184 = 92.
Proof.
  unfold alpha. replace ((184 - 168) / (168 - 136))%R with (1 / 2)%R by lra. rewrite (Rmin_left (1 / 2) 1) by lra. rewrite Rmax_left by lra.
  apply Rfloor_unique. lra.
Qed.

(** ** C87 *)

(** The last value that is set, or the default *)
Definition nonzero (r : R) : bool := if Req_EM_T r 0 then false else true.
Theorem C87_builder_options : forall opts,
  oFontSize (builder_opts opts) = last (filter nonzero (map oFontSize opts)) 64%R /\
  oBuffer (builder_opts opts) = last (filter nonzero (map oBuffer opts)) 3%R.
Proof.
  intros opts. unfold builder_opts.
  assert (LA : forall (l : list R) a b d d', last (a :: l) d = last (a :: l) d' /\ last (b :: a :: l) d = last (a :: l) d).
  { intros l. induction l as [|x l IH]; intros a b d d'; split; auto. change (last (x :: l) d = last (x :: l) d'). apply (IH x b). }
  enough (G : forall o, let r := fold_left (fun b opt => let b := if Reqb (oFontSize opt) 0 then b else mkOpt (oFontSize opt) (oBuffer b) in
      if Reqb (oBuffer opt) 0 then b else mkOpt (oFontSize b) (oBuffer opt)) opts o in
      oFontSize r = last (filter nonzero (map oFontSize opts)) (oFontSize o) /\ oBuffer r = last (filter nonzero (map oBuffer opts)) (oBuffer o)).
  { specialize (G (mkOpt 0 0)). cbv zeta in G. destruct G as [G1 G2]. cbn [oFontSize oBuffer] in G1, G2. cbv zeta.
    set (r := fold_left _ opts (mkOpt 0 0)) in *.
    assert (NZ : forall l, last (filter nonzero l) 0%R = 0%R -> filter nonzero l = []).
    { intros l. assert (Al : forall x, In x (filter nonzero l) -> x <> 0%R) by (intros x Hx; apply filter_In in Hx; unfold nonzero in Hx; destruct (Req_EM_T x 0); [destruct Hx; discriminate|auto]).
      destruct (filter nonzero l) as [|a m] eqn:E; auto. intros HL. exfalso. apply (Al (last (a :: m) 0%R)); auto.
      assert (N : a :: m <> []) by discriminate. rewrite (app_removelast_last 0%R N) at 2. apply in_or_app. right. now left. }
    assert (P : forall l d, last (filter nonzero l) 0%R <> 0%R -> last (filter nonzero l) 0%R = last (filter nonzero l) d).
    { intros l d HN. destruct (filter nonzero l) as [|a m]; [cbn in HN; lra|]. apply (LA m a a). }
    destruct (Reqb_spec (oFontSize r) 0) as [E1|E1]; cbn [oFontSize oBuffer]; destruct (Reqb_spec (oBuffer r) 0) as [E2|E2]; cbn [oFontSize oBuffer];
      rewrite G1, G2 in *; (split; [first [rewrite NZ by auto; reflexivity|apply P; auto]|first [rewrite NZ by auto; reflexivity|apply P; auto]]). }
  induction opts as [|o opts IH]; intros b; cbn [fold_left map filter]; cbv zeta; [split; reflexivity|].
  destruct (IH (let b := if Reqb (oFontSize o) 0 then b else mkOpt (oFontSize o) (oBuffer b) in if Reqb (oBuffer o) 0 then b else mkOpt (oFontSize b) (oBuffer o))) as [I1 I2].
  cbv zeta in I1, I2. rewrite I1, I2. assert (NR : forall r, nonzero r = negb (Reqb r 0)) by (intros r; unfold nonzero; destruct (Req_EM_T r 0), (Reqb_spec r 0); auto; contradiction). rewrite !NR.
  assert (C : forall a l d, last (filter nonzero l) a = last (a :: filter nonzero l) d).
  { intros a l d. destruct (filter nonzero l) as [|c m]; auto. change (last (a :: c :: m) d) with (last (c :: m) d). apply (LA m c c). }
  destruct (Reqb_spec (oFontSize o) 0), (Reqb_spec (oBuffer o) 0); cbn [oFontSize oBuffer negb]; split; auto.
Qed.
Print Assumptions C87_builder_options.
Example C87_nonvacuous : builder_opts [mkOpt 24 0; mkOpt 0 5; mkOpt 12 0] = mkOpt 12 5.
Proof.
  assert (Z0 : Reqb 0 0 = true) by (apply Reqb_true; lra).
  assert (N : forall r, (0 < r)%R -> Reqb r 0 = false) by (intros r H; destruct (Reqb_spec r 0); auto; lra).
  unfold builder_opts. cbn [fold_left oFontSize oBuffer]. repeat (rewrite ?Z0, ?(N 24%R), ?(N 5%R), ?(N 12%R) by lra; cbn [oFontSize oBuffer]). reflexivity.
Qed.
