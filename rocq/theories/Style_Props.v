(** Zoom functions, layer validation, style sets and filters. *)
From Coq Require Import String ZArith Reals List Lia Lra Bool Permutation Sorted.
From Verif Require Import GoBase Num TileR_Model TileR_Proofs MvtProj_Proofs Raster_Model Raster_Proofs Json Style_Model.
Import ListNotations.
Open Scope R_scope.

(** ** C47 *)

(** Interpolation weight of the style specification: linear for base 1, exponential otherwise *)
Definition weight (base za zb z : R) : R :=
  if Req_EM_T base 1 then (z - za) / (zb - za) else (Rpower base (z - za) - 1) / (Rpower base (zb - za) - 1).

Lemma Rpower_1_l b : Rpower b 0 = 1.
Proof. unfold Rpower. rewrite Rmult_0_l. apply exp_0. Qed.
Lemma Rpower_mono_up b x y : 1 < b -> x < y -> Rpower b x < Rpower b y.
Proof. intros. apply Rpower_lt; auto. Qed.
Lemma Rpower_mono_down b x y : 0 < b < 1 -> x < y -> Rpower b y < Rpower b x.
Proof.
  intros Hb H. unfold Rpower. apply exp_increasing. assert (ln b < 0) by (rewrite <- ln_1; apply ln_increasing; lra). nra.
Qed.

Lemma gopow_pos b x : 0 < b -> gopow b x = Rpower b x.
Proof. intros H. unfold gopow. destruct (Reqb_spec x 0) as [->|]; [now rewrite Rpower_1_l|]. destruct (Rltb_spec 0 b); auto. contradiction. Qed.

Lemma pct_weight base za zb z : 0 < base -> za < zb -> getExponentialPercentage z za zb base = weight base za zb z.
Proof.
  intros Hb H. unfold getExponentialPercentage, weight. destruct (Reqb_spec (zb - za) 0) as [E|_]; [lra|].
  destruct (Reqb_spec base 1) as [E|E]; destruct (Req_EM_T base 1) as [E'|E']; try contradiction; auto. rewrite !gopow_pos by auto. reflexivity.
Qed.

Lemma weight_mono base za zb z z' : 0 < base -> za < zb -> z < z' -> weight base za zb z < weight base za zb z'.
Proof.
  intros Hb H Hz. unfold weight. destruct (Req_EM_T base 1) as [->|N].
  - apply Rmult_lt_compat_r; [apply Rinv_0_lt_compat; lra|lra].
  - destruct (Rlt_dec 1 base) as [U|U].
    + assert (B1 := Rpower_mono_up base 0 (zb - za) U ltac:(lra)). rewrite Rpower_1_l in B1.
      assert (B2 := Rpower_mono_up base (z - za) (z' - za) U ltac:(lra)). apply Rmult_lt_compat_r; [apply Rinv_0_lt_compat; lra|lra].
    + assert (B1 := Rpower_mono_down base 0 (zb - za) ltac:(lra) ltac:(lra)). rewrite Rpower_1_l in B1.
      assert (B2 := Rpower_mono_down base (z - za) (z' - za) ltac:(lra) ltac:(lra)).
      assert (I : / (Rpower base (zb - za) - 1) < 0) by (apply Rinv_lt_0_compat; lra). unfold Rdiv. nra.
Qed.
Lemma weight_0 base za zb : za < zb -> weight base za zb za = 0.
Proof. intros H. unfold weight. replace (za - za) with 0 by ring. destruct (Req_EM_T base 1); [|rewrite Rpower_1_l, Rminus_diag_eq by auto]; unfold Rdiv; ring. Qed.
Lemma weight_1 base za zb : 0 < base -> za < zb -> weight base za zb zb = 1.
Proof.
  intros Hb H. unfold weight. destruct (Req_EM_T base 1); [field; lra|]. assert (Rpower base (zb - za) <> 1); [|field; lra].
  destruct (Rlt_dec 1 base) as [U|U].
  - assert (B1 := Rpower_mono_up base 0 (zb - za) U ltac:(lra)). rewrite Rpower_1_l in B1. lra.
  - assert (B1 := Rpower_mono_down base 0 (zb - za) ltac:(lra) ltac:(lra)). rewrite Rpower_1_l in B1. lra.
Qed.
Lemma weight_range base za zb z : 0 < base -> za <= z < zb -> 0 <= weight base za zb z < 1.
Proof.
  intros Hb H. split.
  - destruct (Req_EM_T za z) as [<-|N]; [rewrite weight_0; lra|]. rewrite <- (weight_0 base za zb) by lra. left. apply weight_mono; lra.
  - rewrite <- (weight_1 base za zb) by lra. apply weight_mono; lra.
Qed.

Lemma num_loop_skip base z pre : forall this a post, (forall s, In s (pre ++ [a]) -> nsZoom s <= z) ->
  num_loop base z this (pre ++ a :: post) = num_loop base z a post.
Proof.
  induction pre as [|p pre IH]; intros this a post H; cbn [app num_loop].
  - destruct (Rleb_spec (nsZoom a) z) as [_|K]; auto. exfalso. apply K. apply H. left. auto.
  - destruct (Rleb_spec (nsZoom p) z) as [_|K]; [|exfalso; apply K; apply H; left; auto]. apply IH. intros s Hs. apply H. right. auto.
Qed.
Lemma NumGet_skip base z pre a post : (forall s, In s (pre ++ [a]) -> nsZoom s <= z) -> NumGet base (pre ++ a :: post) z = Ok (num_loop base z a post).
Proof.
  intros H. destruct pre as [|p pre]; cbn [app NumGet].
  - destruct (Rltb_spec z (nsZoom a)) as [K|_]; auto. specialize (H a (or_introl eq_refl)). lra.
  - destruct (Rltb_spec z (nsZoom p)) as [K|_]; [specialize (H p (or_introl eq_refl)); lra|]. rewrite num_loop_skip; auto. intros s Hs. apply H. right. auto.
Qed.

(** Whatever the order of the stops: with [a] the stop reached by passing only stops at or below the zoom and [b] the first
    one above it, the result starts at a's value and adds the weighted distance to b's value, never subtracts it. *)
Theorem C47_between_stops : forall base pre a b post z,
  0 < the_base base -> (forall s, In s (pre ++ [a]) -> nsZoom s <= z) -> z < nsZoom b ->
  NumGet base (pre ++ a :: b :: post) z = Ok (nsValue a + weight (the_base base) (nsZoom a) (nsZoom b) z * Rabs (nsValue b - nsValue a)) /\
  0 <= weight (the_base base) (nsZoom a) (nsZoom b) z < 1.
Proof.
  intros base pre a b post z Hb H Hz. assert (Ha : nsZoom a <= z) by (apply H; apply in_app_iff; right; left; auto). split; [|apply weight_range; lra].
  rewrite NumGet_skip by auto. cbn [num_loop]. destruct (Rleb_spec (nsZoom b) z) as [K|_]; [lra|]. unfold getNumericValueBetweenStops. rewrite pct_weight by lra. f_equal. ring.
Qed.
Print Assumptions C47_between_stops.

Theorem C47_after_last : forall base pre a z, (forall s, In s (pre ++ [a]) -> nsZoom s <= z) -> NumGet base (pre ++ [a]) z = Ok (nsValue a).
Proof. intros base pre a z H. rewrite NumGet_skip by auto. reflexivity. Qed.
Print Assumptions C47_after_last.

Theorem C47_before_first : forall base a post z, (z < nsZoom a -> NumGet base (a :: post) z = Ok 0) /\ NumGet base [] z = Panic.
Proof. intros base a post z. split; auto. intros H. cbn. destruct (Rltb_spec z (nsZoom a)); [auto|contradiction]. Qed.
Print Assumptions C47_before_first.

(** At a stop of a strictly increasing list the function has the stop's value. *)
Theorem C47_at_stop : forall base pre a post, 0 < the_base base -> StronglySorted (fun s t => nsZoom s < nsZoom t) (pre ++ a :: post) ->
  NumGet base (pre ++ a :: post) (nsZoom a) = Ok (nsValue a).
Proof.
  intros base pre a post Hb H. assert (P : forall s, In s (pre ++ [a]) -> nsZoom s <= nsZoom a).
  { induction pre as [|p pre IH]; intros s Hs; [destruct Hs as [<-|[]]; lra|]. inversion H; subst. cbn in Hs. destruct Hs as [<-|Hs]; [|apply IH; auto].
    rewrite Forall_forall in H3. specialize (H3 a ltac:(apply in_app_iff; right; left; auto)). lra. }
  destruct post as [|b post]; [apply C47_after_last; auto|].
  assert (Hz : nsZoom a < nsZoom b).
  { clear P. induction pre as [|p pre IH]; inversion H; subst; [inversion H3; auto|]. apply IH; auto. }
  destruct (C47_between_stops base pre a b post (nsZoom a) Hb P Hz) as [-> _]. rewrite weight_0 by auto. f_equal. ring.
Qed.
Print Assumptions C47_at_stop.

(** Between rising values the result stays between them; between falling values it is the mirror image of the interpolated
    value and leaves the interval. *)
Theorem C47_rising_and_falling : forall base pre a b post z v,
  0 < the_base base -> (forall s, In s (pre ++ [a]) -> nsZoom s <= z) -> z < nsZoom b -> NumGet base (pre ++ a :: b :: post) z = Ok v ->
  let ideal := nsValue a + weight (the_base base) (nsZoom a) (nsZoom b) z * (nsValue b - nsValue a) in
  (nsValue a <= nsValue b -> v = ideal /\ nsValue a <= v <= nsValue b) /\
  (nsValue b < nsValue a -> v = 2 * nsValue a - ideal /\ nsValue a <= v < 2 * nsValue a - nsValue b /\ (nsZoom a < z -> nsValue a < v)).
Proof.
  intros base pre a b post z v Hb H Hz E ideal. destruct (C47_between_stops base pre a b post z Hb H Hz) as [E' [W1 W2]]. rewrite E' in E. injection E as <-. unfold ideal. clear E' ideal.
  assert (W0 : nsZoom a < z -> 0 < weight (the_base base) (nsZoom a) (nsZoom b) z).
  { intros K. rewrite <- (weight_0 (the_base base) (nsZoom a) (nsZoom b)) by lra. apply weight_mono; lra. }
  set (w := weight _ _ _ _) in *. clearbody w. split; intros D.
  - rewrite Rabs_right by lra. split; [ring|]. nra.
  - rewrite Rabs_left by lra. split; [ring|]. split; [nra|]. intros K. specialize (W0 K). nra.
Qed.
Print Assumptions C47_rising_and_falling.

(** Line widths that shrink with the zoom grow instead, then jump down. *)
Theorem C47_falling_refuted : exists stops, StronglySorted (fun s t => nsZoom s < nsZoom t) stops /\
  NumGet None stops 10 = Ok 4 /\ NumGet None stops 15 = Ok 5 /\ NumGet None stops 20 = Ok 2.
Proof.
  exists [mkNS 10 4; mkNS 20 2]. split; [repeat constructor; cbn; lra|].
  assert (L : forall z, 10 <= z < 20 -> NumGet None [mkNS 10 4; mkNS 20 2] z = Ok (4 + (z - 10) / 5)).
  { intros z Hz. destruct (C47_between_stops None [] (mkNS 10 4) (mkNS 20 2) [] z) as [E _]; cbn [the_base nsZoom]; try lra.
    - intros s [<-|[]]. cbn. lra.
    - cbn [app] in E. rewrite E. cbn [nsValue nsZoom the_base]. unfold weight. destruct (Req_EM_T 1 1) as [_|N]; [|lra]. f_equal. rewrite Rabs_left by lra. field. }
  split; [rewrite L by lra; f_equal; field|]. split; [rewrite L by lra; f_equal; field|].
  apply (C47_after_last None [mkNS 10 4] (mkNS 20 2) 20). intros s [<-|[<-|[]]]; cbn; lra.
Qed.
Print Assumptions C47_falling_refuted.
Example C47_nonvacuous : NumGet (Some 2) [mkNS 10 4; mkNS 12 10] 11 = Ok 6.
Proof.
  destruct (C47_between_stops (Some 2) [] (mkNS 10 4) (mkNS 12 10) [] 11) as [E _]; cbn [the_base nsZoom]; try lra.
  - intros s [<-|[]]. cbn. lra.
  - cbn [app] in E. rewrite E. cbn [nsValue nsZoom the_base]. unfold weight. destruct (Req_EM_T 2 1) as [K|_]; [lra|]. f_equal.
    replace (11 - 10) with 1 by ring. replace (12 - 10) with (INR 2) by (cbn; ring). rewrite Rpower_1, Rpower_pow by lra. rewrite Rabs_right by lra. cbn. field.
Qed.

(** ** C48 *)

Definition byte_between (a b c : Z) : Prop := (Z.min a b <= c <= Z.max a b)%Z.

Lemma channel_between p a b : is_byte a -> is_byte b -> 0 <= p <= 1 ->
  byte_between a b (getColorValueBetweenStops p a b) /\ getColorValueBetweenStops p a b = (a + Rfloor (IZR (b - a) * p))%Z.
Proof.
  intros Ha Hb Hp. unfold is_byte in *.
  assert (F : (Z.min 0 (b - a) <= Rfloor (IZR (b - a) * p) <= Z.max 0 (b - a))%Z).
  { pose proof (proj1 (Rfloor_spec (IZR (b - a) * p) _) eq_refl) as K. set (n := Rfloor _) in *. destruct (Z_le_dec 0 (b - a)) as [C|C].
    - assert (0 <= IZR (b - a)) by (apply IZR_le; lia). rewrite Z.min_l, Z.max_r by lia. split.
      + apply Z.lt_succ_r. apply lt_IZR. rewrite succ_IZR. nra.
      + apply le_IZR. nra.
    - assert (IZR (b - a) < 0) by (apply IZR_lt; lia). rewrite Z.min_r, Z.max_l by lia. split.
      + apply Z.lt_succ_r. apply lt_IZR. rewrite succ_IZR. nra.
      + apply le_IZR. nra. }
  assert (E : getColorValueBetweenStops p a b = (a + Rfloor (IZR (b - a) * p))%Z).
  { unfold getColorValueBetweenStops, getValueThroughStop, fl. rewrite <- minus_IZR, <- plus_IZR. rewrite Z.add_comm.
    set (n := (a + Rfloor _)%Z) in *. unfold to_byte. assert (T : Rtrunc (IZR n) = n).
    { unfold Rtrunc. destruct (Rltb_spec (IZR n) 0) as [K|K]; [apply lt_IZR in K; lia|]. apply Rfloor_IZR. }
    rewrite T. unfold u8. apply Z.mod_small. change (2 ^ 8)%Z with 256%Z. unfold n. lia. }
  split; auto. rewrite E. unfold byte_between. lia.
Qed.

Definition rgba_ok (c : gocolor) : Prop := match c with CRGBA r g b a => is_byte r /\ is_byte g /\ is_byte b /\ is_byte a | _ => False end.
Definition channels (c : gocolor) : list Z := match c with CRGBA r g b a => [r; g; b; a] | _ => [] end.

Lemma col_loop_skip base z pre : forall this a post, (forall s, In s (pre ++ [a]) -> csZoom s <= z) ->
  col_loop base z this (pre ++ a :: post) = col_loop base z a post.
Proof.
  induction pre as [|p pre IH]; intros this a post H; cbn [app col_loop].
  - destruct (Rleb_spec (csZoom a) z) as [_|K]; auto. exfalso. apply K. apply H. left. auto.
  - destruct (Rleb_spec (csZoom p) z) as [_|K]; [|exfalso; apply K; apply H; left; auto]. apply IH. intros s Hs. apply H. right. auto.
Qed.
Lemma ColGet_skip base z pre a post : (forall s, In s (pre ++ [a]) -> csZoom s <= z) -> ColGet base (pre ++ a :: post) z = col_loop base z a post.
Proof.
  intros H. destruct pre as [|p pre]; cbn [app ColGet].
  - destruct (Rltb_spec z (csZoom a)) as [K|_]; auto. specialize (H a (or_introl eq_refl)). lra.
  - destruct (Rltb_spec z (csZoom p)) as [K|_]; [specialize (H p (or_introl eq_refl)); lra|]. rewrite col_loop_skip; auto. intros s Hs. apply H. right. auto.
Qed.

(** Between two RGBA stops every channel is the lower stop's plus the floor of the weighted difference, so it lies between
    the two stops' channels. *)
Theorem C48_between_stops : forall base pre a b post z,
  0 < the_base base -> (forall s, In s (pre ++ [a]) -> csZoom s <= z) -> z < csZoom b -> rgba_ok (csColor a) -> rgba_ok (csColor b) ->
  exists c, ColGet base (pre ++ a :: b :: post) z = Ok c /\ rgba_ok c /\
    forall k, (k < 4)%nat -> let x := nth k (channels (csColor a)) 0%Z in let y := nth k (channels (csColor b)) 0%Z in
      nth k (channels c) 0%Z = (x + Rfloor (IZR (y - x) * weight (the_base base) (csZoom a) (csZoom b) z))%Z /\ byte_between x y (nth k (channels c) 0%Z).
Proof.
  intros base pre [za ca] [zb cb] post z Hb H Hz Ra Rb. cbn [csZoom csColor] in *. assert (Ha : za <= z) by (apply (H (mkCS za ca)); apply in_app_iff; right; left; auto).
  rewrite ColGet_skip by auto. cbn [col_loop csZoom]. destruct (Rleb_spec zb z) as [K|_]; [lra|].
  destruct ca as [|r g b0 al|]; cbn [rgba_ok] in Ra; try contradiction. destruct cb as [|r' g' b' al'|]; cbn [rgba_ok] in Rb; try contradiction.
  unfold color_between. cbn [csZoom csColor]. rewrite pct_weight by lra. destruct (weight_range (the_base base) za zb z Hb) as [W1 W2]; [lra|]. set (w := weight _ _ _ _) in *. clearbody w.
  assert (C := fun x y X Y => channel_between w x y X Y ltac:(lra)). destruct Ra as (A1 & A2 & A3 & A4). destruct Rb as (B1 & B2 & B3 & B4).
  destruct (C r r' A1 B1) as [D1 E1]. destruct (C g g' A2 B2) as [D2 E2]. destruct (C b0 b' A3 B3) as [D3 E3]. destruct (C al al' A4 B4) as [D4 E4].
  eexists. split; [reflexivity|]. split; [unfold rgba_ok, is_byte, byte_between in *; lia|]. intros k Hk. cbn [channels].
  destruct k as [|[|[|[|k]]]]; cbn [nth]; auto. lia.
Qed.
Print Assumptions C48_between_stops.

(** A colour that is not RGBA (an hsl() colour, an empty string) makes every zoom between it and a neighbour panic. *)
Theorem C48_other_colours_panic : forall base pre a b post z,
  (forall s, In s (pre ++ [a]) -> csZoom s <= z) -> z < csZoom b ->
  (ColGet base (pre ++ a :: b :: post) z = Panic <-> channels (csColor a) = [] \/ channels (csColor b) = []).
Proof.
  intros base pre a b post z H Hz. rewrite ColGet_skip by auto. cbn [col_loop]. destruct (Rleb_spec (csZoom b) z) as [K|_]; [lra|].
  unfold color_between. destruct (csColor a), (csColor b); cbn [channels]; split; intros K; try discriminate; auto; destruct K; discriminate.
Qed.
Print Assumptions C48_other_colours_panic.

Theorem C48_ends : forall base pre a post z,
  ((forall s, In s (pre ++ [a]) -> csZoom s <= z) -> ColGet base (pre ++ [a]) z = Ok (csColor a)) /\
  (z < csZoom a -> ColGet base (a :: post) z = Ok CNil) /\ ColGet base [] z = Panic.
Proof.
  intros base pre a post z. split; [intros H; rewrite ColGet_skip by auto; reflexivity|]. split; auto. intros H. cbn. destruct (Rltb_spec z (csZoom a)); [auto|contradiction].
Qed.
Print Assumptions C48_ends.

(** At a stop of a strictly increasing list of RGBA stops the colour is the stop's. *)
Theorem C48_at_stop : forall base pre a post, 0 < the_base base -> StronglySorted (fun s t => csZoom s < csZoom t) (pre ++ a :: post) ->
  (forall s, In s (pre ++ a :: post) -> rgba_ok (csColor s)) -> ColGet base (pre ++ a :: post) (csZoom a) = Ok (csColor a).
Proof.
  intros base pre a post Hb H HR. assert (P : forall s, In s (pre ++ [a]) -> csZoom s <= csZoom a).
  { clear HR. induction pre as [|p pre IH]; intros s Hs; [destruct Hs as [<-|[]]; lra|]. inversion H; subst. cbn in Hs. destruct Hs as [<-|Hs]; [|apply IH; auto].
    rewrite Forall_forall in H3. specialize (H3 a ltac:(apply in_app_iff; right; left; auto)). lra. }
  destruct post as [|b post]; [apply C48_ends; auto|].
  assert (Hz : csZoom a < csZoom b).
  { clear P HR. induction pre as [|p pre IH]; inversion H; subst; [inversion H3; auto|]. apply IH; auto. }
  assert (Ra : rgba_ok (csColor a)) by (apply HR; apply in_app_iff; right; left; auto).
  destruct (C48_between_stops base pre a b post (csZoom a) Hb P Hz Ra) as (c & E & Rc & K); [apply HR; apply in_app_iff; right; right; left; auto|].
  rewrite E. f_equal. destruct (csColor a) as [|r g b' al|]; try contradiction. destruct c as [|r1 g1 b1 al1|]; try contradiction.
  rewrite weight_0 in K by auto.
  assert (Q : forall k, (k < 4)%nat -> nth k [r1; g1; b1; al1] 0%Z = nth k [r; g; b'; al] 0%Z).
  { intros k Hk. destruct (K k Hk) as [E1 _]. cbn [channels] in E1. rewrite E1. rewrite Rmult_0_r, Rfloor_IZR. lia. }
  pose proof (Q 0%nat ltac:(lia)). pose proof (Q 1%nat ltac:(lia)). pose proof (Q 2%nat ltac:(lia)). pose proof (Q 3%nat ltac:(lia)). cbn in *. congruence.
Qed.
Print Assumptions C48_at_stop.
Example C48_nonvacuous : ColGet None [mkCS 0 (CRGBA 0 10 20 255); mkCS 2 (CRGBA 255 5 20 255)] 1 = Ok (CRGBA 127 7 20 255).
Proof.
  destruct (C48_between_stops None [] (mkCS 0 (CRGBA 0 10 20 255)) (mkCS 2 (CRGBA 255 5 20 255)) [] 1) as (c & E & Rc & K); cbn [the_base csZoom csColor]; try lra.
  - intros s [<-|[]]. cbn. lra.
  - unfold rgba_ok, is_byte. lia.
  - unfold rgba_ok, is_byte. lia.
  - cbn [app] in E. rewrite E. f_equal. destruct c as [|r g b al|]; try contradiction.
    assert (W : weight 1 0 2 1 = 1 / 2) by (unfold weight; destruct (Req_EM_T 1 1) as [_|N]; [field|lra]). cbn [the_base csZoom csColor channels] in K. rewrite W in K.
    pose proof (proj1 (K 0%nat ltac:(lia))) as K0. pose proof (proj1 (K 1%nat ltac:(lia))) as K1. pose proof (proj1 (K 2%nat ltac:(lia))) as K2. pose proof (proj1 (K 3%nat ltac:(lia))) as K3. cbn [nth] in *.
    rewrite (Rfloor_unique _ 127) in K0 by (cbn; lra). rewrite (Rfloor_unique _ (-3)) in K1 by (cbn; lra). rewrite (Rfloor_unique _ 0) in K2 by (cbn; lra). rewrite (Rfloor_unique _ 0) in K3 by (cbn; lra).
    subst. reflexivity.
Qed.

(** ** C49 *)

Theorem C49_validate : forall mx mn,
  (Validate mx mn = Val tt <-> exists a b, mx = Some a /\ mn = Some b /\ 0 <= b <= a /\ a <= 24) /\
  (Validate mx mn = Crash <-> mx = None \/ (mn = None /\ exists a, mx = Some a /\ 0 <= a <= 24)).
Proof.
  intros mx mn. unfold Validate. destruct mx as [a|], mn as [b|].
  - destruct (Rltb_spec a b); [split; split; try discriminate; [intros (a' & b' & E1 & E2 & H); assert (a' = a) by congruence; assert (b' = b) by congruence; subst; lra|intros [K|[K _]]; discriminate]|].
    destruct (Rltb_spec a 0), (Rltb_spec 24 a), (Rltb_spec b 0), (Rltb_spec 24 b); cbn [orb]; split; split; try discriminate;
      try (intros (a' & b' & E1 & E2 & H); assert (a' = a) by congruence; assert (b' = b) by congruence; subst; lra); try (intros [K|[K _]]; discriminate); try (intros _; reflexivity); intros _; exists a, b; repeat split; auto; lra.
  - destruct (Rltb_spec a 0), (Rltb_spec 24 a); cbn [orb]; split; split; try discriminate; try (intros (a' & b' & E1 & E2 & H); discriminate);
      try (intros [K|(_ & a' & E & K)]; [discriminate|assert (a' = a) by congruence; subst; lra]); auto. intros _. right. split; auto. exists a. split; auto. lra.
  - split; split; try discriminate; auto. intros (a' & b' & E1 & E2 & H). discriminate.
  - split; split; try discriminate; auto. intros (a' & b' & E1 & E2 & H). discriminate.
Qed.
Print Assumptions C49_validate.
Example C49_nonvacuous : Validate (Some 24) (Some 0) = Val tt /\ Validate (Some 30) None = Err /\ Validate (Some 3) (Some 5) = Err.
Proof.
  split; [apply C49_validate; exists 24, 0; repeat split; auto; lra|]. unfold Validate. split.
  - destruct (Rltb_spec 30 0); [lra|]. destruct (Rltb_spec 24 30); [reflexivity|lra].
  - destruct (Rltb_spec 3 5); [reflexivity|lra].
Qed.

(** ** C50 *)

Lemma sfind_none {A} k (m : list (gstr * A)) : sfind k m = None <-> ~ In k (map fst m).
Proof.
  induction m as [|[k' v] m IH]; cbn [sfind map fst In]; [tauto|]. destruct (seqb_spec k k') as [->|N]; [split; [discriminate|tauto]|]. rewrite IH. intuition congruence.
Qed.
Lemma sfind_in {A} k v (m : list (gstr * A)) : NoDup (map fst m) -> In (k, v) m -> sfind k m = Some v.
Proof.
  induction m as [|[k' v'] m IH]; cbn [sfind map fst]; intros ND HI; [contradiction|]. inversion ND; subst. destruct HI as [E|HI].
  - injection E as -> ->. now rewrite seqb_refl.
  - destruct (seqb_spec k k') as [->|N]; auto. exfalso. apply H1. apply in_map_iff. exists (k', v). auto.
Qed.

Lemma nss_ok {A} (styles : list (gstr * A)) dflt : forall m found, NoDup (map fst m ++ map fst styles) ->
  nss_loop styles dflt m found = Val (m ++ styles, if existsb (seqb dflt) (map fst styles) then true else found).
Proof.
  induction styles as [|[id st] styles IH]; intros m found ND; cbn [nss_loop map fst existsb]; [now rewrite app_nil_r|].
  assert (N : sfind id m = None). { apply sfind_none. intros K. cbn [map fst] in ND. apply NoDup_remove_2 in ND. apply ND. apply in_app_iff. auto. }
  rewrite N. rewrite IH; [|rewrite map_app; cbn [map fst]; rewrite <- app_assoc; exact ND]. rewrite <- app_assoc. cbn [app]. f_equal. f_equal. destruct (seqb dflt id); cbn [orb]; auto. destruct (existsb _ _); auto.
Qed.
Lemma nss_dup {A} (styles : list (gstr * A)) dflt : forall m found, NoDup (map fst m) -> ~ NoDup (map fst m ++ map fst styles) -> nss_loop styles dflt m found = Err.
Proof.
  induction styles as [|[id st] styles IH]; intros m found ND K; cbn [nss_loop map fst] in *; [rewrite app_nil_r in K; contradiction|].
  destruct (sfind id m) eqn:E; auto. apply sfind_none in E. apply IH.
  - rewrite map_app. cbn [map fst]. apply (Permutation_NoDup (l := id :: map fst m)); [apply Permutation_cons_append|constructor; auto].
  - intros C. apply K. rewrite map_app in C. cbn [map fst] in C. rewrite <- app_assoc in C. exact C.
Qed.

Theorem C50_new_style_set : forall (A : Type) (styles : list (gstr * A)) dflt,
  (NoDup (map fst styles) /\ In dflt (map fst styles) -> exists s, NewStyleSet styles dflt = Val s /\
     (forall id st, GetStyleByID s id = Some st <-> In (id, st) styles) /\ GetDefaultStyle s = GetStyleByID s dflt /\ GetDefaultStyle s <> None /\
     forall order, Permutation order (ssMap s) -> NoDup (GetAllStyleIDs order) /\ forall id, In id (GetAllStyleIDs order) <-> In id (map fst styles)) /\
  (~ (NoDup (map fst styles) /\ In dflt (map fst styles)) -> NewStyleSet styles dflt = Err).
Proof.
  intros A styles dflt. assert (EX : existsb (seqb dflt) (map fst styles) = true <-> In dflt (map fst styles)).
  { rewrite existsb_exists. split; [intros (x & Hx & E); destruct (seqb_spec dflt x); [subst; auto|discriminate]|intros H; exists dflt; split; auto using seqb_refl]. }
  split.
  - intros [ND HI]. unfold NewStyleSet. rewrite nss_ok by auto. cbn [app obind]. rewrite (proj2 EX HI). cbn [negb]. exists (mkSS styles dflt). split; auto.
    assert (G : forall id st, GetStyleByID (mkSS styles dflt) id = Some st <-> In (id, st) styles).
    { intros id st. unfold GetStyleByID. cbn [ssMap]. split; [|apply sfind_in; auto]. clear ND HI EX. induction styles as [|[k v] l IH]; cbn [sfind]; [discriminate|].
      destruct (seqb_spec id k) as [->|N]; intros E; [injection E as ->; left; auto|right; auto]. }
    split; auto. split; auto. split.
    + unfold GetDefaultStyle. cbn [ssMap ssDefault]. intros K. apply sfind_none in K. contradiction.
    + intros order P. unfold GetAllStyleIDs. cbn [ssMap] in P. apply Permutation_map with (f := fst) in P. split; [eapply Permutation_NoDup; [apply Permutation_sym; exact P|auto]|].
      intros id. split; intros H; [apply (Permutation_in id P H)|apply (Permutation_in id (Permutation_sym P) H)].
  - intros N. unfold NewStyleSet. destruct (ListDec.NoDup_dec (list_eq_dec Z.eq_dec) (map fst styles)) as [ND|ND].
    + rewrite nss_ok by auto. cbn [app obind]. destruct (existsb (seqb dflt) (map fst styles)) eqn:E; [|reflexivity]. exfalso. apply N. split; auto. apply EX. auto.
    + rewrite nss_dup; auto. constructor.
Qed.
Print Assumptions C50_new_style_set.
Example C50_nonvacuous : exists s, NewStyleSet [(B "a", 1%nat); (B "b", 2%nat)] (B "b") = Val s /\ GetDefaultStyle s = Some 2%nat.
Proof. eexists. split; reflexivity. Qed.

(** ** C51 *)

(** [reads j f]: the document denotes the filter *)
Inductive names : json -> gstr -> Prop := names_str s : names (JStr s) s | names_null : names JNull [].
Inductive category_of : gstr -> list json -> category -> Prop :=
| cat_class l : category_of (B "class") (map JStr l) (ClassC l)
| cat_subclass l : category_of (B "subclass") (map JStr l) (SubClassC l)
| cat_type l : category_of (B "$type") (map JStr l) (TypeC l)
| cat_other k l : k <> B "class" -> k <> B "subclass" -> k <> B "$type" -> category_of k l UnhandledC.
Inductive reads : json -> filter -> Prop :=
| reads_bare o op : names o op -> reads (JArr [o]) (Logical op [])
| reads_logical o op l subs fs : names o op -> Forall2 reads (JArr l :: subs) fs -> reads (JArr (o :: JArr l :: subs)) (Logical op fs)
| reads_comparison op key operands c : category_of key operands c -> reads (JArr (JStr op :: JStr key :: operands)) (Comparative op c).

(** [crashes j]: null or [] where a filter is expected, a null operator before a key, a second item that is neither
    an array nor a string, or, after readable sub-filters, a sub-filter that crashes *)
Inductive crashes : json -> Prop :=
| crash_null : crashes JNull
| crash_empty : crashes (JArr [])
| crash_operator key rest : crashes (JArr (JNull :: JStr key :: rest))
| crash_scalar o op x rest : names o op -> (forall l, x <> JArr l) -> (forall s, x <> JStr s) -> crashes (JArr (o :: x :: rest))
| crash_sub o op l pre x post fs : names o op -> pre ++ x :: post = JArr l :: skipn 1 (pre ++ x :: post) -> Forall2 reads pre fs -> crashes x -> crashes (JArr (o :: pre ++ x :: post)).

Section json_induction.
  Variable P : json -> Prop.
  Hypothesis Hnull : P JNull.
  Hypothesis Hbool : forall b, P (JBool b).
  Hypothesis Hnum : forall r, P (JNum r).
  Hypothesis Hstr : forall s, P (JStr s).
  Hypothesis Harr : forall l, Forall P l -> P (JArr l).
  Hypothesis Hobj : forall l, P (JObj l).
  Fixpoint json_ind' (j : json) : P j :=
    match j with
    | JNull => Hnull | JBool b => Hbool b | JNum r => Hnum r | JStr s => Hstr s
    | JArr l => Harr l ((fix go l : Forall P l := match l with [] => Forall_nil P | x :: l' => Forall_cons x (json_ind' x) (go l') end) l)
    | JObj l => Hobj l
    end.
End json_induction.

Fixpoint subs (l : list json) : out (list filter) :=
  match l with
  | [] => Val []
  | x :: l' => obind (unmarshalFilter x) (fun f => obind (subs l') (fun fs => Val (f :: fs)))
  end.
Lemma unmarshal_arr jop rest : unmarshalFilter (JArr (jop :: rest)) =
  obind (json_string jop) (fun operator =>
    match rest with
    | [] => Val (Logical operator [])
    | JArr _ :: _ => obind (subs rest) (fun fs => Val (Logical operator fs))
    | JStr key :: operands => unmarshalComparative jop key operands
    | _ :: _ => Crash
    end).
Proof.
  cbn [unmarshalFilter]. reflexivity.
Qed.

Lemma json_string_val j s : json_string j = Val s <-> names j s.
Proof. split; [destruct j; cbn; intros E; try discriminate; injection E as <-; constructor|intros []; reflexivity]. Qed.
Lemma strings_val l r : interfaceListToStringList l = Val r <-> l = map JStr r.
Proof.
  revert r. induction l as [|x l IH]; intros r; cbn [interfaceListToStringList].
  - split; [intros E; injection E as <-; reflexivity|destruct r; [reflexivity|discriminate]].
  - split.
    + destruct x; try discriminate. destruct (interfaceListToStringList l) as [r'| |] eqn:E; cbn [obind]; try discriminate. intros K. injection K as <-. cbn. f_equal. apply IH. auto.
    + destruct r as [|s r]; [discriminate|]. cbn. intros K. injection K as -> K. rewrite (proj2 (IH r) K). reflexivity.
Qed.
Lemma strings_crash l : interfaceListToStringList l <> Crash.
Proof. induction l as [|x l IH]; cbn; [discriminate|]. destruct x; try discriminate. destruct (interfaceListToStringList l); cbn; try discriminate. contradiction. Qed.

Lemma comparative_val op key operands f : unmarshalComparative op key operands = Val f <-> exists o c, op = JStr o /\ category_of key operands c /\ f = Comparative o c.
Proof.
  unfold unmarshalComparative. split.
  - destruct op as [| | |o| |]; try discriminate. intros E. exists o.
    destruct (seqb_spec key (B "class")) as [->|N1]; [|destruct (seqb_spec key (B "subclass")) as [->|N2]; [|destruct (seqb_spec key (B "$type")) as [->|N3]]].
    1-3: destruct (interfaceListToStringList operands) as [l| |] eqn:K; cbn [obind] in E; try discriminate; injection E as <-; apply strings_val in K; subst; eexists; split; [reflexivity|split; [constructor|reflexivity]].
    injection E as <-. eexists. split; [reflexivity|]. split; [constructor; auto|reflexivity].
  - intros (o & c & -> & H & ->). destruct H as [l|l|l|k l N1 N2 N3].
    1-3: rewrite (proj2 (strings_val (map JStr l) l) eq_refl); reflexivity.
    destruct (seqb_spec k (B "class")); [contradiction|]. destruct (seqb_spec k (B "subclass")); [contradiction|]. destruct (seqb_spec k (B "$type")); [contradiction|]. reflexivity.
Qed.
Lemma comparative_crash op key operands : unmarshalComparative op key operands = Crash <-> forall o, op <> JStr o.
Proof.
  unfold unmarshalComparative. split.
  - destruct op as [| | |o| |]; intros E; try discriminate; try (intros o'; discriminate). exfalso. pose proof (strings_crash operands) as S.
    destruct (seqb key (B "class")); [|destruct (seqb key (B "subclass")); [|destruct (seqb key (B "$type"))]]; try discriminate; destruct (interfaceListToStringList operands); cbn in E; try discriminate; auto.
  - intros H. destruct op as [| | |o| |]; auto. exfalso. apply (H o). auto.
Qed.

Lemma subs_val l : Forall (fun j => forall f, unmarshalFilter j = Val f <-> reads j f) l -> forall fs, subs l = Val fs <-> Forall2 reads l fs.
Proof.
  induction 1 as [|x l Hx _ IH]; intros fs; cbn [subs].
  - split; [intros E; injection E as <-; constructor|intros E; inversion E; reflexivity].
  - split.
    + destruct (unmarshalFilter x) as [f| |] eqn:E; cbn [obind]; try discriminate. destruct (subs l) as [fs'| |] eqn:E'; cbn [obind]; try discriminate. intros K. injection K as <-.
      constructor; [apply Hx; auto|apply IH; auto].
    + intros E. inversion E; subst. apply Hx in H1. apply IH in H3. rewrite H1. cbn [obind]. rewrite H3. reflexivity.
Qed.

Theorem C51_reads : forall j f, unmarshalFilter j = Val f <-> reads j f.
Proof.
  induction j as [| | | |l IH|] using json_ind'; intros f; try (split; [discriminate|inversion 1]).
  destruct l as [|o rest]; [split; [discriminate|inversion 1]|]. rewrite unmarshal_arr. inversion IH as [|? ? _ IHr]; subst. pose proof (subs_val rest IHr) as S. split.
  - destruct (json_string o) as [op| |] eqn:E; cbn [obind]; try discriminate. apply json_string_val in E. destruct rest as [|[| | |key|l|] rest]; try discriminate.
    + intros K. injection K as <-. constructor. auto.
    + intros K. apply comparative_val in K. destruct K as (o' & c & -> & Hc & ->). constructor. auto.
    + destruct (subs (JArr l :: rest)) as [fs| |] eqn:K; cbn [obind]; try discriminate. intros Q. injection Q as <-. constructor; auto. apply S. auto.
  - intros K. inversion K; subst.
    + match goal with H : names _ _ |- _ => apply json_string_val in H; rewrite H end. reflexivity.
    + match goal with H : names _ _ |- _ => apply json_string_val in H; rewrite H end. cbn [obind]. match goal with H : Forall2 _ _ _ |- _ => apply S in H; rewrite H end. reflexivity.
    + cbn [json_string obind]. apply comparative_val. eauto.
Qed.
Print Assumptions C51_reads.

Lemma subs_crash l : Forall (fun j => unmarshalFilter j = Crash <-> crashes j) l ->
  (subs l = Crash <-> exists pre x post fs, l = pre ++ x :: post /\ Forall2 reads pre fs /\ crashes x).
Proof.
  induction 1 as [|x l Hx _ IH]; cbn [subs].
  - split; [discriminate|]. intros (pre & x & post & fs & E & _). destruct pre; discriminate.
  - split.
    + destruct (unmarshalFilter x) as [f| |] eqn:E; cbn [obind]; try discriminate.
      * destruct (subs l) as [fs'| |] eqn:E'; cbn [obind]; try discriminate. intros _. destruct (proj1 IH eq_refl) as (pre & y & post & fs & -> & F & C).
        exists (x :: pre), y, post, (f :: fs). split; auto. split; auto. constructor; auto. apply C51_reads. auto.
      * intros _. exists [], x, l, []. split; auto. split; auto. apply Hx. auto.
    + intros (pre & y & post & fs & E & F & C). destruct pre as [|p pre].
      * cbn [app] in E. injection E as -> ->. apply Hx in C. rewrite C. reflexivity.
      * cbn [app] in E. injection E as -> ->. inversion F; subst. apply C51_reads in H1. rewrite H1. cbn [obind].
        assert (K : subs (pre ++ y :: post) = Crash) by (apply IH; eauto 8). rewrite K. reflexivity.
Qed.

Theorem C51_panics : forall j, unmarshalFilter j = Crash <-> crashes j.
Proof.
  induction j as [| | | |l IH|] using json_ind'; try (split; [discriminate|inversion 1]); [split; [constructor|reflexivity]|].
  destruct l as [|o rest]; [split; [constructor|reflexivity]|]. rewrite unmarshal_arr. inversion IH as [|? ? _ IHr]; subst. pose proof (subs_crash rest IHr) as S. split.
  - destruct (json_string o) as [op| |] eqn:E; cbn [obind]; try discriminate; [|destruct o; discriminate]. apply json_string_val in E. destruct rest as [|x rest]; [discriminate|].
    destruct x as [| | |key|l|]; try (intros _; eapply crash_scalar; [exact E|discriminate|discriminate]).
    + intros K. rewrite (comparative_crash o key rest) in K. destruct E; [exfalso; eapply K; reflexivity|constructor].
    + destruct (subs (JArr l :: rest)) as [fs| |] eqn:Q; cbn [obind]; try discriminate. intros _. destruct (proj1 S eq_refl) as (pre & x & post & fs & E' & F & C). rewrite E'.
      apply crash_sub with (op := op) (l := l) (fs := fs); auto. rewrite <- E'. reflexivity.
  - intros K. inversion K; subst.
    + reflexivity.
    + match goal with H : names _ _ |- _ => apply json_string_val in H; rewrite H end. cbn [obind]. destruct x; auto; exfalso; [match goal with H : forall s, _ <> JStr s |- _ => eapply H end|match goal with H : forall l, _ <> JArr l |- _ => eapply H end]; reflexivity.
    + match goal with H : names _ _ |- _ => apply json_string_val in H; rewrite H end. cbn [obind]. assert (Q : subs (pre ++ x :: post) = Crash) by (apply S; eauto 8). match goal with H : pre ++ x :: post = _ |- _ => rewrite H in * end. rewrite Q. reflexivity.
Qed.
Print Assumptions C51_panics.

(** Any filter tree without unhandled categories can be written as a document that reads back as itself. *)
Fixpoint handled (f : filter) : Prop :=
  match f with
  | Comparative _ UnhandledC => False
  | Comparative _ _ => True
  | Logical _ fs => (fix all l := match l with [] => True | x :: l' => handled x /\ all l' end) fs
  end.
Fixpoint write (f : filter) : json :=
  match f with
  | Comparative op (ClassC l) => JArr (JStr op :: JStr (B "class") :: map JStr l)
  | Comparative op (SubClassC l) => JArr (JStr op :: JStr (B "subclass") :: map JStr l)
  | Comparative op (TypeC l) => JArr (JStr op :: JStr (B "$type") :: map JStr l)
  | Comparative op UnhandledC => JArr [JStr op; JStr []]
  | Logical op fs => JArr (JStr op :: map write fs)
  end.
Section filter_induction.
  Variable P : filter -> Prop.
  Hypothesis Hlog : forall op fs, Forall P fs -> P (Logical op fs).
  Hypothesis Hcmp : forall op c, P (Comparative op c).
  Fixpoint filter_ind' (f : filter) : P f :=
    match f with
    | Logical op fs => Hlog op fs ((fix go l : Forall P l := match l with [] => Forall_nil P | x :: l' => Forall_cons x (filter_ind' x) (go l') end) fs)
    | Comparative op c => Hcmp op c
    end.
End filter_induction.
Theorem C51_round_trip : forall f, handled f -> unmarshalFilter (write f) = Val f.
Proof.
  intros f H. apply C51_reads. induction f as [op fs IH|op c] using filter_ind'.
  - cbn [write]. assert (F : Forall2 reads (map write fs) fs).
    { cbn [handled] in H. induction IH as [|x l Hx _ IHl]; cbn [map]; constructor; [apply Hx; apply H|apply IHl; apply H]. }
    destruct fs as [|g fs]; [repeat constructor|]. cbn [map] in *. assert (A : exists l, write g = JArr l) by (destruct g as [|? []]; eexists; reflexivity). destruct A as [l A]. rewrite A in *.
    apply reads_logical; auto. constructor.
  - destruct c; cbn [handled] in H; try contradiction; cbn [write]; constructor; constructor.
Qed.
Print Assumptions C51_round_trip.
Example C51_nonvacuous :
  let j := JArr [JStr (B "all"); JArr [JStr (B "=="); JStr (B "$type"); JStr (B "Polygon")]; JArr [JStr (B "in"); JStr (B "class"); JStr (B "a"); JStr (B "b")]] in
  unmarshalFilter j = Val (Logical (B "all") [Comparative (B "==") (TypeC [B "Polygon"]); Comparative (B "in") (ClassC [B "a"; B "b"])]) /\
  unmarshalFilter (JArr [JStr (B "=="); JStr (B "class"); JNum 1]) = Err.
Proof. split; reflexivity. Qed.
