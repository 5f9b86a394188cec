(** Lemmas for the geometry codec. *)
From Coq Require Import ZArith List Lia Bool.
From Verif Require Import GoBase MvtGeom_Model MvtGeom_Spec.
Import ListNotations.
Open Scope Z_scope.

(** ** Zig-zag *)

Lemma paramEnc_zigzag v : in_i32 v -> u32 (paramEnc v) = zigzag v.
Proof.
  intros Hv. unfold in_i32 in Hv. unfold paramEnc, zigzag.
  rewrite Z.shiftl_mul_pow2 by lia. change (2 ^ 1) with 2.
  destruct (0 <=? v) eqn:E.
  - replace (Z.shiftr v 31) with 0.
    + rewrite Z.lxor_0_r. unfold u32, wrap32.
      rewrite Zminus_mod, Z.mod_mod, <- Zminus_mod by lia.
      rewrite Z.mod_small; lia.
    + rewrite Z.shiftr_div_pow2 by lia. symmetry. apply Z.div_small; lia.
  - replace (Z.shiftr v 31) with (-1).
    + rewrite Z.lxor_m1_r. unfold Z.lnot, u32, wrap32.
      replace (Z.pred (- ((v * 2 + 2 ^ 31) mod 2 ^ 32 - 2 ^ 31)))
        with ((2 ^ 31 - 1) - (v * 2 + 2 ^ 31) mod 2 ^ 32) by lia.
      rewrite Zminus_mod_idemp_r.
      rewrite Z.mod_small; lia.
    + rewrite Z.shiftr_div_pow2 by lia. apply (Z.div_unique v (2 ^ 31) (-1) (v + 2 ^ 31)); lia.
Qed.

Lemma DeltaDim_zigzag v : DeltaDim (zigzag v) = v.
Proof.
  unfold DeltaDim, zigzag. destruct (0 <=? v) eqn:E.
  - replace (2 * v) with (v * 2) by lia. rewrite Z.rem_mul by lia.
    change (0 =? 1) with false. cbn iota. apply Z.quot_mul; lia.
  - replace (Z.rem (-2 * v - 1) 2) with 1.
    + change (1 =? 1) with true. cbn iota. replace (- 2 * v - 1 + 1) with (v * (-2)) by lia.
      apply Z.quot_mul; lia.
    + rewrite Z.rem_mod_nonneg by lia. replace (-2 * v - 1) with (1 + (- v - 1) * 2) by lia.
      rewrite Z.mod_add by lia. reflexivity.
Qed.

Lemma zigzag_range v : in_i32 v -> in_u32 (zigzag v).
Proof. unfold in_i32, in_u32, zigzag; destruct (0 <=? v) eqn:E; lia. Qed.

Lemma zigzag_DeltaDim u : 0 <= u -> zigzag (DeltaDim u) = u.
Proof.
  intros Hu. unfold DeltaDim. rewrite Z.rem_mod_nonneg by lia.
  destruct (u mod 2 =? 1) eqn:E.
  - replace (-2) with (- (2)) by lia. rewrite Z.quot_opp_r, Z.quot_div_nonneg by lia.
    unfold zigzag. pose proof (Z.div_mod u 2).
    replace ((u + 1) / 2) with (u / 2 + 1)
      by (replace (u + 1) with (u mod 2 + 1 + (u / 2) * 2) by lia; rewrite Z.div_add by lia;
          replace (u mod 2 + 1) with 2 by lia; change (2 / 2) with 1; lia).
    replace (0 <=? - (u / 2 + 1)) with false; [lia|].
    assert (0 <= u / 2) by (apply Z.div_pos; lia). lia.
  - rewrite Z.quot_div_nonneg by lia. unfold zigzag. pose proof (Z.div_mod u 2).
    assert (0 <= u / 2) by (apply Z.div_pos; lia).
    pose proof (Z.mod_pos_bound u 2). replace (0 <=? u / 2) with true by lia. lia.
Qed.

Lemma DeltaDim_range u : in_u32 u -> in_i32 (DeltaDim u).
Proof.
  intros Hu. pose proof (zigzag_DeltaDim u ltac:(unfold in_u32 in *; lia)) as E.
  unfold in_u32, in_i32, zigzag in *. destruct (0 <=? DeltaDim u) eqn:Es; lia.
Qed.

(** ** Commands *)

Lemma cmdEnc_val id count : 0 <= id < 8 -> 0 <= count -> cmdEnc id count = id + 8 * (count mod 2 ^ 29).
Proof.
  intros Hi Hc. unfold cmdEnc.
  change 7 with (Z.ones 3). rewrite Z.land_ones, Z.mod_small by (cbn; lia).
  rewrite Z.shiftl_mul_pow2 by lia. unfold u32.
  replace (2 ^ 32) with (2 ^ 29 * 2 ^ 3) by reflexivity.
  rewrite Z.mul_mod_distr_r by lia.
  assert (Hz : Z.land id (count mod 2 ^ 29 * 2 ^ 3) = 0).
  { apply Z.bits_inj'. intros n Hn. rewrite Z.land_spec, Z.bits_0.
    destruct (Z_lt_dec n 3).
    - rewrite (Z.mul_pow2_bits_low _ 3 n) by lia. apply andb_false_r.
    - destruct (Z.eq_dec id 0) as [->|]; [rewrite Z.bits_0; reflexivity|].
      rewrite (Z.bits_above_log2 id n); [reflexivity|lia|].
      assert (Z.log2 id < 3) by (apply Z.log2_lt_pow2; lia). lia. }
  rewrite <- Z.lxor_lor, <- Z.add_nocarry_lxor by auto. lia.
Qed.

Lemma moveTo_1 : moveTo 1 = 9. Proof. reflexivity. Qed.
Lemma closePath_1 : closePath 1 = 15. Proof. reflexivity. Qed.
Lemma lineTo_shift n : 0 <= n < 2 ^ 29 -> Z.shiftr (lineTo n) 3 = n.
Proof.
  intros. unfold lineTo. rewrite cmdEnc_val, Z.mod_small by lia.
  rewrite Z.shiftr_div_pow2 by lia. change (2 ^ 3) with 8.
  symmetry. apply (Z.div_unique _ 8 n 2); lia.
Qed.

(** ** Line encoding as a list function *)

(** Deltas of a line continued from [p], zero steps dropped. *)
Fixpoint deltas (p : pt) (l : list pt) : list Z :=
  match l with
  | [] => []
  | q :: r =>
      (if pt_eqb p q then [] else [zigzag (fst q - fst p); zigzag (snd q - snd p)]) ++ deltas q r
  end.
Fixpoint steps (p : pt) (l : list pt) : Z :=
  match l with
  | [] => 0
  | q :: r => (if pt_eqb p q then 0 else 1) + steps q r
  end.
Definition enc_line (p : pt) (l : list pt) : list Z :=
  match l with
  | [] => []
  | q :: r => 9 :: zigzag (fst q - fst p) :: zigzag (snd q - snd p) :: lineTo (steps q r) :: deltas q r
  end.

Definition fits (p : pt) : Prop := - 2 ^ 30 <= fst p < 2 ^ 30 /\ - 2 ^ 30 <= snd p < 2 ^ 30.

Lemma pt_eqb_eq p q : pt_eqb p q = true <-> p = q.
Proof. destruct p, q; unfold pt_eqb; cbn. split; [intros; f_equal; lia|intros E; injection E; lia]. Qed.
Lemma pt_eqb_refl p : pt_eqb p p = true.
Proof. apply pt_eqb_eq; auto. Qed.
Lemma pt_eqb_sym p q : pt_eqb p q = pt_eqb q p.
Proof. unfold pt_eqb. rewrite (Z.eqb_sym (fst p)), (Z.eqb_sym (snd p)). reflexivity. Qed.

Lemma LinePoint_eq c p : fits (last_pt c) -> fits p ->
  LinePoint c p = if pt_eqb (last_pt c) p then mkCur (geo c) p (cnt c)
    else mkCur (geo c ++ [zigzag (fst p - fst (last_pt c)); zigzag (snd p - snd (last_pt c))]) p (u32 (cnt c + 1)).
Proof.
  intros [Ha Hb] [Hc Hd]. unfold LinePoint.
  rewrite !wrap32_id by (unfold in_i32; lia).
  rewrite !paramEnc_zigzag by (unfold in_i32; lia).
  replace ((fst p - fst (last_pt c) =? 0) && (snd p - snd (last_pt c) =? 0)) with (pt_eqb (last_pt c) p)
    by (unfold pt_eqb; lia).
  destruct (pt_eqb (last_pt c) p); reflexivity.
Qed.

Lemma steps_bound p l : 0 <= steps p l <= zlen l.
Proof. revert p; induction l; intros; unfold zlen in *; cbn [steps length]; [lia|].
  specialize (IHl a). destruct (pt_eqb p a); lia. Qed.

Lemma last_cons {A} (a : A) (l : list A) (d : A) : last (a :: l) d = last l a.
Proof.
  revert a d; induction l as [|b l IH]; intros; auto.
  change (last (a :: b :: l) d) with (last (b :: l) d). rewrite (IH b d), (IH b a). reflexivity.
Qed.

Lemma fold_LinePoint l : forall c, fits (last_pt c) -> Forall fits l ->
  0 <= cnt c -> cnt c + zlen l < 2 ^ 32 ->
  fold_left LinePoint l c =
    mkCur (geo c ++ deltas (last_pt c) l) (last l (last_pt c)) (cnt c + steps (last_pt c) l).
Proof.
  induction l as [|p l IH]; intros c Hc Hl H0 H1.
  - cbn. rewrite app_nil_r, Z.add_0_r. destruct c; reflexivity.
  - inversion Hl; subst. cbn [fold_left]. rewrite LinePoint_eq by auto.
    unfold zlen in *. cbn [length] in H1.
    assert (Hlast : last (p :: l) (last_pt c) = last l p).
    { apply last_cons. }
    rewrite Hlast. cbn [deltas steps].
    destruct (pt_eqb (last_pt c) p) eqn:E.
    + rewrite IH by (cbn [last_pt cnt geo]; auto; lia). cbn [geo last_pt cnt app].
      f_equal; try lia.
    + rewrite u32_id by (unfold in_u32; lia).
      rewrite IH by (cbn [last_pt cnt geo]; auto; lia). cbn [geo last_pt cnt].
      rewrite <- app_assoc. f_equal; lia.
Qed.

Lemma set_nth_app l v x r : set_nth (length l) v (l ++ x :: r) = l ++ v :: r.
Proof. induction l; cbn; congruence. Qed.

Lemma MakeLine_eq c l : l <> [] -> fits (last_pt c) -> Forall fits l -> zlen l < 2 ^ 29 ->
  exists n, MakeLine c l = Ok (mkCur (geo c ++ enc_line (last_pt c) l) (last l (0, 0)) n).
Proof.
  intros Hne Hc Hl Hlen. destruct l as [|p r]; [congruence|]. inversion Hl; subst.
  unfold MakeLine. unfold zlen in Hlen; cbn [length] in Hlen.
  rewrite fold_LinePoint; cbn [geo last_pt cnt MovePoint]; auto; try (unfold zlen; lia).
  cbn [MovePoint geo last_pt cnt]. destruct Hc as [Ha Hb]; destruct H1 as [Hd He].
  rewrite !wrap32_id by (unfold in_i32; lia).
  rewrite !paramEnc_zigzag by (unfold in_i32; lia).
  rewrite Z.add_0_l. exists (steps p r). f_equal. f_equal.
  - cbn [enc_line]. rewrite <- !app_assoc. cbn [app].
    match goal with |- set_nth _ _ (_ ++ ?a :: ?b :: ?d :: ?e :: ?f) = _ =>
      change (a :: b :: d :: e :: f) with ([a; b; d] ++ e :: f) end.
    rewrite app_assoc. replace (length (geo c) + 3)%nat with (length (geo c ++ [moveTo 1; zigzag (fst p - fst (last_pt c)); zigzag (snd p - snd (last_pt c))]))
      by (rewrite app_length; reflexivity).
    rewrite set_nth_app. rewrite <- app_assoc. reflexivity.
  - symmetry; apply last_cons.
Qed.

Lemma fold_left_map {A B S} (f : S -> B -> S) (g : A -> B) l : forall s,
  fold_left (fun s a => f s (g a)) l s = fold_left f (map g l) s.
Proof. induction l; cbn; auto. Qed.

Lemma MakeLineFloat_map {P} (proj : P -> pt) c l :
  MakeLineFloat proj c l = MakeLine c (map proj l).
Proof.
  destruct l as [|p r]; cbn [MakeLineFloat MakeLine map]; auto.
  rewrite fold_left_map. unfold zlen. cbn [length]. rewrite map_length. reflexivity.
Qed.

(** ** Decoding a line *)

Lemma read_pairs_deltas l : forall p g,
  read_pairs (deltas p l ++ g) (steps p l) p = (tl (merge_runs (p :: l)), last l p, g).
Proof.
  induction l as [|q r IH]; intros p g.
  - cbn [deltas steps app]. cbn [merge_runs tl last].
    destruct g as [|x [|y g]]; reflexivity.
  - rewrite last_cons. cbn [deltas steps]. specialize (IH q g).
    change (merge_runs (p :: q :: r)) with (if pt_eqb p q then merge_runs (q :: r) else p :: merge_runs (q :: r)).
    destruct (pt_eqb p q) eqn:E.
    + apply pt_eqb_eq in E; subst q. cbn [app]. rewrite Z.add_0_l. exact IH.
    + cbn [app tl]. cbn [read_pairs].
      pose proof (steps_bound q r). replace (1 + steps q r >? 0) with true by lia.
      rewrite !DeltaDim_zigzag.
      replace (fst p + (fst q - fst p), snd p + (snd q - snd p)) with q by (destruct q; cbn; f_equal; lia).
      replace (1 + steps q r - 1) with (steps q r) by lia. rewrite IH. f_equal. f_equal.
      destruct r as [|q' r']; [reflexivity|].
      cbn [tl]. clear. revert q q'. induction r' as [|q'' r' IH]; intros q q'.
      * cbn. destruct (_ && _) eqn:E; [|reflexivity].
        assert (q = q') by (apply pt_eqb_eq; exact E). subst; reflexivity.
      * change (merge_runs (q :: q' :: q'' :: r')) with (if pt_eqb q q' then merge_runs (q' :: q'' :: r') else q :: merge_runs (q' :: q'' :: r')).
        destruct (pt_eqb q q') eqn:E; [|reflexivity]. apply pt_eqb_eq in E. subst q'. apply IH.
Qed.

Lemma merge_runs_cons p l : exists t, merge_runs (p :: l) = p :: t.
Proof.
  revert p; induction l as [|q r IH]; intros p; [exists []; reflexivity|].
  change (merge_runs (p :: q :: r)) with (if pt_eqb p q then merge_runs (q :: r) else p :: merge_runs (q :: r)).
  destruct (pt_eqb p q) eqn:E; [|eauto]. apply pt_eqb_eq in E; subst. apply IH.
Qed.

(** One encoded line at the front of the command list is consumed as one decoded line. *)
Lemma geom_loop_line f total gtype first fp lines p l g :
  l <> [] -> zlen l < 2 ^ 29 -> total <> 3 ->
  (first = true -> p = (0, 0)) ->
  (first = false -> fp = Some p /\ (gtype = 2 \/ gtype = 3)) ->
  geom_loop (S f) total gtype first fp lines (enc_line p l ++ g) =
  geom_loop f total gtype false (Some (last l (0, 0))) (lines ++ [merge_runs l]) g.
Proof.
  intros Hne Hlen Htot H1 H2. destruct l as [|q r]; [congruence|].
  cbn [enc_line app geom_loop]. change (9 =? 9) with true. cbn iota.
  rewrite !DeltaDim_zigzag.
  match goal with |- bind ?e _ = _ => assert (Hfp : e = Ok q) end.
  { destruct first; cbn [negb andb].
    - rewrite (H1 eq_refl). cbn [fst snd]. rewrite !Z.sub_0_r. destruct q; reflexivity.
    - destruct (H2 eq_refl) as [-> Hg].
      replace ((gtype =? 2) || (gtype =? 3)) with true by lia. destruct q, p; cbn [fst snd]; cbn iota; match goal with |- Ok (?a, ?b) = Ok (?c, ?d) => replace a with c by lia; replace b with d by lia; reflexivity end. }
  rewrite Hfp. cbn [bind]. replace (total =? 3) with false by lia.
  pose proof (steps_bound q r). unfold zlen in *. cbn [length] in *.
  rewrite lineTo_shift by lia. rewrite read_pairs_deltas.
  rewrite last_cons. destruct (merge_runs_cons q r) as [t Ht]. rewrite Ht. reflexivity.
Qed.

Lemma geom_loop_skip15 f total gtype first fp lines g :
  geom_loop (S f) total gtype first fp lines (15 :: g) = geom_loop f total gtype false fp lines g.
Proof. reflexivity. Qed.

Lemma fits_last l p : fits p -> Forall fits l -> fits (last l p).
Proof. revert p; induction l; intros; auto. inversion H0; subst. rewrite last_cons. auto. Qed.
Lemma last_ne {A} (l : list A) d d' : l <> [] -> last l d = last l d'.
Proof. destruct l; [congruence|]. intros _. rewrite !last_cons. auto. Qed.

Lemma fits0 : fits (0, 0).
Proof. unfold fits; cbn; lia. Qed.

(** ** Several lines *)

Fixpoint enc_lines (p : pt) (ls : list (list pt)) : list Z :=
  match ls with
  | [] => []
  | l :: r => enc_line p l ++ enc_lines (last l (0, 0)) r
  end.

Definition line_ok (l : list pt) : Prop := l <> [] /\ Forall fits l /\ zlen l < 2 ^ 29.

Lemma MakeMultiLine_eq ls : forall c, fits (last_pt c) -> Forall line_ok ls ->
  exists c', MakeMultiLine c ls = Ok c' /\ geo c' = geo c ++ enc_lines (last_pt c) ls.
Proof.
  induction ls as [|l r IH]; intros c Hc Hls.
  - exists c. cbn. rewrite app_nil_r. auto.
  - inversion Hls as [|? ? (Hne & Hf & Hlen) Hr]; subst.
    destruct (MakeLine_eq c l Hne Hc Hf Hlen) as [n E].
    unfold MakeMultiLine in *. cbn [fold_res]. rewrite E. cbn [bind].
    destruct (IH (mkCur (geo c ++ enc_line (last_pt c) l) (last l (0, 0)) n)) as (c' & E' & G); auto.
    { cbn [last_pt]. apply fits_last; auto using fits0. }
    exists c'. split; auto. rewrite G. cbn [geo last_pt enc_lines]. rewrite app_assoc. reflexivity.
Qed.

Lemma enc_line_len p l : l <> [] -> (4 <= length (enc_line p l))%nat.
Proof. destruct l; [congruence|]. intros _. cbn. lia. Qed.

Lemma geom_loop_nil f total gtype first fp lines : geom_loop f total gtype first fp lines [] = Ok lines.
Proof. destruct f; reflexivity. Qed.

Lemma geom_loop_lines ls : forall f total first fp lines p,
  Forall line_ok ls -> total <> 3 ->
  (first = true -> p = (0, 0)) -> (first = false -> fp = Some p) ->
  (length ls <= f)%nat ->
  geom_loop f total 2 first fp lines (enc_lines p ls) = Ok (lines ++ map merge_runs ls).
Proof.
  induction ls as [|l r IH]; intros f total first fp lines p Hls Htot H1 H2 Hf.
  - cbn [enc_lines map]. rewrite geom_loop_nil, app_nil_r. reflexivity.
  - inversion Hls as [|? ? (Hne & Hfit & Hlen) Hr]; subst. cbn [length] in Hf.
    destruct f; [lia|]. cbn [enc_lines].
    rewrite geom_loop_line; auto; try lia.
    rewrite IH; auto; try lia; try discriminate.
    cbn [map]. rewrite <- app_assoc. reflexivity.
Qed.

Lemma enc_lines_len p ls : Forall line_ok ls -> (4 * length ls <= length (enc_lines p ls))%nat.
Proof.
  intros H; revert p; induction H as [|l r (Hne & _ & _) _ IH]; intros p; cbn [enc_lines length]; [lia|].
  rewrite app_length. pose proof (enc_line_len p l Hne). specialize (IH (last l (0,0))). lia.
Qed.

Lemma multiline_round_trip ls : Forall line_ok ls ->
  exists c, MakeMultiLine cursor0 ls = Ok c /\
   LoadGeometryCmds 2 (geo c) =
     Ok (match ls with [l] => GLineString (merge_runs l) | _ => GMultiLineString (map merge_runs ls) end).
Proof.
  intros Hls. destruct (MakeMultiLine_eq ls cursor0 fits0 Hls) as (c & E & G).
  exists c. split; auto. cbn [cursor0 geo last_pt app] in G. rewrite G.
  unfold LoadGeometryCmds. pose proof (enc_lines_len (0,0) ls Hls).
  destruct ls as [|l r]; [reflexivity|].
  rewrite geom_loop_lines; auto; try discriminate; try (unfold zlen; cbn [length] in *; lia).
  change (2 =? 3) with false. change (2 =? 1) with false. change (2 =? 2) with true.
  cbn [bind app map]. destruct r; reflexivity.
Qed.

Lemma line_round_trip l : line_ok l ->
  exists c, MakeLine cursor0 l = Ok c /\ LoadGeometryCmds 2 (geo c) = Ok (GLineString (merge_runs l)).
Proof.
  intros H. destruct (multiline_round_trip [l]) as (c & E & D); [auto|].
  exists c. split; auto. unfold MakeMultiLine in E. cbn [fold_res] in E.
  destruct (MakeLine cursor0 l); cbn in E; congruence.
Qed.

Lemma MakeMultiLineFloat_map {P} (proj : P -> pt) ls : forall c,
  MakeMultiLineFloat proj c ls = MakeMultiLine c (map (map proj) ls).
Proof.
  unfold MakeMultiLineFloat, MakeMultiLine. induction ls; intros c; cbn [fold_res map]; auto.
  rewrite MakeLineFloat_map. destruct (MakeLine c (map proj a)); cbn [bind]; auto.
Qed.

(** ** Points *)

Lemma point_round_trip p : fits p -> p <> (0, 0) ->
  LoadGeometryCmds 1 (geo (MakePoint cursor0 p)) = Ok (GPoint p).
Proof.
  intros Hp Hne. unfold MakePoint. rewrite LinePoint_eq; cbn [last_pt cursor0]; auto using fits0.
  replace (pt_eqb (0, 0) p) with false.
  - cbn [geo cursor0 app fst snd]. rewrite moveTo_1, !Z.sub_0_r. unfold LoadGeometryCmds.
    cbn [length geom_loop]. change (9 =? 9) with true. cbn iota.
    change (zlen [9; zigzag (fst p); zigzag (snd p)] =? 3) with true. cbn iota.
    rewrite !DeltaDim_zigzag. cbn. destruct p; reflexivity.
  - symmetry. apply not_true_is_false. intros E. apply pt_eqb_eq in E. congruence.
Qed.

Lemma geom_loop_no9 g : forall f total gtype first fp lines, (length g <= f)%nat ->
  ~ In 9 g -> geom_loop f total gtype first fp lines g = Ok lines.
Proof.
  induction g as [|c r IH]; intros f total gtype first fp lines Hf H9; [apply geom_loop_nil|].
  cbn [length] in Hf. destruct f; [lia|]. cbn [geom_loop].
  replace (c =? 9) with false by (cbn in H9; lia).
  apply IH; [lia|]. cbn in H9; tauto.
Qed.

(** Steps between consecutive points, starting at the origin. *)
Fixpoint step_free (k : Z) (p : pt) (l : list pt) : Prop :=
  match l with
  | [] => True
  | q :: r => fst q - fst p <> k /\ snd q - snd p <> k /\ step_free k q r
  end.

Lemma zigzag_9 v : zigzag v = 9 -> v = -5.
Proof. unfold zigzag. destruct (0 <=? v) eqn:E; lia. Qed.

Lemma deltas_no9 l : forall p, step_free (-5) p l -> ~ In 9 (deltas p l).
Proof.
  induction l as [|q r IH]; intros p H; cbn [deltas]; [auto|].
  cbn in H. destruct H as (H1 & H2 & H3). intros Hin. apply in_app_or in Hin as [Hin|Hin].
  - destruct (pt_eqb p q); [destruct Hin|].
    cbn in Hin. destruct Hin as [E|[E|[]]]; apply zigzag_9 in E; lia.
  - apply (IH q H3 Hin).
Qed.

Lemma multipoint_unreadable ps : (2 <= length ps)%nat -> zlen ps < 2 ^ 29 -> Forall fits ps ->
  step_free (-5) (0, 0) ps ->
  LoadGeometryCmds 1 (geo (MakeMultiPoint cursor0 ps)) = Panic.
Proof.
  intros Hn Hlen Hf H5. unfold MakeMultiPoint.
  rewrite fold_LinePoint; cbn [last_pt cnt geo cursor0]; auto using fits0; try lia.
  unfold LoadGeometryCmds. rewrite geom_loop_no9; auto.
  intros [E|Hin].
  - unfold zlen in *. rewrite u32_id in E by (unfold in_u32; lia). unfold moveTo in E.
    rewrite cmdEnc_val, Z.mod_small in E by lia. lia.
  - revert Hin. apply deltas_no9; auto.
Qed.

(** ** Rings *)

Lemma darea_cross l : forall p, darea_loop p l =
  cross_sum (p :: l) + (fst p * snd p - fst (last l p) * snd (last l p)).
Proof.
  induction l as [|q r IH]; intros p.
  - cbn. lia.
  - rewrite last_cons. cbn [darea_loop]. rewrite IH.
    change (cross_sum (p :: q :: r)) with (cross p q + cross_sum (q :: r)). unfold cross. lia.
Qed.

Lemma cross_sum_app l : forall p q, cross_sum ((p :: l) ++ [q]) = cross_sum (p :: l) + cross (last l p) q.
Proof.
  induction l as [|a l IH]; intros p q.
  - cbn. lia.
  - rewrite last_cons. change ((p :: a :: l) ++ [q]) with (p :: ((a :: l) ++ [q])).
    change (cross_sum (p :: ((a :: l) ++ [q]))) with (cross p a + cross_sum ((a :: l) ++ [q])).
    rewrite IH. change (cross_sum (p :: a :: l)) with (cross p a + cross_sum (a :: l)). lia.
Qed.

Lemma surveyor_cons p l : surveyor (p :: l) = cross_sum (p :: l) + cross (last l p) p.
Proof. unfold surveyor. apply cross_sum_app. Qed.

Lemma SignedArea_surveyor ring : SignedArea ring = surveyor ring.
Proof.
  destruct ring as [|p l]; [reflexivity|]. rewrite surveyor_cons.
  unfold SignedArea. rewrite last_cons. cbn [darea_loop]. rewrite darea_cross. unfold cross. lia.
Qed.

Definition B : Z := 23170.

Lemma wrap_product a b c d : - B <= a <= B -> - B <= b <= B -> - B <= c <= B -> - B <= d <= B ->
  wrap32 (wrap32 (a - b) * wrap32 (c + d)) = (a - b) * (c + d).
Proof.
  unfold B. intros.
  rewrite (wrap32_id (a - b)), (wrap32_id (c + d)) by (unfold in_i32; lia).
  apply wrap32_id. unfold in_i32. nia.
Qed.

Lemma area2_loop_eq l : forall p, bounded B (p :: l) -> area2_loop p l = darea_loop p l.
Proof.
  induction l as [|q r IH]; intros p H; [reflexivity|].
  inversion H as [|? ? Hp Hl]; subst. inversion Hl as [|? ? Hq Hr]; subst.
  cbn [area2_loop darea_loop]. rewrite wrap_product by tauto. rewrite IH by auto. reflexivity.
Qed.

Lemma bounded_last b p l : bounded b (p :: l) -> bounded b [last l p].
Proof.
  revert p; induction l; intros p H; inversion H; subst; [repeat constructor; tauto|].
  rewrite last_cons. apply IHl. auto.
Qed.

Lemma SignedArea2_surveyor ring : bounded B ring -> SignedArea2 ring = surveyor ring.
Proof.
  intros H. rewrite <- SignedArea_surveyor. destruct ring as [|p l]; [reflexivity|].
  unfold SignedArea2, SignedArea. apply area2_loop_eq. rewrite last_cons.
  pose proof (bounded_last B p l H) as Hb. inversion Hb; subst. constructor; auto.
Qed.

Lemma winding_loop_eq l : forall p, bounded B (p :: l) -> winding_loop p l = - darea_loop p l.
Proof.
  induction l as [|q r IH]; intros p H; [reflexivity|].
  inversion H as [|? ? Hp Hl]; subst. inversion Hl as [|? ? Hq Hr]; subst.
  cbn [winding_loop darea_loop]. rewrite wrap_product by tauto. rewrite IH by auto. lia.
Qed.

Lemma assert_winding_eq ring cw : ring <> [] -> bounded B ring ->
  assert_winding_order ring cw = Ok (if Bool.eqb (surveyor ring <? 0) cw then ring else rev ring).
Proof.
  intros Hne H. destruct ring as [|p l]; [congruence|]. unfold assert_winding_order.
  rewrite winding_loop_eq by auto. rewrite last_cons.
  pose proof (bounded_last B p l H) as Hb. inversion Hb; subst. inversion H; subst.
  rewrite wrap_product by tauto.
  replace (surveyor (p :: l)) with (SignedArea (p :: l)) by apply SignedArea_surveyor.
  unfold SignedArea. rewrite last_cons. cbn [darea_loop].
  match goal with |- context [?a >? 0] => match goal with |- context [?b <? 0] =>
    replace (a >? 0) with (b <? 0) by lia end end.
  destruct (Bool.eqb _ cw); reflexivity.
Qed.

Lemma last_app1 {A} (l : list A) x d : last (l ++ [x]) d = x.
Proof. induction l; auto. cbn [app]. rewrite last_cons. rewrite <- IHl at 2.
  apply last_ne. destruct l; discriminate. Qed.
Lemma last_rev {A} (l : list A) p d : last (rev (p :: l)) d = p.
Proof. cbn. apply last_app1. Qed.
Lemma hd_rev {A} (l : list A) d : hd d (rev l) = last l d.
Proof.
  induction l as [|a l IH]; auto. cbn [rev]. destruct l as [|b l]; [reflexivity|].
  cbn [rev] in *. destruct (rev l ++ [b]) eqn:E; [cbn in E; destruct (rev l); discriminate|].
  cbn in *. rewrite IH. reflexivity.
Qed.

Lemma cross_sum_snoc l x d : l <> [] -> cross_sum (l ++ [x]) = cross_sum l + cross (last l d) x.
Proof. destruct l; [congruence|]. intros _. rewrite cross_sum_app, last_cons. reflexivity. Qed.

Lemma cross_anti p q : cross p q = - cross q p.
Proof. unfold cross; lia. Qed.

Lemma cross_sum_rev l : cross_sum (rev l) = - cross_sum l.
Proof.
  induction l as [|p l IH]; [reflexivity|]. destruct l as [|q r]; [reflexivity|].
  change (rev (p :: q :: r)) with (rev (q :: r) ++ [p]).
  rewrite (cross_sum_snoc _ _ (0,0)) by (cbn; destruct (rev r); discriminate).
  rewrite IH, last_rev, cross_anti.
  change (cross_sum (p :: q :: r)) with (cross p q + cross_sum (q :: r)). lia.
Qed.

Lemma surveyor_rev l : surveyor (rev l) = - surveyor l.
Proof.
  destruct l as [|p l]; [reflexivity|].
  destruct (rev (p :: l)) as [|q r] eqn:E; [cbn in E; destruct (rev l); discriminate|].
  rewrite !surveyor_cons. rewrite <- E, cross_sum_rev.
  assert (Hq : q = last l p).
  { rewrite <- (last_cons p l p), <- hd_rev, E. reflexivity. }
  assert (Hp : last r q = p).
  { rewrite <- (last_cons q r q), <- E. apply last_rev. }
  rewrite Hq in *. rewrite Hp, (cross_anti p). lia.
Qed.

Lemma merge_runs_eq p q r : merge_runs (p :: q :: r) =
  if pt_eqb p q then merge_runs (q :: r) else p :: merge_runs (q :: r).
Proof. reflexivity. Qed.

Lemma merge_runs_last l : forall p, last (merge_runs (p :: l)) p = last l p.
Proof.
  induction l as [|q r IH]; intros p; [reflexivity|]. rewrite merge_runs_eq, last_cons.
  specialize (IH q). destruct (merge_runs_cons q r) as [t Ht]. rewrite Ht in *.
  rewrite last_cons in IH.
  destruct (pt_eqb p q); rewrite ?last_cons; auto.
Qed.

Lemma cross_same p : cross p p = 0.
Proof. unfold cross; lia. Qed.

Lemma cross_sum_merge l : cross_sum (merge_runs l) = cross_sum l.
Proof.
  induction l as [|p l IH]; [reflexivity|]. destruct l as [|q r]; [reflexivity|].
  rewrite merge_runs_eq. change (cross_sum (p :: q :: r)) with (cross p q + cross_sum (q :: r)).
  destruct (pt_eqb p q) eqn:E.
  - apply pt_eqb_eq in E; subst q. rewrite IH, cross_same. lia.
  - destruct (merge_runs_cons q r) as [t Ht]. rewrite Ht in *.
    change (cross_sum (p :: q :: t)) with (cross p q + cross_sum (q :: t)). lia.
Qed.

Lemma surveyor_merge l : surveyor (merge_runs l) = surveyor l.
Proof.
  destruct l as [|p l]; [reflexivity|]. destruct (merge_runs_cons p l) as [t Ht].
  pose proof (merge_runs_last l p) as HL. rewrite Ht, last_cons in HL.
  rewrite Ht, !surveyor_cons, <- Ht, cross_sum_merge, HL. reflexivity.
Qed.

Lemma merge_runs_snoc l x d : l <> [] ->
  merge_runs (l ++ [x]) = if pt_eqb (last l d) x then merge_runs l else merge_runs l ++ [x].
Proof.
  induction l as [|p l IH]; [congruence|]. intros _. destruct l as [|q r].
  - cbn. destruct (pt_eqb p x) eqn:E; [apply pt_eqb_eq in E; subst|];
      unfold pt_eqb in *; [rewrite !Z.eqb_refl|rewrite E]; reflexivity.
  - rewrite last_cons. change ((p :: q :: r) ++ [x]) with (p :: (q :: r ++ [x])).
    rewrite !merge_runs_eq. change (q :: r ++ [x]) with ((q :: r) ++ [x]).
    rewrite IH by discriminate. rewrite (last_ne (q :: r) p d) by discriminate.
    destruct (pt_eqb p q), (pt_eqb (last (q :: r) d) x); reflexivity.
Qed.

Lemma merge_runs_rev l : merge_runs (rev l) = rev (merge_runs l).
Proof.
  induction l as [|p l IH]; [reflexivity|]. destruct l as [|q r]; [reflexivity|].
  change (rev (p :: q :: r)) with (rev (q :: r) ++ [p]).
  rewrite (merge_runs_snoc _ _ (0,0)) by (cbn; destruct (rev r); discriminate).
  rewrite last_rev, IH, merge_runs_eq, pt_eqb_sym.
  destruct (pt_eqb p q); [reflexivity|]. reflexivity.
Qed.

(** A ring is closed when it ends where it starts. *)
Definition closed (l : list pt) : Prop := exists p r, l = p :: r /\ last l p = p.

Lemma closed_rev l : closed l -> closed (rev l).
Proof.
  intros (p & r & -> & H). rewrite last_cons in H.
  destruct (rev (p :: r)) as [|a t] eqn:E; [cbn in E; destruct (rev r); discriminate|].
  exists a, t. split; auto. rewrite <- E, last_rev.
  transitivity (last (p :: r) a); [rewrite last_cons; auto|]. rewrite <- hd_rev, E. reflexivity.
Qed.

Lemma closed_merge l : closed l -> close_line (merge_runs l) = merge_runs l.
Proof.
  intros (p & r & -> & H). rewrite last_cons in H.
  pose proof (merge_runs_last r p) as HL. destruct (merge_runs_cons p r) as [t Ht]. rewrite Ht in *.
  unfold close_line. rewrite HL, H, pt_eqb_refl. reflexivity.
Qed.

(** Orientation: positive area wanted for outer rings. *)
Definition orient (outer : bool) (l : list pt) : list pt :=
  if Bool.eqb (surveyor l >? 0) outer then l else rev l.

Fixpoint enc_rings (p : pt) (ls : list (list pt)) : list Z :=
  match ls with
  | [] => []
  | l :: r => (enc_line p l ++ [15]) ++ enc_rings (last l (0, 0)) r
  end.

Definition ring_fits (l : list pt) : Prop := l <> [] /\ bounded B l /\ zlen l < 2 ^ 29.

Lemma bounded_fits l : bounded B l -> Forall fits l.
Proof. unfold bounded, B. apply Forall_impl. unfold fits. lia. Qed.
Lemma ring_fits_line l : ring_fits l -> line_ok l.
Proof. intros (A & C & D). split; auto using bounded_fits. Qed.
Lemma bounded_rev b l : bounded b l -> bounded b (rev l).
Proof. unfold bounded. rewrite !Forall_forall. intros H x Hx. apply H. apply in_rev; auto. Qed.
Lemma zlen_rev {A} (l : list A) : zlen (rev l) = zlen l.
Proof. unfold zlen. rewrite rev_length. reflexivity. Qed.
Lemma ring_fits_rev l : ring_fits l -> ring_fits (rev l).
Proof.
  intros (A & C & D). split; [|split; [apply bounded_rev; auto|rewrite zlen_rev; auto]].
  intros E. apply A. rewrite <- (rev_involutive l), E. reflexivity.
Qed.
Lemma ring_fits_orient o l : ring_fits l -> ring_fits (orient o l).
Proof. intros. unfold orient. destruct (Bool.eqb _ o); auto using ring_fits_rev. Qed.
Lemma closed_orient o l : closed l -> closed (orient o l).
Proof. intros. unfold orient. destruct (Bool.eqb _ o); auto using closed_rev. Qed.

Lemma AssertConvert_eq {P} (proj : P -> pt) o c l : ring_fits (map proj l) -> fits (last_pt c) ->
  let l' := orient o (map proj l) in
  AssertConvert proj o c l = Ok (mkCur (geo c ++ (enc_line (last_pt c) l' ++ [15])) (last l' (0, 0)) (cnt c)).
Proof.
  intros Hr Hc l'. destruct l as [|p r]; [destruct Hr as [H _]; cbn in H; congruence|].
  unfold AssertConvert. cbv zeta. rewrite SignedArea2_surveyor by apply Hr.
  fold (orient o (map proj (p :: r))). fold l'.
  destruct (MakeLine_eq (mkCur [] (last_pt c) 0) l') as [n E].
  - apply (ring_fits_orient o) in Hr. apply Hr.
  - auto.
  - apply bounded_fits. apply (ring_fits_orient o) in Hr. apply Hr.
  - apply (ring_fits_orient o) in Hr. apply Hr.
  - rewrite E. cbn [bind geo last_pt app]. rewrite closePath_1. reflexivity.
Qed.

Lemma last_fits l : ring_fits l -> fits (last l (0, 0)).
Proof. intros (A & C & D). apply fits_last; auto using fits0, bounded_fits. Qed.

Definition last_ring (p : pt) (ls : list (list pt)) : pt := fold_left (fun _ l => last l (0, 0)) ls p.

Lemma enc_rings_app a : forall p b, enc_rings p (a ++ b) = enc_rings p a ++ enc_rings (last_ring p a) b.
Proof. induction a; intros; cbn [enc_rings app]; auto. rewrite IHa, app_assoc. reflexivity. Qed.

Lemma last_ring_fits ls : forall p, fits p -> Forall ring_fits ls -> fits (last_ring p ls).
Proof. induction ls; intros p Hp H; cbn; auto. inversion H; subst. apply IHls; auto using last_fits. Qed.

Lemma holes_eq {P} (proj : P -> pt) ls : forall c, fits (last_pt c) ->
  Forall ring_fits (map (map proj) ls) ->
  let ls' := map (fun l => orient false (map proj l)) ls in
  exists n, fold_res (AssertConvert proj false) ls c =
    Ok (mkCur (geo c ++ enc_rings (last_pt c) ls') (last_ring (last_pt c) ls') n).
Proof.
  induction ls as [|l r IH]; intros c Hc H ls'.
  - exists (cnt c). cbn. rewrite app_nil_r. destruct c; reflexivity.
  - cbn [map] in H. inversion H as [|? ? Hl Hr]; subst. cbn [fold_res].
    rewrite AssertConvert_eq by auto. cbn [bind].
    match goal with |- context [fold_res _ r ?c1] => destruct (IH c1) as [n E]; auto end.
    { cbn [last_pt]. apply last_fits. apply ring_fits_orient; auto. }
    exists n. rewrite E. subst ls'. cbn [map geo last_pt enc_rings last_ring fold_left].
    rewrite !app_assoc. reflexivity.
Qed.

Lemma map_res_ok {A C} (f : A -> res C) (g : A -> C) l :
  (forall a, In a l -> f a = Ok (g a)) -> map_res f l = Ok (map g l).
Proof.
  induction l; intros H; cbn; auto. rewrite H by (left; auto). cbn.
  rewrite IHl by (intros; apply H; right; auto). reflexivity.
Qed.

(** Closing a ring of abstract points. *)
Definition close_with {P} (peq : P -> P -> bool) (l : list P) : list P :=
  match l with
  | [] => []
  | f :: _ => if peq f (last l f) then l else l ++ [f]
  end.

Lemma TrimRing_eq {P} (peq : P -> P -> bool) l : l <> [] -> TrimRing peq l = Ok (close_with peq l).
Proof. destruct l; [congruence|]. intros _. unfold TrimRing, close_with. destruct (peq _ _); reflexivity. Qed.

(** Rings as emitted for one polygon: outer then holes. *)
Definition emitted (ls : list (list pt)) : list (list pt) :=
  match ls with [] => [] | o :: hs => orient true o :: map (orient false) hs end.

Lemma MakePolygonFloat_eq {P} (proj : P -> pt) peq c rings :
  rings <> [] -> Forall (fun l => l <> []) rings ->
  let rs := map (fun l => map proj (close_with peq l)) rings in
  Forall ring_fits rs -> fits (last_pt c) ->
  exists n, MakePolygonFloat proj peq c rings =
    Ok (mkCur (geo c ++ enc_rings (last_pt c) (emitted rs)) (last_ring (last_pt c) (emitted rs)) n).
Proof.
  intros Hne Hall rs Hf Hc. unfold MakePolygonFloat.
  rewrite (map_res_ok _ (close_with peq)).
  2:{ intros l Hin. apply TrimRing_eq. rewrite Forall_forall in Hall. auto. }
  cbn [bind]. destruct rings as [|o hs]; [congruence|]. subst rs. cbn [map emitted] in *.
  inversion Hf as [|? ? Ho Hh]; subst.
  rewrite AssertConvert_eq by auto. cbn [bind].
  match goal with |- context [fold_res _ _ ?c1] =>
    destruct (holes_eq proj (map (close_with peq) hs) c1) as [n E] end.
  { cbn [last_pt]. apply last_fits. apply ring_fits_orient; auto. }
  { rewrite map_map. auto. }
  exists n. rewrite E. cbn [geo last_pt enc_rings last_ring fold_left].
  rewrite !map_map, !app_assoc. reflexivity.
Qed.

Lemma MakeMultiPolygonFloat_eq {P} (proj : P -> pt) peq polys : forall c,
  Forall (fun rings => rings <> [] /\ Forall (fun l => l <> []) rings) polys ->
  let ps := map (fun rings => map (fun l => map proj (close_with peq l)) rings) polys in
  Forall (Forall ring_fits) ps -> fits (last_pt c) ->
  exists n, MakeMultiPolygonFloat proj peq c polys =
    Ok (mkCur (geo c ++ enc_rings (last_pt c) (concat (map emitted ps)))
              (last_ring (last_pt c) (concat (map emitted ps))) n).
Proof.
  induction polys as [|poly r IH]; intros c Hall ps Hf Hc.
  - exists (cnt c). cbn. rewrite app_nil_r. destruct c; reflexivity.
  - subst ps. cbn [map] in *. inversion Hf as [|? ? Hp Hr]; subst. inversion Hall as [|? ? [H1 H2] H3]; subst.
    unfold MakeMultiPolygonFloat in *. cbn [fold_res].
    destruct (MakePolygonFloat_eq proj peq c poly H1 H2 Hp Hc) as [n E]. rewrite E. cbn [bind].
    match goal with |- context [fold_res _ r ?c1] => destruct (IH c1) as [n' E']; auto end.
    { cbn [last_pt]. apply last_ring_fits; auto.
      clear -Hp. destruct poly as [|o hs]; cbn [map emitted] in *; [constructor|].
      inversion Hp; subst. constructor; auto using ring_fits_orient.
      rewrite Forall_forall in *. intros x Hx. rewrite in_map_iff in Hx. destruct Hx as (y & <- & Hy).
      apply ring_fits_orient; auto. }
    exists n'. rewrite E'. cbn [geo last_pt concat].
    rewrite enc_rings_app, app_assoc. f_equal. f_equal.
    unfold last_ring. rewrite fold_left_app. reflexivity.
Qed.

Lemma geom_loop_rings ls : forall f total first fp lines p,
  Forall ring_fits ls -> total <> 3 ->
  (first = true -> p = (0, 0)) -> (first = false -> fp = Some p) ->
  (2 * length ls <= f)%nat ->
  geom_loop f total 3 first fp lines (enc_rings p ls) = Ok (lines ++ map merge_runs ls).
Proof.
  induction ls as [|l r IH]; intros f total first fp lines p Hls Htot H1 H2 Hf.
  - cbn [enc_rings map]. rewrite geom_loop_nil, app_nil_r. reflexivity.
  - inversion Hls as [|? ? (Hne & Hfit & Hlen) Hr]; subst. cbn [length] in Hf.
    destruct f as [|f]; [lia|]. cbn [enc_rings]. rewrite <- app_assoc.
    rewrite geom_loop_line; auto; try lia.
    destruct f as [|f]; [lia|]. cbn [app]. rewrite geom_loop_skip15.
    rewrite IH; auto; try lia; try discriminate.
    cbn [map]. rewrite <- app_assoc. reflexivity.
Qed.

Lemma enc_rings_len p ls : Forall ring_fits ls -> (4 * length ls <= length (enc_rings p ls))%nat.
Proof.
  intros H; revert p; induction H as [|l r (Hne & _ & _) _ IH]; intros p; cbn [enc_rings length]; [lia|].
  rewrite !app_length. pose proof (enc_line_len p l Hne). specialize (IH (last l (0,0))). lia.
Qed.

(** Grouping of oriented rings. *)
Lemma orient_true_area l : surveyor l <> 0 -> 0 < surveyor (orient true l).
Proof. intros. unfold orient. destruct (surveyor l >? 0) eqn:E; cbn; [lia|]. rewrite surveyor_rev. lia. Qed.
Lemma orient_false_area l : surveyor (orient false l) <= 0.
Proof. unfold orient. destruct (surveyor l >? 0) eqn:E; cbn; [rewrite surveyor_rev|]; lia. Qed.

Lemma append_last_snoc ps p line : append_last (ps ++ [p]) line = ps ++ [p ++ [line]].
Proof.
  induction ps as [|a ps IH]; [reflexivity|]. cbn [app append_last].
  destruct (ps ++ [p]) eqn:E; [destruct ps; discriminate|]. rewrite IH. reflexivity.
Qed.

Lemma group_holes hs : forall ps p rest, Forall (fun l => surveyor l <= 0) hs ->
  group_rings (hs ++ rest) (ps ++ [p]) = group_rings rest (ps ++ [p ++ hs]).
Proof.
  induction hs as [|h hs IH]; intros ps p rest H; cbn [app].
  - rewrite app_nil_r. reflexivity.
  - inversion H; subst. cbn [group_rings]. rewrite SignedArea_surveyor.
    replace (surveyor h >? 0) with false by lia. rewrite append_last_snoc, IH by auto.
    rewrite <- app_assoc. reflexivity.
Qed.

Lemma group_polys polys : forall ps,
  Forall (fun rs => match rs with [] => False | o :: hs => 0 < surveyor o /\ Forall (fun l => surveyor l <= 0) hs end) polys ->
  group_rings (concat polys) ps = ps ++ polys.
Proof.
  induction polys as [|rs polys IH]; intros ps H; cbn [concat].
  - cbn. rewrite app_nil_r. reflexivity.
  - inversion H as [|? ? Hr Hp]; subst. destruct rs as [|o hs]; [destruct Hr|]. destruct Hr as [Ho Hh].
    cbn [app group_rings]. rewrite SignedArea_surveyor. replace (surveyor o >? 0) with true by lia.
    rewrite group_holes by auto. rewrite IH by auto. rewrite <- app_assoc. reflexivity.
Qed.

Lemma close_with_map_closed {P} (proj : P -> pt) peq l : l <> [] ->
  (forall a b, peq a b = true -> proj a = proj b) -> closed (map proj (close_with peq l)).
Proof.
  intros Hne Hp. destruct l as [|f r]; [congruence|]. unfold close_with.
  destruct (peq f (last (f :: r) f)) eqn:E.
  - exists (proj f), (map proj r). split; auto. rewrite last_cons in E.
    cbn [map]. rewrite last_cons. apply Hp in E. rewrite E at 2. clear.
    revert f. induction r; intros; auto. cbn [map]. rewrite !last_cons. apply IHr.
  - exists (proj f), (map proj (r ++ [f])). split; auto.
    cbn [app map]. rewrite map_app. cbn [map].
    change (proj f :: map proj r ++ [proj f]) with ((proj f :: map proj r) ++ [proj f]). apply last_app1.
Qed.

(** ** Whole polygons *)

Lemma merge_orient o l : merge_runs (orient o l) = wind o (merge_runs l).
Proof.
  unfold orient, wind. rewrite surveyor_merge. replace (0 <? surveyor l) with (surveyor l >? 0) by lia.
  destruct (Bool.eqb _ o); auto using merge_runs_rev.
Qed.

Lemma emitted_seen {P} (proj : P -> pt) peq rings :
  map merge_runs (emitted (map (fun l => map proj (close_with peq l)) rings)) = seen_polygon proj peq rings.
Proof.
  unfold seen_polygon. destruct rings as [|o hs]; [reflexivity|]. cbn [map emitted].
  rewrite merge_orient. f_equal. rewrite !map_map. apply map_ext. intros. apply merge_orient.
Qed.

Lemma emitted_fits rs : Forall ring_fits rs -> Forall ring_fits (emitted rs).
Proof.
  intros H. destruct H as [|o hs Ho Hh]; constructor; auto using ring_fits_orient.
  rewrite Forall_forall in *. intros x Hx. rewrite in_map_iff in Hx. destruct Hx as (y & <- & Hy).
  apply ring_fits_orient; auto.
Qed.

Lemma emitted_closed rs : Forall closed rs -> Forall closed (emitted rs).
Proof.
  intros H. destruct H as [|o hs Ho Hh]; constructor; auto using closed_orient.
  rewrite Forall_forall in *. intros x Hx. rewrite in_map_iff in Hx. destruct Hx as (y & <- & Hy).
  apply closed_orient; auto.
Qed.

Lemma Forall_concat' {A} (Q : A -> Prop) ls : Forall (Forall Q) ls -> Forall Q (concat ls).
Proof. induction 1; cbn; auto. apply Forall_app; auto. Qed.

Lemma map_close_closed ls : Forall closed ls -> map close_line (map merge_runs ls) = map merge_runs ls.
Proof. intros H. rewrite map_map. induction H; cbn; auto. rewrite IHForall, closed_merge; auto. Qed.

Lemma surveyor_merge_orient_true l : surveyor l <> 0 -> 0 < surveyor (merge_runs (orient true l)).
Proof. intros. rewrite surveyor_merge. apply orient_true_area; auto. Qed.

Lemma bounded_app b l1 l2 : bounded b l1 -> bounded b l2 -> bounded b (l1 ++ l2).
Proof. unfold bounded. intros. apply Forall_app; auto. Qed.

Lemma close_with_fits {P} (proj : P -> pt) peq l : l <> [] -> bounded B (map proj l) -> short l ->
  ring_fits (map proj (close_with peq l)).
Proof.
  intros Hne Hb Hs. unfold short in Hs. destruct l as [|f r]; [congruence|]. unfold close_with, ring_fits.
  destruct (peq _ _).
  - split; [discriminate|]. split; auto. unfold zlen. rewrite map_length. lia.
  - split; [discriminate|]. rewrite map_app. split.
    + apply bounded_app; auto. cbn in *. inversion Hb; subst. constructor; auto.
    + unfold zlen. rewrite app_length, !map_length. cbn [length] in *. lia.
Qed.

Definition poly_ok {P} (proj : P -> pt) (rings : list (list P)) : Prop :=
  rings <> [] /\ Forall (fun r => r <> [] /\ bounded B (map proj r) /\ short r) rings.
Definition outer_area {P} (proj : P -> pt) (rings : list (list P)) : Z :=
  match rings with [] => 0 | o :: _ => surveyor (map proj o) end.

Lemma surveyor_snoc_first p l : surveyor ((p :: l) ++ [p]) = surveyor (p :: l).
Proof.
  change ((p :: l) ++ [p]) with (p :: (l ++ [p])) at 1. rewrite surveyor_cons, last_app1.
  change (p :: l ++ [p]) with ((p :: l) ++ [p]). rewrite cross_sum_app, surveyor_cons, cross_same. lia.
Qed.

Lemma surveyor_close {P} (proj : P -> pt) peq l :
  surveyor (map proj (close_with peq l)) = surveyor (map proj l).
Proof.
  destruct l as [|f r]; [reflexivity|]. unfold close_with. destruct (peq _ _); auto.
  rewrite map_app. cbn [map]. apply surveyor_snoc_first.
Qed.

Lemma multipolygon_round_trip {P} (proj : P -> pt) peq polys :
  (forall a b, peq a b = true -> proj a = proj b) ->
  polys <> [] ->
  Forall (fun rings => poly_ok proj rings /\ outer_area proj rings <> 0) polys ->
  exists c, MakeMultiPolygonFloat proj peq cursor0 polys = Ok c /\
    LoadGeometryCmds 3 (geo c) =
      Ok (match map (seen_polygon proj peq) polys with
          | [p] => GPolygon p
          | ps => GMultiPolygon ps end).
Proof.
  intros Hpeq Hne Hall.
  set (ps := map (fun rings => map (fun l => map proj (close_with peq l)) rings) polys).
  assert (Hshape : Forall (fun rings => rings <> [] /\ Forall (fun l => l <> []) rings) polys).
  { eapply Forall_impl; [|exact Hall]. intros rings [[H1 H2] _]. split; auto.
    eapply Forall_impl; [|exact H2]. cbn. tauto. }
  assert (Hfits : Forall (Forall ring_fits) ps).
  { subst ps. rewrite Forall_forall in *. intros x Hx. rewrite in_map_iff in Hx.
    destruct Hx as (rings & <- & Hin). destruct (Hall _ Hin) as [[_ H2] _].
    rewrite Forall_forall in *. intros y Hy. rewrite in_map_iff in Hy. destruct Hy as (l & <- & Hl).
    destruct (H2 _ Hl) as (A1 & A2 & A3). apply close_with_fits; auto. }
  assert (Hclosed : Forall (Forall closed) ps).
  { subst ps. rewrite Forall_forall in *. intros x Hx. rewrite in_map_iff in Hx.
    destruct Hx as (rings & <- & Hin). destruct (Hshape _ Hin) as [_ H2].
    rewrite Forall_forall in *. intros y Hy. rewrite in_map_iff in Hy. destruct Hy as (l & <- & Hl).
    apply close_with_map_closed; auto. }
  destruct (MakeMultiPolygonFloat_eq proj peq polys cursor0 Hshape Hfits fits0) as [n E].
  fold ps in E. eexists. split; [exact E|]. cbn [geo cursor0 last_pt app].
  set (ls := concat (map emitted ps)).
  assert (Hls : Forall ring_fits ls).
  { apply Forall_concat'. rewrite Forall_forall in *. intros x Hx. rewrite in_map_iff in Hx.
    destruct Hx as (y & <- & Hy). apply emitted_fits; auto. }
  assert (Hlc : Forall closed ls).
  { apply Forall_concat'. rewrite Forall_forall in *. intros x Hx. rewrite in_map_iff in Hx.
    destruct Hx as (y & <- & Hy). apply emitted_closed; auto. }
  assert (Hseen : map (seen_polygon proj peq) polys = map (map merge_runs) (map emitted ps)).
  { subst ps. rewrite !map_map. apply map_ext. intros. symmetry. apply emitted_seen. }
  assert (Hcat : map merge_runs ls = concat (map (seen_polygon proj peq) polys)).
  { rewrite Hseen. subst ls. apply concat_map. }
  assert (Hlsne : (0 < length ls)%nat).
  { subst ls ps. destruct polys as [|rings r]; [congruence|]. inversion Hshape as [|? ? [H1 _] _]; subst.
    destruct rings; [congruence|]. cbn. lia. }
  pose proof (enc_rings_len (0, 0) ls Hls) as Hlen.
  unfold LoadGeometryCmds. rewrite geom_loop_rings; auto; try discriminate;
    try (unfold zlen; lia); try lia.
  cbn [bind app]. change (3 =? 3) with true. cbn iota.
  rewrite map_close_closed by auto. rewrite Hcat.
  assert (Hgroup : group_rings (concat (map (seen_polygon proj peq) polys)) [] = map (seen_polygon proj peq) polys).
  { rewrite group_polys; auto. rewrite Forall_forall. intros x Hx. rewrite in_map_iff in Hx.
    destruct Hx as (rings & <- & Hin). rewrite <- emitted_seen.
    rewrite Forall_forall in Hall. destruct (Hall _ Hin) as [[Hn _] Ha].
    destruct rings as [|o hs]; [congruence|]. cbn [map emitted]. split.
    - apply surveyor_merge_orient_true. rewrite surveyor_close. exact Ha.
    - rewrite Forall_forall. intros y Hy. rewrite in_map_iff in Hy. destruct Hy as (l & <- & Hl).
      rewrite in_map_iff in Hl. destruct Hl as (l' & <- & Hl'). rewrite surveyor_merge. apply orient_false_area. }
  rewrite Hgroup. 
  assert (Hnn : Forall (fun p => p <> []) (map (seen_polygon proj peq) polys)).
  { rewrite Forall_forall. intros x Hx. rewrite in_map_iff in Hx. destruct Hx as (rings & <- & Hin).
    rewrite Forall_forall in Hall. destruct (Hall _ Hin) as [[Hn _] _]. destruct rings; [congruence|]. discriminate. }
  set (seen := map (seen_polygon proj peq) polys) in *.
  assert (Hps : match concat seen with [l] => [[l]] | _ => seen end = seen).
  { destruct seen as [|p [|p' r]]; [reflexivity| |].
    - cbn [concat]. rewrite app_nil_r. destruct p as [|a [|b p]]; reflexivity.
    - inversion Hnn as [|? ? Hp Hr]; subst. inversion Hr as [|? ? Hp' _]; subst. cbn [concat].
      destruct p as [|a p]; [congruence|]. destruct p' as [|a' p']; [congruence|].
      destruct p; reflexivity. }
  destruct (concat seen) as [|a [|b t]] eqn:Ec; rewrite ?Hps; destruct seen as [|p [|p' r]]; try reflexivity; inversion Hps; subst; reflexivity.
Qed.

(** ** The integer polygon path *)

Definition worient (outer : bool) (l : list pt) : list pt :=
  if Bool.eqb (surveyor l <? 0) outer then l else rev l.

Lemma worient_fits o l : ring_fits l -> ring_fits (worient o l).
Proof. intros. unfold worient. destruct (Bool.eqb _ o); auto using ring_fits_rev. Qed.
Lemma worient_closed o l : closed l -> closed (worient o l).
Proof. intros. unfold worient. destruct (Bool.eqb _ o); auto using closed_rev. Qed.
Lemma worient_true_area l : surveyor l <> 0 -> surveyor (worient true l) < 0.
Proof. intros. unfold worient. destruct (surveyor l <? 0) eqn:E; cbn; [lia|]. rewrite surveyor_rev. lia. Qed.
Lemma worient_false_area l : surveyor l <> 0 -> 0 < surveyor (worient false l).
Proof. intros. unfold worient. destruct (surveyor l <? 0) eqn:E; cbn; [rewrite surveyor_rev|]; lia. Qed.

Lemma MakeHole_eq c l : ring_fits l -> fits (last_pt c) ->
  MakeHole c l = Ok (mkCur (geo c ++ (enc_line (last_pt c) (worient false l) ++ [15])) (last (worient false l) (0, 0)) (cnt c)).
Proof.
  intros Hr Hc. unfold MakeHole. rewrite assert_winding_eq by apply Hr. cbn [bind].
  fold (worient false l). pose proof (worient_fits false l Hr) as Hw.
  destruct (MakeLine_eq (mkCur [] (last_pt c) 0) (worient false l)) as [n E]; auto; try apply Hw.
  - apply bounded_fits. apply Hw.
  - rewrite E. cbn [bind geo last_pt app]. rewrite closePath_1. reflexivity.
Qed.

Lemma int_holes_eq ls : forall c, fits (last_pt c) -> Forall ring_fits ls ->
  exists n, fold_res MakeHole ls c =
    Ok (mkCur (geo c ++ enc_rings (last_pt c) (map (worient false) ls)) (last_ring (last_pt c) (map (worient false) ls)) n).
Proof.
  induction ls as [|l r IH]; intros c Hc H.
  - exists (cnt c). cbn. rewrite app_nil_r. destruct c; reflexivity.
  - inversion H as [|? ? Hl Hr]; subst. cbn [fold_res]. rewrite MakeHole_eq by auto. cbn [bind].
    match goal with |- context [fold_res _ r ?c1] => destruct (IH c1) as [n E]; auto end.
    { cbn [last_pt]. apply last_fits. apply worient_fits; auto. }
    exists n. rewrite E. cbn [map geo last_pt enc_rings last_ring fold_left]. rewrite !app_assoc. reflexivity.
Qed.

Definition int_emitted (ls : list (list pt)) : list (list pt) :=
  match ls with [] => [] | o :: hs => worient true o :: map (worient false) hs end.

Lemma MakePolygon_eq c rings : rings <> [] -> Forall (fun l => l <> []) rings ->
  let rs := map (close_with pt_eqb) rings in
  Forall ring_fits rs -> fits (last_pt c) ->
  exists n, MakePolygon c rings =
    Ok (mkCur (geo c ++ enc_rings (last_pt c) (int_emitted rs)) (last_ring (last_pt c) (int_emitted rs)) n).
Proof.
  intros Hne Hall rs Hf Hc. unfold MakePolygon.
  rewrite (map_res_ok _ (close_with pt_eqb)).
  2:{ intros l Hin. apply TrimRing_eq. rewrite Forall_forall in Hall. auto. }
  cbn [bind]. fold rs. destruct rings as [|o hs]; [congruence|]. subst rs. cbn [map int_emitted] in *.
  inversion Hf as [|? ? Ho Hh]; subst.
  rewrite assert_winding_eq by apply Ho. cbn [bind]. fold (worient true (close_with pt_eqb o)).
  pose proof (worient_fits true _ Ho) as Hw.
  destruct (MakeLine_eq c (worient true (close_with pt_eqb o))) as [n E]; auto; try apply Hw.
  { apply bounded_fits; apply Hw. }
  rewrite E. cbn [bind geo last_pt cnt]. rewrite closePath_1.
  match goal with |- context [fold_res _ _ ?c1] => destruct (int_holes_eq (map (close_with pt_eqb) hs) c1) as [n' E']; auto end.
  { cbn [last_pt]. apply last_fits; auto. }
  exists n'. rewrite E'. cbn [geo last_pt enc_rings last_ring fold_left]. rewrite !app_assoc. reflexivity.
Qed.

Lemma group_singletons ls : forall ps, Forall (fun l => 0 < surveyor l) ls ->
  group_rings ls ps = ps ++ map (fun l => [l]) ls.
Proof.
  induction ls as [|l r IH]; intros ps H; cbn [group_rings map]; [rewrite app_nil_r; auto|].
  inversion H; subst. rewrite SignedArea_surveyor. replace (surveyor l >? 0) with true by lia.
  rewrite IH by auto. rewrite <- app_assoc. reflexivity.
Qed.

Lemma group_first o hs : surveyor o <= 0 -> Forall (fun l => 0 < surveyor l) hs ->
  group_rings (o :: hs) [] = map (fun l => [l]) (o :: hs).
Proof.
  intros Ho Hh. cbn [group_rings]. rewrite SignedArea_surveyor. replace (surveyor o >? 0) with false by lia.
  cbn [append_last]. rewrite group_singletons by auto. reflexivity.
Qed.

Lemma map_id_pt (l : list pt) : map (fun p => p) l = l.
Proof. apply map_id. Qed.

Lemma int_polygon_split o hs : hs <> [] ->
  poly_ok (fun p => p) (o :: hs) -> Forall (fun r => surveyor r <> 0) (o :: hs) ->
  exists c o' hs', MakePolygon cursor0 (o :: hs) = Ok c /\
    LoadGeometryCmds 3 (geo c) = Ok (GMultiPolygon (map (fun r => [r]) (o' :: hs'))) /\
    surveyor o' < 0 /\ length hs' = length hs /\ Forall (fun r => 0 < surveyor r) hs'.
Proof.
  intros Hne [_ Hok] Harea.
  assert (Hshape : Forall (fun l : list pt => l <> []) (o :: hs)).
  { eapply Forall_impl; [|exact Hok]. cbn. tauto. }
  set (rs := map (close_with pt_eqb) (o :: hs)).
  assert (Hfits : Forall ring_fits rs).
  { subst rs. rewrite Forall_forall in *. intros x Hx. rewrite in_map_iff in Hx. destruct Hx as (l & <- & Hl).
    destruct (Hok _ Hl) as (A1 & A2 & A3). rewrite <- (map_id_pt (close_with pt_eqb l)).
    apply close_with_fits; auto. }
  assert (Hcl : Forall closed rs).
  { subst rs. rewrite Forall_forall in *. intros x Hx. rewrite in_map_iff in Hx. destruct Hx as (l & <- & Hl).
    rewrite <- (map_id_pt (close_with pt_eqb l)). apply close_with_map_closed; auto.
    intros a b Hab. apply pt_eqb_eq; auto. }
  assert (Ha : Forall (fun r => surveyor r <> 0) rs).
  { subst rs. rewrite Forall_forall in *. intros x Hx. rewrite in_map_iff in Hx. destruct Hx as (l & <- & Hl).
    rewrite <- (map_id_pt (close_with pt_eqb l)), surveyor_close, map_id_pt. auto. }
  destruct (MakePolygon_eq cursor0 (o :: hs) ltac:(discriminate) Hshape Hfits fits0) as [n E].
  fold rs in E. eexists. subst rs. cbn [map int_emitted] in *.
  inversion Hfits as [|? ? Fo Fh]; subst. inversion Hcl as [|? ? Co Ch]; subst. inversion Ha as [|? ? Ao Ah]; subst.
  set (o1 := worient true (close_with pt_eqb o)) in *.
  set (hs1 := map (worient false) (map (close_with pt_eqb) hs)) in *.
  exists (merge_runs o1), (map merge_runs hs1). split; [exact E|]. cbn [geo cursor0 last_pt app]. fold o1. fold hs1.
  assert (F1 : Forall ring_fits (o1 :: hs1)).
  { constructor; [apply worient_fits; auto|]. subst hs1. rewrite Forall_forall in *. intros x Hx.
    rewrite in_map_iff in Hx. destruct Hx as (y & <- & Hy). apply worient_fits; auto. }
  assert (C1 : Forall closed (o1 :: hs1)).
  { constructor; [apply worient_closed; auto|]. subst hs1. rewrite Forall_forall in *. intros x Hx.
    rewrite in_map_iff in Hx. destruct Hx as (y & <- & Hy). apply worient_closed; auto. }
  assert (A1 : surveyor (merge_runs o1) < 0) by (rewrite surveyor_merge; apply worient_true_area; auto).
  assert (A2 : Forall (fun r => 0 < surveyor r) (map merge_runs hs1)).
  { subst hs1. rewrite Forall_forall in *. intros x Hx. rewrite in_map_iff in Hx. destruct Hx as (y & <- & Hy).
    rewrite surveyor_merge. rewrite in_map_iff in Hy. destruct Hy as (w & <- & Hw). apply worient_false_area; auto. }
  split; [|split; [auto|split; [subst hs1; rewrite !map_length; auto|auto]]].
  pose proof (enc_rings_len (0,0) (o1 :: hs1) F1) as Hlen. cbn [length] in Hlen.
  change (geo cursor0) with (@nil Z). cbn [app].
  unfold LoadGeometryCmds. rewrite geom_loop_rings; auto; try discriminate; try (unfold zlen; lia); try (cbn [length]; lia).
  cbn [bind app]. change (3 =? 3) with true. cbn iota. rewrite map_close_closed by auto.
  cbn [map]. assert (Hn2 : map merge_runs hs1 <> []).
  { subst hs1. destruct hs; [congruence|]. discriminate. }
  destruct (map merge_runs hs1) as [|h1 hr] eqn:Eh; [congruence|].
  rewrite (group_first _ _ (Z.lt_le_incl _ _ A1) A2). reflexivity.
Qed.
