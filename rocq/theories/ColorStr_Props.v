(** Theorems about colour strings (C91). *)
From Coq Require Import String ZArith Reals List Lia Lra Bool.
From Verif Require Import GoBase Num TileR_Model TileR_Proofs MvtProj_Model MvtProj_Proofs Raster_Model Json Regex StyleFile_Model Style_Model Color_Model Color_Props.
Import ListNotations.
Open Scope Z_scope.

(** ** What colour strings look like *)

Definition blank (w : gstr) : Prop := forallb space w = true.
(** A non-empty digit string and the number it denotes *)
Inductive digits : gstr -> Z -> Prop :=
| digits_one v : 0 <= v <= 9 -> digits [48 + v] v
| digits_more d n v : digits d n -> 0 <= v <= 9 -> digits (d ++ [48 + v]) (10 * n + v).
(** A number with an optional point and the value it denotes; without any digit it denotes none *)
Inductive fraction : gstr -> option R -> Prop :=
| fr_whole d n : digits d n -> fraction d (Some (IZR n))
| fr_point a b n : forallb digit a = true -> forallb digit b = true -> digits (a ++ b) n -> fraction (a ++ B "." ++ b) (Some (IZR n / 10 ^ length b)%R)
| fr_empty : fraction [] None
| fr_dot : fraction (B ".") None.

Definition rgb_out (n1 n2 n3 alpha : Z) : out gocolor := if (n1 <=? 255) && (n2 <=? 255) && (n3 <=? 255) then Val (CRGBA n1 n2 n3 alpha) else Err.
Definition hsl_out (n1 n2 n3 alpha : Z) : out gocolor := if (n1 <=? 360) && (n2 <=? 100) && (n3 <=? 100) then Val (CHSL (IZR n1) (IZR n2 / 100) (IZR n3 / 100) alpha) else Err.

(** A text beginning with a colour of each kind, and the colour; alpha is the default opacity *)
Inductive rgb_at (alpha : Z) : gstr -> out gocolor -> Prop :=
  rgb_at_intro w0 d1 n1 w1 w2 d2 n2 w3 w4 d3 n3 w5 u : blank w0 -> digits d1 n1 -> blank w1 -> blank w2 -> digits d2 n2 -> blank w3 -> blank w4 -> digits d3 n3 -> blank w5 ->
    rgb_at alpha (B "rgb(" ++ w0 ++ d1 ++ w1 ++ B "," ++ w2 ++ d2 ++ w3 ++ B "," ++ w4 ++ d3 ++ w5 ++ B ")" ++ u) (rgb_out n1 n2 n3 alpha).
Inductive rgba_at : gstr -> out gocolor -> Prop :=
  rgba_at_intro w0 d1 n1 w1 w2 d2 n2 w3 w4 d3 n3 w5 w6 f v w7 u : blank w0 -> digits d1 n1 -> blank w1 -> blank w2 -> digits d2 n2 -> blank w3 -> blank w4 -> digits d3 n3 -> blank w5 -> blank w6 -> fraction f v -> blank w7 ->
    rgba_at (B "rgba(" ++ w0 ++ d1 ++ w1 ++ B "," ++ w2 ++ d2 ++ w3 ++ B "," ++ w4 ++ d3 ++ w5 ++ B "," ++ w6 ++ f ++ w7 ++ B ")" ++ u)
            (match v with Some a => rgb_out n1 n2 n3 (alpha_byte a) | None => Err end).
Inductive hsl_at (alpha : Z) : gstr -> out gocolor -> Prop :=
  hsl_at_intro w0 d1 n1 w1 w2 d2 n2 w3 w4 d3 n3 w5 u : blank w0 -> digits d1 n1 -> blank w1 -> blank w2 -> digits d2 n2 -> blank w3 -> blank w4 -> digits d3 n3 -> blank w5 ->
    hsl_at alpha (B "hsl(" ++ w0 ++ d1 ++ w1 ++ B "," ++ w2 ++ d2 ++ B "%" ++ w3 ++ B "," ++ w4 ++ d3 ++ B "%" ++ w5 ++ B ")" ++ u) (hsl_out n1 n2 n3 alpha).
Inductive hsla_at : gstr -> out gocolor -> Prop :=
  hsla_at_intro w0 d1 n1 w1 w2 d2 n2 w3 w4 d3 n3 w5 w6 f v w7 u : blank w0 -> digits d1 n1 -> blank w1 -> blank w2 -> digits d2 n2 -> blank w3 -> blank w4 -> digits d3 n3 -> blank w5 -> blank w6 -> fraction f v -> blank w7 ->
    hsla_at (B "hsla(" ++ w0 ++ d1 ++ w1 ++ B "," ++ w2 ++ d2 ++ B "%" ++ w3 ++ B "," ++ w4 ++ d3 ++ B "%" ++ w5 ++ B "," ++ w6 ++ f ++ w7 ++ B ")" ++ u)
            (match v with Some a => hsl_out n1 n2 n3 (alpha_byte a) | None => Err end).

(** ** Numbers *)

Lemma digit_spec c : digit c = true <-> exists v, 0 <= v <= 9 /\ c = 48 + v.
Proof.
  unfold digit. rewrite andb_true_iff, Z.leb_le, Z.leb_le. split; [intros H; exists (c - 48); lia|intros (v & H & ->); lia].
Qed.
Lemma dec_snoc d v : dec (d ++ [48 + v]) = 10 * dec d + v.
Proof. unfold dec. rewrite fold_left_app. cbn [fold_left]. lia. Qed.
Lemma digits_spec d n : digits d n <-> d <> [] /\ forallb digit d = true /\ dec d = n.
Proof.
  split.
  - induction 1 as [v H|d n v H IH Hv].
    + split; [discriminate|]. split; [cbn [forallb]; rewrite (proj2 (digit_spec _)) by eauto; auto|]. apply (dec_snoc [] v).
    + destruct IH as (N & F & <-). split; [destruct d; discriminate|]. split; [rewrite forallb_app, F; cbn [forallb]; rewrite (proj2 (digit_spec _)) by eauto; auto|]. apply dec_snoc.
  - intros (N & F & <-). induction d as [|c d IH] using rev_ind; [contradiction|]. rewrite forallb_app in F. apply andb_prop in F. destruct F as [F Fc]. cbn [forallb] in Fc. rewrite andb_true_r in Fc. apply digit_spec in Fc. destruct Fc as (v & Hv & ->).
    rewrite dec_snoc. destruct d as [|e d]; [cbn [app]; change (dec []) with 0; rewrite Z.mul_0_r; constructor; auto|]. constructor; auto. apply IH; auto. discriminate.
Qed.
Lemma digits_nonneg d n : digits d n -> 0 <= n.
Proof. induction 1; lia. Qed.

(** ** The four patterns *)

Lemma M_ws s c u : M ws s c u <-> exists w, blank w /\ s = w ++ u /\ c = [].
Proof. unfold ws. split; [intros H; apply M_star_inv in H; destruct H as (x & -> & H & ->); exists x; auto|intros (w & H & -> & ->); constructor; auto]. Qed.
Lemma M_num n s c u : M (num n) s c u <-> exists d v, digits d v /\ s = d ++ u /\ c = [(n, d)].
Proof.
  unfold num. rewrite M_grp_plus. split.
  - intros (x & N & -> & F & ->). exists x, (dec x). split; auto. apply digits_spec. auto.
  - intros (d & v & D & -> & ->). apply digits_spec in D. destruct D as (N & F & _). eauto.
Qed.
Lemma M_eqb k s c u : M (Chr (Z.eqb k)) s c u <-> s = k :: u /\ c = [].
Proof. split; [intros H; apply M_chr_inv in H; destruct H as (x & -> & E & ->); apply Z.eqb_eq in E; subst; auto|intros [-> ->]; constructor; apply Z.eqb_refl]. Qed.
Lemma M_seq_iff a b s c u : M (Seq a b) s c u <-> exists t c1 c2, M a s c1 t /\ M b t c2 u /\ c = c1 ++ c2.
Proof. split; [apply M_seq_inv|]. intros (t & c1 & c2 & H1 & H2 & ->). econstructor; eauto. Qed.
Definition is_frac (f : gstr) : Prop := exists a b, forallb digit a = true /\ forallb digit b = true /\ (f = a ++ b \/ f = a ++ B "." ++ b).
Lemma M_frac n s c u : M (frac n) s c u <-> exists f, is_frac f /\ s = f ++ u /\ c = [(n, f)].
Proof.
  unfold frac. cbn [seqs]. split.
  - intros H. apply M_grp_inv in H. destruct H as (x & c' & -> & H & ->). apply M_seq_inv in H. destruct H as (t & c1 & c2 & H1 & H2 & ->). apply M_star_inv in H1. destruct H1 as (a & E & Ha & ->).
    apply M_seq_inv in H2. destruct H2 as (t' & c3 & c4 & H2 & H3 & ->). apply M_star_inv in H3. destruct H3 as (b & -> & Hb & ->). apply M_opt_inv in H2. destruct H2 as [H2|[E2 ->]].
    + apply M_eqb in H2. destruct H2 as [-> ->]. exists x. split; auto. exists a, b. split; auto. split; auto. right. replace (a ++ 46 :: b ++ u) with ((a ++ B "." ++ b) ++ u) in E by (rewrite <- app_assoc; reflexivity). apply app_inv_tail in E. auto.
    + subst t. exists x. split; auto. exists a, b. split; auto. split; auto. left. rewrite app_assoc in E. apply app_inv_tail in E. auto.
  - intros (f & (a & b & Ha & Hb & [->| ->]) & -> & ->).
    + constructor. rewrite <- app_assoc. apply M_seq' with (t := b ++ u) (c1 := []) (c2 := []); [constructor; auto| |auto]. apply M_seq' with (t := b ++ u) (c1 := []) (c2 := []); [apply M_opt_none|constructor; auto|auto].
    + constructor. rewrite <- !app_assoc. apply M_seq' with (t := B "." ++ b ++ u) (c1 := []) (c2 := []); [constructor; auto| |auto]. apply M_seq' with (t := b ++ u) (c1 := []) (c2 := []); [apply M_opt_some; apply M_eqb; auto|constructor; auto|auto].
Qed.
Lemma fraction_frac f : is_frac f <-> exists v, fraction f v.
Proof.
  split.
  - intros (a & b & Ha & Hb & [->| ->]).
    + assert (F : forallb digit (a ++ b) = true) by (rewrite forallb_app, Ha, Hb; auto). destruct (a ++ b) as [|x l] eqn:E; [exists None; apply fr_empty|]. eexists. apply fr_whole. apply digits_spec. split; [discriminate|]. split; [exact F|reflexivity].
    + destruct (a ++ b) as [|x l] eqn:E; [apply app_eq_nil in E; destruct E as [-> ->]; eexists; apply fr_dot|]. eexists. apply (fr_point a b (dec (a ++ b))); auto. apply digits_spec. rewrite E. split; [discriminate|]. split; [|reflexivity]. rewrite <- E, forallb_app, Ha, Hb. auto.
  - intros (v & H). inversion H as [d n D|a b n Ha Hb D| |]; subst.
    + apply digits_spec in D. destruct D as (_ & F & _). exists f, []. rewrite app_nil_r. auto.
    + exists a, b. auto.
    + exists [], []. auto.
    + exists [], []. auto.
Qed.
Lemma span_digits a r : forallb digit a = true -> (match r with c :: _ => digit c = false | [] => True end) -> span digit (a ++ r) = (a, r).
Proof.
  intros Ha Hr. induction a as [|x a IH]; cbn [app span].
  - destruct r as [|c r]; cbn [span]; auto. rewrite Hr. auto.
  - cbn [forallb] in Ha. apply andb_prop in Ha. destruct Ha as [Hx Ha]. rewrite Hx, IH; auto.
Qed.
Lemma parse_fraction f v : fraction f v -> ParseDecimal f = v.
Proof.
  intros H. unfold ParseDecimal. inversion H as [d n D|a b n Ha Hb D| |]; subst; try reflexivity.
  - apply digits_spec in D. destruct D as (N & F & E). rewrite <- (app_nil_r f) at 1. rewrite span_digits by auto. cbn [skipn]. rewrite app_nil_r. destruct f as [|x f]; [contradiction|]. rewrite E. cbn [length pow]. f_equal. field.
  - apply digits_spec in D. destruct D as (N & F & E). rewrite span_digits by (auto; reflexivity). change (skipn 1 (B "." ++ b)) with b. destruct (a ++ b) as [|x l]; [contradiction|]. rewrite E. reflexivity.
Qed.
Lemma uint8_digits d n : digits d n -> ParseUint8 d = if n <=? 255 then Some n else None.
Proof. intros H. apply digits_spec in H. destruct H as (_ & _ & E). unfold ParseUint8. rewrite E. auto. Qed.
Lemma hsl_digits d1 d2 d3 n1 n2 n3 al : digits d1 n1 -> digits d2 n2 -> digits d3 n3 -> NewHSLColor (IZR (dec d1)) (IZR (dec d2) / 100) (IZR (dec d3) / 100) al = hsl_out n1 n2 n3 al.
Proof.
  intros H1 H2 H3. pose proof (digits_nonneg _ _ H1) as P1. pose proof (digits_nonneg _ _ H2) as P2. pose proof (digits_nonneg _ _ H3) as P3. apply digits_spec in H1, H2, H3.
  destruct H1 as (_ & _ & ->). destruct H2 as (_ & _ & ->). destruct H3 as (_ & _ & ->). destruct (C53_accepts (IZR n1) (IZR n2 / 100) (IZR n3 / 100) al) as [A1 A2]. unfold hsl_out. apply IZR_le in P1, P2, P3.
  destruct (Z.leb_spec n1 360) as [L1|L1]; [|rewrite A2; auto; apply IZR_lt in L1; lra]. destruct (Z.leb_spec n2 100) as [L2|L2]; [|rewrite A2; auto; apply IZR_lt in L2; lra]. destruct (Z.leb_spec n3 100) as [L3|L3]; [|rewrite A2; auto; apply IZR_lt in L3; lra].
  cbn [andb]. apply A1. apply IZR_le in L1, L2, L3. lra.
Qed.

Lemma getRGB_digits d1 d2 d3 n1 n2 n3 c al : digits d1 n1 -> digits d2 n2 -> digits d3 n3 -> getRGBColor ((1%nat, d1) :: (2%nat, d2) :: (3%nat, d3) :: c) al = rgb_out n1 n2 n3 al.
Proof.
  intros H1 H2 H3. unfold getRGBColor. cbn [group Nat.eqb]. rewrite (uint8_digits _ _ H1), (uint8_digits _ _ H2), (uint8_digits _ _ H3). unfold rgb_out. destruct (n1 <=? 255), (n2 <=? 255), (n3 <=? 255); reflexivity.
Qed.
Lemma getRGBA_digits d1 d2 d3 n1 n2 n3 f v : digits d1 n1 -> digits d2 n2 -> digits d3 n3 -> fraction f v ->
  getRGBAColor [(1%nat, d1); (2%nat, d2); (3%nat, d3); (4%nat, f)] = match v with Some a => rgb_out n1 n2 n3 (alpha_byte a) | None => Err end.
Proof.
  intros H1 H2 H3 H4. unfold getRGBAColor. rewrite (getRGB_digits d1 d2 d3 n1 n2 n3) by auto. cbn [group Nat.eqb]. rewrite (parse_fraction _ _ H4). unfold rgb_out. destruct ((n1 <=? 255) && (n2 <=? 255) && (n3 <=? 255)), v; reflexivity.
Qed.
Lemma getHSL_digits d1 d2 d3 n1 n2 n3 c al : digits d1 n1 -> digits d2 n2 -> digits d3 n3 -> getHSLColor ((1%nat, d1) :: (2%nat, d2) :: (3%nat, d3) :: c) al = hsl_out n1 n2 n3 al.
Proof. intros H1 H2 H3. unfold getHSLColor. cbn [group Nat.eqb]. apply hsl_digits; auto. Qed.
Lemma getHSLA_digits d1 d2 d3 n1 n2 n3 f v : digits d1 n1 -> digits d2 n2 -> digits d3 n3 -> fraction f v ->
  getHSLAColor [(1%nat, d1); (2%nat, d2); (3%nat, d3); (4%nat, f)] = match v with Some a => hsl_out n1 n2 n3 (alpha_byte a) | None => Err end.
Proof.
  intros H1 H2 H3 H4. unfold getHSLAColor. cbn [group Nat.eqb]. rewrite (parse_fraction _ _ H4). destruct v; auto. apply getHSL_digits; auto.
Qed.

Ltac invM := repeat
  match goal with
  | H : M (Seq _ _) _ _ _ |- _ => apply M_seq_inv in H; destruct H as (? & ? & ? & ? & H & ->)
  | H : M ws _ _ _ |- _ => apply M_ws in H; destruct H as (? & ? & -> & ->)
  | H : M (num _) _ _ _ |- _ => apply M_num in H; destruct H as (? & ? & ? & -> & ->)
  | H : M (frac _) _ _ _ |- _ => apply M_frac in H; destruct H as (? & ? & -> & ->)
  | H : M (lit _) _ _ _ |- _ => apply M_lit in H; destruct H as [-> ->]
  | H : M comma _ _ _ |- _ => apply M_eqb in H; destruct H as [-> ->]
  | H : M pct _ _ _ |- _ => apply M_eqb in H; destruct H as [-> ->]
  | H : M close _ _ _ |- _ => apply M_eqb in H; destruct H as [-> ->]
  end.
Ltac mkM := repeat
  match goal with
  | |- M (Seq _ _) _ _ _ => eapply M_seq'
  | |- M ws _ _ _ => apply M_ws; eexists; split; [|split; reflexivity]; assumption
  | |- M (num _) _ _ _ => apply M_num; do 2 eexists; split; [|split; reflexivity]; eassumption
  | |- M (frac _) _ _ _ => apply M_frac; eexists; split; [|split; reflexivity]; apply fraction_frac; eexists; eassumption
  | |- M (lit _) _ _ _ => apply M_lit; split; reflexivity
  | |- M comma _ _ _ => apply M_eqb; split; reflexivity
  | |- M pct _ _ _ => apply M_eqb; split; reflexivity
  | |- M close _ _ _ => apply M_eqb; split; reflexivity
  end.

Lemma rgb_M al y r : rgb_at al y r <-> exists c u, M strColorRGBRegexp y c u /\ getRGBColor c al = r.
Proof.
  unfold strColorRGBRegexp. cbn [seqs]. split.
  - intros H. inversion H; subst. do 2 eexists. split; [mkM; reflexivity|]. cbn [app]. apply getRGB_digits; assumption.
  - intros (c & u & H & <-). invM. cbn [app]. erewrite getRGB_digits by eassumption. refine (rgb_at_intro al _ _ _ _ _ _ _ _ _ _ _ _ _ _ _ _ _ _ _ _ _ _ ); eassumption.
Qed.
Lemma rgba_M y r : rgba_at y r <-> exists c u, M strColorRGBARegexp y c u /\ getRGBAColor c = r.
Proof.
  unfold strColorRGBARegexp. cbn [seqs]. split.
  - intros H. inversion H; subst. do 2 eexists. split; [mkM; reflexivity|]. cbn [app]. apply getRGBA_digits; assumption.
  - intros (c & u & H & <-). invM. match goal with H : is_frac _ |- _ => apply fraction_frac in H; destruct H as (? & H) end. cbn [app]. erewrite getRGBA_digits by eassumption. refine (rgba_at_intro _ _ _ _ _ _ _ _ _ _ _ _ _ _ _ _ _ _ _ _ _ _ _ _ _ _ _ _ _ ); eassumption.
Qed.
Lemma hsl_M al y r : hsl_at al y r <-> exists c u, M strColorHSLRegexp y c u /\ getHSLColor c al = r.
Proof.
  unfold strColorHSLRegexp. cbn [seqs]. split.
  - intros H. inversion H; subst. do 2 eexists. split; [mkM; reflexivity|]. cbn [app]. apply getHSL_digits; assumption.
  - intros (c & u & H & <-). invM. cbn [app]. erewrite getHSL_digits by eassumption. refine (hsl_at_intro al _ _ _ _ _ _ _ _ _ _ _ _ _ _ _ _ _ _ _ _ _ _ ); eassumption.
Qed.
Lemma hsla_M y r : hsla_at y r <-> exists c u, M strColorHSLARegexp y c u /\ getHSLAColor c = r.
Proof.
  unfold strColorHSLARegexp. cbn [seqs]. split.
  - intros H. inversion H; subst. do 2 eexists. split; [mkM; reflexivity|]. cbn [app]. apply getHSLA_digits; assumption.
  - intros (c & u & H & <-). invM. match goal with H : is_frac _ |- _ => apply fraction_frac in H; destruct H as (? & H) end. cbn [app]. erewrite getHSLA_digits by eassumption. refine (hsla_at_intro _ _ _ _ _ _ _ _ _ _ _ _ _ _ _ _ _ _ _ _ _ _ _ _ _ _ _ _ _ ); eassumption.
Qed.

(** ** A text begins with at most one colour of each kind *)

Definition starts (p : Z -> bool) (x : gstr) : Prop := exists c t, x = c :: t /\ p c = false.
Lemma tok p x y w w' : forallb p w = true -> forallb p w' = true -> starts p x -> starts p y -> w ++ x = w' ++ y -> w = w' /\ x = y.
Proof. intros H H' (c & t & -> & Hc) (d & u & -> & Hd) E. destruct (split_unique p w c t w' d u H H' Hc Hd E) as (-> & -> & ->). auto. Qed.
Lemma digits_fun d n n' : digits d n -> digits d n' -> n = n'.
Proof. intros H H'. apply digits_spec in H, H'. destruct H as (_ & _ & <-). destruct H' as (_ & _ & <-). reflexivity. Qed.
Lemma tok_ws w w' x y : blank w -> blank w' -> starts space x -> starts space y -> w ++ x = w' ++ y -> x = y.
Proof. intros H H' S1 S2 E. eapply tok in E; eauto. tauto. Qed.
Lemma tok_num d d' n n' x y : digits d n -> digits d' n' -> starts digit x -> starts digit y -> d ++ x = d' ++ y -> n = n' /\ x = y.
Proof.
  intros H H' S1 S2 E. pose proof H as K. pose proof H' as K'. apply digits_spec in K, K'. destruct K as (_ & F & _). destruct K' as (_ & F' & _).
  destruct (tok digit x y d d' F F' S1 S2 E) as [-> ->]. split; auto. eapply digits_fun; eauto.
Qed.
Lemma digit_space c : digit c = true -> space c = false.
Proof. intros H. apply digit_spec in H. destruct H as (v & H & ->). unfold space. destruct (Z.eqb_spec (48 + v) 32), (Z.leb_spec 9 (48 + v)), (Z.leb_spec (48 + v) 10), (Z.leb_spec 12 (48 + v)), (Z.leb_spec (48 + v) 13); auto; lia. Qed.
Lemma space_digit c : space c = true -> digit c = false.
Proof. intros H. destruct (digit c) eqn:E; auto. apply digit_space in E. congruence. Qed.
Lemma starts_digits d n x : digits d n -> starts space (d ++ x).
Proof.
  intros H. apply digits_spec in H. destruct H as (N & F & _). destruct d as [|c d]; [contradiction|]. exists c, (d ++ x). split; auto. cbn [forallb] in F. apply andb_prop in F. apply digit_space, F.
Qed.
Lemma starts_blank p w x : (forall c, space c = true -> p c = false) -> blank w -> starts p x -> starts p (w ++ x).
Proof.
  intros P H S. destruct w as [|c w]; auto. exists c, (w ++ x). split; auto. apply P. unfold blank in H. cbn [forallb] in H. apply andb_prop in H. apply H.
Qed.
Lemma starts_lit p c x t : p c = false -> x = c :: t -> starts p x.
Proof. intros. exists c, t. auto. Qed.
Ltac starts_tac :=
  match goal with
  | |- starts _ (_ :: _) => eapply starts_lit; [|reflexivity]; reflexivity
  | |- starts space (_ ++ _) => eapply starts_digits; eassumption
  | |- starts digit (_ ++ _) => apply starts_blank; [exact space_digit|assumption|starts_tac]
  end.
Ltac peel :=
  match goal with
  | H : ?k :: _ = ?k :: _ |- _ => injection H as H
  | H : ?w ++ _ = ?w' ++ _, H1 : blank ?w, H2 : blank ?w' |- _ => apply (tok_ws w w' _ _ H1 H2) in H; [|starts_tac|starts_tac]
  | H : ?d ++ _ = ?d' ++ _, H1 : digits ?d _, H2 : digits ?d' _ |- _ => apply (tok_num d d' _ _ _ _ H1 H2) in H; [destruct H as [-> H]; clear H1 H2|starts_tac|starts_tac]
  end.
Lemma rgb_fun al y r r' : rgb_at al y r -> rgb_at al y r' -> r = r'.
Proof. intros H H'. destruct H. inversion H'; subst. repeat peel. reflexivity. Qed.
Lemma hsl_fun al y r r' : hsl_at al y r -> hsl_at al y r' -> r = r'.
Proof. intros H H'. destruct H. inversion H'; subst. repeat peel. reflexivity. Qed.

Definition fchar (c : Z) : bool := digit c || (c =? 46).
Lemma fraction_fchars f v : fraction f v -> forallb fchar f = true.
Proof.
  assert (D : forall d, forallb digit d = true -> forallb fchar d = true). { intros d H. rewrite forallb_forall in *. intros c Hc. unfold fchar. rewrite (H c Hc). auto. }
  intros H. destruct H as [d n H|a b n Ha Hb _| |]; auto.
  - apply digits_spec in H. apply D, H.
  - rewrite forallb_app, (D a Ha). cbn. apply D; auto.
Qed.
Lemma fraction_fun f v v' : fraction f v -> fraction f v' -> v = v'.
Proof. intros H H'. apply parse_fraction in H, H'. congruence. Qed.
Lemma fchar_space c : fchar c = true -> space c = false.
Proof. unfold fchar. intros H. apply orb_prop in H. destruct H as [H|H]; [apply digit_space; auto|apply Z.eqb_eq in H; subst; reflexivity]. Qed.
Lemma space_fchar c : space c = true -> fchar c = false.
Proof. intros H. destruct (fchar c) eqn:E; auto. apply fchar_space in E. congruence. Qed.
Lemma tok_fraction w w' f f' v v' w1 w1' x y : blank w -> blank w' -> fraction f v -> fraction f' v' -> blank w1 -> blank w1' ->
  w ++ f ++ w1 ++ 41 :: x = w' ++ f' ++ w1' ++ 41 :: y -> v = v'.
Proof.
  intros Hw Hw' Hf Hf' Hw1 Hw1' E. pose proof (fraction_fchars _ _ Hf) as F. pose proof (fraction_fchars _ _ Hf') as F'.
  assert (S : starts fchar (w1 ++ 41 :: x)) by (apply starts_blank; [exact space_fchar|auto|eapply starts_lit; [|reflexivity]; reflexivity]).
  assert (S' : starts fchar (w1' ++ 41 :: y)) by (apply starts_blank; [exact space_fchar|auto|eapply starts_lit; [|reflexivity]; reflexivity]).
  assert (SS : forall f z, forallb fchar f = true -> f <> [] -> starts space (f ++ z)).
  { intros g z G N. destruct g as [|c g]; [contradiction|]. exists c, (g ++ z). split; auto. cbn [forallb] in G. apply andb_prop in G. apply fchar_space, G. }
  assert (S41 : forall z, starts space (41 :: z)) by (intros z; eapply starts_lit; [|reflexivity]; reflexivity).
  assert (BB : forall a b, blank a -> blank b -> blank (a ++ b)) by (intros a b A B0; unfold blank in *; rewrite forallb_app, A, B0; auto).
  destruct f as [|c f], f' as [|c' f'].
  - eapply fraction_fun; eauto.
  - cbn [app] in E. change (c' :: f' ++ w1' ++ 41 :: y) with ((c' :: f') ++ w1' ++ 41 :: y) in E. rewrite app_assoc in E. apply tok_ws in E; auto; [|apply SS; auto; discriminate].
    cbn [app] in E. injection E as E _. subst c'. discriminate.
  - cbn [app] in E. change (c :: f ++ w1 ++ 41 :: x) with ((c :: f) ++ w1 ++ 41 :: x) in E. rewrite (app_assoc w') in E. apply tok_ws in E; auto; [|apply SS; auto; discriminate].
    cbn [app] in E. injection E as E _. subst c. discriminate.
  - apply tok_ws in E; auto; try (apply SS; auto; discriminate). eapply tok in E; eauto. destruct E as [E _]. rewrite E in Hf. eapply fraction_fun; eauto.
Qed.
Lemma rgba_fun y r r' : rgba_at y r -> rgba_at y r' -> r = r'.
Proof. intros H H'. destruct H. inversion H'; subst. do 12 peel. match goal with E : _ ++ _ = _ ++ _ |- _ => eapply tok_fraction in E; eauto; subst end. reflexivity. Qed.
Lemma hsla_fun y r r' : hsla_at y r -> hsla_at y r' -> r = r'.
Proof. intros H H'. destruct H. inversion H'; subst. do 14 peel. match goal with E : _ ++ _ = _ ++ _ |- _ => eapply tok_fraction in E; eauto; subst end. reflexivity. Qed.

(** ** The theorems *)

(** The leftmost place where a text of some kind begins *)
Definition leftmost (kind : gstr -> out gocolor -> Prop) (s : gstr) (r : out gocolor) : Prop :=
  exists x y, s = x ++ y /\ kind y r /\ forall x' y' r', s = x' ++ y' -> (length x' < length x)%nat -> ~ kind y' r'.
Definition nowhere (kind : gstr -> out gocolor -> Prop) (s : gstr) : Prop := forall x y r, s = x ++ y -> ~ kind y r.
(** The kinds are tried in the order hsl, hsla, rgb, rgba. *)
Inductive colour_of (alpha : Z) (s : gstr) : out gocolor -> Prop :=
| co_hsl r : leftmost (hsl_at alpha) s r -> colour_of alpha s r
| co_hsla r : nowhere (hsl_at alpha) s -> leftmost hsla_at s r -> colour_of alpha s r
| co_rgb r : nowhere (hsl_at alpha) s -> nowhere hsla_at s -> leftmost (rgb_at alpha) s r -> colour_of alpha s r
| co_rgba r : nowhere (hsl_at alpha) s -> nowhere hsla_at s -> nowhere (rgb_at alpha) s -> leftmost rgba_at s r -> colour_of alpha s r
| co_none : nowhere (hsl_at alpha) s -> nowhere hsla_at s -> nowhere (rgb_at alpha) s -> nowhere rgba_at s -> colour_of alpha s Err.

Lemma search_kind re (f : caps -> out gocolor) (kind : gstr -> out gocolor -> Prop) s : (forall y r, kind y r <-> exists c u, M re y c u /\ f c = r) ->
  match search re s with Some c => leftmost kind s (f c) | None => nowhere kind s end.
Proof.
  intros H. destruct (search re s) as [c|] eqn:E.
  - apply search_some in E. destruct E as (x & y & t & -> & Q & U). exists x, y. split; auto. split; [apply H; eauto|]. intros x' y' r' E' L K. apply H in K. destruct K as (c' & u & K & _). eapply U; eauto.
  - intros x y r -> K. apply H in K. destruct K as (c & u & K & _). eapply (proj1 (search_none re _) E); eauto.
Qed.
Lemma leftmost_fun (kind : gstr -> out gocolor -> Prop) s r r' : (forall y r r', kind y r -> kind y r' -> r = r') -> leftmost kind s r -> leftmost kind s r' -> r = r'.
Proof.
  intros F (x & y & -> & K & U) (x' & y' & E & K' & U'). assert (L : length x = length x').
  { destruct (Nat.lt_trichotomy (length x) (length x')) as [L|[L|L]]; auto; [destruct (U' x y r eq_refl L K)|destruct (U x' y' r' E L K')]. }
  assert (y = y') by (clear - E L; revert x' E L; induction x as [|a x IH]; intros [|b x'] E L; cbn in *; try discriminate; auto; injection E as _ E; eapply IH; eauto). subst y'. eapply F; eauto.
Qed.
Lemma not_both (kind : gstr -> out gocolor -> Prop) s r : nowhere kind s -> leftmost kind s r -> False.
Proof. intros N (x & y & E & K & _). eapply N; eauto. Qed.

Theorem C91_parse : forall s alpha, s <> [] -> hd 0 s <> 35 -> forall r, strToColor s alpha = r <-> colour_of alpha s r.
Proof.
  intros s al Hs Hh. assert (A : colour_of al s (strToColor s al)).
  { destruct s as [|c s]; [contradiction|]. cbn [hd] in Hh. cbn [strToColor]. destruct (Z.eqb_spec c 35) as [->|_]; [contradiction|].
    pose proof (search_kind _ _ _ (c :: s) (hsl_M al)) as K1. destruct (search strColorHSLRegexp (c :: s)); [apply co_hsl; auto|].
    pose proof (search_kind _ _ _ (c :: s) hsla_M) as K2. destruct (search strColorHSLARegexp (c :: s)); [apply co_hsla; auto|].
    pose proof (search_kind _ _ _ (c :: s) (rgb_M al)) as K3. destruct (search strColorRGBRegexp (c :: s)); [apply co_rgb; auto|].
    pose proof (search_kind _ _ _ (c :: s) rgba_M) as K4. destruct (search strColorRGBARegexp (c :: s)); [apply co_rgba; auto|apply co_none; auto]. }
  intros r. split; [intros <-; auto|]. intros K.
  destruct A as [r1 A1|r1 A1 A2|r1 A1 A2 A3|r1 A1 A2 A3 A4|A1 A2 A3 A4]; destruct K as [r2 K1|r2 K1 K2|r2 K1 K2 K3|r2 K1 K2 K3 K4|K1 K2 K3 K4]; auto; try (exfalso; eauto using not_both; fail); eauto using leftmost_fun, hsl_fun, hsla_fun, rgb_fun, rgba_fun.
Qed.
Print Assumptions C91_parse.

(** A string that is one colour and nothing else is read as that colour. *)
Lemma leftmost_0 (kind : gstr -> out gocolor -> Prop) s r : kind s r -> leftmost kind s r.
Proof. intros H. exists [], s. split; auto. split; auto. cbn. intros. lia. Qed.
(** Every text of a kind begins with its name and parenthesis *)
Lemma hsl_prefix al y r : hsl_at al y r -> exists t, y = B "hsl(" ++ t.
Proof. intros H. inversion H; subst. eauto. Qed.
Lemma hsla_prefix y r : hsla_at y r -> exists t, y = B "hsla(" ++ t.
Proof. intros H. inversion H; subst. eauto. Qed.
Lemma rgb_prefix al y r : rgb_at al y r -> exists t, y = B "rgb(" ++ t.
Proof. intros H. inversion H; subst. eauto. Qed.
Lemma rgba_prefix y r : rgba_at y r -> exists t, y = B "rgba(" ++ t.
Proof. intros H. inversion H; subst. eauto. Qed.
(** A word whose first letter occurs only at the start of [s] occurs at most there *)
Lemma only_first (k : Z) (p : gstr) (s x t : gstr) : ~ In k (tl s) -> s = x ++ (k :: p) ++ t -> x = [].
Proof. intros H ->. destruct x as [|a x]; auto. exfalso. apply H. cbn [app tl]. apply in_app_iff. right. left. auto. Qed.

Definition plain (c : Z) : bool := digit c || space c || existsb (Z.eqb c) [44; 37; 46; 41].
Lemma plain_blank w : blank w -> forallb plain w = true.
Proof. unfold blank. intros H. rewrite forallb_forall in *. intros c Hc. unfold plain. rewrite (H c Hc), orb_true_r. auto. Qed.
Lemma plain_digits d n : digits d n -> forallb plain d = true.
Proof. intros H. apply digits_spec in H. destruct H as (_ & H & _). rewrite forallb_forall in *. intros c Hc. unfold plain. rewrite (H c Hc). auto. Qed.
Lemma plain_fraction f v : fraction f v -> forallb plain f = true.
Proof.
  intros H. apply fraction_fchars in H. rewrite forallb_forall in *. intros c Hc. specialize (H c Hc). unfold fchar in H. unfold plain. apply orb_prop in H. destruct H as [H|H]; [rewrite H; auto|]. apply Z.eqb_eq in H. subst. reflexivity.
Qed.
Lemma plain_not k s : forallb plain s = true -> plain k = false -> ~ In k s.
Proof. intros H N I. rewrite forallb_forall in H. specialize (H _ I). congruence. Qed.
Lemma nowhere_other (kind : gstr -> out gocolor -> Prop) (c : Z) (p q t : gstr) : (forall y r, kind y r -> exists t, y = (c :: p) ++ t) ->
  ~ In c (tl (q ++ t)) -> (forall t', q ++ t <> (c :: p) ++ t') -> nowhere kind (q ++ t).
Proof.
  intros P N D x y r E K. destruct (P y r K) as (t' & ->). pose proof (only_first c p _ x t' N E) as ->. cbn [app] in E. apply (D t'). auto.
Qed.

Theorem C91_whole : forall alpha t, forallb plain t = true ->
  (forall r, hsl_at alpha (B "hsl(" ++ t) r -> strToColor (B "hsl(" ++ t) alpha = r) /\
  (forall r, hsla_at (B "hsla(" ++ t) r -> strToColor (B "hsla(" ++ t) alpha = r) /\
  (forall r, rgb_at alpha (B "rgb(" ++ t) r -> strToColor (B "rgb(" ++ t) alpha = r) /\
  (forall r, rgba_at (B "rgba(" ++ t) r -> strToColor (B "rgba(" ++ t) alpha = r).
Proof.
  intros al t Pt. pose proof (plain_not 104 t Pt eq_refl) as Nh. pose proof (plain_not 114 t Pt eq_refl) as Nr.
  assert (HSL : forall q, ~ In 104 (tl (q ++ t)) -> (forall t', q ++ t <> B "hsl(" ++ t') -> nowhere (hsl_at al) (q ++ t)) by (intros; apply (nowhere_other _ 104 (tl (B "hsl("))); auto; apply hsl_prefix).
  assert (HSLA : forall q, ~ In 104 (tl (q ++ t)) -> (forall t', q ++ t <> B "hsla(" ++ t') -> nowhere hsla_at (q ++ t)) by (intros; apply (nowhere_other _ 104 (tl (B "hsla("))); auto; apply hsla_prefix).
  assert (RGB : forall q, ~ In 114 (tl (q ++ t)) -> (forall t', q ++ t <> B "rgb(" ++ t') -> nowhere (rgb_at al) (q ++ t)) by (intros; apply (nowhere_other _ 114 (tl (B "rgb("))); auto; apply rgb_prefix).
  assert (I0 : forall c (q : gstr), ~ In c t -> existsb (Z.eqb c) (tl q) = false -> q <> [] -> ~ In c (tl (q ++ t))).
  { intros c q Hc Hq Nq I. destruct q as [|d q]; [contradiction|]. cbn [app tl] in *. apply in_app_iff in I. destruct I as [I|I]; [|contradiction].
    assert (existsb (Z.eqb c) q = true) by (apply existsb_exists; exists c; auto using Z.eqb_refl). congruence. }
  split; [|split; [|split]]; intros r K; (apply C91_parse; [discriminate|discriminate|]).
  - apply co_hsl, leftmost_0. auto.
  - apply co_hsla; [|apply leftmost_0; auto]. apply HSL; [apply I0; auto; discriminate|discriminate].
  - apply co_rgb; [| |apply leftmost_0; auto]; [apply HSL|apply HSLA]; try (apply I0; auto; discriminate); discriminate.
  - apply co_rgba; [| | |apply leftmost_0; auto]; [apply HSL|apply HSLA|apply RGB]; try (apply I0; auto; discriminate); discriminate.
Qed.
Print Assumptions C91_whole.

(** Opacity: nearest multiple of 1/256 less one, except that the most transparent values become opaque. *)
Theorem C91_alpha : forall a, (0 <= a <= 1)%R ->
  ((a < 1 / 512)%R -> alpha_byte a = 255) /\
  ((1 / 512 <= a)%R -> 0 <= alpha_byte a <= 255 /\ (Rabs (256 * a - IZR (alpha_byte a + 1)) <= 1 / 2)%R) /\ alpha_byte 1 = 255.
Proof.
  intros a Ha. assert (F : forall x, (0 <= x)%R -> RoundHA x = Rfloor (x + 1 / 2)) by (intros x Hx; unfold RoundHA; destruct (Rle_dec 0 x); [auto|contradiction]).
  split; [|split].
  - intros H. unfold alpha_byte. rewrite F by lra. rewrite (Rfloor_unique _ 0) by lra. reflexivity.
  - intros H. unfold alpha_byte. pose proof (RoundHA_err (a * 256)) as E.
    assert (L : 1 <= RoundHA (a * 256) <= 256). { rewrite F by lra. pose proof (proj1 (Rfloor_spec (a * 256 + 1 / 2) _) eq_refl) as Q. split; apply Z.lt_succ_r, lt_IZR; rewrite succ_IZR; lra. }
    assert (U : u8 (RoundHA (a * 256) - 1) = RoundHA (a * 256) - 1) by (unfold u8; apply Z.mod_small; lia). rewrite U. split; [lia|].
    replace (RoundHA (a * 256) - 1 + 1) with (RoundHA (a * 256)) by lia. rewrite Rabs_minus_sym. replace (256 * a)%R with (a * 256)%R by ring. auto.
  - unfold alpha_byte. replace (1 * 256)%R with (IZR 256) by ring. rewrite RoundHA_IZR. reflexivity.
Qed.
Print Assumptions C91_alpha.
(** A larger opacity can therefore give a smaller alpha. *)
Theorem C91_alpha_monotone_refuted : exists s t, strToColor s 255 = Val (CRGBA 1 2 3 255) /\ strToColor t 255 = Val (CRGBA 1 2 3 127) /\ s = B "rgba(1,2,3,0)" /\ t = B "rgba(1,2,3,0.5)".
Proof.
  exists (B "rgba(1,2,3,0)"), (B "rgba(1,2,3,0.5)").
  assert (D : forall v, 0 <= v <= 9 -> digits [48 + v] v) by (intros; constructor; auto).
  assert (X : forall f v, fraction f v -> rgba_at (B "rgba(1,2,3," ++ f ++ B ")") (match v with Some a => rgb_out 1 2 3 (alpha_byte a) | None => Err end)).
  { intros f v Hf. pose proof (rgba_at_intro [] (B "1") 1 [] [] (B "2") 2 [] [] (B "3") 3 [] [] f v [] []) as Q. cbn [app] in Q. apply Q; try reflexivity; auto; [apply (D 1)|apply (D 2)|apply (D 3)]; lia. }
  split; [|split; [|split; reflexivity]].
  - pose proof (X (B "0") (Some 0%R) (fr_whole _ 0 (D 0 ltac:(lia)))) as K. cbn [rgb_out] in K. rewrite (proj1 (C91_alpha 0 ltac:(lra))) in K by lra. apply (C91_whole 255 (B "1,2,3,0)")); auto.
  - pose proof (X (B "0.5") (Some (IZR 5 / 10 ^ 1)%R)) as K. assert (F : fraction (B "0.5") (Some (IZR 5 / 10 ^ 1)%R)).
    { apply (fr_point (B "0") (B "5") 5); auto. apply (digits_more (B "0") 0 5); [apply (D 0)|]; lia. }
    specialize (K F). assert (E : alpha_byte (5 / 10 ^ 1) = 127). { unfold alpha_byte. replace (5 / 10 ^ 1 * 256)%R with (IZR 128) by (cbn [pow]; field). rewrite RoundHA_IZR. reflexivity. }
    cbv beta iota in K. rewrite E in K. apply (C91_whole 255 (B "1,2,3,0.5)")); auto.
Qed.
Print Assumptions C91_alpha_monotone_refuted.

(** Anything without a parenthesis, colour names in particular, is rejected. *)
Theorem C91_names : forall s alpha, s <> [] -> hd 0 s <> 35 -> ~ In 40 s -> strToColor s alpha = Err.
Proof.
  intros s al Hs Hh N. apply C91_parse; auto. apply co_none; intros x y r -> K; apply N, in_app_iff; right;
  [apply hsl_prefix in K|apply hsla_prefix in K|apply rgb_prefix in K|apply rgba_prefix in K]; destruct K as [t ->]; apply in_app_iff; left; vm_compute; tauto.
Qed.
Print Assumptions C91_names.
(** Text around a colour is ignored. *)
Theorem C91_anchored_refuted : strToColor (B "no rgb(1,2,3) here") 255 = Val (CRGBA 1 2 3 255) /\ strToColor (B "rgb(1,2,3)4") 255 = Val (CRGBA 1 2 3 255).
Proof. vm_compute. auto. Qed.
Print Assumptions C91_anchored_refuted.
Example C91_nonvacuous : strToColor (B "rgb( 255 ,0,7 )") 255 = Val (CRGBA 255 0 7 255) /\ strToColor (B "rgb(256,0,0)") 255 = Err /\ strToColor (B "red") 255 = Err /\ strToColor (B "rgba(1,2,3,.)") 255 = Err.
Proof. vm_compute. auto. Qed.
