(** Theorems about colours (C52, C53, C90, C91). *)
From Coq Require Import String ZArith Reals Rtrigo1 Ratan List Lia Lra Bool Permutation.
From Verif Require Import GoBase Num TileR_Model TileR_Proofs MvtProj_Model MvtProj_Proofs Raster_Model Json Regex StyleFile_Model Style_Model Color_Model.
Import ListNotations.
Open Scope Z_scope.

(** ** C52 *)

(** A hexadecimal digit and its value *)
Inductive hex_digit : Z -> Z -> Prop :=
| hex_num v : 0 <= v <= 9 -> hex_digit (48 + v) v
| hex_low v : 10 <= v <= 15 -> hex_digit (97 + (v - 10)) v
| hex_upp v : 10 <= v <= 15 -> hex_digit (65 + (v - 10)) v.
Inductive hex_color : gstr -> Z -> gocolor -> Prop :=
| hex_six a b c d e f va vb vc vd ve vf alpha : hex_digit a va -> hex_digit b vb -> hex_digit c vc -> hex_digit d vd -> hex_digit e ve -> hex_digit f vf ->
    hex_color [a; b; c; d; e; f] alpha (CRGBA (16 * va + vb) (16 * vc + vd) (16 * ve + vf) alpha)
| hex_three a b c va vb vc alpha : hex_digit a va -> hex_digit b vb -> hex_digit c vc ->
    hex_color [a; b; c] alpha (CRGBA (17 * va) (17 * vb) (17 * vc) alpha).

Lemma hexval_digit c v : hexval c = Some v <-> hex_digit c v.
Proof.
  unfold hexval, digit. split.
  - intros H. destruct (Z.leb_spec 48 c), (Z.leb_spec c 57); cbn [andb] in H;
      try (injection H as <-; replace c with (48 + (c - 48)) at 1 by lia; apply hex_num; lia);
    destruct (Z.leb_spec 97 c), (Z.leb_spec c 102); cbn [andb] in H;
      try (injection H as <-; replace c with (97 + ((c - 87) - 10)) at 1 by lia; apply hex_low; lia);
    destruct (Z.leb_spec 65 c), (Z.leb_spec c 70); cbn [andb] in H; try discriminate;
      injection H as <-; replace c with (65 + ((c - 55) - 10)) at 1 by lia; apply hex_upp; lia.
  - intros H. destruct H as [v H|v H|v H].
    + destruct (Z.leb_spec 48 (48 + v)); [|lia]. destruct (Z.leb_spec (48 + v) 57); [|lia]. cbn [andb]. f_equal. lia.
    + destruct (Z.leb_spec (97 + (v - 10)) 57); [lia|]. rewrite andb_false_r. destruct (Z.leb_spec 97 (97 + (v - 10))); [|lia]. destruct (Z.leb_spec (97 + (v - 10)) 102); [|lia]. cbn [andb]. f_equal. lia.
    + destruct (Z.leb_spec (65 + (v - 10)) 57); [lia|]. rewrite andb_false_r. destruct (Z.leb_spec 97 (65 + (v - 10))); [lia|]. cbn [andb]. destruct (Z.leb_spec 65 (65 + (v - 10))); [|lia]. destruct (Z.leb_spec (65 + (v - 10)) 70); [|lia]. cbn [andb]. f_equal. lia.
Qed.
Lemma hex_digit_range c v : hex_digit c v -> 0 <= v <= 15.
Proof. inversion 1; lia. Qed.
Lemma hexval_high c : 128 <= c -> hexval c = None.
Proof. intros H. destruct (hexval c) as [v|] eqn:E; auto. apply hexval_digit in E. inversion E; lia. Qed.

Lemma byte_of_hex x y : 0 <= x <= 15 -> 0 <= y <= 15 -> u8 (x * 16 + y) = 16 * x + y.
Proof. intros. unfold u8. rewrite Z.mod_small; lia. Qed.
Lemma fragments_val a b c d e f r al col : hex_fragments (a :: b :: c :: d :: e :: f :: r) al = Val col <->
  exists va vb vc vd ve vf, hex_digit a va /\ hex_digit b vb /\ hex_digit c vc /\ hex_digit d vd /\ hex_digit e ve /\ hex_digit f vf /\
    col = CRGBA (16 * va + vb) (16 * vc + vd) (16 * ve + vf) al.
Proof.
  cbn [hex_fragments]. unfold parse_hex2. split.
  - destruct (hexval a) as [va|] eqn:Ea, (hexval b) as [vb|] eqn:Eb; try discriminate. destruct (hexval c) as [vc|] eqn:Ec, (hexval d) as [vd|] eqn:Ed; try discriminate. destruct (hexval e) as [ve|] eqn:Ee, (hexval f) as [vf|] eqn:Ef; try discriminate.
    intros H. assert (col = CRGBA (u8 (va * 16 + vb)) (u8 (vc * 16 + vd)) (u8 (ve * 16 + vf)) al) as -> by congruence.
    apply hexval_digit in Ea, Eb, Ec, Ed, Ee, Ef. exists va, vb, vc, vd, ve, vf. repeat (split; [assumption|]). rewrite !byte_of_hex by eauto using hex_digit_range. reflexivity.
  - intros (va & vb & vc & vd & ve & vf & Ea & Eb & Ec & Ed & Ee & Ef & ->).
    rewrite (proj2 (hexval_digit _ _) Ea), (proj2 (hexval_digit _ _) Eb), (proj2 (hexval_digit _ _) Ec), (proj2 (hexval_digit _ _) Ed), (proj2 (hexval_digit _ _) Ee), (proj2 (hexval_digit _ _) Ef).
    rewrite !byte_of_hex by eauto using hex_digit_range. reflexivity.
Qed.
Lemma fragments_or a b c d e f r al : (exists col, hex_fragments (a :: b :: c :: d :: e :: f :: r) al = Val col) \/ hex_fragments (a :: b :: c :: d :: e :: f :: r) al = Err.
Proof. cbn [hex_fragments]. destruct (parse_hex2 a b); auto. destruct (parse_hex2 c d); auto. destruct (parse_hex2 e f); eauto. Qed.
Lemma fragments_bad a b c d e f r al : hexval a = None \/ hexval b = None \/ hexval c = None \/ hexval d = None \/ hexval e = None \/ hexval f = None -> hex_fragments (a :: b :: c :: d :: e :: f :: r) al = Err.
Proof.
  intros H. destruct (fragments_or a b c d e f r al) as [[col K]|K]; auto. apply fragments_val in K. destruct K as (va & vb & vc & vd & ve & vf & Ea & Eb & Ec & Ed & Ee & Ef & _).
  apply hexval_digit in Ea, Eb, Ec, Ed, Ee, Ef. repeat destruct H as [H|H]; congruence.
Qed.
Lemma hex_short a b c al : 0 <= a -> 0 <= b -> 0 <= c ->
  (a < 128 /\ b < 128 /\ c < 128 /\ concat (map (fun r => r ++ r) (runes [a; b; c])) = [a; a; b; b; c; c]) \/
  ((128 <= a \/ 128 <= b \/ 128 <= c) /\ hex_fragments (concat (map (fun r => r ++ r) (runes [a; b; c]))) al = Err).
Proof.
  intros _ _ _. cbn [runes]. destruct (Z.ltb_spec a 128), (Z.ltb_spec b 128), (Z.ltb_spec c 128); [left; cbn [map concat app]; auto|right..]; (split; [lia|]);
  repeat match goal with |- context [if ?v then _ else _] => destruct v end; cbn [map concat app]; apply fragments_bad;
  pose proof (hexval_high a); pose proof (hexval_high b); pose proof (hexval_high c); assert (hexval 239 = None) by reflexivity; assert (hexval 191 = None) by reflexivity; tauto.
Qed.

Theorem C52_hex : forall s alpha, Forall (fun c => 0 <= c) s ->
  (forall col, strToColor (35 :: s) alpha = Val col <-> hex_color s alpha col) /\
  (strToColor (35 :: s) alpha = Err <-> ~ exists col, hex_color s alpha col).
Proof.
  intros s al H. cbn [strToColor]. rewrite Z.eqb_refl.
  assert (A : (forall col, getHexColor (35 :: s) al = Val col <-> hex_color s al col) /\ getHexColor (35 :: s) al <> Crash).
  { unfold getHexColor. cbn [length skipn].
    destruct s as [|a [|b [|c [|d [|e [|f [|g s]]]]]]]; cbn [length];
      try (split; [intros col; split; [discriminate|intros K; inversion K]|discriminate]).
    - inversion H as [|? ? Ha H1]; subst. inversion H1 as [|? ? Hb H2]; subst. inversion H2 as [|? ? Hc H3]; subst.
      destruct (hex_short a b c al Ha Hb Hc) as [(La & Lb & Lc & E)|[L E]]; rewrite E.
      + split; [|destruct (fragments_or a a b b c c [] al) as [[col K]|K]; rewrite K; discriminate]. intros col. rewrite fragments_val. split.
        * intros (va & va' & vb & vb' & vc & vc' & K1 & K1' & K2 & K2' & K3 & K3' & ->). apply hexval_digit in K1', K2', K3'. pose proof (proj2 (hexval_digit _ _) K1). pose proof (proj2 (hexval_digit _ _) K2). pose proof (proj2 (hexval_digit _ _) K3).
          assert (va' = va) by congruence. assert (vb' = vb) by congruence. assert (vc' = vc) by congruence. subst.
          replace (16 * va + va) with (17 * va) by lia. replace (16 * vb + vb) with (17 * vb) by lia. replace (16 * vc + vc) with (17 * vc) by lia. constructor; auto.
        * intros K. inversion K; subst. do 6 eexists. repeat (split; [eassumption|]). f_equal; lia.
      + split; [|discriminate]. intros col. split; [discriminate|]. intros K. inversion K; subst.
        match goal with H1 : hex_digit a _, H2 : hex_digit b _, H3 : hex_digit c _ |- _ => inversion H1; inversion H2; inversion H3; lia end.
    - split; [|destruct (fragments_or a b c d e f [] al) as [[col K]|K]; rewrite K; discriminate]. intros col. rewrite fragments_val. split.
      + intros (va & vb & vc & vd & ve & vf & K1 & K2 & K3 & K4 & K5 & K6 & ->). constructor; auto.
      + intros K. inversion K; subst. do 6 eexists. repeat (split; [eassumption|]). reflexivity. }
  destruct A as [A N]. split; auto. split.
  - intros E (col & K). apply A in K. congruence.
  - intros K. destruct (getHexColor (35 :: s) al) as [col| |] eqn:E; auto; [exfalso; apply K; exists col; apply A; auto|congruence].
Qed.
Print Assumptions C52_hex.
Example C52_nonvacuous : strToColor (B "#fA0") 255 = Val (CRGBA 255 170 0 255) /\ strToColor (B "#12ff7F") 255 = Val (CRGBA 18 255 127 255) /\ strToColor (B "#12ff7") 255 = Err /\ strToColor (B "#g00") 255 = Err.
Proof. vm_compute. auto. Qed.

(** ** C53 *)
Open Scope R_scope.

Lemma in_range_spec v lo hi : in_range v lo hi = true <-> lo <= v <= hi.
Proof. unfold in_range. destruct (Rltb_spec v lo), (Rltb_spec hi v); cbn; split; intros; try discriminate; try reflexivity; lra. Qed.

(** NewHSLColor accepts exactly the documented ranges. *)
Theorem C53_accepts : forall h s l a,
  (0 <= h <= 360 /\ 0 <= s <= 1 /\ 0 <= l <= 1 -> NewHSLColor h s l a = Val (CHSL h s l a)) /\
  (~ (0 <= h <= 360 /\ 0 <= s <= 1 /\ 0 <= l <= 1) -> NewHSLColor h s l a = Err).
Proof.
  intros h s l a. unfold NewHSLColor. pose proof (in_range_spec h 0 360) as P1. pose proof (in_range_spec s 0 1) as P2. pose proof (in_range_spec l 0 1) as P3.
  destruct (in_range h 0 360), (in_range s 0 1), (in_range l 0 1); cbn [negb]; split; intros H; auto; exfalso; intuition discriminate.
Qed.
Print Assumptions C53_accepts.

(** The CSS colour specification of hsl(): channel [n] is 0 for red, 8 for green, 4 for blue. *)
Definition rmod (x m : R) : R := x - m * IZR (Rfloor (x / m)).
Definition css_hsl (h s l n : R) : R :=
  let k := rmod (n + h / 30) 12 in let a := s * Rmin l (1 - l) in l - a * Rmax (-1) (Rmin (Rmin (k - 3) (9 - k)) 1).

Lemma rmod_val x m i : 0 < m -> IZR i * m <= x < (IZR i + 1) * m -> rmod x m = x - m * IZR i.
Proof.
  intros Hm H. unfold rmod. rewrite (Rfloor_unique (x / m) i); auto. split.
  - apply Rmult_le_reg_r with m; auto. unfold Rdiv. rewrite Rmult_assoc, Rinv_l by lra. lra.
  - apply Rmult_lt_reg_r with m; auto. unfold Rdiv. rewrite Rmult_assoc, Rinv_l by lra. lra.
Qed.
Ltac rle_cases := repeat match goal with |- context [Rle_dec ?x ?y] => lazymatch constr:((x, y)) with context [Rle_dec _ _] => fail | _ => destruct (Rle_dec x y) end end.
Definition trap (k : R) : R := Rmax (-1) (Rmin (Rmin (k - 3) (9 - k)) 1).
Lemma trap_val k : (0 <= k <= 2 -> trap k = -1) /\ (2 <= k <= 4 -> trap k = k - 3) /\ (4 <= k <= 8 -> trap k = 1) /\ (8 <= k <= 10 -> trap k = 9 - k) /\ (10 <= k <= 12 -> trap k = -1).
Proof.
  unfold trap. repeat split; intros H; unfold Rmax, Rmin; rle_cases; lra.
Qed.
Lemma hue_css l a t : -120 <= t <= 480 -> hueToRGB (l - a) (l + a) t = l - a * trap (rmod (8 + t / 30) 12).
Proof.
  intros H. unfold hueToRGB.
  destruct (Rltb_spec t 0).
  - destruct (Rltb_spec 360 (t + 360)); [lra|]. destruct (Rltb_spec (t + 360) 60); [lra|]. destruct (Rltb_spec (t + 360) 180); [lra|].
    rewrite (rmod_val _ 12 0) by lra. destruct (Rltb_spec (t + 360) 240) as [L|L].
    + lra.
    + rewrite (proj1 (proj2 (proj2 (trap_val _)))) by lra. ring.
  - destruct (Rltb_spec 360 t).
    + destruct (Rltb_spec (t - 360) 60).
      * rewrite (rmod_val _ 12 1) by lra. rewrite (proj1 (proj2 (proj2 (proj2 (trap_val _))))) by lra. field.
      * destruct (Rltb_spec (t - 360) 180); [|lra]. destruct (Req_dec t 480) as [->|N].
        -- rewrite (rmod_val _ 12 2) by lra. rewrite (proj1 (trap_val _)) by lra. ring.
        -- rewrite (rmod_val _ 12 1) by lra. rewrite (proj2 (proj2 (proj2 (proj2 (trap_val _))))) by lra. ring.
    + destruct (Rltb_spec t 60).
      * rewrite (rmod_val _ 12 0) by lra. rewrite (proj1 (proj2 (proj2 (proj2 (trap_val _))))) by lra. field.
      * destruct (Rltb_spec t 180).
        -- destruct (Rlt_dec t 120).
           ++ rewrite (rmod_val _ 12 0) by lra. rewrite (proj2 (proj2 (proj2 (proj2 (trap_val _))))) by lra. ring.
           ++ rewrite (rmod_val _ 12 1) by lra. rewrite (proj1 (trap_val _)) by lra. ring.
        -- rewrite (rmod_val _ 12 1) by lra. destruct (Rltb_spec t 240).
           ++ rewrite (proj1 (proj2 (trap_val _))) by lra. field.
           ++ rewrite (proj1 (proj2 (proj2 (trap_val _)))) by lra. ring.
Qed.
Lemma Rabs_def2_le x a : Rabs x <= a -> - a <= x <= a.
Proof. unfold Rabs. destruct (Rcase_abs x); lra. Qed.
Lemma round_byte v : 0 <= v <= 1 -> (0 <= RoundHA (255 * v) <= 255)%Z.
Proof.
  intros H. pose proof (RoundHA_err (255 * v)) as E. apply Rabs_def2_le in E. split.
  - apply Z.lt_succ_r, lt_IZR. rewrite succ_IZR. lra.
  - apply Z.lt_succ_r, lt_IZR. rewrite succ_IZR. lra.
Qed.
Lemma bytes_257 : forallb (fun i => let r := Z.of_nat i in (Z.lor r (u32 (r * 256)) =? 257 * r) && (ConvertUint8ToUint32Color r =? 257 * r))%Z (seq 0 256) = true.
Proof. vm_compute. reflexivity. Qed.
Lemma byte_257 r : (0 <= r <= 255)%Z -> (Z.lor r (u32 (r * 256)) = 257 * r /\ ConvertUint8ToUint32Color r = 257 * r)%Z.
Proof.
  intros H. pose proof bytes_257 as K. rewrite forallb_forall in K. specialize (K (Z.to_nat r) ltac:(apply in_seq; lia)). cbv zeta in K. rewrite Z2Nat.id in K by lia.
  apply andb_prop in K. destruct K as [K1 K2]. split; apply Z.eqb_eq; auto.
Qed.
Lemma zto_val v : 0 <= v <= 1 -> zeroToOneColorToUint32 v = (257 * RoundHA (255 * v))%Z.
Proof.
  intros H. pose proof (round_byte v H) as K. unfold zeroToOneColorToUint32. cbv zeta. rewrite u32_id by (unfold in_u32; lia). apply byte_257. auto.
Qed.
Lemma trap_range k : -1 <= trap k <= 1.
Proof. unfold trap, Rmax, Rmin. rle_cases; lra. Qed.
Lemma css_range h s l n : 0 <= s <= 1 -> 0 <= l <= 1 -> 0 <= css_hsl h s l n <= 1.
Proof.
  intros Hs Hl. unfold css_hsl. cbv zeta. fold (trap (rmod (n + h / 30) 12)). pose proof (trap_range (rmod (n + h / 30) 12)) as T. set (t := trap _) in *. clearbody t.
  assert (A : 0 <= s * Rmin l (1 - l) <= Rmin l (1 - l)). { assert (0 <= Rmin l (1 - l)) by (unfold Rmin; destruct (Rle_dec _ _); lra). split; nra. }
  assert (B : Rmin l (1 - l) <= l /\ Rmin l (1 - l) <= 1 - l) by (unfold Rmin; destruct (Rle_dec _ _); lra). set (a := s * Rmin l (1 - l)) in *. clearbody a. split; nra.
Qed.
Lemma pq_css s l : 0 <= s -> 0 <= l <= 1 -> let q := if Rltb l (1 / 2) then l * (1 + s) else l + s - l * s in let a := s * Rmin l (1 - l) in q = l + a /\ 2 * l - q = l - a.
Proof.
  intros Hs Hl. cbv zeta. unfold Rmin. destruct (Rltb_spec l (1 / 2)), (Rle_dec l (1 - l)); try lra; try (split; ring). replace l with (1 / 2) by lra. lra.
Qed.

(** The channels are those of the CSS formula rounded to bytes and widened. *)
Theorem C53_channels : forall h s l a, 0 <= h <= 360 -> 0 <= s <= 1 -> 0 <= l <= 1 -> (0 <= a <= 255)%Z ->
  let byte n := RoundHA (255 * css_hsl h s l n) in
  hslRGBA h s l a = (257 * byte 0%R, 257 * byte 8%R, 257 * byte 4%R, 257 * a)%Z /\ forall n, (0 <= byte n <= 255)%Z.
Proof.
  intros h s l a Hh Hs Hl Ha. cbv zeta. split; [|intros n; apply round_byte, css_range; auto].
  unfold hslRGBA. cbv zeta. rewrite (proj2 (byte_257 a Ha)). destruct (Reqb_spec s 0) as [->|N].
  - rewrite zto_val by auto. assert (E : forall n, css_hsl h 0 l n = l) by (intros; unfold css_hsl; cbv zeta; ring). rewrite !E. reflexivity.
  - pose proof (pq_css s l (proj1 Hs) Hl) as [Eq Ep]. rewrite Ep, Eq. rewrite !hue_css by lra.
    assert (R : rmod (8 + (h + 120) / 30) 12 = rmod (0 + h / 30) 12).
    { unfold rmod. replace ((8 + (h + 120) / 30) / 12) with ((0 + h / 30) / 12 + 1) by field. rewrite (Rfloor_unique ((0 + h / 30) / 12 + 1) (Rfloor ((0 + h / 30) / 12) + 1)).
      - rewrite plus_IZR. field.
      - pose proof (proj1 (Rfloor_spec ((0 + h / 30) / 12) _) eq_refl). rewrite plus_IZR. lra. }
    rewrite R. replace (8 + (h - 120) / 30) with (4 + h / 30) by field.
    change (l - s * Rmin l (1 - l) * trap (rmod (0 + h / 30) 12)) with (css_hsl h s l 0). change (l - s * Rmin l (1 - l) * trap (rmod (8 + h / 30) 12)) with (css_hsl h s l 8). change (l - s * Rmin l (1 - l) * trap (rmod (4 + h / 30) 12)) with (css_hsl h s l 4).
    rewrite !zto_val by (apply css_range; auto). reflexivity.
Qed.
Print Assumptions C53_channels.
Theorem C53_greys : forall h l a, 0 <= h <= 360 -> 0 <= l <= 1 -> (0 <= a <= 255)%Z ->
  let v := (257 * RoundHA (255 * l))%Z in hslRGBA h 0 l a = (v, v, v, 257 * a)%Z.
Proof.
  intros h l a Hh Hl Ha. cbv zeta. destruct (C53_channels h 0 l a) as [E _]; auto; [lra|]. rewrite E. assert (F : forall n, css_hsl h 0 l n = l) by (intros; unfold css_hsl; cbv zeta; ring). rewrite !F. reflexivity.
Qed.
Print Assumptions C53_greys.
Example C53_nonvacuous : hslRGBA 240 1 (1 / 2) 255 = (0, 0, 65535, 65535)%Z.
Proof.
  destruct (C53_channels 240 1 (1 / 2) 255) as [E _]; try lra; try lia. rewrite E. unfold css_hsl. cbv zeta.
  rewrite (rmod_val _ 12 0), (rmod_val (8 + 240 / 30) 12 1), (rmod_val (4 + 240 / 30) 12 1) by lra.
  change (Rmax (-1) (Rmin (Rmin (0 + 240 / 30 - 12 * 0 - 3) (9 - (0 + 240 / 30 - 12 * 0))) 1)) with (trap (0 + 240 / 30 - 12 * 0)).
  change (Rmax (-1) (Rmin (Rmin (8 + 240 / 30 - 12 * 1 - 3) (9 - (8 + 240 / 30 - 12 * 1))) 1)) with (trap (8 + 240 / 30 - 12 * 1)).
  change (Rmax (-1) (Rmin (Rmin (4 + 240 / 30 - 12 * 1 - 3) (9 - (4 + 240 / 30 - 12 * 1))) 1)) with (trap (4 + 240 / 30 - 12 * 1)).
  rewrite (proj1 (proj2 (proj2 (trap_val (0 + 240 / 30 - 12 * 0))))) by lra. rewrite (proj1 (proj2 (proj2 (trap_val (8 + 240 / 30 - 12 * 1))))) by lra. rewrite (proj1 (trap_val (4 + 240 / 30 - 12 * 1))) by lra.
  assert (M : Rmin (1 / 2) (1 - 1 / 2) = 1 / 2) by (unfold Rmin; destruct (Rle_dec _ _); lra). rewrite M.
  replace (255 * (1 / 2 - 1 * (1 / 2) * 1)) with (IZR 0) by field. replace (255 * (1 / 2 - 1 * (1 / 2) * -1)) with (IZR 255) by field. rewrite !RoundHA_IZR. reflexivity.
Qed.

(** ** C90 *)

Lemma acos_ge x c : -1 <= x <= 1 -> 0 <= c <= PI -> x <= cos c -> c <= acos x.
Proof.
  intros Hx Hc H. destruct (Rle_lt_dec c (acos x)) as [K|K]; auto. pose proof (acos_bound x) as B. assert (Q := cos_decreasing_1 (acos x) c ltac:(lra) ltac:(lra) ltac:(lra) ltac:(lra) K). rewrite cos_acos in Q by auto. lra.
Qed.
Lemma acos_le x c : -1 <= x <= 1 -> 0 <= c <= PI -> cos c <= x -> acos x <= c.
Proof.
  intros Hx Hc H. destruct (Rle_lt_dec (acos x) c) as [K|K]; auto. pose proof (acos_bound x) as B. assert (Q := cos_decreasing_1 c (acos x) ltac:(lra) ltac:(lra) ltac:(lra) ltac:(lra) K). rewrite cos_acos in Q by auto. lra.
Qed.
(** acos in degrees *)
Definition dacos (x : R) : R := acos x * 180 / PI.
Lemma dacos_ge x d : -1 <= x <= 1 -> 0 <= d <= 180 -> x <= cos (d * (PI / 180)) -> d <= dacos x.
Proof.
  intros Hx Hd H. pose proof PI_RGT_0. unfold dacos. apply Rmult_le_reg_r with (PI / 180); [lra|]. replace (acos x * 180 / PI * (PI / 180)) with (acos x) by (field; lra). apply acos_ge; auto. split; nra.
Qed.
Lemma dacos_le x d : -1 <= x <= 1 -> 0 <= d <= 180 -> cos (d * (PI / 180)) <= x -> dacos x <= d.
Proof.
  intros Hx Hd H. pose proof PI_RGT_0. unfold dacos. apply Rmult_le_reg_r with (PI / 180); [lra|]. replace (acos x * 180 / PI * (PI / 180)) with (acos x) by (field; lra). apply acos_le; auto. split; nra.
Qed.
Lemma cos_60 : cos (60 * (PI / 180)) = 1 / 2.
Proof. replace (60 * (PI / 180)) with (PI / 3) by field. apply cos_PI3. Qed.
Lemma cos_120 : cos (120 * (PI / 180)) = - (1 / 2).
Proof. replace (120 * (PI / 180)) with (2 * (PI / 3)) by field. rewrite cos_2PI3. lra. Qed.
Lemma cos_180 : cos (180 * (PI / 180)) = -1.
Proof. replace (180 * (PI / 180)) with PI by field. apply cos_PI. Qed.
Lemma cos_0d : cos (0 * (PI / 180)) = 1.
Proof. rewrite Rmult_0_l. apply cos_0. Qed.

(** The argument of the arc cosine *)
Definition under (r g b : R) : R := r ^ 2 + g ^ 2 + b ^ 2 - (r * g + r * b + g * b).
Definition bra (r g b : R) : R := (r - (g / 2 + b / 2)) / sqrt (under r g b).
Lemma pow2_pos x : x <> 0 -> 0 < x ^ 2.
Proof. intros H. destruct (Rdichotomy _ _ H); nra. Qed.
Lemma under_pos r g b : g <> b \/ r <> g -> 0 < under r g b.
Proof.
  intros H. unfold under. assert (0 <= (r - g) ^ 2) by apply pow2_ge_0. assert (0 <= (r - b) ^ 2) by apply pow2_ge_0. assert (0 <= (g - b) ^ 2) by apply pow2_ge_0.
  destruct H as [H|H].
  - assert (0 < (g - b) ^ 2) by (apply pow2_pos; lra). nra.
  - assert (0 < (r - g) ^ 2) by (apply pow2_pos; lra). nra.
Qed.
Section Bra.
Variables r g b : R.
Hypothesis NG : g <> b \/ r <> g.
Let w := sqrt (under r g b).
Local Lemma w_pos : 0 < w.
Proof. apply sqrt_lt_R0. apply under_pos. auto. Qed.
Local Lemma w_sq : w * w = under r g b.
Proof. apply sqrt_sqrt. pose proof (under_pos r g b NG). lra. Qed.
Local Lemma bra_mul : bra r g b * w = r - (g / 2 + b / 2).
Proof. unfold bra. fold w. field. pose proof w_pos. lra. Qed.
Lemma bra_range : -1 <= bra r g b <= 1.
Proof.
  pose proof w_pos as P. pose proof w_sq as Q. pose proof bra_mul as M. unfold under in Q. assert (D : 0 <= (g - b) ^ 2) by apply pow2_ge_0. set (y := bra r g b) in *. clearbody y.
  assert (K : y * y * (w * w) <= w * w). { replace (y * y * (w * w)) with ((y * w) * (y * w)) by ring. rewrite M, Q. nra. }
  assert (W : 0 < w * w) by nra. assert (L : y * y <= 1) by (apply Rmult_le_reg_r with (w * w); lra). split; nra.
Qed.
Lemma bra_hi : g <= r -> b <= r -> 1 / 2 <= bra r g b.
Proof.
  intros H1 H2. pose proof w_pos as P. pose proof w_sq as Q. pose proof bra_mul as M. unfold under in Q. set (y := bra r g b) in *. clearbody y.
  destruct (Rle_lt_dec (1 / 2) y) as [K|K]; auto. exfalso. assert (Y : 0 <= y * w) by (rewrite M; lra). assert (y * w < w / 2) by nra. assert (0 <= (r - g) * (r - b)) by nra. rewrite M in *. nra.
Qed.
Lemma bra_lo : r <= g -> r <= b -> bra r g b <= - (1 / 2).
Proof.
  intros H1 H2. pose proof w_pos as P. pose proof w_sq as Q. pose proof bra_mul as M. unfold under in Q. set (y := bra r g b) in *. clearbody y.
  destruct (Rle_lt_dec y (- (1 / 2))) as [K|K]; auto. exfalso. assert (Y : y * w <= 0) by (rewrite M; lra). assert (- (w / 2) < y * w) by nra. assert (0 <= (r - g) * (r - b)) by nra. rewrite M in *. nra.
Qed.
Lemma bra_mid : (g <= r <= b \/ b <= r <= g) -> - (1 / 2) <= bra r g b <= 1 / 2.
Proof.
  intros H. pose proof w_pos as P. pose proof w_sq as Q. pose proof bra_mul as M. unfold under in Q. set (y := bra r g b) in *. clearbody y.
  assert (K : 4 * (y * y) * (w * w) <= w * w). { replace (4 * (y * y) * (w * w)) with (4 * ((y * w) * (y * w))) by ring. rewrite M, Q. assert ((r - g) * (r - b) <= 0) by (destruct H; nra). nra. }
  assert (W : 0 < w * w) by nra. assert (L : 4 * (y * y) <= 1) by (apply Rmult_le_reg_r with (w * w); lra). split; nra.
Qed.
End Bra.
Lemma bra_eq r g : r <> g -> bra r g g = if Rle_dec g r then 1 else -1.
Proof.
  intros N. unfold bra. assert (E : sqrt (under r g g) = Rabs (r - g)). { rewrite <- sqrt_Rsqr_abs. f_equal. unfold under, Rsqr. ring. }
  rewrite E. destruct (Rle_dec g r).
  - rewrite Rabs_right by lra. field. lra.
  - rewrite Rabs_left by lra. field. lra.
Qed.

Lemma getHue_bra r g b : (g <> b \/ r <> g)%Z -> getHue r g b = if Rleb (IZR b) (IZR g) then dacos (bra (IZR r) (IZR g) (IZR b)) else 360 - dacos (bra (IZR r) (IZR g) (IZR b)).
Proof.
  intros N. unfold getHue. cbv zeta. fold (under (IZR r) (IZR g) (IZR b)). assert (P : 0 < under (IZR r) (IZR g) (IZR b)). { apply under_pos. destruct N as [N|N]; [left|right]; intros K; apply eq_IZR in K; auto. }
  destruct (Rltb_spec 0 (under (IZR r) (IZR g) (IZR b))); [|contradiction]. reflexivity.
Qed.

Lemma dacos_range x : 0 <= dacos x <= 180.
Proof.
  pose proof (acos_bound x). pose proof PI_RGT_0. unfold dacos. split; (apply Rmult_le_reg_r with (PI / 180); [lra|]); replace (acos x * 180 / PI * (PI / 180)) with (acos x) by (field; lra); lra.
Qed.
Lemma hue_range r g b : (g <> b \/ r <> g)%Z -> 0 <= getHue r g b <= 360.
Proof. intros N. rewrite getHue_bra by auto. pose proof (dacos_range (bra (IZR r) (IZR g) (IZR b))). destruct (Rleb_spec (IZR b) (IZR g)); lra. Qed.

(** Sextants of the hue circle *)
Lemma hue_green r g b : (b < g)%Z ->
  ((g <= r)%Z -> 0 <= getHue r g b <= 60) /\ ((b <= r <= g)%Z -> 60 <= getHue r g b <= 120) /\ ((r <= b)%Z -> 120 <= getHue r g b <= 180).
Proof.
  intros H. assert (N : (g <> b \/ r <> g)%Z) by lia. rewrite getHue_bra by auto. assert (N' : IZR g <> IZR b \/ IZR r <> IZR g) by (left; intros K; apply eq_IZR in K; lia).
  pose proof (bra_range _ _ _ N') as BR. pose proof (dacos_range (bra (IZR r) (IZR g) (IZR b))) as DR. destruct (Rleb_spec (IZR b) (IZR g)) as [L|L]; [|apply IZR_lt in H; lra].
  split; [|split]; intros K.
  - split; [lra|]. apply dacos_le; auto; [lra|]. rewrite cos_60. apply bra_hi; auto; apply IZR_le; lia.
  - assert (M : - (1 / 2) <= bra (IZR r) (IZR g) (IZR b) <= 1 / 2) by (apply bra_mid; auto; right; split; apply IZR_le; lia).
    split; [apply dacos_ge; auto; [lra|]; rewrite cos_60; lra|apply dacos_le; auto; [lra|]; rewrite cos_120; lra].
  - split; [|lra]. apply dacos_ge; auto; [lra|]. rewrite cos_120. apply bra_lo; auto; apply IZR_le; lia.
Qed.
Lemma hue_blue r g b : (g < b)%Z ->
  ((b <= r)%Z -> 300 <= getHue r g b <= 360) /\ ((g <= r <= b)%Z -> 240 <= getHue r g b <= 300) /\ ((r <= g)%Z -> 180 <= getHue r g b <= 240).
Proof.
  intros H. assert (N : (g <> b \/ r <> g)%Z) by lia. rewrite getHue_bra by auto. assert (N' : IZR g <> IZR b \/ IZR r <> IZR g) by (left; intros K; apply eq_IZR in K; lia).
  pose proof (bra_range _ _ _ N') as BR. pose proof (dacos_range (bra (IZR r) (IZR g) (IZR b))) as DR. destruct (Rleb_spec (IZR b) (IZR g)) as [L|L]; [apply IZR_lt in H; lra|].
  split; [|split]; intros K.
  - assert (dacos (bra (IZR r) (IZR g) (IZR b)) <= 60); [|lra]. apply dacos_le; auto; [lra|]. rewrite cos_60. apply bra_hi; auto; apply IZR_le; lia.
  - assert (M : - (1 / 2) <= bra (IZR r) (IZR g) (IZR b) <= 1 / 2) by (apply bra_mid; auto; left; split; apply IZR_le; lia).
    assert (60 <= dacos (bra (IZR r) (IZR g) (IZR b))) by (apply dacos_ge; auto; [lra|]; rewrite cos_60; lra). assert (dacos (bra (IZR r) (IZR g) (IZR b)) <= 120) by (apply dacos_le; auto; [lra|]; rewrite cos_120; lra). lra.
  - assert (120 <= dacos (bra (IZR r) (IZR g) (IZR b))); [|lra]. apply dacos_ge; auto; [lra|]. rewrite cos_120. apply bra_lo; auto; apply IZR_le; lia.
Qed.
Lemma hue_even r g : (r <> g)%Z -> getHue r g g = if (g <? r)%Z then 0 else 180.
Proof.
  intros N. rewrite getHue_bra by lia. destruct (Rleb_spec (IZR g) (IZR g)) as [_|L]; [|lra]. rewrite bra_eq by (intros K; apply eq_IZR in K; lia).
  destruct (Z.ltb_spec g r) as [K|K], (Rle_dec (IZR g) (IZR r)) as [L|L].
  - unfold dacos. rewrite acos_1. lra.
  - exfalso. apply L, IZR_le. lia.
  - apply le_IZR in L. lia.
  - unfold dacos. replace (-1) with (- (1)) by lra. rewrite acos_opp, acos_1. field. apply PI_neq0.
Qed.

Lemma hueToRGB_q p q t : 60 <= t <= 180 \/ 420 <= t <= 540 -> hueToRGB p q t = q.
Proof.
  intros H. unfold hueToRGB. destruct (Rltb_spec t 0); [lra|]. destruct (Rltb_spec 360 t).
  - destruct (Rltb_spec (t - 360) 60); [lra|]. destruct (Rltb_spec (t - 360) 180); auto. destruct (Rltb_spec (t - 360) 240); [|lra]. replace (t - 360) with 180 by lra. field.
  - destruct (Rltb_spec t 60); [lra|]. destruct (Rltb_spec t 180); auto. destruct (Rltb_spec t 240); [|lra]. replace t with 180 by lra. field.
Qed.
Lemma hueToRGB_p p q t : 240 <= t <= 360 \/ -120 <= t <= 0 -> hueToRGB p q t = p.
Proof.
  intros H. unfold hueToRGB. destruct (Rltb_spec t 0).
  - destruct (Rltb_spec 360 (t + 360)); [lra|]. destruct (Rltb_spec (t + 360) 60); [lra|]. destruct (Rltb_spec (t + 360) 180); [lra|]. destruct (Rltb_spec (t + 360) 240); [lra|]. auto.
  - destruct (Rltb_spec 360 t); [lra|]. destruct (Rltb_spec t 60); [replace t with 0 by lra; field|]. destruct (Rltb_spec t 180); [lra|]. destruct (Rltb_spec t 240); [lra|]. auto.
Qed.
Lemma hueToRGB_mid p q t : p <= q -> -120 <= t <= 480 -> p <= hueToRGB p q t <= q.
Proof.
  intros Hpq H. pose proof (hue_css ((p + q) / 2) ((q - p) / 2) t H) as E. replace ((p + q) / 2 - (q - p) / 2) with p in E by field. replace ((p + q) / 2 + (q - p) / 2) with q in E by field.
  rewrite E. pose proof (trap_range (rmod (8 + t / 30) 12)) as T. set (x := trap _) in *. clearbody x. split; nra.
Qed.

Lemma hsl_pq M m : 0 <= m -> m < M -> M <= 1 ->
  let l := (M + m) / 2 in let s := if Rltb (1 / 2) l then (M - m) / (2 - M - m) else (M - m) / (M + m) in
  0 < s <= 1 /\ 0 <= l <= 1 /\ (let q := if Rltb l (1 / 2) then l * (1 + s) else l + s - l * s in q = M /\ 2 * l - q = m).
Proof.
  intros H1 H2 H3. cbv zeta. assert (D : forall x y, 0 < y -> 0 < x -> x <= y -> 0 < x / y <= 1).
  { intros x y Hy Hx L. split; [apply Rdiv_lt_0_compat; lra|]. apply Rmult_le_reg_r with y; auto. unfold Rdiv. rewrite Rmult_assoc, Rinv_l by lra. lra. }
  destruct (Rltb_spec (1 / 2) ((M + m) / 2)) as [K|K].
  - split; [apply D; lra|]. split; [lra|]. destruct (Rltb_spec ((M + m) / 2) (1 / 2)); [lra|]. split; field; lra.
  - split; [apply D; lra|]. split; [lra|]. destruct (Rltb_spec ((M + m) / 2) (1 / 2)); [split; field; lra|]. assert (E : M + m = 1) by lra. rewrite E. replace M with (1 - m) by lra. split; field.
Qed.

(** The largest and the smallest channel *)
Definition hi (r g b : Z) : Z := Z.max r (Z.max g b).
Definition lo (r g b : Z) : Z := Z.min r (Z.min g b).
Lemma Rmax_byte x y : Rmax (IZR x / 255) (IZR y / 255) = IZR (Z.max x y) / 255.
Proof. destruct (Z.max_spec x y) as [[H ->]|[H ->]]; [apply IZR_lt in H; rewrite Rmax_right; lra|apply IZR_le in H; rewrite Rmax_left; lra]. Qed.
Lemma Rmin_byte x y : Rmin (IZR x / 255) (IZR y / 255) = IZR (Z.min x y) / 255.
Proof. destruct (Z.min_spec x y) as [[H ->]|[H ->]]; [apply IZR_lt in H; rewrite Rmin_left; lra|apply IZR_le in H; rewrite Rmin_right; lra]. Qed.
Lemma round_bounds a c v : IZR a / 255 <= v <= IZR c / 255 -> (a <= RoundHA (255 * v) <= c)%Z.
Proof.
  intros H. pose proof (RoundHA_err (255 * v)) as E. apply Rabs_def2_le in E. split; apply Z.lt_succ_r, lt_IZR; rewrite succ_IZR; lra.
Qed.
Lemma zto_byte k : (0 <= k <= 255)%Z -> zeroToOneColorToUint32 (IZR k / 255) = (257 * k)%Z.
Proof.
  intros H. rewrite zto_val. - replace (255 * (IZR k / 255)) with (IZR k) by field. rewrite RoundHA_IZR. reflexivity.
  - destruct H as [H1 H2]. apply IZR_le in H1, H2. lra.
Qed.

(** The HSL colour of an RGB colour is legal; back in RGB its largest and smallest channels are exact and the third stays between them. *)
Theorem C90_hsl : forall r g b a, (0 <= r <= 255)%Z -> (0 <= g <= 255)%Z -> (0 <= b <= 255)%Z -> (0 <= a <= 255)%Z ->
  exists h s l, NewHSLFromRGB r g b a = CHSL h s l a /\ 0 <= h <= 360 /\ 0 <= s <= 1 /\ 0 <= l <= 1 /\
    exists r' g' b', hslRGBA h s l a = (257 * r', 257 * g', 257 * b', 257 * a)%Z /\
      forall x x', In (x, x') [(r, r'); (g, g'); (b, b')] ->
        (lo r g b <= x' <= hi r g b)%Z /\ (x = lo r g b -> x' = x) /\ (x = hi r g b -> x' = x).
Proof.
  intros r g b a Hr Hg Hb Ha. unfold NewHSLFromRGB. cbv zeta. rewrite !Rmax_byte, !Rmin_byte. fold (hi r g b) (lo r g b).
  assert (B : (0 <= lo r g b <= hi r g b /\ hi r g b <= 255)%Z) by (unfold lo, hi; lia). set (M := hi r g b) in *. set (m := lo r g b) in *.
  assert (BR : 0 <= IZR m /\ IZR m <= IZR M /\ IZR M <= 255) by (repeat split; apply IZR_le; lia).
  destruct (Reqb_spec (IZR M / 255) (IZR m / 255)) as [E|N].
  - assert (E' : M = m) by (apply eq_IZR; lra). exists 0, 0, ((IZR M / 255 + IZR m / 255) / 2). split; auto. repeat (split; [lra|]). exists m, m, m.
    assert (G : (r = m /\ g = m /\ b = m)%Z) by (unfold M, m, hi, lo in E' |- *; lia). destruct G as (Gr & Gg & Gb).
    split; [rewrite C53_greys by (auto; lra)|].
    + replace (255 * ((IZR M / 255 + IZR m / 255) / 2)) with (IZR m) by (rewrite E'; field). rewrite RoundHA_IZR. reflexivity.
    + intros x x' [K|[K|[K|[]]]]; assert (x' = m) by congruence; assert (x = m) by congruence; subst x x'; lia.
  - assert (NE : (m < M)%Z). { destruct (Z.lt_trichotomy m M) as [K|[K|K]]; auto; [rewrite K in N; lra|lia]. }
    pose proof (IZR_lt _ _ NE) as NR. assert (NG : (g <> b \/ r <> g)%Z) by (unfold M, m, hi, lo in NE; lia).
    pose proof (hsl_pq (IZR M / 255) (IZR m / 255) ltac:(lra) ltac:(lra) ltac:(lra)) as P. cbv zeta in P.
    set (l := (IZR M / 255 + IZR m / 255) / 2) in *. set (s := if Rltb (1 / 2) l then _ else _) in *. destruct P as (Ps & Pl & Pq & Pp). pose proof (hue_range r g b NG) as HH.
    exists (getHue r g b), s, l. split; auto. split; auto. split; [lra|]. split; [lra|].
    unfold hslRGBA. cbv zeta. destruct (Reqb_spec s 0) as [K|_]; [lra|]. rewrite Pp, Pq. rewrite (proj2 (byte_257 a Ha)).
    set (h := getHue r g b) in *. set (p := IZR m / 255) in *. set (q := IZR M / 255) in *.
    assert (PQ : p <= q) by (unfold p, q; lra). assert (Pb : 0 <= p /\ q <= 1) by (unfold p, q; lra).
    assert (MID : forall t, -120 <= t <= 480 -> zeroToOneColorToUint32 (hueToRGB p q t) = (257 * RoundHA (255 * hueToRGB p q t))%Z /\ (m <= RoundHA (255 * hueToRGB p q t) <= M)%Z).
    { intros t Ht. pose proof (hueToRGB_mid p q t PQ Ht) as Q. split; [apply zto_val; lra|]. apply round_bounds. auto. }
    assert (QV : forall v, v = q -> RoundHA (255 * v) = M). { intros v ->. unfold q. replace (255 * (IZR M / 255)) with (IZR M) by field. apply RoundHA_IZR. }
    assert (PV : forall v, v = p -> RoundHA (255 * v) = m). { intros v ->. unfold p. replace (255 * (IZR m / 255)) with (IZR m) by field. apply RoundHA_IZR. }
    destruct (MID (h + 120) ltac:(lra)) as [E1 R1]. destruct (MID h ltac:(lra)) as [E2 R2]. destruct (MID (h - 120) ltac:(lra)) as [E3 R3]. rewrite E1, E2, E3. do 3 eexists. split; [reflexivity|].
    assert (C : (r = M -> hueToRGB p q (h + 120) = q)%Z /\ (r = m -> hueToRGB p q (h + 120) = p)%Z /\ (g = M -> hueToRGB p q h = q)%Z /\ (g = m -> hueToRGB p q h = p)%Z /\ (b = M -> hueToRGB p q (h - 120) = q)%Z /\ (b = m -> hueToRGB p q (h - 120) = p)%Z).
    { unfold M, m, hi, lo. destruct (Z.lt_trichotomy g b) as [L|[L|L]].
      - pose proof (hue_blue r g b L) as (S6 & S5 & S4). fold h in S6, S5, S4.
        split; [intros K; apply hueToRGB_q; specialize (S6 ltac:(lia)); lra|]. split; [intros K; apply hueToRGB_p; specialize (S4 ltac:(lia)); lra|]. split; [lia|].
        split; [intros K; apply hueToRGB_p; destruct (Z_le_gt_dec b r); [specialize (S6 ltac:(lia))|specialize (S5 ltac:(lia))]; lra|]. split; [|lia].
        intros K. apply hueToRGB_q. destruct (Z_le_gt_dec r g); [specialize (S4 ltac:(lia))|specialize (S5 ltac:(lia))]; lra.
      - assert (N1 : (r <> g)%Z) by lia. assert (HE : h = if (g <? r)%Z then 0 else 180) by (unfold h; rewrite <- L; apply hue_even; auto). destruct (Z.ltb_spec g r) as [K|K]; rewrite HE.
        + split; [intros _; apply hueToRGB_q; lra|]. split; [lia|]. split; [lia|]. split; [intros _; apply hueToRGB_p; lra|]. split; [lia|]. intros _. apply hueToRGB_p. lra.
        + split; [lia|]. split; [intros _; apply hueToRGB_p; lra|]. split; [intros _; apply hueToRGB_q; lra|]. split; [lia|]. split; [|lia]. intros _. apply hueToRGB_q. lra.
      - pose proof (hue_green r g b L) as (S1 & S2 & S3). fold h in S1, S2, S3.
        split; [intros K; apply hueToRGB_q; specialize (S1 ltac:(lia)); lra|]. split; [intros K; apply hueToRGB_p; specialize (S3 ltac:(lia)); lra|].
        split; [intros K; apply hueToRGB_q; destruct (Z_le_gt_dec r b); [specialize (S3 ltac:(lia))|specialize (S2 ltac:(lia))]; lra|]. split; [lia|]. split; [lia|].
        intros K. apply hueToRGB_p. destruct (Z_le_gt_dec g r); [specialize (S1 ltac:(lia))|specialize (S2 ltac:(lia))]; lra. }
    destruct C as (C1 & C2 & C3 & C4 & C5 & C6).
    intros x x' [K|[K|[K|[]]]]; injection K as <- <-; (split; [assumption|]); split; intros K; rewrite K; (apply PV + apply QV); auto.
Qed.
Print Assumptions C90_hsl.
(** So a colour with two equal channels survives the round trip. *)
Theorem C90_two_equal : forall r g b a h s l, (0 <= r <= 255)%Z -> (0 <= g <= 255)%Z -> (0 <= b <= 255)%Z -> (0 <= a <= 255)%Z ->
  r = g \/ g = b \/ r = b -> NewHSLFromRGB r g b a = CHSL h s l a -> hslRGBA h s l a = (257 * r, 257 * g, 257 * b, 257 * a)%Z.
Proof.
  intros r g b a h s l Hr Hg Hb Ha HE H. destruct (C90_hsl r g b a Hr Hg Hb Ha) as (h' & s' & l' & E & _ & _ & _ & r' & g' & b' & E' & K). rewrite H in E. injection E as <- <- <-. rewrite E'.
  pose proof (K r r' ltac:(left; auto)) as (_ & Kr1 & Kr2). pose proof (K g g' ltac:(right; left; auto)) as (_ & Kg1 & Kg2). pose proof (K b b' ltac:(right; right; left; auto)) as (_ & Kb1 & Kb2). unfold lo, hi in *.
  assert (r' = r) as -> by (destruct (Z.le_ge_cases g b), (Z.le_ge_cases r b); lia). assert (g' = g) as -> by (destruct (Z.le_ge_cases g b), (Z.le_ge_cases r b); lia). assert (b' = b) as -> by (destruct (Z.le_ge_cases g b), (Z.le_ge_cases r g); lia). reflexivity.
Qed.
Print Assumptions C90_two_equal.

Lemma cos_15 : 0 < cos (PI / 12) /\ cos (PI / 12) ^ 2 = (1 + sqrt 3 / 2) / 2.
Proof.
  pose proof PI_RGT_0. split; [apply cos_gt_0; lra|]. pose proof (cos_2a_cos (PI / 12)) as E. replace (2 * (PI / 12)) with (PI / 6) in E by field. rewrite cos_PI6 in E. nra.
Qed.
(** In general the third channel changes: orange-red (255, 68, 0) comes back with a green of at most 64. *)
Theorem C90_round_trip_refuted : exists r g b h s l, (0 <= r <= 255)%Z /\ (0 <= g <= 255)%Z /\ (0 <= b <= 255)%Z /\
  NewHSLFromRGB r g b 255 = CHSL h s l 255 /\ exists r' g' b', hslRGBA h s l 255 = (r', g', b', 65535)%Z /\ (g' < 257 * g)%Z.
Proof.
  exists 255%Z, 68%Z, 0%Z. do 3 eexists. do 3 (split; [lia|]). split.
  - unfold NewHSLFromRGB. cbv zeta. rewrite !Rmax_byte, !Rmin_byte. change (Z.max 255 (Z.max 68 0)) with 255%Z. change (Z.min 255 (Z.min 68 0)) with 0%Z.
    destruct (Reqb_spec (255 / 255) (0 / 255)) as [K|_]; [lra|]. reflexivity.
  - pose proof (hsl_pq (255 / 255) (0 / 255) ltac:(lra) ltac:(lra) ltac:(lra)) as P. cbv zeta in P. set (l := (255 / 255 + 0 / 255) / 2) in *. set (s := if Rltb (1 / 2) l then _ else _) in *. destruct P as (Ps & Pl & Pq & Pp).
    unfold hslRGBA. cbv zeta. destruct (Reqb_spec s 0) as [K|_]; [lra|]. rewrite Pp, Pq. change (ConvertUint8ToUint32Color 255) with 65535%Z. do 3 eexists. split; [reflexivity|].
    assert (H : 0 <= getHue 255 68 0 <= 15).
    { pose proof (hue_green 255 68 0 ltac:(lia)) as (S1 & _ & _). specialize (S1 ltac:(lia)). split; [lra|]. rewrite getHue_bra by lia. destruct (Rleb_spec 0 68) as [_|L]; [|lra].
      assert (N : IZR 68 <> IZR 0 \/ IZR 255 <> IZR 68) by (left; lra). apply dacos_le; [apply bra_range; auto|lra|]. replace (15 * (PI / 180)) with (PI / 12) by field. destruct cos_15 as [C0 C2].
      unfold bra, under. replace (255 ^ 2 + 68 ^ 2 + 0 ^ 2 - (255 * 68 + 255 * 0 + 68 * 0)) with 52309 by ring. replace (255 - (68 / 2 + 0 / 2)) with 221 by field.
      assert (W : 0 < sqrt 52309) by (apply sqrt_lt_R0; lra). assert (W2 : sqrt 52309 * sqrt 52309 = 52309) by (apply sqrt_sqrt; lra).
      assert (T : sqrt 3 * sqrt 3 = 3) by (apply sqrt_sqrt; lra). assert (T0 : 0 < sqrt 3) by (apply sqrt_lt_R0; lra). assert (T1 : sqrt 3 <= 17321 / 10000) by nra.
      apply Rmult_le_reg_r with (sqrt 52309); auto. unfold Rdiv. rewrite Rmult_assoc, Rinv_l by lra. rewrite Rmult_1_r.
      assert (Q : (cos (PI / 12) * sqrt 52309) ^ 2 <= 221 ^ 2). { replace ((cos (PI / 12) * sqrt 52309) ^ 2) with (cos (PI / 12) ^ 2 * (sqrt 52309 * sqrt 52309)) by ring. rewrite C2, W2. lra. }
      assert (Z0 : 0 < cos (PI / 12) * sqrt 52309) by (apply Rmult_lt_0_compat; auto). nra. }
    set (h := getHue 255 68 0) in *. clearbody h.
    unfold hueToRGB. destruct (Rltb_spec h 0); [lra|]. destruct (Rltb_spec 360 h); [lra|]. destruct (Rltb_spec h 60); [|lra].
    rewrite zto_val by lra. assert (RoundHA (255 * (0 / 255 + (255 / 255 - 0 / 255) * (h / 60))) <= 64)%Z; [|lia].
    apply (round_bounds 0 64). lra.
Qed.
Print Assumptions C90_round_trip_refuted.
(** HSV colours are legal too; the value is the largest channel and the saturation one minus the ratio of smallest to largest. *)
Theorem C90_hsv : forall r g b, (0 <= r <= 255)%Z -> (0 <= g <= 255)%Z -> (0 <= b <= 255)%Z ->
  exists h s v, NewHSVFromRGB r g b = (h, s, v) /\ 0 <= h <= 360 /\ 0 <= s <= 1 /\ 0 <= v <= 1 /\ 255 * v = IZR (hi r g b) /\ (1 - s) * (255 * v) = IZR (lo r g b).
Proof.
  intros r g b Hr Hg Hb. unfold NewHSVFromRGB. cbv zeta. rewrite !Rmax_byte, !Rmin_byte. fold (hi r g b) (lo r g b).
  assert (B : (0 <= lo r g b <= hi r g b /\ hi r g b <= 255)%Z) by (unfold lo, hi; lia). do 3 eexists. split; [reflexivity|].
  split.
  { destruct (Z.eq_dec g b) as [E1|E1]; [destruct (Z.eq_dec r g) as [E2|E2]|]; [|apply hue_range; lia..]. subst. unfold getHue. cbv zeta.
    destruct (Rltb_spec 0 (IZR b ^ 2 + IZR b ^ 2 + IZR b ^ 2 - (IZR b * IZR b + IZR b * IZR b + IZR b * IZR b))) as [K|_]; [exfalso; ring_simplify in K; lra|].
    destruct (Rleb_spec (IZR b) (IZR b)) as [_|K]; [|lra]. rewrite acos_1. lra. }
  set (M := hi r g b) in *. set (m := lo r g b) in *. clearbody M m. assert (BR : 0 <= IZR m /\ IZR m <= IZR M /\ IZR M <= 255) by (repeat split; apply IZR_le; lia).
  destruct (Rltb_spec 0 (IZR M / 255)) as [K|K].
  - assert (Q : IZR m / 255 / (IZR M / 255) = IZR m / IZR M) by (field; lra). rewrite Q. assert (T : 0 <= IZR m / IZR M <= 1).
    { split; [apply Rmult_le_pos; [lra|]; left; apply Rinv_0_lt_compat; lra|]. apply Rmult_le_reg_r with (IZR M); [lra|]. unfold Rdiv. rewrite Rmult_assoc, Rinv_l by lra. lra. }
    split; [lra|]. split; [lra|]. split; field; lra.
  - split; [lra|]. split; [lra|]. split; [field|]. assert (IZR M = 0) by lra. assert (IZR m = 0) by lra. lra.
Qed.
Print Assumptions C90_hsv.
Example C90_nonvacuous : NewHSLFromRGB 255 0 0 255 = CHSL 0 1 (1 / 2) 255 /\ hslRGBA 0 1 (1 / 2) 255 = (65535, 0, 0, 65535)%Z.
Proof.
  assert (E : NewHSLFromRGB 255 0 0 255 = CHSL 0 1 (1 / 2) 255).
  { unfold NewHSLFromRGB. cbv zeta. rewrite !Rmax_byte, !Rmin_byte. change (Z.max 255 (Z.max 0 0)) with 255%Z. change (Z.min 255 (Z.min 0 0)) with 0%Z. rewrite hue_even by lia. change (0 <? 255)%Z with true.
    destruct (Reqb_spec (255 / 255) (0 / 255)) as [K|_]; [lra|]. destruct (Rltb_spec (1 / 2) ((255 / 255 + 0 / 255) / 2)); [lra|]. f_equal; field. }
  split; auto. exact (C90_two_equal 255 0 0 255 0 1 (1 / 2) ltac:(lia) ltac:(lia) ltac:(lia) ltac:(lia) ltac:(right; left; auto) E).
Qed.
