(** Names of tiles and of sprite files. *)
From Coq Require Import ZArith Reals List Bool Lia String Ascii.
From Verif Require Import GoBase GoStr Json Tileid_Model Tileid_Proofs Tileid_Props TileR_Model TileR_Proofs TileR_Props StyleFile_Model StyleFile_Props Names_Model.
Import ListNotations.
Open Scope Z_scope.

(** ** C127 *)

Lemma sep_unique (c : Ascii.ascii) : forall s r s' r', contains_char c s = false -> contains_char c s' = false -> (s ++ String c r = s' ++ String c r')%string -> s = s' /\ r = r'.
Proof.
  induction s as [|a s IH]; intros r [|b s'] r' H H' E; cbn in E.
  - injection E as ->. auto.
  - injection E as -> E. cbn in H'. rewrite Ascii.eqb_refl in H'. discriminate.
  - injection E as -> E. cbn in H. rewrite Ascii.eqb_refl in H. discriminate.
  - injection E as -> E. cbn in H, H'. apply orb_false_iff in H. apply orb_false_iff in H'. destruct (IH r s' r' (proj2 H) (proj2 H') E) as [-> ->]. auto.
Qed.
Lemma itoa_dot z : contains_char "." (itoa z) = false.
Proof.
  unfold itoa. destruct (Z.ltb_spec z 0); cbn [contains_char]; [change (Ascii.eqb "." "-") with false; cbn [orb]|]; apply contains_digits; try (apply utoa_digits; lia); unfold is_digit_char; vm_compute; intros [A B]; apply A; reflexivity.
Qed.
Lemma utoa_dash c n : 0 <= n -> ~ is_digit_char c -> contains_char c (utoa n) = false.
Proof. intros. apply contains_digits; auto. apply utoa_digits. auto. Qed.
Lemma itoa_inj x y : in_i64 x -> in_i64 y -> itoa x = itoa y -> x = y.
Proof. intros Hx Hy E. apply (f_equal parse_int0) in E. rewrite !parse_int0_itoa in E by auto. congruence. Qed.
Lemma utoa_inj x y : in_u64 x -> in_u64 y -> utoa x = utoa y -> x = y.
Proof. intros Hx Hy E. apply (f_equal parse_uint0) in E. rewrite !parse_uint0_utoa in E by (unfold in_u64 in *; lia). congruence. Qed.

(** Different tiles have different names. *)
Theorem C127_to_string_injective : forall t t', tile_wf t -> tile_wf t' -> ToString t = ToString t' -> t = t'.
Proof.
  intros [x y z] [x' y' z'] (Hx & Hy & Hz) (Hx' & Hy' & Hz') E. cbn [tX tY tZ] in *. unfold ToString in E. cbn [tX tY tZ] in E.
  apply sep_unique in E; try apply itoa_dot. destruct E as [E1 E]. apply sep_unique in E; try apply itoa_dot. destruct E as [E2 E3].
  f_equal; [apply itoa_inj|apply itoa_inj|apply utoa_inj]; auto.
Qed.
Print Assumptions C127_to_string_injective.

Lemma nd_dash : ~ is_digit_char "-". Proof. unfold is_digit_char. vm_compute. intros [A B]. apply A. reflexivity. Qed.
Lemma itoa_nonneg z : 0 <= z -> itoa z = utoa z.
Proof. intros H. unfold itoa. destruct (Z.ltb_spec z 0); [lia|auto]. Qed.
Lemma itoa_neg z : z < 0 -> itoa z = String "-" (utoa (- z)).
Proof. intros H. unfold itoa. destruct (Z.ltb_spec z 0); [auto|lia]. Qed.

(** A number followed by a full stop is not a number. *)
Lemma parse_loop_app b : forall s t n, parse_loop b (s ++ t) n = match parse_loop b s n with NumOk m => parse_loop b t m | e => e end.
Proof.
  induction s as [|a s IH]; intros t n; cbn [append parse_loop]; auto. destruct (digit_val a); auto. destruct (b <=? z); auto. destruct (2 ^ 64 <=? n * b + z); auto.
Qed.
Lemma parse_dot n r : 0 <= n < 2 ^ 64 -> parse_int0 (utoa n ++ String "." r) = (0, false).
Proof.
  intros Hn. destruct (utoa_digits n ltac:(lia)) as [D N]. pose proof (parse_uint0_utoa n Hn) as P. destruct (utoa n) as [|a u] eqn:E; [congruence|]. cbn [sforall] in D. destruct D as [Da Du]. unfold is_digit_char in Da.
  cbn [append]. unfold parse_int0. destruct (Z.eqb_spec (zascii a) 45); [lia|]. destruct (Z.eqb_spec (zascii a) 43); [lia|]. cbn [orb].
  assert (Q : parse_uint0 (String a (u ++ String "." r)) = NumSyntax); [|rewrite Q; reflexivity].
  unfold parse_uint0 in *. destruct (Z.eqb_spec (zascii a) 48) as [Z0|Z0].
  - destruct u as [|b u]; cbn [append].
    + destruct r; reflexivity.
    + (* a leading zero does not occur before another digit *)
      exfalso. unfold utoa in E. destruct (dec_digits_spec (S (Z.to_nat (Z.log2 n))) n) as ((d & l & Hdl & Hpos) & _ & Hall); [split; [lia|apply log2_fuel; lia]|lia|].
      rewrite Hdl in *. unfold digits_string in E. cbn [map string_of_list_ascii] in E. injection E as E1 E2. inversion Hall; subst.
      unfold digit_char in Z0. rewrite zascii_asciiz in Z0 by lia. assert (n = 0) by lia. subst n. cbn in Hdl. injection Hdl as <- <-. discriminate.
  - change (String a (u ++ String "." r)) with (String a u ++ String "." r)%string. rewrite parse_loop_app, P. reflexivity.
Qed.

Lemma no_delim_digits c n : In c ["-"; "/"; "_"; ","; " "]%char -> 0 <= n -> contains_char c (utoa n) = false.
Proof. intros H Hn. apply utoa_dash; auto. unfold is_digit_char. destruct H as [<-|[<-|[<-|[<-|[<-|[]]]]]]; vm_compute; intros [A B]; first [apply A; reflexivity|apply B; reflexivity]. Qed.
Lemma split_two c s r : contains_char c s = false -> contains_char c r = false -> split_char c (s ++ String c r) = [s; r].
Proof. intros H H'. rewrite split_char_app by auto. rewrite split_char_none by auto. reflexivity. Qed.

(** No parser of the package reads these names back: without a minus sign there is no separator it
    knows and it panics, with one there are too few pieces, and with two every piece is malformed. *)
Theorem C127_to_string_unread_refuted : forall t, tile_wf t ->
  TileFromString (ToString t) = (if (tX t <? 0) && (tY t <? 0) then Ok (mkTile 0 0 0) else Panic) /\ TileFromString (ToString t) <> Ok t /\ Strtile (ToString t) = Panic.
Proof.
  intros [x y z] (Hx & Hy & Hz). cbn [tX tY tZ] in *. unfold in_i64, in_u64 in *.
  assert (M : TileFromString (ToString (mkTile x y z)) = (if (x <? 0) && (y <? 0) then Ok (mkTile 0 0 0) else Panic)).
  { unfold ToString. cbn [tX tY tZ]. assert (Dz := fun c H => no_delim_digits c z H ltac:(lia)).
    assert (U : forall c n, In c ["-"; "/"; "_"; ","; " "]%char -> 0 <= n -> contains_char c (utoa n ++ String "." (utoa z)) = false).
    { intros c n H Hn. rewrite contains_char_app, (no_delim_digits c n), orb_false_l by auto. cbn [contains_char]. rewrite Dz by auto. destruct H as [<-|[<-|[<-|[<-|[<-|[]]]]]]; reflexivity. }
    assert (I0 : In "-"%char ["-"; "/"; "_"; ","; " "]%char) by (left; auto).
    destruct (Z.ltb_spec x 0) as [X|X], (Z.ltb_spec y 0) as [Y|Y]; cbn [andb].
    - rewrite (itoa_neg x), (itoa_neg y) by auto. unfold TileFromString. cbn [append contains_char]. change (Ascii.eqb "-" "-") with true. cbn [orb].
      cbn [split_char]. change (Ascii.eqb "-" "-") with true. cbn iota.
      replace (utoa (- x) ++ String "." (String "-" (utoa (- y) ++ String "." (utoa z))))%string with ((utoa (- x) ++ String "." "") ++ String "-" (utoa (- y) ++ String "." (utoa z)))%string.
      2:{ clear. induction (utoa (- x)) as [|a s IH]; cbn; [reflexivity|]. f_equal. auto. }
      rewrite split_two; [| |apply U; auto; lia].
      + pose proof (parse_dot (- x) ""%string ltac:(lia)) as P1. pose proof (parse_dot (- y) (utoa z) ltac:(lia)) as P2.
        assert (Q : forall p q r, tile_of_pieces [p; q; r] = Ok (mkTile (fst (parse_int0 p)) (fst (parse_int0 q)) (u64 (fst (parse_int0 r))))) by reflexivity.
        rewrite Q, P1, P2. reflexivity.
      + rewrite contains_char_app, (no_delim_digits _ (- x)) by (auto; lia). reflexivity.
    - rewrite (itoa_neg x), (itoa_nonneg y) by auto. unfold TileFromString. cbn [append contains_char]. change (Ascii.eqb "-" "-") with true. cbn [orb].
      cbn [split_char]. change (Ascii.eqb "-" "-") with true. cbn iota. rewrite split_char_none; [reflexivity|].
      rewrite contains_char_app, (no_delim_digits _ (- x)), orb_false_l by (auto; lia). cbn [contains_char]. rewrite U by auto. reflexivity.
    - rewrite (itoa_nonneg x), (itoa_neg y) by auto. unfold TileFromString.
      replace (utoa x ++ String "." (String "-" (utoa (- y)) ++ String "." (utoa z)))%string with ((utoa x ++ String "." "") ++ String "-" (utoa (- y) ++ String "." (utoa z)))%string.
      2:{ clear. induction (utoa x) as [|a s IH]; cbn; [reflexivity|]. f_equal. auto. }
      replace (contains_char "-" ((utoa x ++ String "." "") ++ String "-" (utoa (- y) ++ String "." (utoa z)))) with true.
      2:{ rewrite contains_char_app. cbn [contains_char]. change (Ascii.eqb "-" "-") with true. cbn [orb]. rewrite orb_true_r. reflexivity. }
      rewrite split_two; [reflexivity| |apply U; auto; lia]. rewrite contains_char_app, (no_delim_digits _ x) by auto. reflexivity.
    - rewrite (itoa_nonneg x), (itoa_nonneg y) by auto. apply C04_no_delimiter_panics. intros a Ha Hd.
      assert (C : contains_char a (utoa x ++ String "." (utoa y ++ String "." (utoa z))) = false).
      { rewrite contains_char_app, (no_delim_digits a x), orb_false_l by auto. cbn [contains_char]. rewrite U by auto. destruct Hd as [<-|[<-|[<-|[<-|[<-|[]]]]]]; reflexivity. }
      revert Ha C. generalize (utoa x ++ String "." (utoa y ++ String "." (utoa z)))%string. induction s as [|b s IH]; cbn; [tauto|]. intros [->|Ha] C; [rewrite Ascii.eqb_refl in C; discriminate|]. apply orb_false_iff in C. tauto. }
  split; auto. split.
  - rewrite M. destruct (Z.ltb_spec x 0), (Z.ltb_spec y 0); cbn [andb]; try discriminate. intros E. injection E as <- <- <-. lia.
  - unfold Strtile. rewrite split_char_none; [reflexivity|]. unfold ToString. cbn [tX tY tZ].
    assert (I : forall n, contains_char "/" (itoa n) = false). { intros n. unfold itoa. destruct (Z.ltb_spec n 0); cbn [contains_char]; [change (Ascii.eqb "/" "-") with false; cbn [orb]|]; apply no_delim_digits; cbn; auto; lia. }
    rewrite contains_char_app, I. cbn [contains_char]. rewrite contains_char_app, I. cbn [contains_char]. rewrite no_delim_digits by (cbn; auto; lia). reflexivity.
Qed.
Print Assumptions C127_to_string_unread_refuted.

(** Tile_Geohash names the tile that Tile finds, so Strtile gives that tile back. *)
Theorem C127_geohash : forall lng lat z, 0 <= z < 2 ^ 64 ->
  Tile_Geohash lng lat z = Tilestr (Tile lng lat z) /\
  (0 <= z <= 62 -> (-180 <= lng < 180)%R -> (- (180 / PI * atan (sinh PI)) < lat <= 180 / PI * atan (sinh PI))%R ->
   Strtile (Tile_Geohash lng lat z) = Ok (Tile lng lat z)).
Proof.
  intros lng lat z Hz. split; [reflexivity|]. intros Hz' Hl Ha. change (Tile_Geohash lng lat z) with (Tilestr (Tile lng lat z)).
  destruct (C08_tile_on_map lng lat z Hz Hl Ha) as [[X0 X1] [Y0 Y1]]. assert (2 ^ z <= 2 ^ 62) by (apply Z.pow_le_mono_r; lia).
  destruct (Tile lng lat z) as [x y z0] eqn:E. cbn [tX tY] in *. assert (z0 = u64 z) by (unfold Tile in E; congruence). subst z0.
  apply C03_tilestr_round_trip; try lia. unfold u64. apply Z.mod_pos_bound. lia.
Qed.
Print Assumptions C127_geohash.
Example C127_nonvacuous : ToString (mkTile (-3) 7 (2 ^ 64 - 1)) = "-3.7.18446744073709551615"%string /\ Tilestr (mkTile (-3) 7 (2 ^ 64 - 1)) = "-3/7/-1"%string /\ tile_wf (mkTile (-3) 7 (2 ^ 64 - 1)).
Proof. split; [vm_compute; reflexivity|]. split; [vm_compute; reflexivity|]. unfold tile_wf, in_i64, in_u64. cbn [tX tY tZ]. lia. Qed.

(** ** C128 *)

(** A style file decoded from its text form is itself again exactly when it is in the form that
    ParseStyleFile produces; decoding what decoding produced always works; a failed decoding leaves
    the receiver as it was, and nothing panics. *)
Theorem C128_text : forall f g, StyleFile_Props.ascii (SFString f) -> sfRatio f < 2 ^ 63 ->
  (exists t, MarshalText f = Val t /\
    (UnmarshalText g t = (f, Val tt) <->
     sfType f <> [] /\ at_free (sfType f) /\ ToLower (sfType f) = sfType f /\ is_ext (sfExt f) /\ ToLower (sfExt f) = sfExt f /\ 1 <= sfRatio f)).
Proof.
  intros f g HA HB. exists (SFString f). split; [reflexivity|]. rewrite <- (C46_round_trip f HA HB). unfold UnmarshalText.
  destruct (ParseStyleFile (SFString f)) as [sf| |]; split; intros E; try discriminate; try congruence.
Qed.
Print Assumptions C128_text.

Theorem C128_error : forall f s, StyleFile_Props.ascii s ->
  (snd (UnmarshalText f s) <> Crash) /\ (snd (UnmarshalText f s) = Err -> fst (UnmarshalText f s) = f) /\
  (snd (UnmarshalText f s) = Err <-> forall x y t d e, s = (x ++ y)%list -> ~ shape y t d e) /\
  (snd (UnmarshalText f s) = Val tt -> forall g, UnmarshalText g s = (fst (UnmarshalText f s), Val tt)).
Proof.
  intros f s HA. destruct (C46_parse s HA) as (P1 & _ & P3). unfold UnmarshalText. destruct (ParseStyleFile s) as [sf| |]; cbn [fst snd]; [| |congruence].
  - split; [discriminate|]. split; [discriminate|]. split; [|auto]. split; [discriminate|]. intros H. apply P1 in H. discriminate.
  - split; [discriminate|]. split; [auto|]. split; [|discriminate]. tauto.
Qed.
Print Assumptions C128_error.
Example C128_nonvacuous : UnmarshalText (mkSF (B "x") (B "y") 7) (B "Sprite@2x.PNG") = (mkSF (B "sprite") (B ".png") 2, Val tt) /\ UnmarshalText (mkSF (B "x") (B "y") 7) (B "sprite") = (mkSF (B "x") (B "y") 7, Err).
Proof. split; vm_compute; reflexivity. Qed.
