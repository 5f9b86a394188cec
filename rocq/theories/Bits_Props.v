(** The comparison of float64 fields in format detection is the IEEE comparison (C68). *)
From Coq Require Import String ZArith Reals List Lia Lra Bool Permutation.
From Flocq Require Import Core BinarySingleNaN Binary Bits.
From Verif Require Import GoBase Json Mbtiles_Model Mbtiles_Props.
Import ListNotations.
Open Scope Z_scope.

Definition f64 := binary_float 53 1024.

(** The parts of the bits of a float64 *)
Lemma split64 x : 0 <= x < 2 ^ 64 ->
  exists s m e, split_bits 52 11 x = (s, m, e) /\ 0 <= m < 2 ^ 52 /\ 0 <= e < 2048 /\ x mod 2 ^ 63 = m + 2 ^ 52 * e.
Proof.
  intros Hx. unfold split_bits. do 3 eexists. split; [reflexivity|].
  change (2 ^ 52) with 4503599627370496. change (2 ^ 11) with 2048. change (2 ^ 63) with 9223372036854775808.
  split; [apply Z.mod_pos_bound; lia|]. split; [apply Z.mod_pos_bound; lia|]. Z.div_mod_to_equations. lia.
Qed.

(** What a bit pattern stands for *)
Lemma kinds x : 0 <= x < 2 ^ 64 ->
  match (b64_of_bits x : f64) with
  | B754_zero _ _ s => x mod 2 ^ 63 = 0
  | B754_infinity _ _ s => x mod 2 ^ 63 = 2047 * 2 ^ 52
  | B754_nan _ _ _ _ _ => 2047 * 2 ^ 52 < x mod 2 ^ 63
  | B754_finite _ _ _ _ _ _ => 0 < x mod 2 ^ 63 < 2047 * 2 ^ 52
  end.
Proof.
  intros Hx. destruct (split64 x Hx) as (s & m & e & E & Hm & He & ->).
  assert (F : B2FF 53 1024 (b64_of_bits x) = binary_float_of_bits_aux 52 11 x) by apply B2FF_FF2B.
  unfold binary_float_of_bits_aux in F. rewrite E in F. change (2 ^ 11 - 1) with 2047 in F.
  destruct (Zeq_bool e 0) eqn:E0; [apply Zeq_bool_eq in E0; subst e|apply Zeq_bool_neq in E0].
  - destruct m as [|p|p]; [| |lia]; destruct (b64_of_bits x) as [s'|s'|s' pl Hp|s' mx ex Hb]; cbn [B2FF] in F; try discriminate; lia.
  - destruct (Zeq_bool e 2047) eqn:E1; [apply Zeq_bool_eq in E1; subst e|apply Zeq_bool_neq in E1].
    + destruct m as [|p|p]; [| |lia]; destruct (b64_of_bits x) as [s'|s'|s' pl Hp|s' mx ex Hb]; cbn [B2FF] in F; try discriminate; lia.
    + change (2 ^ 52) with 4503599627370496 in *. destruct (m + 4503599627370496) as [|p|p] eqn:Ep; try lia.
      destruct (b64_of_bits x) as [s'|s'|s' pl Hp|s' mx ex Hb]; cbn [B2FF] in F; try discriminate; lia.
Qed.

Lemma bits_inj x y : 0 <= x < 2 ^ 64 -> 0 <= y < 2 ^ 64 -> b64_of_bits x = b64_of_bits y -> x = y.
Proof.
  intros Hx Hy E. rewrite <- (bits_of_binary_float_of_bits 52 11 eq_refl eq_refl eq_refl x Hx), <- (bits_of_binary_float_of_bits 52 11 eq_refl eq_refl eq_refl y Hy).
  unfold b64_of_bits in E. rewrite E. reflexivity.
Qed.

Lemma compare_refl (f : f64) : is_nan 53 1024 f = false -> Bcompare 53 1024 f f = Some Eq.
Proof.
  intros H. destruct (is_finite 53 1024 f) eqn:F.
  - rewrite Bcompare_correct by auto. rewrite Rcompare_Eq; auto.
  - destruct f as [s|s|s pl Hp|s m e Hb]; try discriminate. destruct s; reflexivity.
Qed.
Lemma compare_eq (f g : f64) : Bcompare 53 1024 f g = Some Eq ->
  f = g \/ ((exists s, f = B754_zero 53 1024 s) /\ exists s, g = B754_zero 53 1024 s).
Proof.
  intros H. destruct (is_finite 53 1024 f) eqn:Ff, (is_finite 53 1024 g) eqn:Fg.
  - rewrite Bcompare_correct in H by auto. injection H as H. apply Rcompare_Eq_inv in H.
    destruct (Bool.bool_dec (Bsign 53 1024 f) (Bsign 53 1024 g)) as [S|S]; [left; apply B2R_Bsign_inj; auto|].
    right. assert (Z : forall h : f64, is_finite 53 1024 h = true -> B2R 53 1024 h = 0%R -> exists s, h = B754_zero 53 1024 s).
    { intros h Fh Eh. destruct h as [s|s|s pl Hp|s m e Hb]; try discriminate; eauto. exfalso. cbn [B2R] in Eh. apply eq_0_F2R in Eh. destruct s; discriminate. }
    assert (P : forall h : f64, is_finite 53 1024 h = true -> (if Bsign 53 1024 h then B2R 53 1024 h <= 0 else 0 <= B2R 53 1024 h)%R).
    { intros h Fh. destruct h as [s|s|s pl Hp|s m e Hb]; try discriminate; cbn [Bsign B2R].
      - destruct s; apply Rle_refl.
      - destruct s; [apply F2R_le_0|apply F2R_ge_0]; cbn; lia. }
    pose proof (P f Ff) as Pf. pose proof (P g Fg) as Pg. rewrite <- H in Pg.
    assert (E : B2R 53 1024 f = 0%R) by (destruct (Bsign 53 1024 f), (Bsign 53 1024 g); try congruence; apply Rle_antisym; auto).
    split; [apply Z; auto|apply Z; congruence].
  - destruct g as [s|s|s pl Hp|s m e Hb]; try discriminate; destruct f as [s'|s'|s' pl' Hp'|s' m' e' Hb']; try discriminate; destruct s; try destruct s'; discriminate.
  - destruct f as [s|s|s pl Hp|s m e Hb]; try discriminate; destruct g as [s'|s'|s' pl' Hp'|s' m' e' Hb']; try discriminate; destruct s; try destruct s'; discriminate.
  - left. destruct f as [s|s|s pl Hp|s m e Hb]; try discriminate; destruct g as [s'|s'|s' pl' Hp'|s' m' e' Hb']; try discriminate; destruct s, s'; try discriminate; reflexivity.
Qed.

Lemma f64_eq_spec x y : 0 <= x < 2 ^ 64 -> 0 <= y < 2 ^ 64 -> f64_eq x y = true <-> Bcompare 53 1024 (b64_of_bits x) (b64_of_bits y) = Some Eq.
Proof.
  intros Hx Hy. pose proof (kinds x Hx) as Kx. pose proof (kinds y Hy) as Ky. unfold f64_eq, f64_nan. split.
  - intros H. apply andb_true_iff in H as [H H3]. apply andb_true_iff in H as [H1 H2]. apply negb_true_iff, Z.ltb_ge in H1. apply negb_true_iff, Z.ltb_ge in H2.
    apply orb_true_iff in H3 as [H3|H3].
    + apply Z.eqb_eq in H3. subst y. apply compare_refl. destruct (b64_of_bits x); try reflexivity. exfalso. lia.
    + apply andb_true_iff in H3 as [H3 H4]. apply Z.eqb_eq in H3. apply Z.eqb_eq in H4. rewrite H3 in *. rewrite H4 in *.
      destruct (b64_of_bits x) as [s|s|s pl Hp|s m e Hb]; try lia. destruct (b64_of_bits y) as [s'|s'|s' pl' Hp'|s' m' e' Hb']; try lia. reflexivity.
  - intros H. assert (N : x mod 2 ^ 63 <= 2047 * 2 ^ 52 /\ y mod 2 ^ 63 <= 2047 * 2 ^ 52).
    { split.
      - destruct (b64_of_bits x) as [s|s|s pl Hp|s m e Hb]; try lia. destruct (b64_of_bits y); discriminate.
      - destruct (b64_of_bits y) as [s|s|s pl Hp|s m e Hb]; try lia. destruct (b64_of_bits x) as [s'|s'|s' pl' Hp'|s' m' e' Hb']; try destruct s'; discriminate. }
    apply compare_eq in H. rewrite andb_true_iff, andb_true_iff, orb_true_iff, andb_true_iff, !negb_true_iff, !Z.ltb_ge, !Z.eqb_eq. split; [lia|].
    destruct H as [E|[(s & E) (s' & E')]]; [left; apply bits_inj; auto|]. rewrite E in Kx. rewrite E' in Ky. auto.
Qed.

Lemma le_range l : Forall (fun b => 0 <= b < 256) l -> 0 <= le l < 256 ^ Z.of_nat (length l).
Proof.
  induction 1 as [|b l Hb _ IH]; [cbn; lia|]. cbn [le length]. rewrite Nat2Z.inj_succ, Z.pow_succ_r by lia. lia.
Qed.
Lemma field_range data o : Forall (fun b => 0 <= b < 256) data -> 0 <= field64 data o < 2 ^ 64.
Proof.
  intros H. unfold field64. assert (F : Forall (fun b => 0 <= b < 256) (firstn 8 (skipn o data))).
  { apply Forall_forall. intros b Hb. rewrite Forall_forall in H. apply H. assert (K : In b (skipn o data)).
    { rewrite <- (firstn_skipn 8 (skipn o data)). apply in_or_app. auto. } rewrite <- (firstn_skipn o data). apply in_or_app. auto. }
  pose proof (le_range _ F) as R. pose proof (firstn_le_length 8 (skipn o data)) as L. split; [lia|].
  eapply Z.lt_le_trans; [apply R|]. change (2 ^ 64) with (256 ^ 8). apply Z.pow_le_mono_r; lia.
Qed.

(** Data without a signature is taken for terrain exactly when it is at least 88 bytes long and its first three float64 equal, as
    IEEE numbers, the three at offset 32. *)
Theorem C68_mesh_fields : forall data, Forall (fun b => 0 <= b < 256) data ->
  (is_mesh data <-> (88 <= length data)%nat /\
    forall i, (i < 3)%nat -> Bcompare 53 1024 (b64_of_bits (field64 data (8 * i))) (b64_of_bits (field64 data (32 + 8 * i))) = Some Eq).
Proof.
  intros data H. unfold is_mesh. rewrite !f64_eq_spec by (apply field_range; auto). split.
  - intros (L & H1 & H2 & H3). split; auto. intros [|[|[|i]]] Hi; [exact H1|exact H2|exact H3|lia].
  - intros (L & K). split; auto. split; [exact (K 0%nat ltac:(lia))|]. split; [exact (K 1%nat ltac:(lia))|exact (K 2%nat ltac:(lia))].
Qed.
Print Assumptions C68_mesh_fields.

(** Centres of opposite zeros agree, a centre that is not a number does not agree with itself. *)
Example C68_mesh_nonvacuous :
  is_mesh (repeat 0 39 ++ [128] ++ repeat 0 48) /\ ~ is_mesh (repeat 255 88).
Proof. split; [repeat split; try (vm_compute; reflexivity); vm_compute; lia|]. intros (_ & H & _). vm_compute in H. discriminate. Qed.
