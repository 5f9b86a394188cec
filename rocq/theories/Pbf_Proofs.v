(** Lemmas about the wire primitives: what is written is read back. *)
From Coq Require Import ZArith List Lia Bool.
From Verif Require Import GoBase Pbf_Model.
Import ListNotations.
Open Scope Z_scope.
Ltac Zify.zify_post_hook ::= Z.to_euclidean_division_equations.

(** The buffer holds [s] from position [pos] to its end. *)
Definition at_ (buf : bytes) (pos : Z) (s : bytes) : Prop := exists pre, buf = pre ++ s /\ pos = zlen pre.

Lemma zlen_app {A} (a b : list A) : zlen (a ++ b) = zlen a + zlen b.
Proof. unfold zlen. rewrite app_length. lia. Qed.
Lemma zlen_cons {A} (a : A) b : zlen (a :: b) = 1 + zlen b.
Proof. unfold zlen. cbn [length]. lia. Qed.
Lemma zlen_nonneg {A} (a : list A) : 0 <= zlen a.
Proof. unfold zlen. lia. Qed.
Lemma zlen_nil {A} : zlen (@nil A) = 0. Proof. reflexivity. Qed.

Lemma at_pos buf pos s : at_ buf pos s -> 0 <= pos /\ pos + zlen s = zlen buf.
Proof. intros (pre & -> & ->). rewrite zlen_app. pose proof (zlen_nonneg pre). lia. Qed.
Lemma at_skipn buf pos s : at_ buf pos s -> skipn (Z.to_nat pos) buf = s.
Proof.
  intros (pre & -> & ->). unfold zlen. rewrite Nat2Z.id, skipn_app, skipn_all, Nat.sub_diag. reflexivity.
Qed.
Lemma at_app buf pos a s : at_ buf pos (a ++ s) -> at_ buf (pos + zlen a) s.
Proof. intros (pre & -> & ->). exists (pre ++ a). rewrite app_assoc, zlen_app. auto. Qed.
Lemma at_cons buf pos a s : at_ buf pos (a :: s) -> at_ buf (pos + 1) s.
Proof. intros H. apply (at_app buf pos [a] s) in H. exact H. Qed.
Lemma at_start buf : at_ buf 0 buf.
Proof. exists []. auto. Qed.

Lemma ReadTag_at buf pos b s : at_ buf pos (b :: s) -> ReadTag buf pos = Ok (Z.shiftr b 3, Z.land b 7, pos + 1).
Proof.
  intros H. destruct (at_pos _ _ _ H) as [H1 H2]. rewrite zlen_cons in H2. pose proof (zlen_nonneg s).
  unfold ReadTag. destruct (Z.leb_spec (zlen buf) pos); [lia|].
  destruct H as (pre & -> & ->). unfold nth_res. destruct (Z.ltb_spec (zlen pre) 0); [lia|].
  unfold zlen at 1. rewrite Nat2Z.id, nth_error_app2, Nat.sub_diag by lia. reflexivity.
Qed.
Lemma ReadTag_end buf pos : at_ buf pos [] -> ReadTag buf pos = Ok (100, 100, pos).
Proof. intros H. destruct (at_pos _ _ _ H) as [H1 H2]. rewrite zlen_nil in H2. unfold ReadTag. destruct (Z.leb_spec (zlen buf) pos); [reflexivity|lia]. Qed.

Lemma tag_byte_eq t w : 0 <= t < 32 -> 0 <= w < 8 -> tag_byte t w = 8 * t + w.
Proof.
  intros Ht Hw. unfold tag_byte, u8. rewrite Z.shiftl_mul_pow2 by lia.
  assert (E : Z.lor (t * 2 ^ 3) w = t * 2 ^ 3 + w).
  { rewrite Z.lor_comm, Z.add_comm, <- Z.lxor_lor, Z.add_nocarry_lxor; auto.
    all: apply Z.bits_inj'; intros n Hn; rewrite Z.land_spec, Z.bits_0.
    all: destruct (Z.ltb_spec n 3); [rewrite Z.mul_pow2_bits_low by lia; apply andb_false_r|].
    all: rewrite <- (Z.mod_small w (2 ^ 3)) by lia; rewrite Z.mod_pow2_bits_high by lia; reflexivity. }
  rewrite E, Z.mod_small; lia.
Qed.
Lemma tag_byte_dec t w : 0 <= t < 32 -> 0 <= w < 8 -> Z.shiftr (tag_byte t w) 3 = t /\ Z.land (tag_byte t w) 7 = w.
Proof.
  intros Ht Hw. rewrite tag_byte_eq by auto. rewrite Z.shiftr_div_pow2 by lia.
  change 7 with (Z.ones 3). rewrite Z.land_ones by lia. change (2 ^ 3) with 8. lia.
Qed.
Lemma ReadTag_tag buf pos t w s : 0 <= t < 32 -> 0 <= w < 8 -> at_ buf pos (tag_byte t w :: s) -> ReadTag buf pos = Ok (t, w, pos + 1).
Proof. intros Ht Hw H. rewrite (ReadTag_at _ _ _ _ H). destruct (tag_byte_dec t w Ht Hw) as [-> ->]. reflexivity. Qed.

(** varints *)
Lemma leb_spec f : forall v s, 0 <= v < 128 * 128 ^ Z.of_nat f ->
  varint_bytes (leb f v ++ s) = Some (leb f v) /\ varint_val (leb f v) = v.
Proof.
  induction f as [|f IH]; intros v s Hv.
  - cbn [leb]. change (128 ^ Z.of_nat 0) with 1 in Hv. rewrite Z.mod_small by lia.
    cbn [app varint_bytes varint_val]. destruct (Z.ltb_spec v 128); [|lia]. split; auto.
    change 127 with (Z.ones 7). rewrite Z.land_ones, Z.mod_small by lia. lia.
  - cbn [leb]. destruct (Z.ltb_spec v 128).
    + cbn [app varint_bytes varint_val]. destruct (Z.ltb_spec v 128); [|lia]. split; auto.
      change 127 with (Z.ones 7). rewrite Z.land_ones, Z.mod_small by lia. lia.
    + assert (Hv' : 0 <= v / 128 < 128 * 128 ^ Z.of_nat f).
      { split; [lia|]. apply Z.div_lt_upper_bound; [lia|]. rewrite Nat2Z.inj_succ, Z.pow_succ_r in Hv by lia. lia. }
      destruct (IH (v / 128) s Hv') as [E1 E2]. cbn [app varint_bytes varint_val].
      destruct (Z.ltb_spec (128 + v mod 128) 128); [lia|]. rewrite E1. cbn [option_map]. split; auto.
      rewrite E2. change 127 with (Z.ones 7). rewrite Z.land_ones by lia. change (2 ^ 7) with 128. lia.
Qed.
Lemma Encode_spec v s : varint_bytes (EncodeVarint v ++ s) = Some (EncodeVarint v) /\ varint_val (EncodeVarint v) = u64 v.
Proof.
  apply leb_spec. pose proof (u64_range v) as H. unfold in_u64 in H. change (128 * 128 ^ Z.of_nat 9) with (2 ^ 70). lia.
Qed.
Lemma leb_small f v : 0 <= v < 128 -> leb f v = [v].
Proof. intros H. destruct f; cbn [leb]; [rewrite Z.mod_small by lia; auto|]. destruct (Z.ltb_spec v 128); [auto|lia]. Qed.
Lemma Encode_small v : 0 <= v < 128 -> EncodeVarint v = [v].
Proof. intros H. unfold EncodeVarint. rewrite u64_id by (unfold in_u64; lia). apply leb_small; auto. Qed.
Lemma leb_len f : forall v, 1 <= zlen (leb f v) <= 1 + Z.of_nat f.
Proof.
  induction f as [|f IH]; intros v; cbn [leb]; [rewrite zlen_cons, zlen_nil; lia|].
  destruct (v <? 128); rewrite zlen_cons; [rewrite zlen_nil; lia|]. specialize (IH (v / 128)). lia.
Qed.
Lemma Encode_len v : 1 <= zlen (EncodeVarint v) <= 10.
Proof. pose proof (leb_len 9 (u64 v)). unfold EncodeVarint. lia. Qed.

Lemma Varint_at buf pos v s : at_ buf pos (EncodeVarint v ++ s) -> Varint buf pos = Ok (EncodeVarint v, pos + zlen (EncodeVarint v)).
Proof.
  intros H. unfold Varint. pose proof (at_pos _ _ _ H) as [H1 _]. destruct (Z.ltb_spec pos 0); [lia|].
  rewrite (at_skipn _ _ _ H), (proj1 (Encode_spec v s)). reflexivity.
Qed.
Lemma ReadUInt64_at buf pos v s : at_ buf pos (EncodeVarint v ++ s) -> ReadUInt64 buf pos = Ok (u64 v, pos + zlen (EncodeVarint v)).
Proof.
  intros H. unfold ReadUInt64. rewrite (Varint_at _ _ _ _ H). cbn [bind]. rewrite (proj2 (Encode_spec v s)). unfold u64. rewrite Z.mod_mod by lia. reflexivity.
Qed.
Lemma wrap64_u64 v : wrap64 (u64 v) = wrap64 v.
Proof. unfold wrap64, u64. rewrite Zplus_mod_idemp_l. reflexivity. Qed.
Lemma u64_wrap64 v : u64 (wrap64 v) = u64 v.
Proof. unfold wrap64, u64. rewrite Zminus_mod_idemp_l. f_equal. lia. Qed.
Lemma ReadVarint_at buf pos v s : at_ buf pos (EncodeVarint v ++ s) -> ReadVarint buf pos = Ok (wrap64 v, pos + zlen (EncodeVarint v)).
Proof.
  intros H. unfold ReadVarint. rewrite (Varint_at _ _ _ _ H). cbn [bind]. rewrite (proj2 (Encode_spec v s)), wrap64_u64. reflexivity.
Qed.

Lemma slice_at buf pos a s : at_ buf pos (a ++ s) -> slice_res buf pos (pos + zlen a) = Ok a.
Proof.
  intros H. destruct (at_pos _ _ _ H) as [H1 H2]. rewrite zlen_app in H2. pose proof (zlen_nonneg a). pose proof (zlen_nonneg s).
  unfold slice_res. rewrite (at_skipn _ _ _ H).
  replace ((0 <=? pos) && (pos <=? pos + zlen a) && (pos + zlen a <=? zlen buf)) with true by lia.
  replace (Z.to_nat (pos + zlen a - pos)) with (length a) by (unfold zlen; lia).
  rewrite firstn_app, firstn_all, Nat.sub_diag, firstn_O, app_nil_r. reflexivity.
Qed.

Lemma at_wrap buf pos a s : zlen buf < 2 ^ 63 -> at_ buf pos (a ++ s) -> wrap64 (pos + zlen a) = pos + zlen a.
Proof.
  intros Hb H. destruct (at_pos _ _ _ H) as [H1 H2]. rewrite zlen_app in H2. pose proof (zlen_nonneg a). pose proof (zlen_nonneg s).
  apply wrap64_id. unfold in_i64. lia.
Qed.
Lemma at_len_wrap buf pos a s : zlen buf < 2 ^ 63 -> at_ buf pos (a ++ s) -> wrap64 (zlen a) = zlen a.
Proof.
  intros Hb H. destruct (at_pos _ _ _ H) as [H1 H2]. rewrite zlen_app in H2. pose proof (zlen_nonneg a). pose proof (zlen_nonneg s).
  apply wrap64_id. unfold in_i64. lia.
Qed.

Lemma ReadString_at buf pos a s : zlen buf < 2 ^ 63 -> at_ buf pos (EncodeVarint (zlen a) ++ a ++ s) ->
  ReadString buf pos = Ok (a, pos + zlen (EncodeVarint (zlen a)) + zlen a) /\ at_ buf (pos + zlen (EncodeVarint (zlen a)) + zlen a) s.
Proof.
  intros Hb H. pose proof (at_app _ _ _ _ H) as H2. unfold ReadString. rewrite (ReadVarint_at _ _ _ _ H). cbn [bind].
  rewrite (at_len_wrap _ _ _ _ Hb H2), (at_wrap _ _ _ _ Hb H2), (slice_at _ _ _ _ H2). cbn [bind]. split; auto. apply at_app. exact H2.
Qed.

Lemma packed_len vs : zlen vs <= zlen (packed vs).
Proof.
  induction vs as [|v vs IH]; [reflexivity|]. unfold packed. cbn [flat_map]. fold (packed vs). rewrite zlen_app, zlen_cons. pose proof (Encode_len v). lia.
Qed.
Lemma packed_loop_at buf vs : forall fuel pos s, Forall in_u32 vs -> at_ buf pos (packed vs ++ s) -> (length vs < fuel)%nat ->
  packed_loop fuel buf pos (pos + zlen (packed vs)) = Ok (vs, pos + zlen (packed vs)).
Proof.
  induction vs as [|v vs IH]; intros fuel pos s Hv H Hf.
  - change (packed []) with (@nil Z). rewrite zlen_nil, Z.add_0_r. destruct fuel; cbn [packed_loop]; destruct (Z.ltb_spec pos pos); auto; lia.
  - destruct fuel as [|fuel]; [cbn [length] in Hf; lia|]. inversion Hv as [|? ? Hv1 Hv2]; subst.
    unfold packed in *. cbn [flat_map] in *. fold (packed vs) in *. rewrite <- app_assoc in H. rewrite zlen_app.
    pose proof (Encode_len v). pose proof (zlen_nonneg (packed vs)). cbn [packed_loop].
    destruct (Z.ltb_spec pos (pos + (zlen (EncodeVarint v) + zlen (packed vs)))); [|lia].
    rewrite (ReadUInt64_at _ _ _ _ H). cbn [bind]. pose proof (at_app _ _ _ _ H) as H'.
    replace (pos + (zlen (EncodeVarint v) + zlen (packed vs))) with (pos + zlen (EncodeVarint v) + zlen (packed vs)) by lia.
    rewrite (IH fuel _ s Hv2 H') by (cbn [length] in Hf; lia). cbn [bind].
    assert (u32 (u64 v) = v) as ->; [|reflexivity]. unfold in_u32 in Hv1. rewrite u64_id by (unfold in_u64; lia). apply u32_id. auto.
Qed.
Lemma ReadPacked_at buf pos vs s : zlen buf < 2 ^ 63 -> Forall in_u32 vs ->
  at_ buf pos (EncodeVarint (zlen (packed vs)) ++ packed vs ++ s) ->
  ReadPackedUInt32 buf pos = Ok (vs, pos + zlen (EncodeVarint (zlen (packed vs))) + zlen (packed vs)).
Proof.
  intros Hb Hv H. pose proof (at_app _ _ _ _ H) as H2. unfold ReadPackedUInt32. rewrite (ReadVarint_at _ _ _ _ H). cbn [bind].
  rewrite (at_len_wrap _ _ _ _ Hb H2), (at_wrap _ _ _ _ Hb H2). apply (packed_loop_at _ _ _ _ s); auto.
  destruct (at_pos _ _ _ H2) as [P1 P2]. rewrite zlen_app in P2. pose proof (packed_len vs). pose proof (zlen_nonneg s). unfold zlen in *. lia.
Qed.

Lemma le_bytes_len n : forall v, zlen (le_bytes n v) = Z.of_nat n.
Proof. induction n as [|n IH]; intros v; cbn [le_bytes]; [reflexivity|]. rewrite zlen_cons, IH. lia. Qed.
Lemma le_val_bytes n : forall v, le_val (le_bytes n v) = v mod 256 ^ Z.of_nat n.
Proof.
  induction n as [|n IH]; intros v; cbn [le_bytes le_val]; [change (256 ^ Z.of_nat 0) with 1; rewrite Z.mod_1_r; auto|].
  rewrite IH, Nat2Z.inj_succ, Z.pow_succ_r by lia. rewrite Z.rem_mul_r by lia. lia.
Qed.
Lemma ReadLE_at buf pos n v s : at_ buf pos (le_bytes n v ++ s) -> 0 <= v < 256 ^ Z.of_nat n ->
  ReadLE (Z.of_nat n) buf pos = Ok (v, pos + Z.of_nat n).
Proof.
  intros H Hv. unfold ReadLE. pose proof (slice_at _ _ _ _ H) as E. rewrite le_bytes_len in E. rewrite E. cbn [bind].
  rewrite le_val_bytes, Z.mod_small by auto. reflexivity.
Qed.
