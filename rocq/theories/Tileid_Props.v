(** Properties C01-C04: quadkeys and textual tile ids. *)
From Coq Require Import ZArith List Lia Bool String Ascii.
From Verif Require Import GoBase GoStr Tileid_Model Tileid_Proofs.
Import ListNotations.
Open Scope string_scope.
Open Scope Z_scope.

(** C01: the round trip through the quadkey succeeds on exactly the on-map tiles of zoom >= 1. *)
Theorem C01_quadkey_round_trip_iff : forall x y z,
  - 2 ^ 63 <= x < 2 ^ 63 -> - 2 ^ 63 <= y < 2 ^ 63 -> 0 <= z < 2 ^ 64 ->
  (QuadkeyToTile (QuadKey (mkTile x y z)) = mkTile x y z <->
   1 <= z < 2 ^ 63 /\ 0 <= x < 2 ^ z /\ 0 <= y < 2 ^ z).
Proof. exact (fun x y z Hx Hy Hz => quadkey_round_trip (mkTile x y z) (conj Hx (conj Hy Hz))). Qed.
Print Assumptions C01_quadkey_round_trip_iff.

(** The world tile has the empty quadkey, which reads back as zoom 1. *)
Theorem C01_world_tile_refuted :
  QuadKey (mkTile 0 0 0) = "" /\ QuadkeyToTile (QuadKey (mkTile 0 0 0)) = mkTile 0 0 1.
Proof. exact (conj eq_refl eq_refl). Qed.
Print Assumptions C01_world_tile_refuted.

Example C01_nonvacuous :
  QuadKey (mkTile 486 332 10) = "0313102310" /\
  QuadkeyToTile "0313102310" = mkTile 486 332 10.
Proof. vm_compute. auto. Qed.

(** C02: every non-empty digit string is the quadkey of an on-map tile of that zoom. *)
Theorem C02_digits_are_quadkeys : forall s,
  (forall a, In a (list_ascii_of_string s) -> In a ["0"; "1"; "2"; "3"]%char) ->
  (1 <= String.length s <= 63)%nat ->
  QuadKey (QuadkeyToTile s) = s /\
  tZ (QuadkeyToTile s) = Z.of_nat (String.length s) /\
  0 <= tX (QuadkeyToTile s) < 2 ^ Z.of_nat (String.length s) /\
  0 <= tY (QuadkeyToTile s) < 2 ^ Z.of_nat (String.length s).
Proof.
  intros s Hd Hl. destruct (quadkey_of_decoded s) as (H1 & H2 & H3 & H4); [|auto|].
  - clear Hl. induction s; cbn; auto. split.
    + specialize (Hd a (or_introl eq_refl)). unfold is_qdigit.
      cbn in Hd. repeat destruct Hd as [<-|Hd]; try (vm_compute; intuition discriminate).
    + apply IHs. intros b Hb. apply Hd. right; auto.
  - rewrite <- H2 at 1. rewrite H2 in *. auto.
Qed.
Print Assumptions C02_digits_are_quadkeys.

Theorem C02_children_extend_quadkey : forall x y z,
  0 <= x < 2 ^ 62 -> 0 <= y < 2 ^ 62 -> 0 <= z < 2 ^ 63 - 1 ->
  let q := QuadKey (mkTile x y z) in
  map QuadKey (Children (mkTile x y z)) = [q ++ "0"; q ++ "1"; q ++ "3"; q ++ "2"].
Proof. exact (fun x y z => children_quadkeys (mkTile x y z)). Qed.
Print Assumptions C02_children_extend_quadkey.

Example C02_nonvacuous :
  QuadkeyToTile "123" = mkTile 5 3 3 /\
  map QuadKey (Children (mkTile 5 3 3)) = ["1230"; "1231"; "1233"; "1232"].
Proof. vm_compute. auto. Qed.

(** C03 *)
Theorem C03_tilestr_round_trip : forall x y z,
  - 2 ^ 63 <= x < 2 ^ 63 -> - 2 ^ 63 <= y < 2 ^ 63 -> 0 <= z < 2 ^ 64 ->
  Strtile (Tilestr (mkTile x y z)) = Ok (mkTile x y z).
Proof. exact (fun x y z Hx Hy Hz => Strtile_Tilestr (mkTile x y z) (conj Hx (conj Hy Hz))). Qed.
Print Assumptions C03_tilestr_round_trip.

Example C03_nonvacuous :
  Tilestr (mkTile (-12) 907 10) = "-12/907/10" /\
  Strtile "-12/907/10" = Ok (mkTile (-12) 907 10) /\
  Tilestr (mkTile 1 2 (2 ^ 64 - 1)) = "1/2/-1".
Proof. vm_compute. auto. Qed.

(** C04 *)
Theorem C04_file_round_trip_iff : forall x y z,
  - 2 ^ 63 <= x < 2 ^ 63 -> - 2 ^ 63 <= y < 2 ^ 63 -> 0 <= z < 2 ^ 64 ->
  (TileFromString (TilestrFile (mkTile x y z)) = Ok (mkTile x y z) <->
   0 <= x /\ 0 <= y /\ z < 2 ^ 63).
Proof.
  intros x y z Hx Hy Hz.
  assert (Hwf : tile_wf (mkTile x y z)) by (repeat split; cbn; tauto).
  split.
  - intros E. destruct (Z_le_dec 0 x), (Z_le_dec 0 y), (Z_lt_dec z (2 ^ 63)); auto; exfalso;
      (apply (TileFromString_file_negative (mkTile x y z) Hwf); [cbn; tauto|exact E]).
  - intros (H1 & H2 & H3).
    exact (TileFromString_print "-" (mkTile x y z) Hwf H1 H2 H3 (or_introl eq_refl)).
Qed.
Print Assumptions C04_file_round_trip_iff.

Theorem C04_every_delimiter : forall sep x y z,
  In sep ["-"; "/"; "_"; ","; " "]%char ->
  0 <= x < 2 ^ 63 -> 0 <= y < 2 ^ 63 -> 0 <= z < 2 ^ 63 ->
  TileFromString (itoa x ++ String sep (itoa y ++ String sep (itoa z))) = Ok (mkTile x y z).
Proof.
  intros sep x y z Hs Hx Hy Hz.
  rewrite <- (wrap64_id z) at 1 by (unfold in_i64; lia).
  apply (TileFromString_print sep (mkTile x y z)); cbn; try lia; auto.
  repeat split; cbn; unfold in_i64, in_u64; lia.
Qed.
Print Assumptions C04_every_delimiter.

Theorem C04_no_delimiter_panics : forall s,
  (forall a, In a (list_ascii_of_string s) -> ~ In a ["-"; "/"; "_"; ","; " "]%char) ->
  TileFromString s = Panic.
Proof.
  intros s H. apply TileFromString_no_delim. intros c Hc.
  induction s; cbn; auto. rewrite IHs.
  - rewrite orb_false_r. apply Ascii.eqb_neq. intros ->. apply (H c); cbn; auto.
  - intros b Hb. apply H. right; auto.
Qed.
Print Assumptions C04_no_delimiter_panics.

Example C04_nonvacuous :
  TilestrFile (mkTile 7 8 9) = "7-8-9" /\ TileFromString "7-8-9" = Ok (mkTile 7 8 9) /\
  TileFromString (TilestrFile (mkTile (-7) 8 9)) = Ok (mkTile 0 7 8) /\
  TileFromString "7 8 9" = Ok (mkTile 7 8 9) /\ TileFromString "789" = Panic.
Proof. vm_compute. auto 10. Qed.

(** C73 *)
Theorem C73_IsEqual_iff : forall a b,
  0 <= tZ a < 2 ^ 64 -> 0 <= tZ b < 2 ^ 64 -> (IsEqual a b = true <-> a = b).
Proof.
  intros [x y z] [x' y' z'] Ha Hb. cbn [tZ] in *. unfold IsEqual. cbn [tX tY tZ].
  rewrite !andb_true_iff, !Z.eqb_eq. split.
  - intros [[-> ->] E]. f_equal. unfold wrap64 in E. lia.
  - intros E. injection E as -> -> ->. auto.
Qed.
Print Assumptions C73_IsEqual_iff.

Example C73_nonvacuous : IsEqual (mkTile 1 2 3) (mkTile 1 2 4) = false /\ IsEqual (mkTile 1 2 3) (mkTile 1 2 3) = true.
Proof. vm_compute. auto. Qed.
