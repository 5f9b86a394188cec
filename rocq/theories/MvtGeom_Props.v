(** Properties C09-C15: the geometry command codec. *)
From Coq Require Import ZArith List Lia Bool.
From Verif Require Import GoBase MvtGeom_Model MvtGeom_Spec MvtGeom_Proofs.
Import ListNotations.
Open Scope Z_scope.

(** C09: parameters. *)
Theorem C09_encoded_parameter_is_zigzag : forall v, - 2 ^ 31 <= v < 2 ^ 31 ->
  u32 (paramEnc v) = (if 0 <=? v then 2 * v else - 2 * v - 1).
Proof. exact paramEnc_zigzag. Qed.
Print Assumptions C09_encoded_parameter_is_zigzag.

Theorem C09_parameter_round_trip : forall v, - 2 ^ 31 <= v < 2 ^ 31 ->
  DeltaDim (u32 (paramEnc v)) = v.
Proof. intros v Hv. rewrite (paramEnc_zigzag v Hv). exact (DeltaDim_zigzag v). Qed.
Print Assumptions C09_parameter_round_trip.

Theorem C09_parameter_bijection : forall u, 0 <= u < 2 ^ 32 ->
  exists v, - 2 ^ 31 <= v < 2 ^ 31 /\ u32 (paramEnc v) = u /\
    (forall w, - 2 ^ 31 <= w < 2 ^ 31 -> u32 (paramEnc w) = u -> w = v).
Proof.
  intros u Hu. exists (DeltaDim u). pose proof (DeltaDim_range u Hu) as Hr. split; [exact Hr|]. split.
  - rewrite (paramEnc_zigzag _ Hr). apply zigzag_DeltaDim. lia.
  - intros w Hw E. rewrite (paramEnc_zigzag w Hw) in E. rewrite <- E. symmetry. apply DeltaDim_zigzag.
Qed.
Print Assumptions C09_parameter_bijection.

Example C09_nonvacuous :
  map (fun v => u32 (paramEnc v)) [0; -1; 1; -2; 2 ^ 31 - 1; - 2 ^ 31] = [0; 1; 2; 3; 2 ^ 32 - 2; 2 ^ 32 - 1].
Proof. reflexivity. Qed.

(** C10: command integers. *)
Theorem C10_command_decodes : forall id count, 0 <= id < 8 -> 0 <= count < 2 ^ 29 ->
  0 <= cmdEnc id count < 2 ^ 32 /\
  cmdEnc id count mod 8 = id /\ cmdEnc id count / 8 = count.
Proof.
  intros id count Hi Hc. rewrite (cmdEnc_val id count), Z.mod_small by lia. split; [lia|]. split.
  - symmetry. apply (Z.mod_unique _ 8 count); lia.
  - symmetry. apply (Z.div_unique _ 8 count id); lia.
Qed.
Print Assumptions C10_command_decodes.

Theorem C10_named_commands : forall n, 0 <= n < 2 ^ 29 ->
  moveTo n = 1 + 8 * n /\ lineTo n = 2 + 8 * n /\ closePath n = 7 + 8 * n.
Proof.
  intros n Hn. unfold moveTo, lineTo, closePath. rewrite !cmdEnc_val, Z.mod_small by lia. auto.
Qed.
Print Assumptions C10_named_commands.

Theorem C10_count_overflow_refuted : forall id, 0 <= id < 8 -> cmdEnc id (2 ^ 29) = cmdEnc id 0.
Proof. intros id Hi. rewrite !cmdEnc_val by lia. reflexivity. Qed.
Print Assumptions C10_count_overflow_refuted.

Example C10_nonvacuous : moveTo 1 = 9 /\ lineTo 3 = 26 /\ closePath 1 = 15.
Proof. auto. Qed.

(** C11: lines.  Coordinates within +-2^30 so that differences fit int32. *)
Theorem C11_line_round_trip : forall l,
  l <> [] -> Forall (fun p => - 2 ^ 30 <= fst p < 2 ^ 30 /\ - 2 ^ 30 <= snd p < 2 ^ 30) l ->
  Z.of_nat (length l) < 2 ^ 29 ->
  exists c, MakeLine cursor0 l = Ok c /\
    LoadGeometryCmds 2 (geo c) = Ok (GLineString (merge_runs l)).
Proof. exact (fun l H1 H2 H3 => line_round_trip l (conj H1 (conj H2 H3))). Qed.
Print Assumptions C11_line_round_trip.

Theorem C11_float_line_round_trip : forall (P : Type) (q : P -> Z * Z) l,
  l <> [] -> Forall (fun p => - 2 ^ 30 <= fst (q p) < 2 ^ 30 /\ - 2 ^ 30 <= snd (q p) < 2 ^ 30) l ->
  Z.of_nat (length l) < 2 ^ 29 ->
  exists c, MakeLineFloat q cursor0 l = Ok c /\
    LoadGeometryCmds 2 (geo c) = Ok (GLineString (merge_runs (map q l))).
Proof.
  intros P q l H1 H2 H3. rewrite MakeLineFloat_map. apply line_round_trip. split; [|split].
  - destruct l; [congruence|discriminate].
  - rewrite Forall_map. exact H2.
  - unfold zlen. rewrite map_length. exact H3.
Qed.
Print Assumptions C11_float_line_round_trip.

(** Difference of two points outside int32 is not recovered. *)
Theorem C11_int32_overflow_refuted :
  exists c, MakeLine cursor0 [(- 2 ^ 31, 0); (2 ^ 31 - 1, 0)] = Ok c /\
    LoadGeometryCmds 2 (geo c) <> Ok (GLineString [(- 2 ^ 31, 0); (2 ^ 31 - 1, 0)]).
Proof. eexists. split; [reflexivity|]. vm_compute. discriminate. Qed.
Print Assumptions C11_int32_overflow_refuted.

(** mvt/write_geometry_test.go style fixture: two moves and a repeated point. *)
Example C11_nonvacuous :
  MakeLine cursor0 [(2, 2); (2, 10); (2, 10); (10, 10)] = Ok (mkCur [9; 4; 4; 18; 0; 16; 16; 0] (10, 10) 2) /\
  LoadGeometryCmds 2 [9; 4; 4; 18; 0; 16; 16; 0] = Ok (GLineString [(2, 2); (2, 10); (10, 10)]).
Proof. vm_compute. auto. Qed.

(** C12: several lines. *)
Theorem C12_multiline_round_trip : forall (P : Type) (q : P -> Z * Z) ls,
  (2 <= length ls)%nat ->
  Forall (fun l => l <> [] /\ Z.of_nat (length l) < 2 ^ 29 /\
     Forall (fun p => - 2 ^ 30 <= fst (q p) < 2 ^ 30 /\ - 2 ^ 30 <= snd (q p) < 2 ^ 30) l) ls ->
  exists c, MakeMultiLineFloat q cursor0 ls = Ok c /\
    LoadGeometryCmds 2 (geo c) = Ok (GMultiLineString (map (fun l => merge_runs (map q l)) ls)).
Proof.
  intros P q ls H2 H. rewrite MakeMultiLineFloat_map.
  destruct (multiline_round_trip (map (map q) ls)) as (c & E & D).
  - rewrite Forall_map. eapply Forall_impl; [|exact H]. intros l (A1 & A2 & A3). split; [|split].
    + destruct l; [congruence|discriminate].
    + rewrite Forall_map. exact A3.
    + unfold zlen. rewrite map_length. exact A2.
  - exists c. split; [exact E|]. rewrite D, map_map. destruct ls as [|a [|b r]]; cbn [length] in H2; try lia. reflexivity.
Qed.
Print Assumptions C12_multiline_round_trip.

Theorem C12_int_multiline_round_trip : forall ls,
  (2 <= length ls)%nat ->
  Forall (fun l => l <> [] /\ Z.of_nat (length l) < 2 ^ 29 /\
     Forall (fun p => - 2 ^ 30 <= fst p < 2 ^ 30 /\ - 2 ^ 30 <= snd p < 2 ^ 30) l) ls ->
  exists c, MakeMultiLine cursor0 ls = Ok c /\
    LoadGeometryCmds 2 (geo c) = Ok (GMultiLineString (map merge_runs ls)).
Proof.
  intros ls H2 H. destruct (multiline_round_trip ls) as (c & E & D).
  - eapply Forall_impl; [|exact H]. intros l (A1 & A2 & A3). split; [|split]; auto.
  - exists c. split; [exact E|]. rewrite D. destruct ls as [|a [|b r]]; cbn [length] in H2; try lia. reflexivity.
Qed.
Print Assumptions C12_int_multiline_round_trip.

Example C12_nonvacuous : exists c,
  MakeMultiLine cursor0 [[(2, 2); (2, 10); (10, 10)]; [(1, 1); (3, 5)]] = Ok c /\
  geo c = [9; 4; 4; 18; 0; 16; 16; 0; 9; 17; 17; 10; 4; 8] /\
  LoadGeometryCmds 2 (geo c) = Ok (GMultiLineString [[(2, 2); (2, 10); (10, 10)]; [(1, 1); (3, 5)]]).
Proof. eexists. repeat (split; [vm_compute; reflexivity|]). vm_compute; reflexivity. Qed.

(** C13: polygons through the float path. *)
Theorem C13_multipolygon_round_trip : forall (P : Type) (q : P -> Z * Z) (same : P -> P -> bool) polys,
  (forall a b, same a b = true -> q a = q b) ->
  polys <> [] ->
  Forall (fun rings =>
     (rings <> [] /\ Forall (fun r => r <> [] /\ bounded 23170 (map q r) /\ short r) rings) /\
     match rings with [] => 0 | outer :: _ => surveyor (map q outer) end <> 0) polys ->
  exists c, MakeMultiPolygonFloat q same cursor0 polys = Ok c /\
    LoadGeometryCmds 3 (geo c) =
      Ok (match map (seen_polygon q same) polys with
          | [p] => GPolygon p
          | ps => GMultiPolygon ps
          end).
Proof. exact (fun P q same polys => @multipolygon_round_trip P q same polys). Qed.
Print Assumptions C13_multipolygon_round_trip.

Theorem C13_polygon_round_trip : forall (P : Type) (q : P -> Z * Z) (same : P -> P -> bool) rings,
  (forall a b, same a b = true -> q a = q b) ->
  rings <> [] -> Forall (fun r => r <> [] /\ bounded 23170 (map q r) /\ short r) rings ->
  match rings with [] => 0 | outer :: _ => surveyor (map q outer) end <> 0 ->
  exists c, MakePolygonFloat q same cursor0 rings = Ok c /\
    LoadGeometryCmds 3 (geo c) = Ok (GPolygon (seen_polygon q same rings)).
Proof.
  intros P q same rings Hs Hn Hr Ha.
  destruct (multipolygon_round_trip q same [rings] Hs ltac:(discriminate)) as (c & E & D).
  - constructor; [|constructor]. split; [split|]; assumption.
  - exists c. split; [|exact D]. unfold MakeMultiPolygonFloat in E. cbn [fold_res] in E.
    destruct (MakePolygonFloat q same cursor0 rings); cbn in E; congruence.
Qed.
Print Assumptions C13_polygon_round_trip.

(** What "seen" means: same ring count, outer ring positive, holes not, area magnitudes kept. *)
Theorem C13_seen_orientation : forall (P : Type) (q : P -> Z * Z) (same : P -> P -> bool) o hs,
  surveyor (map q o) <> 0 ->
  exists o' hs', seen_polygon q same (o :: hs) = o' :: hs' /\ length hs' = length hs /\
    surveyor o' = Z.abs (surveyor (map q o)) /\
    Forall2 (fun h h' => surveyor h' = - Z.abs (surveyor (map q h))) hs hs'.
Proof.
  intros P q same o hs Ha. unfold seen_polygon. cbn [map]. eexists. eexists. split; [reflexivity|].
  rewrite !map_length. split; [reflexivity|].
  assert (Hw : forall b l, surveyor (wind b l) = if b then Z.abs (surveyor l) else - Z.abs (surveyor l)).
  { intros b l. unfold wind. destruct (0 <? surveyor l) eqn:E, b; cbn [Bool.eqb]; rewrite ?surveyor_rev; lia. }
  assert (Hm : forall l, surveyor (merge_runs (map q (close_ring same l))) = surveyor (map q l)).
  { intros l. rewrite surveyor_merge. exact (surveyor_close q same l). }
  split; [rewrite Hw, Hm; reflexivity|].
  rewrite map_map. induction hs; cbn [map]; constructor; [|assumption]. rewrite Hw, Hm. reflexivity.
Qed.
Print Assumptions C13_seen_orientation.

(** Beyond the coordinate bound the int32 products overflow and two polygons merge into one. *)
Theorem C13_large_extent_refuted :
  let sq x := [[(x, 0); (x + 65536, 0); (x + 65536, 65536); (x, 65536); (x, 0)]] in
  exists c, MakeMultiPolygonFloat (fun p => p) pt_eqb cursor0 [sq 0; sq 131072] = Ok c /\
    exists rings, LoadGeometryCmds 3 (geo c) = Ok (GPolygon rings) /\ length rings = 2%nat.
Proof. eexists. split; [vm_compute; reflexivity|]. eexists. split; [vm_compute; reflexivity|]. reflexivity. Qed.
Print Assumptions C13_large_extent_refuted.

Example C13_nonvacuous : exists c,
  MakeMultiPolygonFloat (fun p => p) pt_eqb cursor0
    [[[(0, 0); (0, 10); (10, 10); (10, 0)]; [(2, 2); (4, 2); (4, 4); (2, 4)]]; [[(20, 20); (30, 20); (30, 30); (20, 20)]]] = Ok c /\
  LoadGeometryCmds 3 (geo c) = Ok (GMultiPolygon
    [[[(0, 0); (10, 0); (10, 10); (0, 10); (0, 0)]; [(2, 2); (2, 4); (4, 4); (4, 2); (2, 2)]]; [[(20, 20); (30, 20); (30, 30); (20, 20)]]]).
Proof. eexists. repeat (split; [vm_compute; reflexivity|]). vm_compute; reflexivity. Qed.

(** C14: the integer polygon path. *)
Theorem C14_int_polygon_holes_become_polygons : forall o hs,
  hs <> [] ->
  Forall (fun r => (r <> [] /\ bounded 23170 r /\ short r) /\ surveyor r <> 0) (o :: hs) ->
  exists c o' hs', MakePolygon cursor0 (o :: hs) = Ok c /\
    LoadGeometryCmds 3 (geo c) = Ok (GMultiPolygon (map (fun r => [r]) (o' :: hs'))) /\
    surveyor o' < 0 /\ length hs' = length hs /\ Forall (fun r => 0 < surveyor r) hs'.
Proof.
  intros o hs Hne H. apply int_polygon_split; auto.
  - split; [discriminate|]. eapply Forall_impl; [|exact H]. cbn. intros r [(A1 & A2 & A3) _].
    rewrite map_id_pt. auto.
  - eapply Forall_impl; [|exact H]. cbn. tauto.
Qed.
Print Assumptions C14_int_polygon_holes_become_polygons.

(** The two orientation decisions are opposite for every ring of non-zero area. *)
Theorem C14_orientations_opposite : forall r cw, r <> [] -> bounded 23170 r -> surveyor r <> 0 ->
  assert_winding_order r cw = Ok (if Bool.eqb (SignedArea2 r >? 0) cw then rev r else r).
Proof.
  intros r cw Hn Hb Ha. rewrite assert_winding_eq, SignedArea2_surveyor by auto.
  destruct (surveyor r <? 0) eqn:E1, (surveyor r >? 0) eqn:E2, cw; try reflexivity; lia.
Qed.
Print Assumptions C14_orientations_opposite.

Example C14_nonvacuous : exists c,
  MakePolygon cursor0 [[(0, 0); (10, 0); (10, 10); (0, 10)]; [(2, 2); (4, 2); (4, 4); (2, 4)]] = Ok c /\
  LoadGeometryCmds 3 (geo c) = Ok (GMultiPolygon
    [[[(0, 0); (0, 10); (10, 10); (10, 0); (0, 0)]]; [[(2, 2); (4, 2); (4, 4); (2, 4); (2, 2)]]]).
Proof. eexists. repeat (split; [vm_compute; reflexivity|]). vm_compute; reflexivity. Qed.

(** C15: points. *)
Theorem C15_point_round_trip_iff : forall x y,
  - 2 ^ 30 <= x < 2 ^ 30 -> - 2 ^ 30 <= y < 2 ^ 30 ->
  (LoadGeometryCmds 1 (geo (MakePoint cursor0 (x, y))) = Ok (GPoint (x, y)) <-> (x, y) <> (0, 0)).
Proof.
  intros x y Hx Hy. split.
  - intros E Ho. rewrite Ho in E. vm_compute in E. discriminate.
  - intros Hn. apply point_round_trip; auto. split; assumption.
Qed.
Print Assumptions C15_point_round_trip_iff.

Theorem C15_origin_refuted :
  geo (MakePoint cursor0 (0, 0)) = [9] /\ LoadGeometryCmds 1 (geo (MakePoint cursor0 (0, 0))) = Panic.
Proof. exact (conj eq_refl eq_refl). Qed.
Print Assumptions C15_origin_refuted.

Theorem C15_multipoint_unreadable_refuted : forall ps,
  (2 <= length ps)%nat -> Z.of_nat (length ps) < 2 ^ 29 ->
  Forall (fun p => - 2 ^ 30 <= fst p < 2 ^ 30 /\ - 2 ^ 30 <= snd p < 2 ^ 30) ps ->
  (forall i p p', nth_error ((0, 0) :: ps) i = Some p -> nth_error ps i = Some p' ->
     fst p' - fst p <> -5 /\ snd p' - snd p <> -5) ->
  LoadGeometryCmds 1 (geo (MakeMultiPoint cursor0 ps)) = Panic.
Proof.
  intros ps H2 Hl Hf Hs. apply multipoint_unreadable; auto.
  clear -Hs. revert Hs. generalize (0, 0). induction ps as [|q r IH]; intros p Hs; cbn; auto.
  pose proof (Hs 0%nat p q eq_refl eq_refl) as [A1 A2]. split; [exact A1|]. split; [exact A2|].
  apply IH. intros i a b Ha Hb. apply (Hs (S i)); assumption.
Qed.
Print Assumptions C15_multipoint_unreadable_refuted.

Example C15_nonvacuous :
  LoadGeometryCmds 1 (geo (MakePoint cursor0 (25, 17))) = Ok (GPoint (25, 17)) /\
  geo (MakePoint cursor0 (25, 17)) = [9; 50; 34] /\
  geo (MakeMultiPoint cursor0 [(5, 7); (3, 2)]) = [17; 10; 14; 3; 9] /\
  LoadGeometryCmds 1 (geo (MakeMultiPoint cursor0 [(5, 7); (3, 9)])) = Panic.
Proof. vm_compute. auto. Qed.
