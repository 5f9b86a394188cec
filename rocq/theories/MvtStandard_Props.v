(** Property C157: geometries encoded as the vector tile specification (version 2) prescribes, by any producer. *)
From Coq Require Import ZArith List Lia Bool.
From Verif Require Import GoBase MvtGeom_Model MvtGeom_Spec MvtGeom_Proofs MvtFlat_Props MvtInt_Props MvtPoints_Props.
Import ListNotations.
Open Scope Z_scope.

(** ** Specification: section 4.3 of the vector tile specification *)
Definition zz (v : Z) : Z := if 0 <=? v then 2 * v else - 2 * v - 1.
(** Parameters of the points of [l], the cursor being at [p] *)
Fixpoint moves (p : Z * Z) (l : list (Z * Z)) : list Z := match l with [] => [] | q :: r => zz (fst q - fst p) :: zz (snd q - snd p) :: moves q r end.
Definition command (id count : Z) : Z := id + 8 * count.
(** Points: one MoveTo with all points *)
Definition std_points (ps : list (Z * Z)) : list Z := command 1 (Z.of_nat (length ps)) :: moves (0, 0) ps.
(** Lines: MoveTo the first point and LineTo the others *)
Definition std_line (p : Z * Z) (l : list (Z * Z)) : list Z := match l with [] => [] | q :: r => command 1 1 :: zz (fst q - fst p) :: zz (snd q - snd p) :: command 2 (Z.of_nat (length r)) :: moves q r end.
Fixpoint std_lines (p : Z * Z) (ls : list (list (Z * Z))) : list Z := match ls with [] => [] | l :: r => std_line p l ++ std_lines (last l p) r end.
(** Rings: lines and ClosePath, which leaves the cursor where it is *)
Fixpoint std_rings (p : Z * Z) (ls : list (list (Z * Z))) : list Z := match ls with [] => [] | l :: r => std_line p l ++ [command 7 1] ++ std_rings (last l p) r end.
(** Polygons: an exterior ring of positive area, then interior rings *)
Definition std_polygon (rs : list (list (Z * Z))) : Prop := match rs with [] => False | o :: hs => 0 < surveyor o /\ Forall (fun h => surveyor h <= 0) hs end.
(** A ring with its first point at the end *)
Definition shut (r : list (Z * Z)) : list (Z * Z) := close_ring same_pt r.

(** ** Lemmas *)
Lemma DeltaDim_zz v : DeltaDim (zz v) = v.
Proof. exact (DeltaDim_zigzag v). Qed.
Lemma back p q : (fst p + (fst q - fst p), snd p + (snd q - snd p)) = q.
Proof. destruct q; cbn [fst snd]; f_equal; lia. Qed.
Lemma read_moves l : forall p g, read_pairs (moves p l ++ g) (Z.of_nat (length l)) p = (l, last l p, g).
Proof.
  induction l as [|q l IH]; intros p g; [destruct g as [|x [|y g]]; reflexivity|]. rewrite last_cons. cbn [moves app read_pairs]. rewrite !DeltaDim_zz, back. cbn [length]. replace (Z.of_nat (S (length l)) >? 0) with true by lia. replace (Z.of_nat (S (length l)) - 1) with (Z.of_nat (length l)) by lia. rewrite IH. reflexivity.
Qed.
Lemma shift_command id n : 0 <= id < 8 -> Z.shiftr (command id n) 3 = n.
Proof. intros H. unfold command. rewrite Z.shiftr_div_pow2 by lia. change (2 ^ 3) with 8. symmetry. apply (Z.div_unique _ 8 n id); lia. Qed.
Lemma loop_std_line f total gtype first fp lines p l g : l <> [] -> total <> 3 -> (first = true -> p = (0, 0)) -> (first = false -> fp = Some p /\ (gtype = 2 \/ gtype = 3)) ->
  geom_loop (S f) total gtype first fp lines (std_line p l ++ g) = geom_loop f total gtype false (Some (last l p)) (lines ++ [l]) g.
Proof.
  intros N Ht H1 H2. destruct l as [|q r]; [congruence|]. change (std_line p (q :: r)) with (9 :: zz (fst q - fst p) :: zz (snd q - snd p) :: command 2 (Z.of_nat (length r)) :: moves q r). cbn [app geom_loop]. change (9 =? 9) with true. cbv iota. rewrite !DeltaDim_zz.
  match goal with |- bind ?e _ = _ => assert (E : e = Ok q) end.
  { destruct first; cbn [negb andb].
    - rewrite (H1 eq_refl). cbn [fst snd]. rewrite !Z.sub_0_r. destruct q; reflexivity.
    - destruct (H2 eq_refl) as [-> Hg]. replace ((gtype =? 2) || (gtype =? 3)) with true by lia. cbv iota. rewrite back. reflexivity. }
  rewrite E. cbn [bind]. replace (total =? 3) with false by lia. rewrite shift_command, read_moves by lia. rewrite last_cons. reflexivity.
Qed.
Lemma loop_std_lines ls : forall f total first fp lines p, Forall (fun l => l <> []) ls -> total <> 3 -> (first = true -> p = (0, 0)) -> (first = false -> fp = Some p) -> (length ls <= f)%nat ->
  geom_loop f total 2 first fp lines (std_lines p ls) = Ok (lines ++ ls).
Proof.
  induction ls as [|l r IH]; intros f total first fp lines p H Ht H1 H2 Hf; [cbn [std_lines]; rewrite geom_loop_nil, app_nil_r; reflexivity|]. cbn [length] in Hf. destruct f as [|f]; [lia|]. cbn [std_lines]. rewrite loop_std_line; auto; [|exact (Forall_inv H)].
  rewrite IH; auto; try lia; try discriminate; [|exact (Forall_inv_tail H)]. rewrite <- app_assoc. reflexivity.
Qed.
Lemma loop_std_rings ls : forall f total first fp lines p, Forall (fun l => l <> []) ls -> total <> 3 -> (first = true -> p = (0, 0)) -> (first = false -> fp = Some p) -> (2 * length ls <= f)%nat ->
  geom_loop f total 3 first fp lines (std_rings p ls) = Ok (lines ++ ls).
Proof.
  induction ls as [|l r IH]; intros f total first fp lines p H Ht H1 H2 Hf; [cbn [std_rings]; rewrite geom_loop_nil, app_nil_r; reflexivity|]. cbn [length] in Hf. destruct f as [|f]; [lia|]. cbn [std_rings]. rewrite loop_std_line; auto; [|exact (Forall_inv H)].
  destruct f as [|f]; [lia|]. change ([command 7 1] ++ std_rings (last l p) r) with (15 :: std_rings (last l p) r). rewrite geom_loop_skip15, IH; auto; try lia; try discriminate; [|exact (Forall_inv_tail H)]. rewrite <- app_assoc. reflexivity.
Qed.
Lemma std_line_len p l : l <> [] -> le 4 (length (std_line p l)).
Proof. destruct l; [congruence|]. intros _. cbn [std_line length]. lia. Qed.
Lemma std_lines_len ls : forall p, Forall (fun l => l <> []) ls -> le (4 * length ls) (length (std_lines p ls)).
Proof. induction ls as [|l r IH]; intros p H; [cbn; lia|]. cbn [std_lines length]. rewrite app_length. pose proof (std_line_len p l (Forall_inv H)). specialize (IH (last l p) (Forall_inv_tail H)). lia. Qed.
Lemma std_rings_len ls : forall p, Forall (fun l => l <> []) ls -> le (5 * length ls) (length (std_rings p ls)).
Proof. induction ls as [|l r IH]; intros p H; [cbn; lia|]. cbn [std_rings length]. rewrite !app_length. pose proof (std_line_len p l (Forall_inv H)). specialize (IH (last l p) (Forall_inv_tail H)). cbn [length]. lia. Qed.
Lemma shut_area r : surveyor (shut r) = surveyor r.
Proof. pose proof (surveyor_close (fun p => p) same_pt r) as H. rewrite !map_id_pt in H. exact H. Qed.
Lemma cut_polys ps : Forall std_polygon ps -> cut_at_positive (concat ps) ps.
Proof.
  intros H. split; [reflexivity|]. split; [eapply Forall_impl; [|exact H]; intros [|o hs]; [auto|intros (_ & K); exact K]|]. destruct H as [|p ps Hp H]; [constructor|]. eapply Forall_impl; [|exact H]. intros [|o hs]; [auto|intros (K & _); exact K].
Qed.
Lemma moves_len ps : forall p, length (moves p ps) = (2 * length ps)%nat.
Proof. induction ps as [|q ps IH]; intros p; cbn [moves length]; [reflexivity|]. rewrite IH. lia. Qed.

(** ** Theorems *)
(** Lines are read as they are, *)
Theorem C157_lines : forall ls, ls <> [] -> Forall (fun l => l <> []) ls ->
  LoadGeometryCmds 2 (std_lines (0, 0) ls) = Ok (match ls with [l] => GLineString l | _ => GMultiLineString ls end).
Proof.
  intros ls N H. unfold LoadGeometryCmds. pose proof (std_lines_len ls (0, 0) H) as L. assert (lt 0 (length ls)) by (destruct ls; [congruence|cbn [length]; lia]).
  rewrite loop_std_lines; auto; try discriminate; try (unfold zlen; lia); try lia. cbn [bind app]. change (2 =? 3) with false. change (2 =? 1) with false. change (2 =? 2) with true. cbv iota. destruct ls as [|a [|b r]]; reflexivity.
Qed.
Print Assumptions C157_lines.
(** rings are read with their first point at the end, cut before each ring of positive area, *)
Theorem C157_rings : forall rs, rs <> [] -> Forall (fun l => l <> []) rs ->
  exists ps, LoadGeometryCmds 3 (std_rings (0, 0) rs) = Ok (read_as ps) /\ cut_at_positive (map shut rs) ps.
Proof.
  intros rs N H. exists (group_rings (map shut rs) []). split; [|apply group_positive; intros K; apply map_eq_nil in K; auto].
  unfold LoadGeometryCmds. pose proof (std_rings_len rs (0, 0) H) as L. assert (lt 0 (length rs)) by (destruct rs; [congruence|cbn [length]; lia]).
  rewrite loop_std_rings; auto; try discriminate; try (unfold zlen; lia); try lia. cbn [bind app]. change (3 =? 3) with true. cbv iota. change (map close_line rs) with (map shut rs). unfold read_as. destruct (map shut rs) as [|a [|b r]]; [reflexivity| |].
  - cbn [group_rings]. destruct (SignedArea a >? 0); reflexivity.
  - destruct (group_rings (a :: b :: r) []) as [|x [|y z]]; reflexivity.
Qed.
Print Assumptions C157_rings.
(** so polygons that conform to the specification are read as they are; *)
Theorem C157_polygons : forall ps, ps <> [] -> Forall std_polygon ps -> Forall (Forall (fun r => r <> [])) ps ->
  LoadGeometryCmds 3 (std_rings (0, 0) (concat ps)) = Ok (match ps with [p] => GPolygon (map shut p) | _ => GMultiPolygon (map (map shut) ps) end).
Proof.
  intros ps N H Hn. assert (N' : concat ps <> []) by (destruct ps as [|[|o hs] ps]; [congruence|destruct (Forall_inv H)|discriminate]).
  destruct (C157_rings (concat ps) N' (Forall_concat' _ _ Hn)) as (qs & E & C). rewrite E. f_equal.
  assert (K : qs = map (map shut) ps).
  { eapply cut_unique; [exact C|]. rewrite concat_map. apply cut_polys, Forall_map. eapply Forall_impl; [|exact H]. intros [|o hs]; [auto|]. intros (A & B). cbn [map std_polygon]. rewrite shut_area. split; [exact A|]. apply Forall_map. eapply Forall_impl; [|exact B]. intros h. rewrite shut_area. auto. }
  rewrite K. unfold read_as. destruct ps as [|a [|b r]]; reflexivity.
Qed.
Print Assumptions C157_polygons.
(** a point is read, *)
Theorem C157_point : forall p, LoadGeometryCmds 1 (std_points [p]) = Ok (GPoint p).
Proof.
  intros p. unfold std_points, moves. cbn [length fst snd]. rewrite !Z.sub_0_r. unfold LoadGeometryCmds. change (command 1 (Z.of_nat 1)) with 9. cbn [length geom_loop]. change (9 =? 9) with true. cbv iota. cbn [negb andb bind]. rewrite !DeltaDim_zz. change (zlen _ =? 3) with true. cbn [bind]. destruct p; reflexivity.
Qed.
Print Assumptions C157_point.
(** but several points are not: reading fails or gives fewer points. *)
Theorem C157_points_refuted : forall ps g, (2 <= length ps)%nat -> LoadGeometryCmds 1 (std_points ps) = Ok g ->
  match g with GPoint _ => True | GMultiPoint qs => (length qs < length ps)%nat | _ => False end.
Proof.
  intros ps g H2 E. unfold std_points in E. set (h := command 1 (Z.of_nat (length ps))) in E. assert (H9 : h <> 9) by (unfold h, command; lia).
  unfold LoadGeometryCmds in E. destruct (geom_loop _ _ _ _ _ _ _) as [lines| |] eqn:EG; cbn [bind] in E; try discriminate. change (1 =? 3) with false in E. change (1 =? 1) with true in E. cbv iota in E.
  cbn [geom_loop length] in EG. rewrite (proj2 (Z.eqb_neq h 9) H9) in EG. apply (geom_loop_len (length (moves (0, 0) ps))) in EG; [|lia|constructor]. rewrite moves_len in EG.
  destruct lines as [|l lines]; [discriminate|]. pose proof (Forall_inv EG) as K. cbv beta in K. destruct l as [|a [|b l]]; injection E as <-; cbn [length] in *; try exact I; lia.
Qed.
Print Assumptions C157_points_refuted.

(** ** Not vacuous: the examples 4.3.5.2 to 4.3.5.6 of the specification *)
Example C157_nonvacuous :
  std_points [(5, 7); (3, 2)] = [17; 10; 14; 3; 9] /\
  std_lines (0, 0) [[(2, 2); (2, 10); (10, 10)]; [(1, 1); (3, 5)]] = [9; 4; 4; 18; 0; 16; 16; 0; 9; 17; 17; 10; 4; 8] /\
  std_rings (0, 0) [[(3, 6); (8, 12); (20, 34)]] = [9; 6; 12; 18; 10; 12; 24; 44; 15] /\
  std_rings (0, 0) (concat [[[(0, 0); (10, 0); (10, 10); (0, 10)]]; [[(11, 11); (20, 11); (20, 20); (11, 20)]; [(13, 13); (13, 17); (17, 17); (17, 13)]]]) =
    [9; 0; 0; 26; 20; 0; 0; 20; 19; 0; 15; 9; 22; 2; 26; 18; 0; 0; 18; 17; 0; 15; 9; 4; 13; 26; 0; 8; 8; 0; 0; 7; 15] /\
  Forall std_polygon [[[(0, 0); (10, 0); (10, 10); (0, 10)]]; [[(11, 11); (20, 11); (20, 20); (11, 20)]; [(13, 13); (13, 17); (17, 17); (17, 13)]]].
Proof. repeat (split; [reflexivity|]). repeat constructor; vm_compute; congruence. Qed.
