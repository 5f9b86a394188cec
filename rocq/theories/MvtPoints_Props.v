(** Property C154: several points never come back as they were written, whatever their coordinates. *)
From Coq Require Import ZArith List Lia Bool.
From Verif Require Import GoBase MvtGeom_Model MvtGeom_Spec MvtGeom_Proofs MvtLayer_Model MvtTile_Props.
Import ListNotations.
Open Scope Z_scope.

(** ** Lemmas *)
Lemma read_pairs_len g : forall n fp ps fp' g', read_pairs g n fp = (ps, fp', g') -> (2 * length ps + length g' = length g)%nat.
Proof.
  assert (K : forall k g, (length g <= k)%nat -> forall n fp ps fp' g', read_pairs g n fp = (ps, fp', g') -> (2 * length ps + length g' = length g)%nat); [|eauto].
  clear g. induction k as [|k IH]; intros g Hk n fp ps fp' g' E.
  - destruct g; [|cbn [length] in Hk; lia]. cbn [read_pairs] in E. injection E as <- _ <-. reflexivity.
  - destruct g as [|x [|y r]]; cbn [read_pairs] in E; try (injection E as <- _ <-; reflexivity).
    destruct (n >? 0); [|injection E as <- _ <-; reflexivity].
    destruct (read_pairs r (n - 1) _) as [[ps1 fp1] g1] eqn:E1. injection E as <- _ <-. apply IH in E1; [|cbn [length] in Hk; lia]. cbn [length]. lia.
Qed.
Lemma geom_loop_len N total gtype : forall fuel first fp lines g out, geom_loop fuel total gtype first fp lines g = Ok out -> (length g <= N)%nat ->
  Forall (fun l => (length l <= 1 \/ 2 * length l + 2 <= N)%nat) lines -> Forall (fun l => (length l <= 1 \/ 2 * length l + 2 <= N)%nat) out.
Proof.
  induction fuel as [|f IH]; intros first fp lines g out E Hg Hl.
  - destruct g as [|c r]; cbn [geom_loop] in E; [injection E as <-; exact Hl|discriminate].
  - destruct g as [|c r]; cbn [geom_loop] in E; [injection E as <-; exact Hl|]. cbn [length] in Hg.
    destruct (c =? 9); [|eapply IH; [exact E|lia|exact Hl]].
    destruct r as [|x [|y r2]]; try discriminate. match type of E with bind ?a _ = _ => destruct a as [fp1| |]; cbn [bind] in E; try discriminate end.
    assert (H1 : Forall (fun l : list pt => (length l <= 1 \/ 2 * length l + 2 <= N)%nat) (if total =? 3 then [[fp1]] else lines)).
    { destruct (total =? 3); [constructor; [cbn [length]; lia|constructor]|exact Hl]. }
    destruct r2 as [|cmd r3]; [injection E as <-; exact H1|]. destruct (read_pairs r3 _ fp1) as [[ps fp2] r4] eqn:E4. apply read_pairs_len in E4. cbn [length] in Hg.
    eapply IH; [exact E|lia|]. apply Forall_app. split; [exact H1|]. constructor; [cbn [length]; lia|constructor].
Qed.
Lemma line_points_len ps : forall c, (length (geo (fold_left LinePoint ps c)) <= length (geo c) + 2 * length ps)%nat.
Proof.
  induction ps as [|p ps IH]; intros c; [cbn; lia|]. cbn [fold_left length]. specialize (IH (LinePoint c p)). assert (length (geo (LinePoint c p)) <= length (geo c) + 2)%nat; [|lia].
  unfold LinePoint. destruct (negb _); cbn [geo]; rewrite ?app_length; cbn [length]; lia.
Qed.
Lemma line_points_head ps : forall c x g, geo c = x :: g -> exists g', geo (fold_left LinePoint ps c) = x :: g'.
Proof.
  induction ps as [|p ps IH]; intros c x g E; [eauto|]. cbn [fold_left]. assert (exists g', geo (LinePoint c p) = x :: g') as [g' E']; [|eapply IH, E'].
  unfold LinePoint. destruct (negb _); cbn [geo]; rewrite E; cbn [app]; eauto.
Qed.
Lemma multi_float {P} (q : P -> pt) ps c : MakeMultiPointFloat q c ps = MakeMultiPoint c (map q ps).
Proof.
  unfold MakeMultiPointFloat, MakeMultiPoint. replace (zlen (map q ps)) with (zlen ps) by (unfold zlen; rewrite map_length; reflexivity). generalize (mkCur [moveTo (u32 (zlen ps))] (last_pt c) (cnt c)). induction ps as [|p ps IH]; intros c0; [reflexivity|]. cbn [map fold_left]. apply IH.
Qed.

(** ** Theorems *)
(** If anything is read at all, it is one point or fewer points than written. *)
Theorem C154_fewer_refuted : forall ps g, (2 <= length ps)%nat -> Z.of_nat (length ps) < 2 ^ 29 ->
  LoadGeometryCmds 1 (geo (MakeMultiPoint cursor0 ps)) = Ok g -> match g with GPoint _ => True | GMultiPoint qs => (length qs < length ps)%nat | _ => False end.
Proof.
  intros ps g H2 Hl E. unfold MakeMultiPoint in E. set (h := moveTo (u32 (zlen ps))) in E.
  assert (H9 : h <> 9). { unfold h, moveTo. rewrite cmdEnc_val by (unfold u32; lia). unfold u32, zlen. rewrite !Z.mod_small by lia. lia. }
  pose proof (line_points_len ps (mkCur [h] (last_pt cursor0) (cnt cursor0))) as L. destruct (line_points_head ps (mkCur [h] (last_pt cursor0) (cnt cursor0)) h [] eq_refl) as [r Er]. rewrite Er in *. cbn [geo length] in L.
  unfold LoadGeometryCmds in E. destruct (geom_loop _ _ _ _ _ _ _) as [lines| |] eqn:EG; cbn [bind] in E; try discriminate. change (1 =? 3) with false in E. change (1 =? 1) with true in E. cbv iota in E.
  cbn [geom_loop length] in EG. rewrite (proj2 (Z.eqb_neq h 9) H9) in EG. apply (geom_loop_len (length r)) in EG; [|lia|constructor].
  destruct lines as [|l lines]; [discriminate|]. pose proof (Forall_inv EG) as K. cbv beta in K. destruct l as [|a [|b l]]; injection E as <-; cbn [length] in *; try exact I; lia.
Qed.
Print Assumptions C154_fewer_refuted.
(** This goes for every feature of every written layer: reading it fails or gives fewer points. *)
Theorem C154_layer_refuted : forall (Pt : Type) (S : source Pt) buf f rf ps g, reads_back S buf f rf -> fGeom f = Some (XMultiPoint ps) ->
  (2 <= length ps)%nat -> Z.of_nat (length ps) < 2 ^ 29 ->
  LoadGeometry buf rf = Ok g -> match g with GPoint _ => True | GMultiPoint qs => (length qs < length ps)%nat | _ => False end.
Proof.
  intros Pt S buf f rf ps g (_ & _ & H) Eg H1 H2 E. rewrite Eg in H. destruct H as (_ & H). destruct (H (geo (MakeMultiPointFloat (sProj S) cursor0 ps))) as [_ K]; [reflexivity|]. rewrite K in E.
  change (geom_code (XMultiPoint ps)) with 1 in E. rewrite multi_float in E. rewrite <- (map_length (sProj S) ps) in H1, H2 |- *. eapply C154_fewer_refuted; eassumption.
Qed.
Print Assumptions C154_layer_refuted.

(** ** Not vacuous: a step of -5 is taken for a command, and other points are read. *)
Example C154_nonvacuous :
  LoadGeometryCmds 1 (geo (MakeMultiPoint cursor0 [(-5, 1); (2, 3)])) = Ok (GPoint (1, 7)) /\
  LoadGeometryCmds 1 (geo (MakeMultiPoint cursor0 [(-5, 1); (2, 10); (3, 12); (-4, 5)])) = Ok (GMultiPoint [(1, 7); (2, 9); (-5, 2)]) /\
  LoadGeometryCmds 1 (geo (MakeMultiPoint cursor0 [(5, 7); (3, 9)])) = Panic.
Proof. vm_compute. auto. Qed.
