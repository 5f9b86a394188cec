(** Property C161: geometries of other producers that are read and written again. *)
From Coq Require Import ZArith List Lia Bool.
From Verif Require Import GoBase MvtGeom_Model MvtGeom_Spec MvtGeom_Proofs MvtGeom_Props MvtFlat_Props MvtInt_Props MvtStandard_Props MvtWritten_Props.
Import ListNotations.
Open Scope Z_scope.

(** ** Specification *)
(** Polygons as the specification demands them, of a size that can be written *)
Definition modest (ps : list (list (list (Z * Z)))) : Prop := Forall std_polygon ps /\ Forall (Forall (fun r => r <> [] /\ bounded 23170 r /\ Z.of_nat (length r) < 2 ^ 29 - 2)) ps.
Definition polygons (ps : list (list (list (Z * Z)))) : geomdata := match ps with [p] => GPolygon p | _ => GMultiPolygon ps end.
Definition lines_of (ls : list (list (Z * Z))) : geomdata := match ls with [l] => GLineString l | _ => GMultiLineString ls end.

(** ** Lemmas *)
Lemma same_refl p : same_pt p p = true.
Proof. unfold same_pt. rewrite !Z.eqb_refl. reflexivity. Qed.
Lemma same_eq a b : same_pt a b = true -> a = b.
Proof. exact (proj1 (pt_eqb_eq a b)). Qed.
Lemma shut_shut r : shut (shut r) = shut r.
Proof.
  destruct r as [|p t]; [reflexivity|]. unfold shut at 2 3, close_ring. destruct (same_pt p (last (p :: t) p)) eqn:E.
  - unfold shut, close_ring. rewrite E. reflexivity.
  - unfold shut, close_ring. cbn [app]. change (p :: t ++ [p]) with ((p :: t) ++ [p]). rewrite last_app1, same_refl. reflexivity.
Qed.
Lemma shut_len r : le (length (shut r)) (S (length r)).
Proof. destruct r as [|p t]; [cbn; lia|]. unfold shut, close_ring. destruct (same_pt _ _); rewrite ?app_length; cbn [length]; lia. Qed.
Lemma shut_ne r : r <> [] -> shut r <> [].
Proof. destruct r as [|p t]; [congruence|]. intros _. unfold shut, close_ring. destruct (same_pt _ _); discriminate. Qed.
Lemma shut_bounded b r : bounded b r -> bounded b (shut r).
Proof. unfold bounded. intros H. destruct r as [|p t]; [exact H|]. unfold shut, close_ring. destruct (same_pt _ _); [exact H|]. apply Forall_app. split; [exact H|]. constructor; [exact (Forall_inv H)|constructor]. Qed.
Lemma wind_kept (b : bool) l : (if b then 0 < surveyor l else surveyor l <= 0) -> wind b l = l.
Proof. unfold wind. intros H. destruct b; [replace (0 <? surveyor l) with true by lia|replace (0 <? surveyor l) with false by lia]; reflexivity. Qed.
Lemma seen_kept p : std_polygon p -> seen_polygon (fun x => x) same_pt (map shut p) = map (fun r => merge_runs (shut r)) p.
Proof.
  destruct p as [|o hs]; [intros []|]. intros (Ho & Hh). unfold seen_polygon. cbn [map].
  assert (A : forall r, surveyor (merge_runs (shut r)) = surveyor r) by (intros r; rewrite surveyor_merge; apply shut_area).
  assert (B : forall r, map (fun x : Z * Z => x) (close_ring same_pt (shut r)) = shut r) by (intros r; rewrite map_id_pt; apply shut_shut).
  rewrite B, wind_kept by (rewrite A; exact Ho). f_equal. rewrite !map_map. apply map_ext_in. intros h Hi. rewrite B, wind_kept; [reflexivity|]. rewrite A. rewrite Forall_forall in Hh. auto.
Qed.
Lemma modest_writable ps : modest ps -> Forall (writable (fun x => x)) (map (map shut) ps).
Proof.
  intros (H1 & H2). apply Forall_map. rewrite Forall_forall in *. intros p Hi. specialize (H1 p Hi). specialize (H2 p Hi). split; [destruct p; [destruct H1|discriminate]|]. apply Forall_map. eapply Forall_impl; [|exact H2]. intros r (A & B & C). split; [apply shut_ne, A|]. split; [rewrite map_id_pt; apply shut_bounded, B|]. pose proof (shut_len r). unfold short. lia.
Qed.

(** ** Theorems *)
(** Conforming polygons that are read and then written with the float writers are read as before, repeated neighbours once: *)
Theorem C161_polygons : forall ps, ps <> [] -> modest ps ->
  LoadGeometryCmds 3 (std_rings (0, 0) (concat ps)) = Ok (polygons (map (map shut) ps)) /\
  exists c, MakeMultiPolygonFloat (fun x => x) same_pt cursor0 (map (map shut) ps) = Ok c /\ LoadGeometryCmds 3 (geo c) = Ok (polygons (map (map (fun r => merge_runs (shut r))) ps)).
Proof.
  intros ps N M. pose proof (modest_writable ps M) as W. destruct M as (H1 & H2). split.
  - rewrite C157_polygons; auto; [destruct ps as [|a [|b r]]; reflexivity|]. eapply Forall_impl; [|exact H2]. intros p. apply Forall_impl. tauto.
  - destruct (C152_multipolygon (Z * Z) (fun x => x) same_pt (map (map shut) ps) same_eq ltac:(intros X; apply map_eq_nil in X; auto) W) as (c & qs & E & D & (I & _) & _). exists c. split; [exact E|]. rewrite D, I.
    + unfold read_as, polygons. f_equal. replace (map (seen_polygon (fun x => x) same_pt) (map (map shut) ps)) with (map (map (fun r => merge_runs (shut r))) ps); [reflexivity|]. rewrite map_map. apply map_ext_in. intros p Hi. symmetry. apply seen_kept. rewrite Forall_forall in H1. auto.
    + destruct ps as [|p ps]; [congruence|]. cbn [map tl]. apply Forall_map. eapply Forall_impl; [|exact (Forall_inv_tail H1)]. intros [|o hs]; [auto|]. intros (A & _). cbn [map]. rewrite map_id_pt, shut_area. lia.
Qed.
Print Assumptions C161_polygons.
(** the same numbers are not emitted, though: the closing point is added to every ring that had none. *)
Theorem C161_bytes : forall ps c, modest ps -> MakeMultiPolygonFloat (fun x => x) same_pt cursor0 (map (map shut) ps) = Ok c ->
  geo c = std_rings (0, 0) (map (fun r => merge_runs (shut r)) (concat ps)) /\
  (geo c = std_rings (0, 0) (concat ps) <-> Forall (fun r => merge_runs (shut r) = r) (concat ps)).
Proof.
  intros ps c M E. pose proof (modest_writable ps M) as W. destruct M as (H1 & H2). destruct (C158_polygons (Z * Z) (fun x => x) same_pt _ same_eq W) as (c' & E' & G). rewrite E in E'. injection E' as <-.
  assert (K : geo c = std_rings (0, 0) (map (fun r => merge_runs (shut r)) (concat ps))).
  { rewrite G. f_equal. rewrite concat_map, map_map. f_equal. apply map_ext_in. intros p Hi. apply seen_kept. rewrite Forall_forall in H1. auto. }
  split; [exact K|]. rewrite K.
  assert (N : Forall (fun r => r <> []) (concat ps)) by (apply Forall_concat'; eapply Forall_impl; [|exact H2]; intros p; apply Forall_impl; tauto).
  assert (N' : Forall (fun r => r <> []) (map (fun r => merge_runs (shut r)) (concat ps))).
  { apply Forall_map. eapply Forall_impl; [|exact N]. intros r A X. apply shut_ne in A. destruct (shut r) as [|p t]; [congruence|]. rewrite merge_moved in X. discriminate. }
  split.
  - intros X. apply std_rings_inj in X; auto. clear - X. induction (concat ps) as [|r rs IH]; [constructor|]. cbn [map] in X. injection X as X1 X2. constructor; auto.
  - intros X. f_equal. clear - X. induction X as [|r rs Hr _ IH]; [reflexivity|]. cbn [map]. rewrite Hr, IH. reflexivity.
Qed.
Print Assumptions C161_bytes.
(** Lines come back byte for byte exactly if they have no repeated neighbours. *)
Theorem C161_lines : forall ls, ls <> [] -> Forall writable_line ls ->
  LoadGeometryCmds 2 (std_lines (0, 0) ls) = Ok (lines_of ls) /\
  exists c, MakeMultiLine cursor0 ls = Ok c /\ LoadGeometryCmds 2 (geo c) = Ok (lines_of (map merge_runs ls)) /\ (Forall (fun l => merge_runs l = l) ls -> geo c = std_lines (0, 0) ls).
Proof.
  intros ls N W. assert (H : Forall (fun l : list (Z * Z) => l <> []) ls) by (eapply Forall_impl; [|exact W]; intros l (A & _); exact A). split; [apply C157_lines; auto|]. destruct (C158_lines ls W) as (c & E & G). exists c. split; [exact E|]. rewrite G. split.
  - apply C157_lines; [intros X; apply map_eq_nil in X; auto|]. apply Forall_map. eapply Forall_impl; [|exact H]. intros [|p t] A X; [congruence|]. rewrite merge_moved in X. discriminate.
  - intros X. f_equal. clear - X. induction X as [|r rs Hr _ IH]; [reflexivity|]. cbn [map]. rewrite Hr, IH. reflexivity.
Qed.
Print Assumptions C161_lines.

(** ** Not vacuous: the multipolygon of the specification's examples *)
Example C161_nonvacuous : modest [[[(0, 0); (10, 0); (10, 10); (0, 10)]]; [[(11, 11); (20, 11); (20, 20); (11, 20)]; [(13, 13); (13, 17); (17, 17); (17, 13)]]] /\
  writable_line [(2, 2); (2, 10); (10, 10)] /\ merge_runs [(2, 2); (2, 10); (10, 10)] = [(2, 2); (2, 10); (10, 10)].
Proof.
  split; [split; [repeat constructor; vm_compute; congruence|]|split; [|reflexivity]].
  - repeat (apply Forall_cons || apply Forall_nil); (split; [discriminate|]; split; [repeat constructor; cbn [fst snd]; lia|cbn [length]; lia]).
  - split; [discriminate|]. split; [repeat constructor; cbn [fst snd]; lia|cbn [length]; lia].
Qed.
