(** Property C160: which way the polygon writers wind rings, in terms of the vector tile specification. *)
From Coq Require Import ZArith List Lia Bool.
From Verif Require Import GoBase MvtGeom_Model MvtGeom_Spec MvtGeom_Proofs MvtGeom_Props MvtFlat_Props MvtInt_Props MvtStandard_Props MvtWritten_Props.
Import ListNotations.
Open Scope Z_scope.

(** ** Theorems *)
(** The integer writers encode their rings as the specification says, *)
Theorem C160_rings : forall polys, Forall (writable (fun p => p)) polys ->
  exists c, MakeMultiPolygon cursor0 polys = Ok c /\ geo c = std_rings (0, 0) (concat (map turned polys)).
Proof.
  intros polys Hall. pose proof (writable_shape (fun p => p) pt_eqb polys ltac:(intros a b; apply pt_eqb_eq) Hall) as W. cbv zeta in W. destruct W as (Hshape & Hfits & _).
  assert (Hf : Forall (Forall ring_fits) (map (map (close_with pt_eqb)) polys)).
  { rewrite Forall_map in *. eapply Forall_impl; [|exact Hfits]. intros rings H. rewrite Forall_map in *. eapply Forall_impl; [|exact H]. intros l L. cbv beta in L. rewrite (map_id_pt (close_with pt_eqb l)) in L. exact L. }
  destruct (MakeMultiPolygon_eq polys cursor0 Hshape Hf fits0) as [n E]. eexists. split; [exact E|]. cbn [geo cursor0 last_pt app]. rewrite enc_std_rings.
  - f_equal. rewrite concat_map, !map_map. f_equal. apply map_ext. exact int_emitted_turned.
  - apply Forall_concat', Forall_map. eapply Forall_impl; [|exact Hf]. exact int_emitted_fits.
Qed.
Print Assumptions C160_rings.
(** but never an exterior ring of positive area first, so their output is not the encoding of any polygons. *)
Theorem C160_int_refuted : forall polys c ps, polys <> [] -> Forall (writable (fun p => p)) polys -> MakeMultiPolygon cursor0 polys = Ok c ->
  Forall std_polygon ps -> Forall (Forall (fun r => r <> [])) ps -> geo c <> std_rings (0, 0) (concat ps).
Proof.
  intros polys c ps N Hall E Hp Hn G. destruct (C160_rings polys Hall) as (c' & E' & G'). rewrite E in E'. injection E' as <-. rewrite G in G'.
  assert (K : Forall (fun r => r <> []) (concat (map turned polys))).
  { apply Forall_concat', Forall_map. eapply Forall_impl; [|exact Hall]. intros rings (_ & H).
    assert (M : Forall (fun r => r <> []) (map (fun r => merge_runs (close_ring same_pt r)) rings)).
    { apply Forall_map. eapply Forall_impl; [|exact H]. intros [|p t] (A & _); [congruence|]. intros X. unfold close_ring in X. destruct (same_pt _ _); cbn [app] in X; rewrite merge_moved in X; discriminate. }
    assert (T : forall b r, r <> [] -> turn b r <> []). { intros b r A X. unfold turn in X. destruct (Bool.eqb _ b); [auto|]. apply A. rewrite <- (rev_involutive r), X. reflexivity. }
    unfold turned. destruct M as [|o hs Ho Hh]; [constructor|]. constructor; [apply T, Ho|]. apply Forall_map. eapply Forall_impl; [|exact Hh]. intros r. apply T. }
  apply std_rings_inj in G'; [|apply Forall_concat', Hn|exact K].
  destruct polys as [|[|o hs] polys]; [congruence|destruct (Forall_inv Hall) as [X _]; congruence|]. destruct (C153_areas o hs) as (o' & hs' & T & A & _). cbn [map concat] in G'. rewrite T in G'.
  destruct Hp as [|[|x xs] ps Hx _]; [discriminate|destruct Hx|]. destruct Hx as (Hx & _). cbn [concat app] in G'. injection G' as -> _. lia.
Qed.
Print Assumptions C160_int_refuted.
(** The float writers encode polygons with exterior and interior rings as the specification says, exactly if no outer ring encloses nothing on the grid. *)
Theorem C160_float : forall (P : Type) (q : P -> Z * Z) (same : P -> P -> bool) polys, (forall a b, same a b = true -> q a = q b) -> Forall (writable q) polys ->
  exists c, MakeMultiPolygonFloat q same cursor0 polys = Ok c /\ geo c = std_rings (0, 0) (concat (map (seen_polygon q same) polys)) /\
    (Forall std_polygon (map (seen_polygon q same) polys) <-> Forall (fun rings => match rings with [] => False | o :: _ => surveyor (map q o) <> 0 end) polys).
Proof.
  intros P q same polys Hs Hall. destruct (C158_polygons P q same polys Hs Hall) as (c & E & G). exists c. split; [exact E|]. split; [exact G|]. clear c E G. rewrite Forall_map.
  assert (K : forall rings, writable q rings -> (std_polygon (seen_polygon q same rings) <-> match rings with [] => False | o :: _ => surveyor (map q o) <> 0 end)).
  { intros rings (N & _). pose proof (seen_sided q same rings N) as S. destruct rings as [|o hs]; [congruence|]. unfold seen_polygon in *. cbn [map sided std_polygon] in *. destruct S as (_ & S). rewrite seen_area. split; [intros (A & _); lia|]. intros A. split; [lia|exact S]. }
  induction Hall as [|rings polys H _ IH]; [split; constructor|]. rewrite !Forall_cons_iff, IH, (K rings H). reflexivity.
Qed.
Print Assumptions C160_float.

(** ** Not vacuous: one square through both writers *)
Example C160_nonvacuous : let square := [[(0, 0); (10, 0); (10, 10); (0, 10)]] in
  writable (fun p => p) square /\ std_polygon square /\
  (exists c, MakeMultiPolygon cursor0 [square] = Ok c /\ geo c = std_rings (0, 0) [[(0, 0); (0, 10); (10, 10); (10, 0); (0, 0)]]) /\
  (exists c, MakeMultiPolygonFloat (fun p => p) pt_eqb cursor0 [square] = Ok c /\ geo c = std_rings (0, 0) [[(0, 0); (10, 0); (10, 10); (0, 10); (0, 0)]]).
Proof.
  cbv zeta. split; [split; [discriminate|]; constructor; [|constructor]; split; [discriminate|]; split; [repeat constructor; cbn; lia|unfold short; cbn [length]; lia]|].
  split; [repeat constructor|]. split; eexists; split; reflexivity.
Qed.
