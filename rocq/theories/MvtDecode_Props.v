(** Property C74: the geometry decoder on arbitrary command lists. *)
From Coq Require Import ZArith List Lia Bool.
From Verif Require Import GoBase MvtGeom_Model MvtGeom_Spec MvtGeom_Proofs.
Import ListNotations.
Open Scope Z_scope.

Lemma read_pairs_len g : forall n fp ps fp' g', read_pairs g n fp = (ps, fp', g') ->
  (length g' + 2 * length ps = length g)%nat.
Proof.
  assert (H : forall k g, (length g <= k)%nat -> forall n fp ps fp' g', read_pairs g n fp = (ps, fp', g') ->
    (length g' + 2 * length ps = length g)%nat).
  { induction k as [|k IH]; intros l Hl n fp ps fp' g' E.
    - destruct l; cbn in Hl; [|lia]. cbn in E. injection E as <- <- <-. reflexivity.
    - destruct l as [|x [|y r]]; cbn [read_pairs] in E; try (injection E as <- <- <-; cbn; lia).
      destruct (n >? 0); [|injection E as <- <- <-; cbn; lia].
      destruct (read_pairs r (n - 1) _) as [[ps1 fp1] g1] eqn:E1. injection E as <- <- <-.
      cbn in Hl. apply IH in E1; [cbn; lia|lia]. }
  intros. eapply H; eauto.
Qed.

(** Total number of points. *)
Definition npts (lines : list (list pt)) : nat := fold_right (fun l n => (length l + n)%nat) 0%nat lines.
Lemma npts_app a b : npts (a ++ b) = (npts a + npts b)%nat.
Proof. unfold npts. induction a as [|x a IH]; cbn [app fold_right]; [reflexivity|]. rewrite IH. lia. Qed.

Lemma geom_loop_total f : forall total gtype first fp lines g, (length g <= f)%nat ->
  geom_loop f total gtype first fp lines g <> NoFuel.
Proof.
  induction f as [|f IH]; intros total gtype first fp lines g Hg.
  - destruct g; cbn in Hg; [|lia]. cbn. discriminate.
  - destruct g as [|c r]; cbn [geom_loop]; [discriminate|]. cbn in Hg.
    destruct (c =? 9); [|apply IH; lia].
    destruct r as [|x [|y r2]]; try discriminate.
    match goal with |- bind ?e _ <> _ => destruct e as [fp1| |] eqn:E1 end; cbn [bind]; try discriminate.
    2:{ destruct (negb first && _); [destruct fp; discriminate|discriminate]. }
    destruct r2 as [|cmd r3]; [discriminate|].
    destruct (read_pairs r3 (Z.shiftr cmd 3) fp1) as [[ps fp2] r4] eqn:E2.
    apply read_pairs_len in E2. cbn in Hg. apply IH. lia.
Qed.

Lemma geom_loop_wf f : forall total gtype first fp lines g out,
  Forall (fun l => l <> []) lines ->
  (total = 3 -> first = true /\ lines = [] /\ length g = 3%nat \/ first = false) ->
  geom_loop f total gtype first fp lines g = Ok out ->
  Forall (fun l => l <> []) out.
Proof.
  induction f as [|f IH]; intros total gtype first fp lines g out Hl Ht E.
  - destruct g; cbn in E; [injection E as <-; auto|discriminate].
  - destruct g as [|c r]; cbn [geom_loop] in E; [injection E as <-; auto|].
    destruct (c =? 9); [|eapply IH in E; eauto].
    destruct r as [|x [|y r2]]; try discriminate.
    match type of E with bind ?e _ = _ => destruct e as [fp1| |] eqn:E1 end; cbn [bind] in E; try discriminate.
    set (lines1 := if total =? 3 then [[fp1]] else lines) in *.
    assert (H1 : Forall (fun l => l <> []) lines1).
    { subst lines1. destruct (total =? 3); auto. repeat constructor. discriminate. }
    destruct r2 as [|cmd r3]; [injection E as <-; auto|].
    destruct (read_pairs r3 (Z.shiftr cmd 3) fp1) as [[ps fp2] r4] eqn:E2.
    eapply IH in E; eauto. apply Forall_app. split; auto. repeat constructor. discriminate.
Qed.

(** Points come from parameter pairs: at most one per two commands. *)
Lemma geom_loop_npts f : forall total gtype first fp lines g out,
  total <> 3 ->
  geom_loop f total gtype first fp lines g = Ok out ->
  (2 * npts out <= 2 * npts lines + length g)%nat.
Proof.
  induction f as [|f IH]; intros total gtype first fp lines g out Ht E.
  - destruct g; cbn in E; [injection E as <-; lia|discriminate].
  - destruct g as [|c r]; cbn [geom_loop] in E; [injection E as <-; lia|].
    destruct (c =? 9); [|apply IH in E; auto; cbn; lia].
    destruct r as [|x [|y r2]]; try discriminate.
    match type of E with bind ?e _ = _ => destruct e as [fp1| |] eqn:E1 end; cbn [bind] in E; try discriminate.
    destruct (Z.eqb_spec total 3); [contradiction|].
    destruct r2 as [|cmd r3]; [injection E as <-; cbn; lia|].
    destruct (read_pairs r3 (Z.shiftr cmd 3) fp1) as [[ps fp2] r4] eqn:E2.
    apply read_pairs_len in E2. apply IH in E; auto. rewrite npts_app in E. cbn in *. lia.
Qed.

Lemma close_line_closed l : l <> [] -> close_line l <> [] /\ hd (0, 0) (close_line l) = last (close_line l) (0, 0).
Proof.
  destruct l as [|f r]; [congruence|]. intros _. unfold close_line.
  destruct (pt_eqb f (last (f :: r) f)) eqn:E.
  - split; [discriminate|]. apply pt_eqb_eq in E. rewrite (last_ne (f :: r) (0, 0) f) by discriminate. exact E.
  - split; [destruct r; discriminate|]. rewrite last_app1. reflexivity.
Qed.

(** Spec of a decoded ring and polygon. *)
Definition ring_closed (l : list (Z * Z)) : Prop := l <> [] /\ hd (0, 0) l = last l (0, 0).

Definition holes_ok (p : list (list pt)) : Prop := Forall (fun r => surveyor r <= 0) (tl p).
Definition shell_ok (p : list (list pt)) : Prop := match p with r :: _ => 0 < surveyor r | [] => False end.

Lemma append_last_inv ps line : Forall (fun p => p <> []) ps -> Forall holes_ok ps -> Forall shell_ok (tl ps) -> surveyor line <= 0 ->
  Forall (fun p => p <> []) (append_last ps line) /\ Forall holes_ok (append_last ps line) /\ Forall shell_ok (tl (append_last ps line)).
Proof.
  intros Hn Hh Hs Hl. destruct (rev ps) as [|p q] eqn:E.
  - apply (f_equal (@rev _)) in E. rewrite rev_involutive in E. cbn in E. subst. cbn.
    repeat split; repeat constructor. discriminate.
  - apply (f_equal (@rev _)) in E. rewrite rev_involutive in E. cbn in E. subst ps.
    rewrite append_last_snoc. apply Forall_app in Hn, Hh. destruct Hn as [Hn1 Hn2], Hh as [Hh1 Hh2].
    inversion Hn2; subst. inversion Hh2; subst.
    assert (Hne : p ++ [line] <> []) by (destruct p; discriminate).
    assert (Hho : holes_ok (p ++ [line])).
    { unfold holes_ok in *. destruct p; [congruence|]. cbn in *. apply Forall_app. split; auto. }
    repeat split.
    + apply Forall_app. auto.
    + apply Forall_app. auto.
    + destruct (rev q); cbn in *; [constructor|]. apply Forall_app in Hs. destruct Hs as [Hs1 Hs2].
      apply Forall_app. split; auto. inversion Hs2; subst. constructor; auto. destruct p; [congruence|]. match goal with H : shell_ok (_ :: _) |- _ => exact H end.
Qed.

Lemma group_rings_inv lines : forall ps, Forall (fun p => p <> []) ps -> Forall holes_ok ps -> Forall shell_ok (tl ps) ->
  let out := group_rings lines ps in
  Forall (fun p => p <> []) out /\ Forall holes_ok out /\ Forall shell_ok (tl out).
Proof.
  induction lines as [|l r IH]; intros ps H1 H2 H3; cbn [group_rings]; auto.
  rewrite SignedArea_surveyor. destruct (surveyor l >? 0) eqn:E.
  - apply IH.
    + apply Forall_app. split; auto. repeat constructor. discriminate.
    + apply Forall_app. split; auto. repeat constructor.
    + destruct ps as [|p ps]; cbn; [constructor|]. cbn in H3. apply Forall_app. split; auto. repeat constructor. cbn. lia.
  - destruct (append_last_inv ps l H1 H2 H3 ltac:(lia)) as (A & B & C). apply IH; auto.
Qed.

Lemma append_last_concat ps l : concat (append_last ps l) = concat ps ++ [l].
Proof.
  induction ps as [|p [|p' ps'] IHp]; auto.
  - cbn. rewrite !app_nil_r. reflexivity.
  - change (append_last (p :: p' :: ps') l) with (p :: append_last (p' :: ps') l).
    cbn [concat] in *. rewrite IHp. rewrite <- !app_assoc. reflexivity.
Qed.

Lemma group_rings_concat lines : forall ps, concat (group_rings lines ps) = concat ps ++ lines.
Proof.
  induction lines as [|l r IH]; intros ps; cbn [group_rings]; [rewrite app_nil_r; auto|].
  rewrite IH. replace (concat (if SignedArea l >? 0 then ps ++ [[l]] else append_last ps l)) with (concat ps ++ [l]).
  - rewrite <- app_assoc. reflexivity.
  - destruct (SignedArea l >? 0); [rewrite concat_app; reflexivity|].
    symmetry. apply append_last_concat.
Qed.

(** C74: decoding terminates on every command list. *)
Theorem C74_decoder_terminates : forall gtype cmds, LoadGeometryCmds gtype cmds <> NoFuel.
Proof.
  intros gtype g. unfold LoadGeometryCmds.
  pose proof (geom_loop_total (length g) (zlen g) gtype true None [] g (le_n _)) as H.
  destruct (geom_loop (length g) (zlen g) gtype true None [] g) as [lines| |]; cbn [bind]; try congruence.
  destruct (gtype =? 3).
  - destruct (match map close_line lines with [l] => [[l]] | _ => group_rings (map close_line lines) [] end) as [|p [|]]; discriminate.
  - destruct (gtype =? 1); [destruct lines as [|[|p [|]]]; discriminate|].
    destruct (gtype =? 2); [destruct lines as [|l [|]]; discriminate|discriminate].
Qed.
Print Assumptions C74_decoder_terminates.

(** Every ring of a decoded polygon is closed, holes have non-positive area and, in a
    multipolygon, every polygon after the first starts with a ring of positive area. *)
Theorem C74_decoded_polygons_wellformed : forall cmds g, LoadGeometryCmds 3 cmds = Ok g ->
  exists polys,
    (g = GMultiPolygon polys \/ exists p, polys = [p] /\ g = GPolygon p) /\
    (forall p r, In p polys -> In r p -> ring_closed r) /\
    (forall p r, In p polys -> In r (tl p) -> surveyor r <= 0) /\
    (forall p, In p (tl polys) -> exists r hs, p = r :: hs /\ 0 < surveyor r).
Proof.
  intros cmds g. unfold LoadGeometryCmds.
  destruct (geom_loop (length cmds) (zlen cmds) 3 true None [] cmds) as [lines| |] eqn:E; cbn [bind]; try discriminate.
  change (3 =? 3) with true. cbn iota.
  assert (Hl : Forall (fun l => l <> []) lines).
  { eapply geom_loop_wf; [| |exact E]; [constructor|]. intros Ht. left. unfold zlen in Ht. repeat split. lia. }
  assert (Hc : forall r, In r (map close_line lines) -> ring_closed r).
  { intros r Hr. apply in_map_iff in Hr. destruct Hr as (l & <- & Hin). apply close_line_closed.
    rewrite Forall_forall in Hl. auto. }
  set (lines' := map close_line lines) in *. clearbody lines'.
  set (polys := match lines' with [l] => [[l]] | _ => group_rings lines' [] end).
  assert (Hp : Forall (fun p => p <> []) polys /\ Forall holes_ok polys /\ Forall shell_ok (tl polys) /\ concat polys = lines').
  { destruct (group_rings_inv lines' [] ltac:(constructor) ltac:(constructor) ltac:(constructor)) as (A & B & C).
    pose proof (group_rings_concat lines' []) as D. cbn [concat app] in D.
    subst polys. destruct lines' as [|l [|l2 r]]; auto.
    repeat split; repeat constructor; try discriminate. }
  destruct Hp as (_ & Hh & Hs & Hcat).
  intros X. exists polys. split; [|split; [|split]].
  - destruct polys as [|p [|p2 r]]; injection X as <-; eauto.
  - intros p r Hp Hr. apply Hc. rewrite <- Hcat. apply in_concat. eauto.
  - intros p r Hp Hr. rewrite Forall_forall in Hh. specialize (Hh p Hp). unfold holes_ok in Hh. rewrite Forall_forall in Hh. auto.
  - intros p Hp. rewrite Forall_forall in Hs. specialize (Hs p Hp). destruct p as [|r hs]; [destruct Hs|]. exists r, hs. split; auto.
Qed.
Print Assumptions C74_decoded_polygons_wellformed.

(** All points of a geometry. *)
Definition points_of (g : geomdata) : nat :=
  match g with
  | GPoint _ => 1%nat
  | GMultiPoint ps => length ps
  | GLineString l => length l
  | GMultiLineString ls => length (concat ls)
  | GPolygon rs => length (concat rs)
  | GMultiPolygon ps => length (concat (concat ps))
  | GNil => 0%nat
  end.

Lemma npts_concat ls : npts ls = length (concat ls).
Proof. unfold npts. induction ls as [|a ls IH]; cbn [fold_right concat]; auto. rewrite app_length, IH. reflexivity. Qed.

(** Lines and points carry at most one point per two commands (plus one). *)
Theorem C74_no_invented_points : forall gtype cmds g, gtype = 1 \/ gtype = 2 ->
  LoadGeometryCmds gtype cmds = Ok g -> (2 * points_of g <= length cmds)%nat.
Proof.
  intros gtype cmds g Hg. unfold LoadGeometryCmds.
  destruct (geom_loop (length cmds) (zlen cmds) gtype true None [] cmds) as [lines| |] eqn:E; cbn [bind]; try discriminate.
  assert (Hn : (2 * npts lines <= length cmds)%nat).
  { destruct (Z.eq_dec (zlen cmds) 3) as [H3|H3].
    - unfold zlen in H3. destruct cmds as [|a [|b [|c [|]]]]; cbn in H3; try lia.
      cbn [length geom_loop] in E. cbn. destruct (a =? 9).
      + change (zlen [a; b; c] =? 3) with true in E. cbn [negb andb bind] in E. injection E as <-. cbn. lia.
      + change (zlen [a; b; c] =? 3) with true in E.
        destruct (b =? 9); [discriminate|]. destruct (c =? 9); [discriminate|]. injection E as <-. cbn. lia.
    - apply geom_loop_npts in E; auto. }
  destruct (Z.eqb_spec gtype 3); [lia|]. destruct (Z.eqb_spec gtype 1).
  - destruct lines as [|l ls]; [discriminate|]. destruct l as [|p [|p2 r]]; intros X; injection X as <-; cbn in *; lia.
  - destruct (Z.eqb_spec gtype 2); [|lia]. destruct lines as [|l [|l2 ls]]; intros X; injection X as <-; cbn [points_of].
    + cbn. lia.
    + cbn in Hn. lia.
    + rewrite <- npts_concat. exact Hn.
Qed.
Print Assumptions C74_no_invented_points.

(** An open square without ClosePath is closed by the reader; truncated commands are an error. *)
Example C74_nonvacuous :
  LoadGeometryCmds 3 [9; 0; 0; 26; 2; 0; 0; 2; 1; 0] = Ok (GPolygon [[(0, 0); (1, 0); (1, 1); (0, 1); (0, 0)]]) /\
  LoadGeometryCmds 2 [9; 0] = Panic.
Proof. vm_compute. auto. Qed.
