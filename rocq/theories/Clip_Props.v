(** Properties C25-C29, C32, C75, C76: clipping lines and polygons. *)
From Coq Require Import ZArith Reals List Bool Lia Lra.
From Flocq Require Import Core BinarySingleNaN.
From Verif Require Import GoBase Num Tileid_Model TileF64_Model TileR_Model TileR_Proofs MvtGeom_Model
  Clip_Model Clip_Spec Clip_Proofs ClipRing_Proofs.
Import ListNotations.
Open Scope R_scope.

(** ** C25 *)
Section Band.
  Context {F : Type} (N : NumOps F) (S : F -> Prop).
  Hypothesis total : forall x y, S x -> S y -> nleb N x y = true \/ nleb N y x = true.
  Variables (k1 k2 : F) (axis ring : bool).
  Hypothesis (S1 : S k1) (S2 : S k2) (K : nleb N k1 k2 = true).

  Definition inb (p : F * F) : Prop := nleb N k1 (coord axis p) = true /\ nleb N (coord axis p) k2 = true.
  Let refl x : S x -> nleb N x x = true.
  Proof. intros H. destruct (total x x H H); auto. Qed.

  Lemma cut_coord a b v : coord axis (cut N axis a b v) = v.
  Proof. destruct a, b, axis; cbn; destruct (neqb _ _ _); reflexivity. Qed.

  Lemma inb_cut a b v : v = k1 \/ v = k2 -> inb (cut N axis a b v).
  Proof. intros H. unfold inb. rewrite cut_coord. destruct H; subst; auto. Qed.

  Lemma emit_inb p q : S (coord axis p) -> Forall inb (fst (emit N axis k1 k2 p q)).
  Proof.
    intros Hp. unfold emit. cbn [fst]. apply Forall_app; split; [|apply Forall_app; split].
    - destruct (nleb N (coord axis p) k1) eqn:E1.
      + destruct (nleb N k1 (coord axis q)); constructor; auto. apply inb_cut; auto.
      + destruct (nleb N k2 (coord axis p)) eqn:E2.
        * destruct (nleb N (coord axis q) k2); constructor; auto. apply inb_cut; auto.
        * constructor; auto. split.
          -- destruct (total k1 (coord axis p)); auto. congruence.
          -- destruct (total k2 (coord axis p)); auto. congruence.
    - destruct (_ && _); constructor; auto. apply inb_cut; auto.
    - destruct (_ && _); constructor; auto. apply inb_cut; auto.
  Qed.

  Lemma loop_inb r : forall p done cur done' cur' z,
    Forall (fun x => S (coord axis x)) (p :: r) -> Forall (Forall inb) done -> Forall inb cur ->
    clip_loop N axis ring k1 k2 p r done cur = (done', cur', z) ->
    Forall (Forall inb) done' /\ Forall inb cur' /\ S (coord axis z).
  Proof.
    induction r as [|q r IH]; intros p done cur done' cur' z HS Hd Hc E; cbn [clip_loop] in E.
    - injection E as <- <- <-. inversion HS; auto.
    - inversion HS as [|? ? Hp Hr]; subst. pose proof (emit_inb p q Hp) as He.
      destruct (emit N axis k1 k2 p q) as [em ex]. cbn [fst] in He.
      assert (Forall inb (cur ++ em)) by (apply Forall_app; auto).
      destruct (negb ring && ex); apply IH in E; auto. apply Forall_app; auto.
  Qed.

  Lemma clipLine_inb l pieces : Forall (fun x => S (coord axis x)) l ->
    clipLine N l k1 k2 axis ring = Ok pieces -> Forall (Forall inb) pieces.
  Proof.
    intros HS E. destruct l as [|p r]; [discriminate|]. cbn [clipLine] in E.
    destruct (clip_loop N axis ring k1 k2 p r [] []) as [[done cur] z] eqn:EL.
    destruct (loop_inb r p [] [] done cur z HS) as (Hd & Hc & Hz); auto.
    assert (E' := f_equal (fun r => match r with Ok a => a | _ => [] end) E). cbv beta iota in E'. rewrite <- E'. clear E E'.
    set (c2 := if nleb N k1 (coord axis z) && nleb N (coord axis z) k2 then cur ++ [z] else cur).
    assert (H2 : Forall inb c2).
    { unfold c2. destruct (nleb N k1 (coord axis z)) eqn:A, (nleb N (coord axis z) k2) eqn:B; cbn [andb]; auto.
      apply Forall_app; split; auto. constructor; auto. split; auto. }
    clearbody c2. assert (H3 : Forall inb (close_slice N ring c2)).
    { destruct c2 as [|f c2]; auto. cbn [close_slice]. destruct (_ && _ && _); auto.
      apply Forall_app; split; auto. inversion H2; auto. }
    destruct (close_slice N ring c2) eqn:EC; auto. apply Forall_app; split; auto.
  Qed.
End Band.

(** C25: every point of every piece lies in the band (exact arithmetic). *)
Theorem C25_in_band : forall l k1 k2 axis ring pieces, k1 <= k2 ->
  clipLine RNum l k1 k2 axis ring = Ok pieces ->
  forall piece p, In piece pieces -> In p piece -> in_band axis k1 k2 p.
Proof.
  intros l k1 k2 axis ring pieces Hk E piece p H1 H2.
  pose proof (clipLine_inb RNum (fun _ => True)) as H.
  specialize (H (fun x y _ _ => ltac:(cbn [RNum nleb]; rewrite !Rleb_true; lra)) k1 k2 axis ring I I).
  specialize (H ltac:(cbn [RNum nleb]; rewrite Rleb_true; lra) l pieces).
  specialize (H ltac:(apply Forall_forall; auto) E).
  rewrite Forall_forall in H. specialize (H _ H1). rewrite Forall_forall in H. specialize (H _ H2).
  destruct H as [A B]. cbn [RNum nleb] in A, B. rewrite Rleb_true in A, B. rewrite in_band_coord. auto.
Qed.
Print Assumptions C25_in_band.

(** The same, exactly, for the binary64 computation with finite inputs: no rounding error can
    push a point over the bound. *)
Theorem C25_in_band_binary64 : forall (l : list (f64 * f64)) (k1 k2 : f64) axis ring pieces,
  is_finite k1 = true -> is_finite k2 = true -> B2R k1 <= B2R k2 ->
  (forall p, In p l -> is_finite (fst p) = true /\ is_finite (snd p) = true) ->
  clipLine F64Num l k1 k2 axis ring = Ok pieces ->
  forall piece p, In piece pieces -> In p piece ->
    Bleb k1 (coord axis p) = true /\ Bleb (coord axis p) k2 = true.
Proof.
  intros l k1 k2 axis ring pieces F1 F2 Hk Hl E piece p H1 H2.
  pose proof (clipLine_inb F64Num (fun x => is_finite x = true)) as H.
  assert (HT : forall x y : f64, is_finite x = true -> is_finite y = true -> nleb F64Num x y = true \/ nleb F64Num y x = true).
  { intros x y Fx Fy. cbn [F64Num nleb]. rewrite !Bleb_correct by auto.
    destruct (Rle_bool_spec (B2R x) (B2R y)); auto. right. apply Rle_bool_true. lra. }
  specialize (H HT k1 k2 axis ring F1 F2).
  assert (HK : nleb F64Num k1 k2 = true) by (cbn [F64Num nleb]; rewrite Bleb_correct by auto; apply Rle_bool_true; auto).
  specialize (H HK l pieces). cbn beta in H.
  assert (HS : Forall (fun x : f64 * f64 => is_finite (coord axis x) = true) l).
  { apply Forall_forall. intros x Hx. destruct (Hl x Hx). destruct axis; auto. }
  specialize (H HS E).
  rewrite Forall_forall in H. specialize (H _ H1). rewrite Forall_forall in H. exact (H _ H2).
Qed.
Print Assumptions C25_in_band_binary64.

Example C25_nonvacuous : clipLine RNum [(0, 0); (4, 4)] 1 2 false false = Ok [[(1, 1); (2, 2)]].
Proof.
  cbn [clipLine clip_loop]. unfold emit. cbn [coord fst snd RNum nleb nltb]. fold RNum.
  repeat (match goal with
   | |- context [Rleb ?a ?b] => destruct (Rleb_spec a b); try lra
   | |- context [Rltb ?a ?b] => destruct (Rltb_spec a b); try lra end).
  cbn [andb orb negb app close_slice length]. unfold cut. cbn [RNum neqb nsub nzero nadd nmul ndiv].
  repeat (match goal with |- context [Reqb ?a ?b] => destruct (Reqb_spec a b); try lra end).
  replace (0 + (4 - 0) * ((1 - 0) / (4 - 0))) with 1 by field. replace (0 + (4 - 0) * ((2 - 0) / (4 - 0))) with 2 by field.
  cbn [fst]. destruct (Rleb_spec 4 2); [lra|]. rewrite andb_false_r. reflexivity.
Qed.

(** ** C26 *)
Theorem C26_line_clip_exact : forall l k1 k2 axis, k1 <= k2 -> l <> [] -> exists pieces,
  clipLine RNum l k1 k2 axis false = Ok pieces /\
  forall p, on_lines pieces p <-> on_line l p /\ in_band axis k1 k2 p.
Proof.
  intros l k1 k2 axis Hk Hl. destruct (clipLine_line l k1 k2 axis Hk Hl) as (ps & E & _ & H). eauto.
Qed.
Print Assumptions C26_line_clip_exact.

(** The band must be a real interval and the line must not be empty. *)
Theorem C26_empty_line_panics : forall k1 k2 axis ring, clipLine RNum [] k1 k2 axis ring = Panic.
Proof. reflexivity. Qed.
Print Assumptions C26_empty_line_panics.

Example C26_nonvacuous : on_line [(0, 0); (4, 4)] (3 / 2, 3 / 2) /\ in_band false 1 2 (3 / 2, 3 / 2).
Proof. split; [left; exists (3/8); cbn [fst snd]; lra|unfold in_band; cbn [fst]; lra]. Qed.

(** ** C27 *)
Definition far (a b : rpt) : Prop := Rabs (fst a - fst b) > Power7 \/ Rabs (snd a - snd b) > Power7.

Lemma DeltaFirstLast_far a b : DeltaFirstLast RNum Power7 a b = true <-> far a b.
Proof.
  unfold DeltaFirstLast, far. cbn [RNum nltb nabs nsub]. rewrite orb_true_iff, !Rltb_true. lra.
Qed.
Lemma not_far_refl a : ~ far a a.
Proof.
  unfold far. rewrite !Rminus_diag_eq, Rabs_R0 by auto. unfold Power7. lra.
Qed.

(** Every ring comes back closed, all its other points are kept, and it grows by one point
    exactly when its ends were further apart than 1e-7 on some axis. *)
Theorem C27_ring_repair : forall ring first, hd_error ring = Some first -> exists ring',
  LintRing RNum Power7 ring = Ok ring' /\
  hd_error ring' = Some first /\ last ring' first = first /\
  (far first (last ring first) -> ring' = ring ++ [first]) /\
  (~ far first (last ring first) -> length ring' = length ring /\
     forall i, (i < length ring - 1)%nat -> nth_error ring' i = nth_error ring i) /\
  LintRing RNum Power7 ring' = Ok ring'.
Proof.
  intros ring first Hhd. destruct ring as [|f r]; [discriminate|]. injection Hhd as ->.
  unfold LintRing at 1.
  assert (Hclosed : forall m, LintRing RNum Power7 (m ++ [first]) = Ok (m ++ [first]) \/ hd_error (m ++ [first]) <> Some first).
  { intros m. destruct (m ++ [first]) as [|g r'] eqn:E; [right; discriminate|].
    destruct (Req_EM_T (fst g) (fst first)), (Req_EM_T (snd g) (snd first));
      try (right; cbn; intros X; injection X as ->; congruence).
    left. assert (g = first) by (destruct g, first; cbn in *; congruence). subst g.
    unfold LintRing. rewrite <- E. rewrite last_last.
    destruct (DeltaFirstLast RNum Power7 first first) eqn:D.
    - apply DeltaFirstLast_far in D. destruct (not_far_refl _ D).
    - rewrite removelast_last. reflexivity. }
  destruct (DeltaFirstLast RNum Power7 first (last (first :: r) first)) eqn:D.
  - eexists. split; [reflexivity|]. split; [reflexivity|]. split; [apply last_last|].
    split; [auto|]. split; [intros H; apply DeltaFirstLast_far in D; contradiction|].
    destruct (Hclosed (first :: r)) as [H|H]; auto. destruct H; reflexivity.
  - assert (NF : ~ far first (last (first :: r) first)) by (rewrite <- DeltaFirstLast_far; congruence).
    assert (Hhd : hd_error (removelast (first :: r) ++ [first]) = Some first) by (destruct r; reflexivity).
    eexists. split; [reflexivity|]. split; [exact Hhd|]. split; [apply last_last|].
    split; [contradiction|]. split.
    + intros _. pose proof (app_removelast_last first (l := first :: r) ltac:(discriminate)) as E.
      assert (EL : length (removelast (first :: r)) = length r).
      { apply (f_equal (@length _)) in E. rewrite app_length in E. cbn [length] in E. lia. }
      split; [rewrite app_length, EL; cbn [length]; lia|].
      intros i Hi. rewrite E at 2. rewrite !nth_error_app1; auto; rewrite EL; cbn [length] in Hi; lia.
    + destruct (Hclosed (removelast (first :: r))) as [H|H]; auto. contradiction.
Qed.
Print Assumptions C27_ring_repair.

Theorem C27_polygon : forall rings, (forall r, In r rings -> r <> []) -> exists rings',
  LintPolygon RNum Power7 rings = Ok rings' /\ length rings' = length rings /\
  (forall r f, In r rings' -> hd_error r = Some f -> last r f = f) /\
  LintPolygon RNum Power7 rings' = Ok rings'.
Proof.
  unfold LintPolygon. induction rings as [|r rs IH]; intros H.
  - exists []. repeat split; auto. intros ? ? [].
  - destruct IH as (rs' & E & EL & HC & HI). { intros; apply H; right; auto. }
    destruct r as [|f r]; [destruct (H []); [left|]; auto|].
    destruct (C27_ring_repair (f :: r) f eq_refl) as (r' & E1 & E2 & E3 & _ & _ & E4).
    exists (r' :: rs'). cbn [map_res]. rewrite E1. cbn [bind]. rewrite E. cbn [bind]. split; auto. split; [cbn [length]; lia|]. split.
    + intros x g [<-|Hx] Hg; [|eauto]. assert (g = f) by congruence. subst; auto.
    + rewrite E4. cbn [bind]. rewrite HI. reflexivity.
Qed.
Print Assumptions C27_polygon.

Example C27_nonvacuous : far (0, 0) (1, 0) /\ ~ far (0, 0) (0, 0).
Proof.
  split; [|apply not_far_refl]. left. cbn [fst]. rewrite Rabs_minus_sym, Rminus_0_r, Rabs_R1. unfold Power7. lra.
Qed.

(** ** C28 *)
(** The coordinates a line-typed feature carries. *)
Definition lines_of (g : @cgeom R) : list (list rpt) :=
  match g with CLine l => [l] | CMultiLine ls => ls | _ => [] end.

Definition in_box (b : Extrema) (p : rpt) : Prop := eW b <= fst p <= eE b /\ eS b <= snd p <= eN b.

Lemma bounds_order t : eW (Bounds t) < eE (Bounds t) /\ eS (Bounds t) < eN (Bounds t).
Proof. pose proof (Center_inside t). lra. Qed.

(** A line that the longitude clip leaves in one piece is clipped exactly to the box. *)
Theorem C28_single_piece_exact : forall t l piece,
  clipLine RNum l (eW (Bounds t)) (eE (Bounds t)) false false = Ok [piece] ->
  exists g, ClipTile t (CLine l) = Ok g /\
    forall p, on_lines (lines_of g) p <-> on_line l p /\ in_box (Bounds t) p.
Proof.
  intros t l piece E. pose proof (bounds_order t) as [HB1 HB2].
  assert (Hl : l <> []) by (intros ->; discriminate).
  destruct (clipLine_line l (eW (Bounds t)) (eE (Bounds t)) false ltac:(lra) Hl) as (ps & E' & Hne & Hset).
  assert (ps = [piece]) by congruence. subst ps.
  assert (Hp : piece <> []) by (inversion Hne; auto).
  destruct (clipLine_line piece (eS (Bounds t)) (eN (Bounds t)) true ltac:(lra) Hp) as (ps & E2 & Hne2 & Hset2).
  unfold ClipTile, ClipTileB. unfold clip at 1. rewrite E. cbn [bind]. unfold clip. rewrite E2. cbn [bind].
  exists (match ps with [x] => CLine x | _ => CMultiLine ps end). split.
  - destruct ps as [|a [|b ps]]; reflexivity.
  - intros p. assert (EL : lines_of (match ps with [x] => CLine x | _ => CMultiLine ps end) = ps).
    { destruct ps as [|a [|b ps]]; reflexivity. }
    rewrite EL, Hset2. rewrite <- on_lines_1, Hset. unfold in_band, in_box. tauto.
Qed.
Print Assumptions C28_single_piece_exact.

(** Any other number of pieces, or any MultiLineString: the result has no geometry type and no
    coordinates at all. *)
Theorem C28_other_pieces_lost : forall t l pieces,
  clipLine RNum l (eW (Bounds t)) (eE (Bounds t)) false false = Ok pieces -> length pieces <> 1%nat ->
  ClipTile t (CLine l) = Ok CNone.
Proof.
  intros t l pieces E HL. unfold ClipTile, ClipTileB. unfold clip at 1. rewrite E. cbn [bind].
  destruct pieces as [|a [|b ps]]; cbn [length] in HL; try lia; reflexivity.
Qed.
Print Assumptions C28_other_pieces_lost.

Theorem C28_multiline_lost : forall t ls, ClipTile t (CMultiLine ls) = Ok CNone.
Proof. reflexivity. Qed.
Print Assumptions C28_multiline_lost.

(** Witness that coordinates inside the tile really are lost: a line that leaves the world tile
    to the east and comes back. *)
Example C28_lost_witness : let l := [(0, 0); (360, 0); (0, 0)] in
  ClipTile (mkTile 0 0 0) (CLine l) = Ok CNone /\ on_line l (0, 0) /\
  eW (Bounds (mkTile 0 0 0)) = -180 /\ eE (Bounds (mkTile 0 0 0)) = 180 /\ in_box (Bounds (mkTile 0 0 0)) (0, 0).
Proof.
  assert (EW : eW (Bounds (mkTile 0 0 0)) = -180).
  { unfold Bounds, Ul. cbn [eW pX tX tZ pow2 powerRZ]. unfold pow2; cbn [powerRZ]. lra. }
  assert (EE : eE (Bounds (mkTile 0 0 0)) = 180).
  { unfold Bounds, Ul. cbn [eE pX tX tZ Z.add]. unfold pow2; cbn [powerRZ]. lra. }
  intros l. split; [|split; [|split; [|split]]]; auto.
  - eapply C28_other_pieces_lost; [rewrite EW, EE|].
    + cbn [clipLine clip_loop l]. unfold emit. cbn [coord fst snd RNum nleb nltb]. fold RNum.
      repeat (match goal with
       | |- context [Rleb ?a ?b] => destruct (Rleb_spec a b); try lra
       | |- context [Rltb ?a ?b] => destruct (Rltb_spec a b); try lra end).
      cbn [andb orb negb app fst].
      repeat (match goal with |- context [Rleb ?a ?b] => destruct (Rleb_spec a b); try lra end).
      cbn [andb close_slice app]. reflexivity.
    + cbn [length]. lia.
  - left. apply seg_l.
  - unfold in_box. rewrite EW, EE. cbn [fst snd].
    destruct (Bounds_eq (mkTile 0 0 0)) as (_ & _ & EN & ES). rewrite EN, ES. cbn [tY tZ].
    pose proof (rowR_le 0 0 (pow2 0) ltac:(apply pow2_pos) ltac:(lra)) as H1.
    pose proof (rowR_lt 0 (0 + 1) (pow2 0) ltac:(apply pow2_pos) ltac:(lra)) as H2.
    assert (ER : rowR 0 (pow2 0) = 1 / 2).
    { unfold rowR, merc, pow2. cbn [powerRZ]. replace (0 * (PI / 180)) with 0 by lra. rewrite tan_0, cos_0.
      replace (0 + 1 / 1) with 1 by lra. rewrite ln_1. pose proof PI_pos. field. lra. }
    rewrite ER in *. split; [lra|]. split; [left; apply H2; lra|apply H1; lra].
Qed.

(** ** C75: clipping a polygon keeps even-odd membership inside the band *)

(** Ends exactly equal or further than 1e-7 apart (otherwise the ring repair moves the last
    vertex onto the first). *)
Definition ends_ok (ring : list rpt) : Prop :=
  exists f, hd_error ring = Some f /\ (last ring f = f \/ far f (last ring f)).

Lemma lint_parity ring p : ends_ok ring -> exists ring' f,
  LintRing RNum Power7 ring = Ok ring' /\ hd_error ring' = Some f /\ last ring' f = f /\
  parity p (ring_edges ring') = parity p (ring_edges ring).
Proof.
  intros (f & Hf & H). destruct ring as [|x r]; [discriminate|]. injection Hf as ->.
  unfold LintRing. destruct (DeltaFirstLast RNum Power7 f (last (f :: r) f)) eqn:D.
  - exists ((f :: r) ++ [f]), f. repeat split; [apply last_last|].
    rewrite (ring_parity_chain p _ f), (ring_parity_chain p (f :: r) f) by reflexivity.
    rewrite <- app_assoc. cbn [app]. change (f :: r ++ [f; f]) with ((f :: r) ++ [f; f]).
    rewrite chain_snoc, crosses_refl. apply xorb_false_r.
  - destruct H as [H|H]; [|apply DeltaFirstLast_far in H; congruence].
    exists (f :: r), f. rewrite <- H at 2. rewrite <- app_removelast_last by discriminate. auto.
Qed.

Lemma even_odd_app a b p : even_odd (a ++ b) p = xorb (even_odd a p) (even_odd b p).
Proof.
  induction a as [|x a IH]; [symmetry; apply xorb_false_l|]. cbn [app even_odd fold_right].
  fold (even_odd (a ++ b) p). fold (even_odd a p). rewrite IH. symmetry. apply xorb_assoc.
Qed.

(** One band: for every point strictly inside it, the clipped polygon contains the point iff
    the original does (even-odd rule). *)
Theorem C75_polygon_band : forall (rings : list (list rpt)) (k1 k2 : R) (axis : bool) (p : rpt),
  (forall r, In r rings -> ends_ok r) ->
  k1 < (if axis then snd p else fst p) < k2 ->
  exists rings', clip RNum Power7 (CPolygon rings) k1 k2 axis = Ok (CPolygon rings') /\
    (forall r, In r rings' -> r <> []) /\ even_odd rings' p = even_odd rings p.
Proof.
  intros rings k1 k2 axis p Hr Hp.
  assert (Hp' : k1 < coord axis p < k2) by (destruct axis; exact Hp).
  cut (exists mid rings', LintPolygon RNum Power7 rings = Ok mid /\ clipLines RNum mid k1 k2 axis true = Ok rings' /\
    (forall r, In r rings' -> r <> []) /\ even_odd rings' p = even_odd rings p).
  { intros (mid & rings' & E1 & E2 & E3 & E4). exists rings'. unfold clip. rewrite E1. cbn [bind]. rewrite E2. auto. }
  induction rings as [|r rs IH].
  - exists (@nil (list rpt)), (@nil (list rpt)). repeat split; auto.
  - destruct IH as (mid & rs' & E1 & E2 & E3 & E4). { intros; apply Hr; right; auto. }
    destruct (lint_parity r p (Hr r (or_introl eq_refl))) as (r' & f & L1 & L2 & L3 & L4).
    destruct (clipLine_ring axis k1 k2 p Hp' r' f L2 L3) as (ps & P1 & _ & P2 & P3).
    exists (r' :: mid), (ps ++ rs'). unfold LintPolygon in *. cbn [map_res clipLines]. rewrite L1. cbn [bind]. rewrite E1, P1. cbn [bind]. rewrite E2. cbn [bind].
    repeat split; auto.
    + intros x Hx. apply in_app_iff in Hx. destruct Hx; auto. rewrite Forall_forall in P2; auto.
    + rewrite even_odd_app, P3, L4, E4. reflexivity.
Qed.
Print Assumptions C75_polygon_band.

(** Both axes: ClipTile keeps even-odd membership for every point strictly inside the tile,
    provided the ring repair before the second clip moves nothing. *)
Theorem C75_clip_tile : forall t (rings : list (list rpt)) (p : rpt),
  (forall r, In r rings -> ends_ok r) ->
  eW (Bounds t) < fst p < eE (Bounds t) -> eS (Bounds t) < snd p < eN (Bounds t) ->
  (forall mid r, clip RNum Power7 (CPolygon rings) (eW (Bounds t)) (eE (Bounds t)) false = Ok (CPolygon mid) ->
     In r mid -> ends_ok r) ->
  (exists rings', ClipTile t (CPolygon rings) = Ok (CPolygon rings') /\ even_odd rings' p = even_odd rings p) \/
  (ClipTile t (CPolygon rings) = Panic /\ even_odd rings p = false).
Proof.
  intros t rings p Hr Hx Hy Hm.
  destruct (C75_polygon_band rings _ _ false p Hr Hx) as (mid & E1 & N1 & P1).
  destruct (C75_polygon_band mid _ _ true p (fun r H => Hm mid r E1 H) Hy) as (fin & E2 & N2 & P2).
  unfold ClipTile, ClipTileB. rewrite E1. cbn [bind]. rewrite E2. cbn [bind].
  destruct fin as [|f fin].
  - right. split; [reflexivity|]. rewrite <- P1, <- P2. reflexivity.
  - left. exists (f :: fin). split; [|congruence]. cbn [makefeature]. destruct f; auto.
    destruct (N2 []); [left|]; auto.
Qed.
Print Assumptions C75_clip_tile.

Example C75_nonvacuous : ends_ok [(0, 0); (4, 0); (4, 4); (0, 4); (0, 0)] /\
  even_odd [[(0, 0); (4, 0); (4, 4); (0, 4); (0, 0)]] (1, 1) = true.
Proof.
  split.
  - exists (0, 0). split; auto.
  - cbn [even_odd fold_right ring_edges edges app parity fst snd]. unfold crosses. cbn [fst snd].
    repeat (match goal with
     | |- context [Rleb ?a ?b] => destruct (Rleb_spec a b); try lra
     | |- context [Rltb ?a ?b] => destruct (Rltb_spec a b); try lra end); reflexivity.
Qed.

(** A clipped ring of at least four points is closed. *)
Theorem C75_clipped_rings_closed : forall (ring : list rpt) k1 k2 axis pieces piece,
  clipLine RNum ring k1 k2 axis true = Ok pieces -> In piece pieces -> (4 <= length piece)%nat ->
  exists f m, piece = f :: m ++ [f].
Proof.
  intros ring k1 k2 axis pieces piece E Hin HL. destruct ring as [|p r]; [discriminate|]. cbn [clipLine] in E.
  destruct (clip_loop RNum axis true k1 k2 p r [] []) as [[done cur] z] eqn:EL.
  assert (D : done = []).
  { assert (G : forall r p done cur d c z, clip_loop RNum axis true k1 k2 p r done cur = (d, c, z) -> d = done).
    { clear. induction r as [|q r IH]; intros p done cur d c z E; cbn [clip_loop] in E; [congruence|].
      destruct (emit RNum axis k1 k2 p q) as [em ex]. cbn [negb andb] in E. eauto. }
    eauto. }
  subst done. set (cur1 := if _ : bool then cur ++ [z] else cur) in E. clearbody cur1.
  destruct cur1 as [|f c1]; [cbn [close_slice] in E; assert (pieces = []) by congruence; subst; destruct Hin|].
  unfold close_slice in E. cbn [andb] in E.
  destruct (3 <=? length (f :: c1) - 1)%nat eqn:E3; cbn [andb] in E.
  - destruct (pt_neqb RNum (last (f :: c1) f) f) eqn:EN.
    + assert (pieces = [(f :: c1) ++ [f]]) by (cbn [app] in *; congruence). subst pieces. destruct Hin as [<-|[]].
      exists f, c1. reflexivity.
    + assert (pieces = [f :: c1]) by (cbn [app] in E; congruence). subst pieces. destruct Hin as [<-|[]].
      unfold pt_neqb in EN. cbn [RNum neqb] in EN.
      assert (EQ : last (f :: c1) f = f).
      { destruct (last (f :: c1) f) as [a b], f as [c d]. cbn [fst snd] in EN.
        destruct (Reqb_spec a c), (Reqb_spec b d); cbn [negb orb] in EN; try discriminate. congruence. }
      destruct c1 as [|g c1]; [cbn [length] in E3; discriminate|].
      exists f, (removelast (g :: c1)). f_equal. rewrite (app_removelast_last f) at 1 by discriminate. f_equal. f_equal.
      rewrite <- EQ at 2. reflexivity.
  - assert (pieces = [f :: c1]) by (cbn [app] in E; congruence). subst pieces. destruct Hin as [<-|[]].
    apply Nat.leb_gt in E3. cbn [length] in *. lia.
Qed.
Print Assumptions C75_clipped_rings_closed.

(** With three points it is not: the tip of a triangle comes back as an open ring. *)
Theorem C75_triangle_tip_open_refuted : exists (tri : list rpt) k1 k2 f m l,
  (exists a m', tri = a :: m' ++ [a]) /\
  clipLine RNum tri k1 k2 false true = Ok [f :: m ++ [l]] /\ l <> f.
Proof.
  exists [(0, 0); (2, 1); (0, 2); (0, 0)], 1, 3, (1, 1 / 2), [(2, 1)], (1, 3 / 2). split; [exists (0, 0), [(2, 1); (0, 2)]; reflexivity|].
  split; [|intros E; apply (f_equal snd) in E; cbn [snd] in E; lra].
  cbn [clipLine clip_loop]. unfold emit. cbn [coord fst snd RNum nleb nltb]. fold RNum.
  repeat (match goal with
   | |- context [Rleb ?a ?b] => destruct (Rleb_spec a b); try lra
   | |- context [Rltb ?a ?b] => destruct (Rltb_spec a b); try lra end).
  cbn [andb orb negb app fst].
  repeat (match goal with |- context [Rleb ?a ?b] => destruct (Rleb_spec a b); try lra end).
  unfold cut. cbn [RNum neqb nsub nadd nmul ndiv nzero].
  repeat (match goal with |- context [Reqb ?a ?b] => destruct (Reqb_spec a b); try lra end).
  cbn [andb close_slice app length Nat.sub Nat.leb]. 
  replace (0 + (1 - 0) * ((1 - 0) / (2 - 0))) with (1 / 2) by field.
  replace (1 + (2 - 1) * ((1 - 2) / (0 - 2))) with (3 / 2) by field. reflexivity.
Qed.
Print Assumptions C75_triangle_tip_open_refuted.

(** ** C79: multipolygons *)
Definition polygons_of (g : @cgeom R) : list (list (list rpt)) :=
  match g with CPolygon m => [m] | CMultiPolygon ms => ms | _ => [] end.

(** Clipping a multipolygon keeps, for every point strictly inside the band, the number of
    member polygons containing it; no member polygon and no ring of the result is empty. *)
Theorem C79_multipolygon_band : forall (ps : list (list (list rpt))) (k1 k2 : R) (axis : bool) (p : rpt),
  (forall rings r, In rings ps -> In r rings -> ends_ok r) ->
  k1 < (if axis then snd p else fst p) < k2 ->
  exists g, clip RNum Power7 (CMultiPolygon ps) k1 k2 axis = Ok g /\
    (forall m, In m (polygons_of g) -> m <> [] /\ forall r, In r m -> r <> []) /\
    length (filter (fun m => even_odd m p) (polygons_of g)) = length (filter (fun m => even_odd m p) ps).
Proof.
  intros ps k1 k2 axis p Hr Hp.
  cut (exists mid ms, LintMultiPolygon RNum Power7 ps = Ok mid /\ clipMultiPolygon RNum mid k1 k2 axis true = Ok ms /\
    (forall m, In m ms -> m <> [] /\ forall r, In r m -> r <> []) /\
    length (filter (fun m => even_odd m p) ms) = length (filter (fun m => even_odd m p) ps)).
  { intros (mid & ms & E1 & E2 & E3 & E4). unfold clip. rewrite E1. cbn [bind]. rewrite E2. cbn [bind].
    eexists. split; [reflexivity|]. assert (EP : polygons_of (match ms with [m] => CPolygon m | _ => CMultiPolygon ms end) = ms).
    { destruct ms as [|m [|m' ms]]; reflexivity. }
    rewrite EP. auto. }
  induction ps as [|rings ps IH].
  - exists [], []. repeat split; auto; destruct H.
  - destruct IH as (mid & ms & E1 & E2 & E3 & E4). { intros rr r H1 H2. apply (Hr rr r); [right|]; auto. }
    destruct (C75_polygon_band rings k1 k2 axis p (fun r H => Hr rings r (or_introl eq_refl) H) Hp) as (rs' & C1 & C2 & C3).
    unfold clip in C1. destruct (LintPolygon RNum Power7 rings) as [rs1| |] eqn:L1; cbn [bind] in C1; try discriminate.
    destruct (clipLines RNum rs1 k1 k2 axis true) as [rs2| |] eqn:L2; cbn [bind] in C1; try discriminate.
    assert (rs2 = rs') by congruence. subst rs2.
    exists (rs1 :: mid), (match rs' with [] => ms | _ => rs' :: ms end). unfold LintMultiPolygon in *. cbn [map_res clipMultiPolygon].
    rewrite L1. cbn [bind]. rewrite E1. cbn [bind]. rewrite L2. cbn [bind]. rewrite E2. cbn [bind]. split; auto. split; auto. split.
    + intros m Hm. destruct rs' as [|r0 rs']; auto. destruct Hm as [<-|Hm]; auto. split; [discriminate|auto].
    + cbn [filter]. rewrite <- C3. destruct rs' as [|r0 rs']; [exact E4|]. cbn [filter].
      destruct (even_odd (r0 :: rs') p); cbn [length]; congruence.
Qed.
Print Assumptions C79_multipolygon_band.

Example C79_nonvacuous : forall rings r, In rings [[[(0, 0); (4, 0); (4, 4); (0, 4); (0, 0)]]; [[(9, 0); (9, 1); (8, 1); (9, 0)]]] -> In r rings -> ends_ok r.
Proof. intros rings r [<-|[<-|[]]] [<-|[]]; eexists; split; [reflexivity|left; reflexivity|reflexivity|left; reflexivity]. Qed.

(** ** C29 *)
(** All vertices on one side of the band. *)
Definition misses (lo hi : R) (ring : list rpt) : Prop :=
  (forall p, In p ring -> fst p < lo) \/ (forall p, In p ring -> fst p > hi).

Lemma loop_misses lo hi r : lo <= hi -> forall p done, misses lo hi (p :: r) ->
  clip_loop RNum false true lo hi p r done [] = (done, [], last r p).
Proof.
  intros Hk. induction r as [|q r IH]; intros p done H; [reflexivity|]. cbn [clip_loop].
  pose proof (emit_cases false lo hi p q Hk) as HE. destruct (emit RNum false lo hi p q) as [em ex]. cbn [fst snd] in HE.
  assert (E : em = []).
  { assert (HH : coord false p < lo /\ coord false q < lo \/ coord false p > hi /\ coord false q > hi).
    { destruct H as [H|H]; [left|right]; split; apply H; cbn; auto. }
    inversion HE; subst; auto; lra. }
  subst em. cbn [negb andb app]. rewrite last_cons. apply IH.
  destruct H as [H|H]; [left|right]; intros x Hx; apply H; right; auto.
Qed.

Lemma clipLine_misses lo hi l : lo <= hi -> l <> [] -> misses lo hi l -> clipLine RNum l lo hi false true = Ok [].
Proof.
  intros Hk Hl H. destruct l as [|p r]; [congruence|]. cbn [clipLine]. rewrite loop_misses by auto.
  assert (Hz : In (last r p) (p :: r)).
  { clear. revert p. induction r as [|q r IH]; intros; [left; auto|]. rewrite last_cons. right. apply IH. }
  assert (E : nleb RNum lo (coord false (last r p)) && nleb RNum (coord false (last r p)) hi = false).
  { cbn [RNum nleb coord]. destruct (Rleb_spec lo (fst (last r p))), (Rleb_spec (fst (last r p)) hi); auto.
    destruct H as [H|H]; specialize (H _ Hz); lra. }
  rewrite E. reflexivity.
Qed.

Lemma In_removelast {A} (l : list A) x : In x (removelast l) -> In x l.
Proof.
  induction l as [|a l IH]; auto. destruct l; [intros []|]. cbn [removelast]. intros [H|H]; [left|right]; auto.
Qed.

Lemma lint_misses lo hi r r' : misses lo hi r -> LintRing RNum Power7 r = Ok r' -> misses lo hi r' /\ r' <> [].
Proof.
  intros H E. destruct r as [|f r]; [discriminate|]. cbn [LintRing] in E.
  assert (HI : forall x, In x r' -> In x (f :: r)).
  { destruct (DeltaFirstLast _ _ _ _); injection E as <-; intros x Hx.
    - change (f :: r ++ [f]) with ((f :: r) ++ [f]) in Hx. apply in_app_iff in Hx. destruct Hx as [Hx|[<-|[]]]; auto; left; auto.
    - apply in_app_iff in Hx. destruct Hx as [Hx|[<-|[]]]; [apply In_removelast; exact Hx|left; auto]. }
  split.
  - destruct H as [H|H]; [left|right]; auto.
  - destruct (DeltaFirstLast _ _ _ _); injection E as <-; [discriminate|]. intros X. apply app_eq_nil in X. destruct X; discriminate.
Qed.

(** ClipTile panics for every polygon none of whose rings reaches the tile's longitude band. *)
Theorem C29_outside_panics : forall t rings,
  (forall r, In r rings -> misses (eW (Bounds t)) (eE (Bounds t)) r) ->
  ClipTile t (CPolygon rings) = Panic.
Proof.
  intros t rings H. pose proof (bounds_order t) as [HB1 HB2].
  assert (H1 : clip RNum Power7 (CPolygon rings) (eW (Bounds t)) (eE (Bounds t)) false = Panic \/
               clip RNum Power7 (CPolygon rings) (eW (Bounds t)) (eE (Bounds t)) false = Ok (CPolygon [])).
  { cut (LintPolygon RNum Power7 rings = Panic \/
         exists mid, LintPolygon RNum Power7 rings = Ok mid /\ clipLines RNum mid (eW (Bounds t)) (eE (Bounds t)) false true = Ok []).
    { intros [E|(mid & E1 & E2)]; unfold clip; [rewrite E; auto|]. right. rewrite E1. cbn [bind]. rewrite E2. reflexivity. }
    unfold LintPolygon. induction rings as [|r rs IH]; [right; exists []; auto|]. cbn [map_res].
    destruct (LintRing RNum Power7 r) as [r'| |] eqn:E; cbn [bind]; auto.
    2:{ destruct r as [|f r]; [discriminate|]. cbn [LintRing] in E. destruct (DeltaFirstLast _ _ _ _); discriminate. }
    destruct IH as [IH|(mid & E1 & E2)]. { intros; apply H; right; auto. }
    - rewrite IH. auto.
    - right. exists (r' :: mid). rewrite E1. cbn [bind]. split; auto. cbn [clipLines].
      destruct (lint_misses _ _ r r' (H r (or_introl eq_refl)) E) as [M Hne].
      rewrite clipLine_misses by (auto; lra). cbn [bind]. rewrite E2. reflexivity. }
  unfold ClipTile, ClipTileB. destruct H1 as [-> | ->]; reflexivity.
Qed.
Print Assumptions C29_outside_panics.

Lemma clipLines_nonempty k1 k2 axis m : forall ls, clipLines RNum m k1 k2 axis true = Ok ls -> forall r, In r ls -> r <> [].
Proof.
  induction m as [|l m IH]; intros ls E r Hr; cbn [clipLines] in E; [injection E as <-; destruct Hr|].
  destruct (clipLine RNum l k1 k2 axis true) as [a| |] eqn:EA; try discriminate. cbn [bind] in E.
  destruct (clipLines RNum m k1 k2 axis true) as [b| |]; try discriminate. cbn [bind] in E. injection E as <-.
  apply in_app_iff in Hr. destruct Hr as [Hr|Hr]; [|eapply IH; eauto].
  destruct l as [|p l]; [discriminate|]. cbn [clipLine] in EA.
  assert (HD : forall r p done cur, fst (fst (clip_loop RNum axis true k1 k2 p r done cur)) = done).
  { clear. induction r; intros; [reflexivity|]. cbn [clip_loop]. destruct (emit _ _ _ _ _ _). cbn [negb andb]. auto. }
  specialize (HD l p [] []). destruct (clip_loop _ _ _ _ _ _ _ _ _) as [[done cur] z]. cbn [fst] in HD. subst done.
  destruct (close_slice _ _ _) eqn:EC; injection EA as <-; [destruct Hr|]. destruct Hr as [<-|[]]. discriminate.
Qed.

Lemma clip_polygon_total rs k1 k2 axis : (forall r, In r rs -> r <> []) ->
  exists m, clip RNum Power7 (CPolygon rs) k1 k2 axis = Ok (CPolygon m) /\ forall r, In r m -> r <> [].
Proof.
  intros Hrs. destruct (C27_polygon rs Hrs) as (rs' & E1 & _ & HC & E2).
  assert (Hrs' : forall r, In r rs' -> r <> []).
  { intros r Hr ->. revert E2 Hr. clear. unfold LintPolygon. generalize rs' at 2 as out. induction rs' as [|x rs' IH]; intros out E [].
    - subst x. discriminate.
    - cbn [map_res] in E. destruct (LintRing RNum Power7 x); try discriminate. cbn [bind] in E.
      destruct (map_res (LintRing RNum Power7) rs') eqn:E'; try discriminate. eapply IH; eauto. }
  assert (HL : exists m, clipLines RNum rs' k1 k2 axis true = Ok m).
  { clear - Hrs'. induction rs' as [|x rs' IH]; [exists []; auto|]. destruct IH as (m & E). { intros; apply Hrs'; right; auto. }
    destruct x as [|p r]; [destruct (Hrs' []); [left|]; auto|]. cbn [clipLines]. cbn [clipLine].
    destruct (clip_loop _ _ _ _ _ _ _ _ _) as [[done cur] z]. cbn [bind]. rewrite E. cbn [bind]. eauto. }
  destruct HL as (m & HL). exists m. unfold clip. rewrite E1. cbn [bind]. rewrite HL. split; auto.
  eapply clipLines_nonempty; eauto.
Qed.

(** With non-empty rings, it panics exactly when no ring survives both clips. *)
Theorem C29_panic_iff_nothing_left : forall t rings, (forall r, In r rings -> r <> []) ->
  exists mid fin,
  clip RNum Power7 (CPolygon rings) (eW (Bounds t)) (eE (Bounds t)) false = Ok (CPolygon mid) /\
  clip RNum Power7 (CPolygon mid) (eS (Bounds t)) (eN (Bounds t)) true = Ok (CPolygon fin) /\
  (ClipTile t (CPolygon rings) = Panic <-> fin = []) /\
  (fin <> [] -> ClipTile t (CPolygon rings) = Ok (CPolygon fin)).
Proof.
  intros t rings Hne.
  destruct (clip_polygon_total rings (eW (Bounds t)) (eE (Bounds t)) false Hne) as (mid & E1 & N1).
  destruct (clip_polygon_total mid (eS (Bounds t)) (eN (Bounds t)) true N1) as (fin & E2 & N2).
  exists mid, fin. split; [exact E1|]. split; [exact E2|].
  unfold ClipTile, ClipTileB. rewrite E1. cbn [bind]. rewrite E2. cbn [bind].
  destruct fin as [|f fin]; [split; [split; auto|congruence]|].
  destruct f as [|q f]; [destruct (N2 []); [left|]; auto|].
  cbn [makefeature]. split; [split; discriminate|auto].
Qed.
Print Assumptions C29_panic_iff_nothing_left.

(** A polygon that contains (even-odd) some point strictly inside the tile is never lost. *)
Theorem C29_inside_survives : forall t (rings : list (list rpt)) (p : rpt),
  (forall r, In r rings -> ends_ok r) ->
  eW (Bounds t) < fst p < eE (Bounds t) -> eS (Bounds t) < snd p < eN (Bounds t) ->
  (forall mid r, clip RNum Power7 (CPolygon rings) (eW (Bounds t)) (eE (Bounds t)) false = Ok (CPolygon mid) ->
     In r mid -> ends_ok r) ->
  even_odd rings p = true -> exists rings', ClipTile t (CPolygon rings) = Ok (CPolygon rings').
Proof.
  intros t rings p Hr Hx Hy Hm Hin. destruct (C75_clip_tile t rings p Hr Hx Hy Hm) as [(r' & E & _)|[_ H]]; eauto.
  congruence.
Qed.
Print Assumptions C29_inside_survives.

Example C29_nonvacuous : misses (-180) 180 [(200, 0); (210, 0); (210, 10); (200, 0)].
Proof. right. intros p [<-|[<-|[<-|[<-|[]]]]]; cbn; lra. Qed.

(** ** C32 *)
Definition share (b : Extrema) (z : Z) (t : TileID) : Prop :=
  Tile (eE b) (eN b) z = t /\ Tile (eE b) (eS b) z = t /\ Tile (eW b) (eN b) z = t /\ Tile (eW b) (eS b) z = t.

Lemma tile_eqb_eq a b : tile_eqb a b = true <-> a = b.
Proof.
  destruct a as [x y z], b as [x' y' z']. unfold tile_eqb. cbn [tX tY tZ].
  rewrite !andb_true_iff, !Z.eqb_eq. split; [intros [[-> ->] ->]; auto|].
  intros E. split; [split|]; [apply (f_equal tX) in E|apply (f_equal tY) in E|apply (f_equal tZ) in E]; exact E.
Qed.

Lemma corners_share b z : forallb (fun c => tile_eqb (Tile (fst c) (snd c) z) (Tile (eE b) (eN b) z)) (corners b) = true
  <-> share b z (Tile (eE b) (eN b) z).
Proof.
  unfold corners, share. cbn [forallb fst snd]. rewrite !andb_true_iff, !tile_eqb_eq. tauto.
Qed.

Lemma share_down b z : (0 <= z < 2 ^ 64 - 1)%Z -> (exists t, share b (z + 1) t) -> exists t, share b z t.
Proof.
  intros Hz (t & H1 & H2 & H3 & H4). exists (mkTile (tX t / 2) (tY t / 2) z).
  unfold share. rewrite !(Tile_zoom_out _ _ z Hz), H1, H2, H3, H4. auto.
Qed.
Lemma share_le b (n : nat) : forall z, (0 <= z)%Z -> (z + Z.of_nat n < 2 ^ 64)%Z ->
  (exists t, share b (z + Z.of_nat n) t) -> exists t, share b z t.
Proof.
  induction n as [|n IH]; intros z Hz Hn H.
  - replace (z + Z.of_nat 0)%Z with z in H by lia. auto.
  - apply share_down; [lia|]. apply IH; [lia|lia|]. replace (z + 1 + Z.of_nat n)%Z with (z + Z.of_nat (S n))%Z by lia. auto.
Qed.

Lemma first_zoom_spec b : forall n i, (0 <= i)%Z -> (i + Z.of_nat n = 30)%Z ->
  (forall j, (0 <= j < i)%Z -> exists t, share b j t) ->
  let '(z, t) := first_zoom_loop n i b in
  ((forall j, (0 <= j < 30)%Z -> exists t, share b j t) /\ z = 30%Z /\ t = mkTile 0 0 30) \/
  ((i - 1 <= z < 29)%Z /\ t = Tile (eE b) (eN b) z /\ (forall j, (0 <= j <= z)%Z -> exists t, share b j t) /\
   ~ exists t, share b (z + 1) t).
Proof.
  induction n as [|n IH]; intros i Hi Hn Hb; cbn [first_zoom_loop].
  - left. split; auto. intros j Hj. apply Hb. lia.
  - destruct (forallb _ _) eqn:E.
    + apply corners_share in E. specialize (IH (i + 1)%Z ltac:(lia) ltac:(lia)).
      assert (Hb' : forall j, (0 <= j < i + 1)%Z -> exists t, share b j t).
      { intros j Hj. destruct (Z.eq_dec j i) as [->|]; [eauto|]. apply Hb; lia. }
      specialize (IH Hb'). destruct (first_zoom_loop n (i + 1) b) as [z t].
      destruct IH as [IH|(H1 & H2)]; [left; auto|right]. split; auto. lia.
    + right. split; [lia|]. split; auto. split; [intros; apply Hb; lia|].
      replace (i - 1 + 1)%Z with i by lia. intros (t & H). assert (X : share b i (Tile (eE b) (eN b) i)).
      { unfold share in *. destruct H as (-> & -> & -> & ->). auto. }
      apply corners_share in X. congruence.
Qed.

(** C32: when the four corners share the zoom-0 tile, GetFirstZoom returns the deepest zoom below
    30 at which they share a tile, and that tile; if they share one at every zoom below 30 it
    returns (30, 0/0/30). *)
Theorem C32_first_zoom : forall b, (exists t, share b 0 t) ->
  let '(z, t) := GetFirstZoom b in
  (z = 30 /\ t = mkTile 0 0 30 /\ forall j, 0 <= j < 30 -> exists t', share b j t')%Z \/
  (0 <= z < 29 /\ share b z t /\ forall j, z < j < 30 -> ~ exists t', share b j t')%Z.
Proof.
  intros b H0. unfold GetFirstZoom. pose proof (first_zoom_spec b 30 0 ltac:(lia) ltac:(reflexivity) ltac:(intros; lia)) as H.
  destruct (first_zoom_loop 30 0 b) as [z t]. destruct H as [(H1 & H2 & H3)|(H1 & H2 & H3 & H4)]; [left; auto|right].
  assert (Hz : (0 <= z)%Z).
  { destruct (Z.eq_dec z (-1)) as [->|]; [|lia]. contradiction. }
  split; [lia|]. split.
  - destruct (H3 z ltac:(lia)) as (t' & Ht'). subst t. unfold share in *. destruct Ht' as (-> & -> & -> & ->). auto.
  - intros j Hj Ht. apply H4. apply (share_le b (Z.to_nat (j - (z + 1))) (z + 1)); try lia.
    rewrite Z2Nat.id by lia. replace (z + 1 + (j - (z + 1)))%Z with j by lia. exact Ht.
Qed.
Print Assumptions C32_first_zoom.

(** Corners in different zoom-0 tiles (a box leaving the world): the zoom is -1. *)
Theorem C32_outside_world : forall b, ~ (exists t, share b 0 t) -> fst (GetFirstZoom b) = (-1)%Z.
Proof.
  intros b H. unfold GetFirstZoom. cbn [first_zoom_loop].
  destruct (forallb _ _) eqn:E; [|reflexivity]. apply corners_share in E. destruct H; eauto.
Qed.
Print Assumptions C32_outside_world.

(** A degenerate box (one point) shares every zoom: the answer is the tile 0/0/30 wherever the
    point is. *)
Example C32_nonvacuous : forall lng lat, GetFirstZoom (mkExt lng lng lat lat) = (30%Z, mkTile 0 0 30).
Proof.
  intros. set (b := mkExt lng lng lat lat). assert (H : forall j, exists t, share b j t).
  { intros j. exists (Tile lng lat j). unfold share, b. cbn [eE eW eN eS]. auto. }
  pose proof (C32_first_zoom b (H 0%Z)) as X. destruct (GetFirstZoom b) as [z t].
  destruct X as [(-> & -> & _)|(Hz & _ & Hn)]; auto. exfalso. apply (Hn (z + 1)%Z); auto. lia.
Qed.

(** ** C76: clipping down to the four children *)
Lemma child_edges x y z :
  eW (Bounds (mkTile x y z)) = eW (Bounds (mkTile (2 * x) (2 * y) (z + 1))) /\
  eE (Bounds (mkTile x y z)) = eE (Bounds (mkTile (2 * x + 1) (2 * y) (z + 1))) /\
  eN (Bounds (mkTile x y z)) = eN (Bounds (mkTile (2 * x) (2 * y) (z + 1))) /\
  eS (Bounds (mkTile x y z)) = eS (Bounds (mkTile (2 * x) (2 * y + 1) (z + 1))).
Proof.
  pose proof (Bounds_eq (mkTile x y z)) as H. pose proof (Bounds_eq (mkTile (2 * x) (2 * y) (z + 1))) as H0.
  pose proof (Bounds_eq (mkTile (2 * x + 1) (2 * y) (z + 1))) as H1. pose proof (Bounds_eq (mkTile (2 * x) (2 * y + 1) (z + 1))) as H2.
  cbv zeta in *. cbn [tX tY tZ] in *. rewrite pow2_succ in *. assert (Hn := pow2_pos z). set (n := pow2 z) in *.
  destruct H as (-> & -> & -> & ->), H0 as (-> & _ & -> & _), H1 as (_ & -> & _), H2 as (_ & _ & _ & ->).
  rewrite !plus_IZR, !mult_IZR. unfold edge_lat. repeat split; try (field; lra); do 2 f_equal; field; lra.
Qed.

(** The map holds, for each child tile, the geometry clipped to that child's own bounds in
    longitude and then latitude, unless that is empty; and nothing else. *)
Theorem C76_children_entries : forall x y z g m,
  (- 2 ^ 62 <= x < 2 ^ 62)%Z -> (- 2 ^ 62 <= y < 2 ^ 62)%Z -> (0 <= z < 2 ^ 64 - 1)%Z ->
  ClipDownTile (mkTile x y z) g = Ok m ->
  forall c gc, In (c, gc) m <->
    In c (Children (mkTile x y z)) /\ IsEmpty gc = false /\
    exists h, clip RNum Power7 g (eW (Bounds c)) (eE (Bounds c)) false = Ok h /\
              clip RNum Power7 h (eS (Bounds c)) (eN (Bounds c)) true = Ok gc.
Proof.
  intros x y z g m Hx Hy Hz E c gc.
  assert (E' : let b := Bounds (mkTile x y z) in
    match Children (mkTile x y z) with
    | [lut; rut; rdt; ldt] =>
      let cb := Bounds lut in
      let mx := eE cb in
      let my := eS cb in
      let! l := clip RNum Power7 g (eW b) mx false in
      let! r := clip RNum Power7 g mx (eE b) false in
      let! ld := clip RNum Power7 l (eS b) my true in
      let! lu := clip RNum Power7 l my (eN b) true in
      let! rd := clip RNum Power7 r (eS b) my true in
      let! ru := clip RNum Power7 r my (eN b) true in
      Ok (filter (fun e => negb (IsEmpty (snd e))) [(lut, lu); (rut, ru); (rdt, rd); (ldt, ld)])
    | _ => Panic
    end = Ok m).
  { unfold ClipDownTile in E. destruct g as [| |[|[|? ?] ?]| |]; try discriminate; exact E. }
  clear E. cbv zeta in E'. rewrite Children_eq in E' |- * by auto.
  destruct (child_edges x y z) as (EW & EE & EN & ES). rewrite EW, EE, EN, ES in E'. clear EW EE EN ES.
  set (c0 := mkTile (2 * x) (2 * y) (z + 1)) in *. set (c1 := mkTile (2 * x + 1) (2 * y) (z + 1)) in *.
  set (c2 := mkTile (2 * x + 1) (2 * y + 1) (z + 1)) in *. set (c3 := mkTile (2 * x) (2 * y + 1) (z + 1)) in *.
  assert (X1 : eE (Bounds c0) = eW (Bounds c1)) by reflexivity. assert (X2 : eE (Bounds c3) = eE (Bounds c0)) by reflexivity.
  assert (X3 : eW (Bounds c3) = eW (Bounds c0)) by reflexivity. assert (X4 : eW (Bounds c2) = eW (Bounds c1)) by reflexivity.
  assert (X5 : eE (Bounds c2) = eE (Bounds c1)) by reflexivity. assert (Y1 : eS (Bounds c0) = eN (Bounds c3)) by reflexivity.
  assert (Y2 : eS (Bounds c1) = eS (Bounds c0)) by reflexivity. assert (Y3 : eN (Bounds c1) = eN (Bounds c0)) by reflexivity.
  assert (Y4 : eS (Bounds c2) = eS (Bounds c3)) by reflexivity. assert (Y5 : eN (Bounds c2) = eN (Bounds c3)) by reflexivity.
  destruct (clip RNum Power7 g (eW (Bounds c0)) (eE (Bounds c0)) false) as [l| |] eqn:El; try discriminate. cbn [bind] in E'.
  rewrite X1 in E'. destruct (clip RNum Power7 g (eW (Bounds c1)) (eE (Bounds c1)) false) as [r| |] eqn:Er; try discriminate. cbn [bind] in E'.
  rewrite Y1 in E'.
  destruct (clip RNum Power7 l (eS (Bounds c3)) (eN (Bounds c3)) true) as [ld| |] eqn:Eld; try discriminate. cbn [bind] in E'.
  rewrite <- Y1 in E'.
  destruct (clip RNum Power7 l (eS (Bounds c0)) (eN (Bounds c0)) true) as [lu| |] eqn:Elu; try discriminate. cbn [bind] in E'.
  rewrite Y1 in E'.
  destruct (clip RNum Power7 r (eS (Bounds c3)) (eN (Bounds c3)) true) as [rd| |] eqn:Erd; try discriminate. cbn [bind] in E'.
  rewrite <- Y1 in E'.
  destruct (clip RNum Power7 r (eS (Bounds c0)) (eN (Bounds c0)) true) as [ru| |] eqn:Eru; try discriminate. cbn [bind] in E'.
  assert (Em := f_equal (fun r => match r with Ok a => a | _ => [] end) E'). cbv beta iota in Em. rewrite <- Em. clear E' Em.
  rewrite filter_In. cbn [snd In]. rewrite negb_true_iff.
  split.
  - intros [[H|[H|[H|[H|[]]]]] HN]; injection H as <- <-; (split; [tauto|]); (split; [exact HN|]).
    + exists l. auto.
    + exists r. rewrite Y2, Y3. auto.
    + exists r. rewrite X4, X5, Y4, Y5. auto.
    + exists l. rewrite X3, X2. auto.
  - intros ([<-|[<-|[<-|[<-|[]]]]] & HN & h & H1 & H2); (split; [|exact HN]).
    + left. congruence.
    + rewrite Y2, Y3 in H2. right; left. congruence.
    + rewrite X4, X5 in H1. rewrite Y4, Y5 in H2. right; right; left. congruence.
    + rewrite X3, X2 in H1. right; right; right; left. congruence.
Qed.
Print Assumptions C76_children_entries.

(** For a polygon with non-empty rings the call succeeds, and inside each child the entry has
    the same even-odd membership as the input (a missing entry means: no point of that child is
    inside). *)
Theorem C76_polygon_membership : forall x y z rings,
  (- 2 ^ 62 <= x < 2 ^ 62)%Z -> (- 2 ^ 62 <= y < 2 ^ 62)%Z -> (0 <= z < 2 ^ 64 - 1)%Z ->
  rings <> [] -> (forall r, In r rings -> ends_ok r) ->
  exists m, ClipDownTile (mkTile x y z) (CPolygon rings) = Ok m /\
  forall c p, In c (Children (mkTile x y z)) ->
    eW (Bounds c) < fst p < eE (Bounds c) -> eS (Bounds c) < snd p < eN (Bounds c) ->
    (forall mid r, clip RNum Power7 (CPolygon rings) (eW (Bounds c)) (eE (Bounds c)) false = Ok (CPolygon mid) ->
       In r mid -> ends_ok r) ->
    (exists rings', In (c, CPolygon rings') m /\ even_odd rings' p = even_odd rings p) \/
    ((forall gc, ~ In (c, gc) m) /\ even_odd rings p = false).
Proof.
  intros x y z rings Hx Hy Hz Hne Hr.
  assert (Hrn : forall r, In r rings -> r <> []).
  { intros r H ->. destruct (Hr _ H) as (f & X & _). discriminate. }
  assert (HT : exists m, ClipDownTile (mkTile x y z) (CPolygon rings) = Ok m).
  { unfold ClipDownTile. destruct rings as [|[|q r0] rs] eqn:ER; [congruence|destruct (Hrn []); [left|]; auto|]. rewrite <- ER in *.
    rewrite Children_eq by auto. cbv zeta. set (b := Bounds (mkTile x y z)). set (cb := Bounds (mkTile (2 * x) (2 * y) (z + 1))).
    destruct (clip_polygon_total rings (eW b) (eE cb) false Hrn) as (l & -> & Nl). cbn [bind].
    destruct (clip_polygon_total rings (eE cb) (eE b) false Hrn) as (r & -> & Nr). cbn [bind].
    destruct (clip_polygon_total l (eS b) (eS cb) true Nl) as (ld & -> & _). cbn [bind].
    destruct (clip_polygon_total l (eS cb) (eN b) true Nl) as (lu & -> & _). cbn [bind].
    destruct (clip_polygon_total r (eS b) (eS cb) true Nr) as (rd & -> & _). cbn [bind].
    destruct (clip_polygon_total r (eS cb) (eN b) true Nr) as (ru & -> & _). cbn [bind]. eauto. }
  destruct HT as (m & Em). exists m. split; auto. intros c p Hc Hpx Hpy Hm.
  destruct (C75_polygon_band rings _ _ false p Hr Hpx) as (mid & E1 & N1 & P1).
  destruct (C75_polygon_band mid _ _ true p (fun r H => Hm mid r E1 H) Hpy) as (fin & E2 & N2 & P2).
  pose proof (C76_children_entries x y z _ m Hx Hy Hz Em c) as HE.
  destruct fin as [|f fin].
  - right. split.
    + intros gc H. apply HE in H. destruct H as (_ & HN & h & H1 & H2).
      rewrite E1 in H1. injection H1 as <-. rewrite E2 in H2. injection H2 as <-. discriminate.
    + rewrite <- P1, <- P2. reflexivity.
  - left. exists (f :: fin). split; [|congruence]. apply HE. repeat split; auto. eauto.
Qed.
Print Assumptions C76_polygon_membership.

Example C76_nonvacuous : exists m,
  ClipDownTile (mkTile 0 0 0) (CPolygon [[(0, 0); (4, 0); (4, 4); (0, 4); (0, 0)]]) = Ok m.
Proof.
  destruct (C76_polygon_membership 0 0 0 [[(0, 0); (4, 0); (4, 4); (0, 4); (0, 0)]]) as (m & E & _); eauto; try lia; try discriminate.
  intros r [<-|[]]. exists (0, 0). split; auto.
Qed.
