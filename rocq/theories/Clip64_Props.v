(** C121: clipping lines in binary64 arithmetic (mvt/clip.go, model in Clip_Model.v). *)
From Coq Require Import ZArith Reals Lia Lra Bool List.
From Flocq Require Import Core BinarySingleNaN.
From Verif Require Import GoBase Num MvtGeom_Model TileF64_Model TileF64_Proofs F64 ColorF64_Proofs Clip_Model Clip_Spec Clip_Proofs Clip_Props Clip64_Proofs.
Import ListNotations.
Open Scope R_scope.

(** ** Specification *)
Definition val (p : f64 * f64) : R * R := (B2R (fst p), B2R (snd p)).
Definition fin (p : f64 * f64) : Prop := is_finite (fst p) = true /\ is_finite (snd p) = true.
(** finite, with coordinates of absolute value at most [2^k] *)
Definition upto (k : Z) (p : f64 * f64) : Prop := fin p /\ Rabs (B2R (fst p)) <= bpow radix2 k /\ Rabs (B2R (snd p)) <= bpow radix2 k.
Definition within (e : R) (p q : R * R) : Prop := Rabs (fst p - fst q) <= e /\ Rabs (snd p - snd q) <= e.

(** ** Lemmas *)
Lemma within_at e a b a' b' t : 0 <= t <= 1 -> within e a a' -> within e b b' -> within e (at_ a b t) (at_ a' b' t).
Proof.
  intros Ht [A1 A2] [B1 B2]. unfold within, at_ in *. cbn [fst snd]. apply ab in A1, A2, B1, B2. split; apply ab.
  - replace (fst a + t * (fst b - fst a) - (fst a' + t * (fst b' - fst a'))) with ((1 - t) * (fst a - fst a') + t * (fst b - fst b')) by ring. split; nra.
  - replace (snd a + t * (snd b - snd a) - (snd a' + t * (snd b' - snd a'))) with ((1 - t) * (snd a - snd a') + t * (snd b - snd b')) by ring. split; nra.
Qed.
Lemma on_line_within e l : forall l' p, Forall2 (within e) l l' -> on_line l p -> exists q, on_line l' q /\ within e p q.
Proof.
  induction l as [|a l IH]; intros l' p H Hp; [destruct Hp|]. inversion H as [|? a' ? l1 Ha Hl]; subst.
  destruct l as [|b l].
  - inversion Hl; subst. cbn [on_line] in Hp. subst. exists a'. split; [reflexivity|auto].
  - inversion Hl as [|? b' ? l2 Hb Hl2]; subst. destruct Hp as [Hp|Hp].
    + apply seg_at in Hp. destruct Hp as (t & Ht & ->). exists (at_ a' b' t). split; [left; apply seg_at; eauto|apply within_at; auto].
    + destruct (IH (b' :: l2) p Hl Hp) as (q & Hq & Hw). exists q. split; auto. right. exact Hq.
Qed.
Lemma within_sym e p q : within e p q -> within e q p.
Proof. intros [H1 H2]. split; rewrite Rabs_minus_sym; auto. Qed.
Lemma F2_sym e l l' : Forall2 (within e) l l' -> Forall2 (within e) l' l.
Proof. induction 1; constructor; auto. apply within_sym; auto. Qed.
Lemma on_lines_within e ls ls' p : Forall2 (Forall2 (within e)) ls ls' -> on_lines ls p -> exists q, on_lines ls' q /\ within e p q.
Proof.
  intros H (l & Hi & Hp). induction H as [|a a' r r' H1 H2 IH]; [destruct Hi|]. destruct Hi as [->|Hi].
  - destruct (on_line_within e _ _ p H1 Hp) as (q & Hq & W). exists q. split; auto. exists a'. split; [left|]; auto.
  - destruct (IH Hi) as (q & (l1 & I1 & Hq) & W). exists q. split; auto. exists l1. split; [right|]; auto.
Qed.
Lemma on_line_conv axis lo hi l : forall p, (forall q, In q l -> lo <= coord axis q <= hi) -> on_line l p -> lo <= coord axis p <= hi.
Proof.
  induction l as [|a l IH]; intros p H Hp; [destruct Hp|]. destruct l as [|b l].
  - cbn [on_line] in Hp. subst. apply H. left; auto.
  - destruct Hp as [Hp|Hp].
    + apply seg_at in Hp. destruct Hp as (t & Ht & ->). rewrite coord_at. apply conv_in; auto; apply H; [left|right; left]; auto.
    + apply IH; auto. intros q Hq. apply H. right; auto.
Qed.
Lemma on_line_vertex l q : In q l -> on_line l q.
Proof.
  induction l as [|a l IH]; intros H; [destruct H|]. destruct l as [|b l].
  - destruct H as [->|[]]. reflexivity.
  - destruct H as [->|H]; [left; apply seg_l|right; apply IH; auto].
Qed.

Lemma near_within axis e p q : 0 <= e -> near_pt axis e p q -> fin p /\ within e (val p) q.
Proof.
  intros He ([N1 N2] & N3 & N4). unfold fin, within, val. assert (Z : forall x : R, Rabs (x - x) <= e) by (intros x; unfold Rminus; rewrite Rplus_opp_r, Rabs_R0; auto).
  destruct axis; unfold coord in *; cbn [negb fst snd] in *; rewrite N2; auto.
Qed.
Lemma vals_same l : Forall fin l -> Forall2 same_pt l (map val l).
Proof. induction 1 as [|p l [H1 H2]]; constructor; auto. split; split; auto. Qed.
Lemma vals_in k l : Forall (upto k) l -> Forall (inM k) (map val l).
Proof. induction 1 as [|p l [H1 H2]]; constructor; auto. Qed.
Lemma upto_fin k l : Forall (upto k) l -> Forall fin l.
Proof. intros H. eapply Forall_impl; [|exact H]. intros p [Hp _]. exact Hp. Qed.

Definition ring_of {A} (c piece : list A) : Prop := c <> [] /\ (piece = c \/ exists f r, c = f :: r /\ piece = c ++ [f] /\ (4 <= length c)%nat).

(** ** Theorems *)
(** The binary64 run and the exact run of clipLine produce the same pieces of a line: as many
    pieces, as many points in each, equal on the clipped axis and within [2^(k-49)] on the other. *)
Theorem C121_same_pieces : forall k l k1 k2 axis, (-900 <= k <= 90)%Z -> l <> [] -> Forall (upto k) l -> is_finite k1 = true -> is_finite k2 = true ->
  exists pieces pieces', clipLine F64Num l k1 k2 axis false = Ok pieces /\ clipLine RNum (map val l) (B2R k1) (B2R k2) axis false = Ok pieces' /\
    Forall2 (Forall2 (fun p q => fin p /\ B2R (coord axis p) = coord axis q /\ within (bpow radix2 (k - 49)) (val p) q)) pieces pieces'.
Proof.
  intros k l k1 k2 axis Hk Hl HU F1 F2. destruct l as [|p r]; [congruence|]. inversion HU as [|? ? Hp Hr]; subst.
  pose proof (loop_near k axis k1 k2 (B2R k1) (B2R k2) Hk ltac:(split; auto) ltac:(split; auto) false r (map val r) p (val p) [] [] [] []
    (vals_same _ (upto_fin _ _ Hr)) (vals_in _ _ Hr)) as L.
  specialize (L ltac:(destruct Hp as [[A1 A2] _]; split; split; auto) (proj2 Hp) ltac:(constructor) ltac:(constructor)).
  unfold clipLine. cbn [map]. fold (map val r).
  destruct (clip_loop F64Num axis false k1 k2 p r [] []) as [[d c] z]. destruct (clip_loop RNum axis false (B2R k1) (B2R k2) (val p) (map val r) [] []) as [[d' c'] z'].
  destruct L as (Ld & Lc & Lz). pose proof (same_coord axis _ _ Lz) as Fz.
  cbn [F64Num RNum nleb]. fold F64Num. fold RNum.
  assert (G1 : is_f k1 (B2R k1)) by (split; auto). assert (G2 : is_f k2 (B2R k2)) by (split; auto).
  rewrite (Bleb_f _ _ _ _ G1 Fz), (Bleb_f _ _ _ _ Fz G2).
  assert (E0 : 0 <= bpow radix2 (k - 49)) by (apply bpow_ge_0).
  set (c1 := if Rleb (B2R k1) (coord axis z') && Rleb (coord axis z') (B2R k2) then c ++ [z] else c).
  set (c1' := if Rleb (B2R k1) (coord axis z') && Rleb (coord axis z') (B2R k2) then c' ++ [z'] else c').
  assert (LC : Forall2 (near_pt axis (bpow radix2 (k - 49))) c1 c1').
  { unfold c1, c1'. destruct (Rleb _ _ && Rleb _ _); auto. apply Forall2_app; auto. constructor; auto. apply same_near; auto. }
  clearbody c1 c1'.
  assert (X : forall a b, Forall2 (Forall2 (near_pt axis (bpow radix2 (k - 49)))) a b -> Forall2 (Forall2 (fun p q => fin p /\ B2R (coord axis p) = coord axis q /\ within (bpow radix2 (k - 49)) (val p) q)) a b).
  { induction 1 as [|u v us vs H1 H2 IH]; constructor; auto. clear - H1 E0. induction H1 as [|x y xs ys H1 H2 IH]; constructor; auto.
    destruct (near_within _ _ _ _ E0 H1) as [K1 K2]. destruct H1 as [[_ K3] _]. auto. }
  inversion LC as [|f f' q q' Hf Hq]; subst.
  - exists d, d'. cbn [close_slice]. split; [reflexivity|split; [reflexivity|apply X; auto]].
  - cbn [close_slice andb]. exists (d ++ [f :: q]), (d' ++ [f' :: q']). split; [reflexivity|split; [reflexivity|]]. apply X. apply Forall2_app; auto.
Qed.
Print Assumptions C121_same_pieces.

(** So a clipped line is the part of the line inside the band, to within [2^(k-49)]
    in both directions, and exactly inside the band. *)
Theorem C121_line : forall k l k1 k2 axis, (-900 <= k <= 90)%Z -> l <> [] -> Forall (upto k) l -> is_finite k1 = true -> is_finite k2 = true -> B2R k1 <= B2R k2 ->
  exists pieces, clipLine F64Num l k1 k2 axis false = Ok pieces /\ Forall (Forall fin) pieces /\
    (forall p, on_lines (map (map val) pieces) p -> in_band axis (B2R k1) (B2R k2) p /\
       exists q, on_line (map val l) q /\ in_band axis (B2R k1) (B2R k2) q /\ within (bpow radix2 (k - 49)) p q) /\
    (forall q, on_line (map val l) q -> in_band axis (B2R k1) (B2R k2) q -> exists p, on_lines (map (map val) pieces) p /\ within (bpow radix2 (k - 49)) p q).
Proof.
  intros k l k1 k2 axis Hk Hl HU F1 F2 Hle. destruct (C121_same_pieces k l k1 k2 axis Hk Hl HU F1 F2) as (ps & ps' & E & E' & H).
  destruct (C26_line_clip_exact (map val l) (B2R k1) (B2R k2) axis Hle) as (ps2 & E2 & HS). { destruct l; [congruence|discriminate]. }
  rewrite E' in E2. injection E2 as <-. exists ps. split; auto.
  assert (W : Forall2 (Forall2 (within (bpow radix2 (k - 49)))) (map (map val) ps) ps').
  { clear - H. induction H as [|u v us vs H1 H2 IH]; [constructor|]. cbn [map]. constructor; auto. clear - H1. induction H1 as [|x y xs ys (A & B & C) H2 IH]; cbn [map]; constructor; auto. }
  assert (FI : Forall (Forall fin) ps).
  { clear - H. induction H as [|u v us vs H1 H2 IH]; constructor; auto. clear - H1. induction H1 as [|x y xs ys (A & B & C) H2 IH]; constructor; auto. }
  split; auto. split.
  - intros p Hp. split.
    + destruct Hp as (pl & Hi & Hp). apply in_map_iff in Hi. destruct Hi as (fl & <- & Hi). rewrite in_band_coord.
      apply (on_line_conv axis _ _ (map val fl)); auto. intros q Hq. apply in_map_iff in Hq. destruct Hq as (x & <- & Hx).
      assert (HF : forall p, In p l -> is_finite (fst p) = true /\ is_finite (snd p) = true). { intros y Hy. rewrite Forall_forall in HU. apply (HU y Hy). }
      destruct (C25_in_band_binary64 l k1 k2 axis false ps F1 F2 Hle HF E fl x Hi Hx) as [B1 B2].
      assert (FX : is_finite (coord axis x) = true). { rewrite Forall_forall in FI. specialize (FI _ Hi). rewrite Forall_forall in FI. destruct (FI _ Hx). destruct axis; auto. }
      rewrite Bleb_correct in B1, B2 by auto.
      destruct (Rle_bool_spec (B2R k1) (B2R (coord axis x))) as [L1|]; [|discriminate]. destruct (Rle_bool_spec (B2R (coord axis x)) (B2R k2)) as [L2|]; [|discriminate].
      destruct axis; unfold coord, val in *; cbn [fst snd] in *; lra.
    + destruct (on_lines_within _ _ _ p W Hp) as (q & Hq & Wq). apply HS in Hq. destruct Hq. eauto.
  - intros q Hq1 Hq2. assert (Hq : on_lines ps' q) by (apply HS; auto).
    assert (W' : Forall2 (Forall2 (within (bpow radix2 (k - 49)))) ps' (map (map val) ps)). { clear - W. induction W; constructor; auto. apply F2_sym; auto. }
    destruct (on_lines_within _ _ _ q W' Hq) as (p & Hp & Wp). exists p. split; auto. apply within_sym; auto.
Qed.
Print Assumptions C121_line.

(** Rings: the same, up to the closing point, which each run adds by comparing its own points. *)
Theorem C121_ring : forall k l k1 k2 axis, (-900 <= k <= 90)%Z -> l <> [] -> Forall (upto k) l -> is_finite k1 = true -> is_finite k2 = true ->
  exists pieces pieces', clipLine F64Num l k1 k2 axis true = Ok pieces /\ clipLine RNum (map val l) (B2R k1) (B2R k2) axis true = Ok pieces' /\
    (pieces = [] /\ pieces' = [] \/ exists c c' piece piece', pieces = [piece] /\ pieces' = [piece'] /\ ring_of c piece /\ ring_of c' piece' /\
      Forall2 (fun p q => fin p /\ B2R (coord axis p) = coord axis q /\ within (bpow radix2 (k - 49)) (val p) q) c c').
Proof.
  intros k l k1 k2 axis Hk Hl HU F1 F2. destruct l as [|p r]; [congruence|]. inversion HU as [|? ? Hp Hr]; subst.
  pose proof (loop_near k axis k1 k2 (B2R k1) (B2R k2) Hk ltac:(split; auto) ltac:(split; auto) true r (map val r) p (val p) [] [] [] []
    (vals_same _ (upto_fin _ _ Hr)) (vals_in _ _ Hr)) as L.
  specialize (L ltac:(destruct Hp as [[A1 A2] _]; split; split; auto) (proj2 Hp) ltac:(constructor) ltac:(constructor)).
  unfold clipLine. cbn [map]. fold (map val r).
  assert (ND : forall (F : Type) (N : NumOps F) a b r p done cur, fst (fst (clip_loop N axis true a b p r done cur)) = done).
  { intros F N a b r0. induction r0 as [|q r0 IH]; intros; cbn [clip_loop]; [reflexivity|]. destruct (emit N axis a b p0 q). cbn [negb andb]. apply IH. }
  pose proof (ND _ F64Num k1 k2 r p [] []) as D1. pose proof (ND _ RNum (B2R k1) (B2R k2) (map val r) (val p) [] []) as D2.
  destruct (clip_loop F64Num axis true k1 k2 p r [] []) as [[d c] z]. destruct (clip_loop RNum axis true (B2R k1) (B2R k2) (val p) (map val r) [] []) as [[d' c'] z'].
  cbn [fst] in D1, D2. subst d d'.
  destruct L as (_ & Lc & Lz). pose proof (same_coord axis _ _ Lz) as Fz.
  cbn [F64Num RNum nleb]. fold F64Num. fold RNum.
  assert (G1 : is_f k1 (B2R k1)) by (split; auto). assert (G2 : is_f k2 (B2R k2)) by (split; auto).
  rewrite (Bleb_f _ _ _ _ G1 Fz), (Bleb_f _ _ _ _ Fz G2).
  assert (E0 : 0 <= bpow radix2 (k - 49)) by (apply bpow_ge_0).
  set (c1 := if Rleb (B2R k1) (coord axis z') && Rleb (coord axis z') (B2R k2) then c ++ [z] else c).
  set (c1' := if Rleb (B2R k1) (coord axis z') && Rleb (coord axis z') (B2R k2) then c' ++ [z'] else c').
  assert (LC : Forall2 (near_pt axis (bpow radix2 (k - 49))) c1 c1').
  { unfold c1, c1'. destruct (Rleb _ _ && Rleb _ _); auto. apply Forall2_app; auto. constructor; auto. apply same_near; auto. }
  clearbody c1 c1'.
  assert (LC2 : Forall2 (fun p q => fin p /\ B2R (coord axis p) = coord axis q /\ within (bpow radix2 (k - 49)) (val p) q) c1 c1').
  { clear - LC E0. induction LC as [|x y xs ys H1 H2 IH]; constructor; auto. destruct (near_within _ _ _ _ E0 H1) as [K1 K2]. destruct H1 as [[_ K3] _]. auto. }
  destruct c1 as [|f q], c1' as [|f' q']; try (inversion LC; fail).
  - exists [], []. cbn [close_slice]. auto.
  - cbn [app].
    assert (RO : forall (F : Type) (N : NumOps F) (f : F * F) q, exists u s, close_slice N true (f :: q) = u :: s /\ (u :: s = f :: q \/ u :: s = (f :: q) ++ [f] /\ (4 <= length (f :: q))%nat)).
    { intros F N f0 q0. cbn [close_slice andb]. destruct ((3 <=? length (f0 :: q0) - 1)%nat) eqn:LE; cbn [andb]; [|eauto].
      destruct (pt_neqb N _ _); [|eauto]. exists f0, (q0 ++ [f0]). split; auto. right. split; auto. apply Nat.leb_le in LE. lia. }
    destruct (RO _ F64Num f q) as (u & s & Es & Hs). destruct (RO _ RNum f' q') as (u' & s' & Es' & Hs'). rewrite Es, Es'.
    exists [u :: s], [u' :: s']. split; [reflexivity|split; [reflexivity|]]. right. exists (f :: q), (f' :: q'), (u :: s), (u' :: s').
    split; [reflexivity|split; [reflexivity|]]. split; [|split; auto].
    + split; [discriminate|]. destruct Hs as [Q|[Q H4]]; rewrite Q; [left; reflexivity|right]. exists f, q. auto.
    + split; [discriminate|]. destruct Hs' as [Q|[Q H4]]; rewrite Q; [left; reflexivity|right]. exists f', q'. auto.
Qed.
Print Assumptions C121_ring.

(** ClipTile on a line: first the longitudes, then the latitudes.  The latitudes end up
    exactly within the tile; the longitudes within [2^(k-48)] of it. *)
Definition lines64 (g : @cgeom f64) : list (list (f64 * f64)) := match g with CLine l => [l] | CMultiLine ls => ls | _ => [] end.

Theorem C121_tile : forall k l eps w e s n g, (-900 <= k <= 89)%Z -> l <> [] -> Forall (upto k) l ->
  is_finite w = true -> is_finite e = true -> is_finite s = true -> is_finite n = true -> B2R w <= B2R e -> B2R s <= B2R n ->
  ClipTileB F64Num eps w e s n (CLine l) = Ok g ->
  forall line p, In line (lines64 g) -> In p line -> fin p /\ B2R s <= B2R (snd p) <= B2R n /\ B2R w - bpow radix2 (k - 48) <= B2R (fst p) <= B2R e + bpow radix2 (k - 48).
Proof.
  intros k l eps w e s n g Hk Hl HU Fw Fe Fs Fn Hwe Hsn EG line p Hli Hp.
  destruct (C121_line k l w e false ltac:(lia) Hl HU Fw Fe Hwe) as (ps & E & FI & HA & _).
  unfold ClipTileB in EG. unfold clip at 1 in EG. rewrite E in EG. cbn [bind] in EG.
  destruct ps as [|piece [|x xs]]; try (cbn [clip bind makefeature] in EG; injection EG as <-; destruct Hli; fail).
  cbn [clip] in EG.
  assert (V : forall q, In q piece -> fin q /\ B2R w <= B2R (fst q) <= B2R e /\ upto (k + 1) q).
  { intros q Hq. assert (FQ : fin q). { inversion FI as [|? ? X _]; subst. rewrite Forall_forall in X. apply X; auto. }
    destruct (HA (val q)) as [HB (y & Hy & _ & W1 & W2)]. { exists (map val piece). split; [left; auto|]. apply on_line_vertex. apply in_map; auto. }
    split; auto. split; [exact HB|]. split; [exact FQ|].
    assert (Y : forall ax, - bpow radix2 k <= coord ax y <= bpow radix2 k).
    { intros ax. apply (on_line_conv ax _ _ (map val l)); auto. intros z Hz. apply in_map_iff in Hz. destruct Hz as (z0 & <- & Hz).
      rewrite Forall_forall in HU. destruct (HU _ Hz) as (_ & Z1 & Z2). apply ab in Z1, Z2. destruct ax; auto. }
    pose proof (Y false) as Y1. pose proof (Y true) as Y2. unfold coord in Y1, Y2. unfold val in W1, W2. cbn [fst snd] in W1, W2.
    assert (LE : bpow radix2 (k - 49) <= bpow radix2 k) by (apply bpow_le; lia).
    rewrite bk. change (bpow radix2 1) with 2. apply ab in W1, W2. split; apply ab; lra. }
  destruct piece as [|p0 pr].
  { cbn [clipLine bind] in EG. discriminate. }
  set (pc := p0 :: pr) in *.
  assert (UP : Forall (upto (k + 1)) pc) by (apply Forall_forall; intros q Hq; apply (V q Hq)).
  destruct (C121_line (k + 1) pc s n true ltac:(lia) ltac:(unfold pc; discriminate) UP Fs Fn Hsn) as (ps2 & E2 & FI2 & HA2 & _).
  rewrite E2 in EG. cbn [bind] in EG.
  assert (HI : In line ps2). { destruct ps2 as [|a [|b ps2]]; cbn [makefeature] in EG; injection EG as <-; cbn [lines64] in Hli; auto. }
  rewrite Forall_forall in FI2. specialize (FI2 _ HI). rewrite Forall_forall in FI2. split; [apply FI2; auto|].
  destruct (HA2 (val p)) as [HB (y & Hy & _ & W1 & W2)]. { exists (map val line). split; [apply in_map; auto|]. apply on_line_vertex. apply in_map; auto. }
  split; [exact HB|].
  assert (Y1 : B2R w <= coord false y <= B2R e).
  { apply (on_line_conv false _ _ (map val pc)); auto. intros z Hz. apply in_map_iff in Hz. destruct Hz as (z0 & <- & Hz). apply (V z0 Hz). }
  replace (k + 1 - 49)%Z with (k - 48)%Z in W1 by lia. unfold coord in Y1. unfold val in W1. cbn [fst snd] in W1. apply ab in W1. lra.
Qed.
Print Assumptions C121_tile.

(** They need not be exactly within it: a line inside the world (longitudes at most 180) is
    clipped to a point east of it. *)
Definition west_pt : f64 := @B754_finite 53 1024 true 7036874417766406 (-46) eq_refl.
Definition east_pt : f64 := @B754_finite 53 1024 false 6333186975989761 (-45) eq_refl.
Definition sf2 (p : f64 * f64) := (B2SF (fst p), B2SF (snd p)).
Lemma sf2_inj p q : sf2 p = sf2 q -> p = q.
Proof. destruct p, q. unfold sf2. cbn [fst snd]. intros H. injection H as H1 H2. f_equal; apply B2SF_inj; auto. Qed.
Definition sf_line (g : res (@cgeom f64)) := match g with Ok (CLine l) => Some (map sf2 l) | _ => None end.
Lemma sf_line_inj g l : sf_line g = Some (map sf2 l) -> g = Ok (CLine l).
Proof.
  destruct g as [[x| | | |]| |]; try discriminate. cbn [sf_line]. intros H. injection H as H. f_equal. f_equal. revert l H. induction x as [|a x IH]; intros [|b l] H; try discriminate; auto.
  cbn [map] in H. injection H as H1 H2 H3. f_equal; auto. apply sf2_inj. unfold sf2. congruence.
Qed.
Definition sf_lines (g : res (list (list (f64 * f64)))) := match g with Ok ls => Some (map (map sf2) ls) | _ => None end.
Lemma sf_lines_inj g l : sf_lines g = Some [map sf2 l] -> g = Ok [l].
Proof.
  intros H. assert (K : sf_line (match g with Ok [x] => Ok (CLine x) | _ => Panic end) = Some (map sf2 l)).
  { destruct g as [[|x [|y ys]]| |]; try discriminate. cbn [sf_lines map] in H. cbn [sf_line]. congruence. }
  apply sf_line_inj in K. destruct g as [[|x [|y ys]]| |]; try discriminate. congruence.
Qed.
Theorem C121_tile_refuted : exists l p, (forall q, In q l -> -180 <= B2R (fst q) <= 180) /\
  (forall eps, ClipTileB F64Num eps (fint (-180)) (fint 180) (fint (-85)) (fint 85) (CLine l) = Ok (CLine [p; (fint 180, fint (-85))])) /\
  B2R (fst p) = 180 + bpow radix2 (-45).
Proof.
  exists [(west_pt, fint (-86)); (fint 180, fint (-85))], (east_pt, fint (-85)).
  split; [|split].
  - intros q [<-|[<-|[]]]; cbn [fst].
    + unfold west_pt, B2R, F2R. cbn [Fnum Fexp cond_Zopp Z.opp]. change (bpow radix2 (-46)) with (bpow radix2 (- (46))); rewrite (bpm 46 70368744177664) by (reflexivity || lia). lra.
    + destruct (f_int 180 ltac:(lia)) as [_ ->]. lra.
  - intros eps. apply sf_line_inj. vm_compute. reflexivity.
  - cbn [fst]. unfold east_pt, B2R, F2R. cbn [Fnum Fexp cond_Zopp]. change (bpow radix2 (-45)) with (bpow radix2 (- (45))); rewrite (bpm 45 35184372088832) by (reflexivity || lia). lra.
Qed.
Print Assumptions C121_tile_refuted.

(** A line from (-1, 0) to (3, 4) cut at x = 0 and x = 1. *)
Example C121_nonvacuous : Forall (upto 2) [(fint (-1), fint 0); (fint 3, fint 4)] /\
  exists c d, clipLine F64Num [(fint (-1), fint 0); (fint 3, fint 4)] (fint 0) (fint 1) false false = Ok [[c; d]] /\ val c = (0, 1) /\ val d = (1, 2).
Proof.
  assert (V : forall n, (Z.abs n <= 4)%Z -> is_finite (fint n) = true /\ B2R (fint n) = IZR n) by (intros n Hn; apply f_int; lia).
  split.
  - assert (U : forall a b, (Z.abs a <= 4)%Z -> (Z.abs b <= 4)%Z -> upto 2 (fint a, fint b)).
    { intros a b Ha Hb. destruct (V a Ha) as [A1 A2], (V b Hb) as [B1 B2]. unfold upto, fin. cbn [fst snd]. rewrite A2, B2. change (bpow radix2 2) with 4. repeat split; auto; rewrite <- abs_IZR; apply IZR_le; lia. }
    constructor; [apply U; lia|]. constructor; [apply U; lia|constructor].
  - exists (fint 0, fint 1), (fint 1, fint 2). split; [|split].
    + apply sf_lines_inj. vm_compute. reflexivity.
    + unfold val. cbn [fst snd]. destruct (V 0%Z ltac:(lia)) as [_ ->], (V 1%Z ltac:(lia)) as [_ ->]. reflexivity.
    + unfold val. cbn [fst snd]. destruct (V 2%Z ltac:(lia)) as [_ ->], (V 1%Z ltac:(lia)) as [_ ->]. reflexivity.
Qed.
