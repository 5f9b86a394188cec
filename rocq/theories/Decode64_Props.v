(** Property C123: decoding geometries and judging ring orientation in binary64 arithmetic. *)
From Coq Require Import ZArith Reals List Bool Lia Lra.
From Flocq Require Import Core BinarySingleNaN.
From Verif Require Import GoBase Pbf_Proofs TileF64_Model F64 TileF64_Proofs ColorF64_Proofs MvtGeom_Model Decode64_Model.
Import ListNotations.
Open Scope Z_scope.
#[local] Existing Instance vexp.

(** ** Integers in binary64 *)
Lemma fmt_int53 n : (Z.abs n <= 2 ^ 53)%Z -> fmt (IZR n).
Proof. intros H. apply (is_f_fmt (fint n)). apply fint_f. exact H. Qed.
Lemma int_small n : (Z.abs n <= 2 ^ 53)%Z -> (Rabs (IZR n) <= bpow radix2 100)%R.
Proof. intros H. rewrite <- abs_IZR. apply Rle_trans with (IZR (2 ^ 53)); [apply IZR_le; auto|]. change (IZR (2 ^ 53)) with (bpow radix2 53). apply bpow_le. lia. Qed.

Lemma add_int x y a b : is_f x (IZR a) -> is_f y (IZR b) -> (Z.abs (a + b) <= 2 ^ 53)%Z -> is_f (fadd x y) (IZR (a + b)).
Proof. intros Fx Fy H. rewrite plus_IZR in *. rewrite <- (rnd_id (IZR a + IZR b)) by (rewrite <- plus_IZR; apply fmt_int53; auto). apply fadd_f; auto. rewrite <- plus_IZR. apply int_small; auto. Qed.
Lemma sub_int x y a b : is_f x (IZR a) -> is_f y (IZR b) -> (Z.abs (a - b) <= 2 ^ 53)%Z -> is_f (fsub x y) (IZR (a - b)).
Proof. intros Fx Fy H. rewrite minus_IZR in *. rewrite <- (rnd_id (IZR a - IZR b)) by (rewrite <- minus_IZR; apply fmt_int53; auto). apply fsub_f; auto. rewrite <- minus_IZR. apply int_small; auto. Qed.
Lemma mul_int x y a b : is_f x (IZR a) -> is_f y (IZR b) -> (Z.abs (a * b) <= 2 ^ 53)%Z -> is_f (fmul x y) (IZR (a * b)).
Proof. intros Fx Fy H. rewrite mult_IZR in *. rewrite <- (rnd_id (IZR a * IZR b)) by (rewrite <- mult_IZR; apply fmt_int53; auto). apply fmul_f; auto. rewrite <- mult_IZR. apply int_small; auto. Qed.

Lemma fint_sign n : (Z.abs n <= 2 ^ 53)%Z -> Bsign (fint n) = (n <? 0).
Proof.
  intros H. pose proof (binary_normalize_correct 53 1024 _ _ mode_NE n 0 false) as K. cbv zeta in K. rewrite fexp_eq in K. cbn [round_mode] in K.
  assert (E : F2R (Float radix2 n 0) = IZR n) by (unfold F2R; cbn [Fnum Fexp]; change (bpow radix2 0) with 1%R; ring). rewrite E in K.
  rewrite rnd_id in K by (apply fmt_int53; auto). rewrite small_lt_emax in K by (apply Rle_trans with (bpow radix2 100); [apply int_small; auto|apply bpow_le; lia]).
  destruct K as (_ & _ & K). unfold fint. etransitivity; [exact K|]. change 0%R with (IZR 0). rewrite Rcompare_IZR. destruct (Z.compare_spec n 0), (Z.ltb_spec n 0); auto; lia.
Qed.
Lemma fint_add a b : Z.abs a <= 2 ^ 53 -> Z.abs b <= 2 ^ 53 -> Z.abs (a + b) <= 2 ^ 53 -> fadd (fint a) (fint b) = fint (a + b).
Proof.
  intros Ha Hb H. destruct (fint_f a Ha) as [F1 F2]. destruct (fint_f b Hb) as [F3 F4]. destruct (fint_f _ H) as [F5 F6]. 
  destruct (add_int _ _ a b (fint_f a Ha) (fint_f b Hb) H) as [F7 F8].
  apply B2R_Bsign_inj; auto; [congruence|]. rewrite fint_sign by auto.
  pose proof (Bplus_correct 53 1024 _ _ mode_NE (fint a) (fint b) F1 F3) as K. rewrite fexp_eq, F2, F4, <- plus_IZR in K. cbn [round_mode] in K.
  rewrite rnd_id in K by (apply fmt_int53; auto). rewrite small_lt_emax in K by (apply Rle_trans with (bpow radix2 100); [apply int_small; auto|apply bpow_le; lia]).
  destruct K as (_ & _ & K). etransitivity; [exact K|]. rewrite !fint_sign by auto. change 0%R with (IZR 0). rewrite Rcompare_IZR.
  destruct (Z.compare_spec (a + b) 0), (Z.ltb_spec (a + b) 0); auto; try lia; destruct (Z.ltb_spec a 0), (Z.ltb_spec b 0); auto; lia.
Qed.
Lemma Beqb_int x y a b : is_f x (IZR a) -> is_f y (IZR b) -> Beqb x y = (a =? b).
Proof. intros Fx Fy. rewrite (Beqb_f _ _ _ _ Fx Fy). destruct (Num.Reqb_spec (IZR a) (IZR b)) as [E|E], (Z.eqb_spec a b); auto; exfalso; [apply eq_IZR in E; auto|subst; auto]. Qed.
Lemma Bltb_int x y a b : is_f x (IZR a) -> is_f y (IZR b) -> Bltb x y = (b >? a).
Proof. intros Fx Fy. rewrite (Bltb_f _ _ _ _ Fx Fy). destruct (Num.Rltb_spec (IZR a) (IZR b)) as [E|E], (Z.gtb_spec b a); auto; exfalso; [apply lt_IZR in E; lia|apply E, IZR_lt; lia]. Qed.

(** ** Orientation sums *)
Definition lp (p : Z * Z) : f64 * f64 := (fint (fst p), fint (snd p)).
Definition within (C : Z) (p : Z * Z) : Prop := Z.abs (fst p) <= C /\ Z.abs (snd p) <= C.
Lemma within_lp p C : within C p -> C <= 2 ^ 53 -> is_f (fst (lp p)) (IZR (fst p)) /\ is_f (snd (lp p)) (IZR (snd p)).
Proof. intros [H1 H2] H. split; apply fint_f; lia. Qed.

Lemma last_map {A B} (f : A -> B) l d : last (map f l) (f d) = f (last l d).
Proof. induction l as [|a [|b l] IH]; auto. Qed.
Lemma last_cons {A} (a d : A) l : last (a :: l) d = last l a.
Proof. revert a d. induction l as [|b l IH]; intros a d; auto. change (last (a :: b :: l) d) with (last (b :: l) d). rewrite !IH. reflexivity. Qed.
Lemma last_in {A} (l : list A) d : l <> [] -> In (last l d) l.
Proof. induction l as [|a [|b l] IH]; intros H; [congruence|left; auto|right; apply IH; discriminate]. Qed.

Lemma area64_int C : 0 <= C -> forall l sum prev S k, is_f sum (IZR S) -> within C prev -> Forall (within C) l -> 0 <= k -> Z.abs S <= k * (4 * (C * C)) ->
  (k + zlen l) * (4 * (C * C)) <= 2 ^ 53 -> is_f (area64_loop sum (lp prev) (map lp l)) (IZR (S + darea_loop prev l)).
Proof.
  intros HC. induction l as [|p l IH]; intros sum prev S k FS Wp Wl Hk HS Hb; cbn [map area64_loop darea_loop].
  - replace (S + 0) with S by lia. auto.
  - inversion Wl as [|? ? W1 W2]; subst. rewrite zlen_cons in Hb. pose proof (zlen_nonneg l).
    assert (C4 : 4 * (C * C) <= 2 ^ 53) by nia. assert (C1 : C <= 2 ^ 51) by nia.
    destruct (within_lp p C W1 ltac:(lia)) as [P1 P2]. destruct (within_lp prev C Wp ltac:(lia)) as [Q1 Q2]. destruct W1 as [W1 W1'], Wp as [Wp Wp'].
    pose proof (sub_int _ _ _ _ Q1 P1 ltac:(lia)) as D1. pose proof (add_int _ _ _ _ P2 Q2 ltac:(lia)) as D2.
    set (dx := fst prev - fst p) in *. set (dy := snd p + snd prev) in *.
    assert (PB : Z.abs (dx * dy) <= 4 * (C * C)). { rewrite Z.abs_mul. assert (Z.abs dx <= 2 * C) by (unfold dx; lia). assert (Z.abs dy <= 2 * C) by (unfold dy; lia). nia. }
    pose proof (mul_int _ _ _ _ D1 D2 ltac:(lia)) as D3.
    assert (SB : Z.abs (S + dx * dy) <= (k + 1) * (4 * (C * C))) by lia.
    pose proof (add_int _ _ _ _ FS D3 ltac:(nia)) as D4.
    replace (S + (dx * dy + darea_loop p l)) with (S + dx * dy + darea_loop p l) by lia.
    apply (IH _ p (S + dx * dy) (k + 1)); auto; [split; auto|lia|]. nia.
Qed.

Lemma SignedArea64_int C ring : 0 <= C -> Forall (within C) ring -> zlen ring * (4 * (C * C)) <= 2 ^ 53 -> is_f (SignedArea64 (map lp ring)) (IZR (SignedArea ring)).
Proof.
  intros HC W H. unfold SignedArea64, SignedArea. destruct ring as [|p r]; [apply fint_f; lia|]. 
  change (map lp (p :: r)) with (lp p :: map lp r) at 1. cbv iota. rewrite last_map.
  rewrite <- (Z.add_0_l (darea_loop _ _)). apply (area64_int C HC (p :: r) (fint 0) _ 0 0); auto; try (apply fint_f); try lia.
  rewrite Forall_forall in W. apply W. apply last_in. discriminate.
Qed.

(** ** Decoding *)
Definition word (z : Z) : Prop := 0 <= z < 2 ^ 32.
Lemma delta_b z : word z -> Z.abs (DeltaDim z) <= 2 ^ 31.
Proof.
  unfold word, DeltaDim. intros H. destruct (Z.eqb_spec (Z.rem z 2) 1).
  - change (-2) with (- (2)). rewrite Z.quot_opp_r by lia. rewrite Z.quot_div_nonneg by lia. pose proof (Z.div_mod (z + 1) 2 ltac:(lia)). pose proof (Z.mod_pos_bound (z + 1) 2). lia.
  - rewrite Z.quot_div_nonneg by lia. pose proof (Z.div_mod z 2 ltac:(lia)). pose proof (Z.mod_pos_bound z 2). lia.
Qed.
Definition room (p : Z * Z) (g : list Z) : Prop := within (2 ^ 53 - 2 ^ 31 * zlen g) p.

Lemma step_pt x y p (r : list Z) : word x -> word y -> room p (x :: y :: r) ->
  (fadd (fst (lp p)) (Delta64 x), fadd (snd (lp p)) (Delta64 y)) = lp (fst p + DeltaDim x, snd p + DeltaDim y) /\ room (fst p + DeltaDim x, snd p + DeltaDim y) r.
Proof.
  intros Hx Hy [R1 R2]. rewrite !zlen_cons in R1, R2. pose proof (zlen_nonneg r). pose proof (delta_b x Hx). pose proof (delta_b y Hy). unfold lp, Delta64. cbn [fst snd].
  split; [rewrite !fint_add by lia; reflexivity|]. split; cbn [fst snd]; lia.
Qed.
Lemma room_in p g : room p g -> within (2 ^ 53) p.
Proof. intros [H1 H2]. pose proof (zlen_nonneg g). split; nia. Qed.

Lemma read_pairs64_eq : forall m g n p, (length g <= m)%nat -> Forall word g -> room p g ->
  let '(ps, q, g') := read_pairs g n p in
  read_pairs64 g n (lp p) = (map lp ps, lp q, g') /\ room q g' /\ Forall (within (2 ^ 53)) ps /\ Forall word g' /\ zlen ps + zlen g' <= zlen g.
Proof.
  induction m as [|m IH]; intros g n p Hm Hw HR.
  - destruct g; [|cbn [length] in Hm; lia]. cbn [read_pairs read_pairs64]. repeat split; auto; try apply HR; try (unfold zlen; cbn [length]; lia).
  - destruct g as [|x [|y r]]; cbn [read_pairs read_pairs64]; [repeat split; auto; try apply HR; try (unfold zlen; cbn [length]; lia)..|].
    destruct (n >? 0); [|cbn [map]; repeat split; auto; try apply HR; try (unfold zlen; cbn [length]; lia)].
    inversion Hw as [|? ? Wx Hw1]; subst. inversion Hw1 as [|? ? Wy Hw2]; subst.
    destruct (step_pt x y p r Wx Wy HR) as [E R']. rewrite E. set (q0 := (fst p + DeltaDim x, snd p + DeltaDim y)) in *.
    specialize (IH r (n - 1) q0 ltac:(cbn [length] in Hm; lia) Hw2 R'). destruct (read_pairs r (n - 1) q0) as [[ps q] g']. destruct IH as (I1 & I2 & I3 & I4 & I5).
    rewrite I1. split; auto. split; auto. split; [constructor; auto; apply (room_in _ r); auto|]. split; auto. rewrite !zlen_cons. lia.
Qed.

Definition line_ok (T : Z) (l : list (Z * Z)) : Prop := Forall (within (2 ^ 53)) l /\ zlen l < T /\ l <> [].
Definition rmap {A B} (f : A -> B) (r : res A) : res B := match r with Ok a => Ok (f a) | Panic => Panic | NoFuel => NoFuel end.

Lemma geom_loop64_eq T gtype : forall fuel first fp lines g, zlen g <= T -> 2 ^ 31 * T <= 2 ^ 53 -> Forall word g ->
  (forall p, fp = Some p -> room p g) -> Forall (line_ok T) lines ->
  geom_loop64 fuel T gtype first (option_map lp fp) (map (map lp) lines) g = rmap (map (map lp)) (geom_loop fuel T gtype first fp lines g) /\
  (forall ls, geom_loop fuel T gtype first fp lines g = Ok ls -> Forall (line_ok T) ls).
Proof.
  induction fuel as [|fuel IH]; intros first fp lines g HT HB Hw HR HL.
  - destruct g; cbn [geom_loop geom_loop64 rmap]; split; auto; try discriminate. intros ls E. injection E as <-. auto.
  - destruct g as [|c r]; cbn [geom_loop geom_loop64 rmap]; [split; auto; intros ls E; injection E as <-; auto|].
    inversion Hw as [|? ? Wc Wr]; subst. rewrite zlen_cons in HT. destruct (c =? 9).
    2:{ apply IH; auto; [lia|]. intros p Hp. specialize (HR p Hp). destruct HR as [R1 R2]. rewrite zlen_cons in R1, R2. split; lia. }
    destruct r as [|x [|y r2]]; [split; auto; discriminate..|].
    inversion Wr as [|? ? Wx Wr1]; subst. inversion Wr1 as [|? ? Wy Wr2]; subst. rewrite !zlen_cons in HT. pose proof (zlen_nonneg r2) as N2.
    pose proof (delta_b x Wx) as Bx. pose proof (delta_b y Wy) as By.
    assert (S1 : (exists q, (if negb first && ((gtype =? 2) || (gtype =? 3)) then match fp with None => Panic | Some q => Ok (fst q + DeltaDim x, snd q + DeltaDim y) end else Ok (DeltaDim x, DeltaDim y)) = Ok q /\
        (if negb first && ((gtype =? 2) || (gtype =? 3)) then match option_map lp fp with None => Panic | Some q => Ok (fadd (fst q) (Delta64 x), fadd (snd q) (Delta64 y)) end else Ok (Delta64 x, Delta64 y)) = Ok (lp q) /\ room q r2)
      \/ ((if negb first && ((gtype =? 2) || (gtype =? 3)) then match fp with None => Panic | Some q => Ok (fst q + DeltaDim x, snd q + DeltaDim y) end else Ok (DeltaDim x, DeltaDim y)) = Panic /\
        (if negb first && ((gtype =? 2) || (gtype =? 3)) then match option_map lp fp with None => Panic | Some q => Ok (fadd (fst q) (Delta64 x), fadd (snd q) (Delta64 y)) end else Ok (Delta64 x, Delta64 y)) = Panic)).
    { destruct (negb first && ((gtype =? 2) || (gtype =? 3))).
      - destruct fp as [p|]; [|right; split; reflexivity]. left. cbn [option_map]. specialize (HR p eq_refl).
        destruct (step_pt x y p r2 Wx Wy) as [E R']. { destruct HR as [R1 R2]. rewrite zlen_cons in R1, R2. split; lia. }
        rewrite E. eauto.
      - left. exists (DeltaDim x, DeltaDim y). split; auto. split; [reflexivity|]. split; cbn [fst snd]; nia. }
    destruct S1 as [(q & -> & -> & Rq)|[-> ->]]; cbn [bind rmap]; [|split; auto; discriminate].
    pose proof (room_in _ _ Rq) as Wq.
    assert (HL1 : Forall (line_ok T) (if T =? 3 then [[q]] else lines)).
    { destruct (Z.eqb_spec T 3); auto. constructor; auto. split; [auto|]. split; [rewrite zlen_cons; change (zlen (@nil (Z * Z))) with 0; lia|discriminate]. }
    assert (ML : (if T =? 3 then [[lp q]] else map (map lp) lines) = map (map lp) (if T =? 3 then [[q]] else lines)) by (destruct (T =? 3); reflexivity).
    rewrite ML. set (lines1 := if T =? 3 then [[q]] else lines) in *. clearbody lines1.
    destruct r2 as [|cmd r3]; [cbn [rmap]; split; auto; intros ls E; injection E as <-; auto|].
    inversion Wr2 as [|? ? Wcmd Wr3]; subst. rewrite zlen_cons in HT.
    pose proof (read_pairs64_eq (length r3) r3 (Z.shiftr cmd 3) q (le_n _) Wr3) as RP. 
    assert (Rq' : room q r3) by (destruct Rq as [R1 R2]; rewrite zlen_cons in R1, R2; split; lia). specialize (RP Rq').
    destruct (read_pairs r3 (Z.shiftr cmd 3) q) as [[ps q2] r4]. destruct RP as (-> & R4 & Wps & W4 & L4).
    replace (map (map lp) lines1 ++ [lp q :: map lp ps]) with (map (map lp) (lines1 ++ [q :: ps])) by (rewrite map_app; reflexivity).
    pose proof (zlen_nonneg ps). apply (IH false (Some q2)); auto; [lia|intros p E; injection E as <-; auto|].
    apply Forall_app. split; auto. constructor; auto. split; [constructor; auto|]. split; [rewrite zlen_cons|discriminate]. pose proof (zlen_nonneg r4). lia.
Qed.

Lemma close_line64_eq T l : line_ok T l -> close_line64 (map lp l) = map lp (close_line l).
Proof.
  intros (W & _ & N). destruct l as [|f r]; [congruence|]. unfold close_line64, close_line. 
  change (map lp (f :: r)) with (lp f :: map lp r) at 1. cbv iota. rewrite last_map.
  assert (Wl : within (2 ^ 53) (last (f :: r) f)). { rewrite Forall_forall in W. apply W, last_in. discriminate. }
  assert (Wf : within (2 ^ 53) f) by (inversion W; auto).
  destruct (within_lp _ _ Wl ltac:(lia)) as [A1 A2]. destruct (within_lp _ _ Wf ltac:(lia)) as [B1 B2].
  rewrite (Beqb_int _ _ _ _ B1 A1), (Beqb_int _ _ _ _ A2 B2). unfold pt_eqb. rewrite (Z.eqb_sym (snd (last (f :: r) f)) (snd f)).
  destruct ((fst f =? fst (last (f :: r) f)) && (snd f =? snd (last (f :: r) f))); auto. rewrite map_app. reflexivity.
Qed.

Lemma append_last64_eq ps line : append_last64 (map (map (map lp)) ps) (map lp line) = map (map (map lp)) (append_last ps line).
Proof. induction ps as [|p [|q ps] IH]; [reflexivity|cbn [map append_last append_last64]; rewrite map_app; reflexivity|]. cbn [map append_last append_last64] in *. rewrite IH. reflexivity. Qed.

Lemma group_rings64_eq lines : forall ps, (forall l, In l lines -> is_f (SignedArea64 (map lp l)) (IZR (SignedArea l))) ->
  group_rings64 (map (map lp) lines) (map (map (map lp)) ps) = map (map (map lp)) (group_rings lines ps).
Proof.
  induction lines as [|l lines IH]; intros ps H; cbn [map group_rings64 group_rings]; auto.
  rewrite (Bltb_int _ _ _ _ (fint_f 0 ltac:(lia)) (H l (or_introl eq_refl))).
  assert (E : (if SignedArea l >? 0 then map (map (map lp)) ps ++ [[map lp l]] else append_last64 (map (map (map lp)) ps) (map lp l)) =
    map (map (map lp)) (if SignedArea l >? 0 then ps ++ [[l]] else append_last ps l)).
  { destruct (SignedArea l >? 0); [rewrite map_app; reflexivity|apply append_last64_eq]. }
  rewrite E. apply IH. intros; apply H; right; auto.
Qed.

Lemma in_append_last ps line : In line (concat (append_last ps line)) /\ forall l, In l (concat ps) -> In l (concat (append_last ps line)).
Proof.
  induction ps as [|p [|q ps] IH]; cbn [append_last concat app].
  - split; [left; auto|intros l []].
  - rewrite app_nil_r. split; [apply in_or_app; right; left; auto|]. intros l H. rewrite app_nil_r in H. apply in_or_app. auto.
  - destruct IH as [I1 I2]. split; [apply in_or_app; right; auto|]. intros l H. apply in_app_or in H. apply in_or_app. destruct H as [H|H]; auto.
Qed.
Lemma in_group lines : forall ps l, In l lines \/ In l (concat ps) -> In l (concat (group_rings lines ps)).
Proof.
  induction lines as [|x lines IH]; intros ps l H; cbn [group_rings]; [destruct H as [[]|H]; auto|].
  apply IH. destruct H as [[<-|H]|H]; auto; right; destruct (SignedArea x >? 0).
  - rewrite concat_app. apply in_or_app. right. left. auto.
  - apply (proj1 (in_append_last ps x)).
  - rewrite concat_app. apply in_or_app. auto.
  - apply (proj2 (in_append_last ps x)); auto.
Qed.

(** ** Specification *)
(** the same geometry with every integer coordinate as a float64 *)
Definition lift (d : geomdata) : geomdata64 :=
  match d with
  | GPoint p => GPoint64 (lp p)
  | GMultiPoint ps => GMultiPoint64 (map lp ps)
  | GLineString l => GLineString64 (map lp l)
  | GMultiLineString ls => GMultiLineString64 (map (map lp) ls)
  | GPolygon rs => GPolygon64 (map (map lp) rs)
  | GMultiPolygon ps => GMultiPolygon64 (map (map (map lp)) ps)
  | GNil => GNil64
  end.
Definition rings_of (d : geomdata) : list (list (Z * Z)) := match d with GPolygon rs => rs | GMultiPolygon ps => concat ps | _ => [] end.

(** C123, decoder: up to [2^22] command words.  Points and lines decode in float64 to exactly the
    integers of the command stream; so do polygons, with the same grouping into polygons and holes,
    when no ring coordinate exceeds [C] in size and the number of words times [4 C^2] is at most
    [2^53]. *)
Theorem C123_decode : forall gtype g C, Forall word g -> zlen g <= 2 ^ 22 -> 0 <= C -> zlen g * (4 * (C * C)) <= 2 ^ 53 ->
  (forall d, LoadGeometryCmds gtype g = Ok d -> gtype = 3 -> Forall (Forall (within C)) (rings_of d)) ->
  LoadGeometry64 gtype g = rmap lift (LoadGeometryCmds gtype g).
Proof.
  intros gtype g C Hw HT HC HB HR. unfold LoadGeometry64, LoadGeometryCmds in *.
  destruct (geom_loop64_eq (zlen g) gtype (length g) true None [] g ltac:(lia) ltac:(lia) Hw ltac:(discriminate) (Forall_nil _)) as [E1 E2]. cbn [option_map map] in E1. rewrite E1.
  destruct (geom_loop (length g) (zlen g) gtype true None [] g) as [lines| |]; cbn [rmap bind] in *; auto. specialize (E2 lines eq_refl).
  destruct (Z.eqb_spec gtype 3) as [G3|G3].
  2:{ destruct (gtype =? 1); [destruct lines as [|[|p [|p' r]] ls]; reflexivity|]. destruct (gtype =? 2); [destruct lines as [|l [|l' ls]]; reflexivity|reflexivity]. }
  assert (MC : map close_line64 (map (map lp) lines) = map (map lp) (map close_line lines)).
  { rewrite !map_map. apply map_ext_in. intros l Hl. apply (close_line64_eq (zlen g)). rewrite Forall_forall in E2. auto. }
  rewrite MC.
  assert (AR : forall l, In l (map close_line lines) -> zlen l <= zlen g).
  { intros l Hl. apply in_map_iff in Hl. destruct Hl as (l0 & <- & Hl). rewrite Forall_forall in E2. destruct (E2 l0 Hl) as (_ & L & N). unfold close_line. destruct l0; [congruence|]. destruct (pt_eqb _ _); [lia|]. rewrite zlen_app. change (zlen [p]) with 1. lia. }
  assert (GR : (match map close_line lines with [l] => [[l]] | _ => group_rings (map close_line lines) [] end) = group_rings (map close_line lines) []).
  { destruct (map close_line lines) as [|l [|l' ls]]; auto. cbn [group_rings]. destruct (SignedArea l >? 0); reflexivity. }
  assert (GR64 : forall (ls : list (list (f64 * f64))), (match ls with [l] => [[l]] | _ => group_rings64 ls [] end) = group_rings64 ls []).
  { intros [|l [|l' ls]]; auto. cbn [group_rings64]. destruct (Bltb _ _); reflexivity. }
  rewrite GR in *. rewrite GR64. set (cl := map close_line lines) in *. clearbody cl.
  assert (RI : Forall (Forall (within C)) (concat (group_rings cl []))).
  { destruct (group_rings cl []) as [|p [|p' ps]]; [constructor|specialize (HR _ eq_refl G3); cbn [rings_of concat] in *; rewrite app_nil_r; exact HR|exact (HR _ eq_refl G3)]. }
  change (@nil (list (list (f64 * f64)))) with (map (map (map lp)) []). rewrite group_rings64_eq.
  - destruct (group_rings cl []) as [|p [|p' ps]]; reflexivity.
  - intros l Hl. apply (SignedArea64_int C); auto; [|specialize (AR l Hl); nia]. rewrite Forall_forall in RI. apply RI. apply in_group. auto.
Qed.
Print Assumptions C123_decode.

(** Coordinates within a tile of any extent up to [2^15], including its buffer, are small enough for
    two million words. *)
Corollary C123_tile : forall gtype g, Forall word g -> zlen g <= 2 ^ 21 ->
  (forall d, LoadGeometryCmds gtype g = Ok d -> gtype = 3 -> Forall (Forall (within (2 ^ 15))) (rings_of d)) ->
  LoadGeometry64 gtype g = rmap lift (LoadGeometryCmds gtype g).
Proof. intros gtype g Hw HL H. apply (C123_decode gtype g (2 ^ 15)); auto; lia. Qed.

(** C123, encoder: for rings of up to [2^22] points of any int32 coordinates the float64 sums of
    int32 products are exact, so the orientation tests decide as in integer arithmetic. *)
Lemma wrap32_b z : Z.abs (wrap32 z) <= 2 ^ 31.
Proof. unfold wrap32. pose proof (Z.mod_pos_bound (z + 2 ^ 31) (2 ^ 32)). lia. Qed.

Lemma area2_int : forall l w prev S k, is_f w (IZR S) -> 0 <= k -> Z.abs S <= k * 2 ^ 31 -> (k + zlen l) * 2 ^ 31 <= 2 ^ 53 ->
  is_f (area2_loop64 w prev l) (IZR (S + area2_loop prev l)).
Proof.
  induction l as [|p l IH]; intros w prev S k FS Hk HS HB; cbn [area2_loop64 area2_loop]; [replace (S + 0) with S by lia; auto|].
  rewrite zlen_cons in HB. pose proof (zlen_nonneg l). set (t := wrap32 (wrap32 (fst prev - fst p) * wrap32 (snd p + snd prev))). pose proof (wrap32_b (wrap32 (fst prev - fst p) * wrap32 (snd p + snd prev))) as Bt. fold t in Bt.
  rewrite Z.add_assoc. apply (IH _ p (S + t) (k + 1)); [apply add_int; auto; [apply fint_f; lia|lia]|lia..].
Qed.
Lemma winding_int : forall l w prev S k, is_f w (IZR S) -> 0 <= k -> Z.abs S <= k * 2 ^ 31 -> (k + zlen l) * 2 ^ 31 <= 2 ^ 53 ->
  exists w', winding_loop64 w prev l = (w', last l prev) /\ is_f w' (IZR (S + winding_loop prev l)) /\ Z.abs (S + winding_loop prev l) <= (k + zlen l) * 2 ^ 31.
Proof.
  induction l as [|p l IH]; intros w prev S k FS Hk HS HB; cbn [winding_loop64 winding_loop]; [exists w; replace (S + 0) with S by lia; repeat split; auto; try apply FS; change (zlen (@nil (Z * Z))) with 0; lia|].
  rewrite zlen_cons in *. pose proof (zlen_nonneg l). set (t := wrap32 (wrap32 (fst p - fst prev) * wrap32 (snd p + snd prev))). pose proof (wrap32_b (wrap32 (fst p - fst prev) * wrap32 (snd p + snd prev))) as Bt. fold t in Bt.
  rewrite Z.add_assoc. destruct (IH (fadd w (fint t)) p (S + t) (k + 1)) as (w' & E & F & B); [apply add_int; auto; [apply fint_f; lia|lia]|lia..|].
  exists w'. rewrite E. rewrite last_cons. split; [reflexivity|]. split; auto. lia.
Qed.

Theorem C123_encode : forall ring, zlen ring <= 2 ^ 22 ->
  Bltb (fint 0) (SignedArea2_64 ring) = (SignedArea2 ring >? 0) /\
  forall clockwise, assert_winding_order64 ring clockwise = assert_winding_order ring clockwise.
Proof.
  intros ring H. split.
  - apply Bltb_int; [apply fint_f; lia|]. unfold SignedArea2_64, SignedArea2. destruct ring as [|p r]; [apply fint_f; lia|].
    rewrite <- (Z.add_0_l (area2_loop _ _)). apply (area2_int _ _ _ 0 0); [apply fint_f; lia|lia..].
  - intros clockwise. unfold assert_winding_order64, assert_winding_order. destruct ring as [|f r]; auto. rewrite zlen_cons in H.
    destruct (winding_int r (fint 0) f 0 0 ltac:(apply fint_f; lia) ltac:(lia) ltac:(lia) ltac:(lia)) as (w & -> & F & B). rewrite Z.add_0_l in F, B.
    rewrite last_cons.
    set (t := wrap32 (wrap32 (fst f - fst (last r f)) * wrap32 (snd f + snd (last r f)))). pose proof (wrap32_b (wrap32 (fst f - fst (last r f)) * wrap32 (snd f + snd (last r f)))) as Bt. fold t in Bt.
    rewrite (Bltb_int _ _ 0 (winding_loop f r + t)); auto; [apply fint_f; lia|]. apply add_int; auto; [apply fint_f; lia|lia].
Qed.
Print Assumptions C123_encode.

(** ** Computing with floats *)
Definition sfp (p : f64 * f64) := (B2SF (fst p), B2SF (snd p)).
Inductive shape := SPoly (rs : list (list (SpecFloat.spec_float * SpecFloat.spec_float))) | SMulti (ps : list (list (list (SpecFloat.spec_float * SpecFloat.spec_float)))) | SOther.
Definition shape_of (r : res geomdata64) : shape := match r with Ok (GPolygon64 rs) => SPoly (map (map sfp) rs) | Ok (GMultiPolygon64 ps) => SMulti (map (map (map sfp)) ps) | _ => SOther end.

Lemma sfp_inj p q : sfp p = sfp q -> p = q.
Proof. destruct p, q. unfold sfp. cbn [fst snd]. intros H. injection H as H1 H2. f_equal; apply B2SF_inj; auto. Qed.
Lemma map_inj {A B} (f : A -> B) : (forall a b, f a = f b -> a = b) -> forall l l', map f l = map f l' -> l = l'.
Proof. intros H. induction l as [|a l IH]; intros [|b l'] E; try discriminate; auto. cbn [map] in E. injection E as E1 E2. f_equal; auto. Qed.
Lemma shape_poly r rs : shape_of r = SPoly (map (map sfp) rs) -> r = Ok (GPolygon64 rs).
Proof. destruct r as [[]| |]; try discriminate. cbn [shape_of]. intros H. injection H as H. do 2 f_equal. revert H. apply map_inj. apply map_inj. apply sfp_inj. Qed.
Lemma shape_multi r ps : shape_of r = SMulti (map (map (map sfp)) ps) -> r = Ok (GMultiPolygon64 ps).
Proof. destruct r as [[]| |]; try discriminate. cbn [shape_of]. intros H. injection H as H. do 2 f_equal. revert H. apply map_inj. apply map_inj. apply map_inj. apply sfp_inj. Qed.

(** A square with a hole, decoded in float64. *)
Example C123_nonvacuous :
  LoadGeometry64 3 [9; 0; 0; 26; 0; 8; 8; 0; 0; 7; 15; 9; 5; 2; 18; 2; 2; 0; 1; 15] =
    Ok (GPolygon64 (map (map lp) [[(0, 0); (0, 4); (4, 4); (4, 0); (0, 0)]; [(1, 1); (2, 2); (2, 1); (1, 1)]])).
Proof. apply shape_poly. vm_compute. reflexivity. Qed.

(** The bound on the coordinates matters: the second ring of these commands is a triangle with
    twice its area equal to 1, which integer arithmetic starts a polygon with; in float64 the sum is
    -256 and the ring becomes a hole of the first square. *)
Definition sliver : list Z := [9; 0; 0; 26; 0; 8; 8; 0; 0; 7; 15; 9; 7; 0; 18; 3201848684; 2672034402; 43236893; 36082425; 15].
Theorem C123_large_refuted : Forall word sliver /\
  (exists p q, LoadGeometryCmds 3 sliver = Ok (GMultiPolygon [[p]; [q]]) /\ SignedArea q = 1) /\
  exists p q, LoadGeometry64 3 sliver = Ok (GPolygon64 [map lp p; map lp q]) /\ Beqb (SignedArea64 (map lp q)) (fint (-256)) = true.
Proof.
  split; [unfold sliver; repeat (constructor; [unfold word; lia|]); constructor|].
  split; [do 2 eexists; split; [vm_compute; reflexivity|vm_compute; reflexivity]|].
  exists [(0, 0); (0, 4); (4, 4); (4, 0); (0, 0)], [(0, 0); (1600924342, 1336017201); (1579305895, 1317975988); (0, 0)].
  split; [apply (shape_poly _ (map (map lp) [_; _])); vm_compute; reflexivity|vm_compute; reflexivity].
Qed.
Print Assumptions C123_large_refuted.
