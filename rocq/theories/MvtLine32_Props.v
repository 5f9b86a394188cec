(** Property C156: lines of any int32 points, whose steps may overflow when they are written. *)
From Coq Require Import ZArith List Lia Bool.
From Verif Require Import GoBase MvtGeom_Model MvtGeom_Spec MvtGeom_Proofs.
Import ListNotations.
Open Scope Z_scope.

(** ** Specification *)
Definition int32 (z : Z) : Prop := - 2 ^ 31 <= z < 2 ^ 31.
Definition int32_pt (p : Z * Z) : Prop := int32 (fst p) /\ int32 (snd p).
(** Points that differ by multiples of 2^32 *)
Definition same_mod (p q : Z * Z) : Prop := exists a b, fst q = fst p + a * 2 ^ 32 /\ snd q = snd p + b * 2 ^ 32.
(** Every step from [p] along [l] is an int32 *)
Fixpoint int_steps (p : Z * Z) (l : list (Z * Z)) : Prop :=
  match l with [] => True | q :: r => int32 (fst q - fst p) /\ int32 (snd q - snd p) /\ int_steps q r end.
Definition read_lines (ls : list (list (Z * Z))) : geomdata := match ls with [l] => GLineString l | _ => GMultiLineString ls end.

(** ** Lemmas *)
Lemma wrap32_range z : int32 (wrap32 z).
Proof. unfold wrap32, int32. pose proof (Z.mod_pos_bound (z + 2 ^ 31) (2 ^ 32)). lia. Qed.
Lemma wrap32_mod z : exists a, wrap32 z = z + a * 2 ^ 32.
Proof. unfold wrap32. exists (- ((z + 2 ^ 31) / 2 ^ 32)). pose proof (Z.div_mod (z + 2 ^ 31) (2 ^ 32)). lia. Qed.
(** The point read for [q] after [p], when [p'] was read for [p] *)
Definition lift (p' p q : pt) : pt := (fst p' + wrap32 (fst q - fst p), snd p' + wrap32 (snd q - snd p)).
Fixpoint lifts (p' p : pt) (l : list pt) : list pt := match l with [] => [] | q :: r => lift p' p q :: lifts (lift p' p q) q r end.
Lemma lift_eqb p' p q : int32_pt p -> int32_pt q -> pt_eqb p' (lift p' p q) = pt_eqb p q.
Proof.
  intros (A & B) (C & D). unfold int32 in *. unfold pt_eqb, lift. cbn [fst snd]. destruct (wrap32_mod (fst q - fst p)) as [a Ea], (wrap32_mod (snd q - snd p)) as [b Eb]. pose proof (wrap32_range (fst q - fst p)). pose proof (wrap32_range (snd q - snd p)). unfold int32 in *. lia.
Qed.
Lemma lift_step p' p q : fst (lift p' p q) - fst p' = wrap32 (fst q - fst p) /\ snd (lift p' p q) - snd p' = wrap32 (snd q - snd p).
Proof. unfold lift. cbn [fst snd]. lia. Qed.
Lemma lifts_len l : forall p' p, length (lifts p' p l) = length l.
Proof. induction l as [|q l IH]; intros; cbn [lifts length]; auto. Qed.
Lemma line_points l : forall c p', int32_pt (last_pt c) -> Forall int32_pt l -> 0 <= cnt c -> cnt c + zlen l < 2 ^ 32 ->
  fold_left LinePoint l c = mkCur (geo c ++ deltas p' (lifts p' (last_pt c) l)) (last l (last_pt c)) (cnt c + steps p' (lifts p' (last_pt c) l)).
Proof.
  induction l as [|q l IH]; intros c p' Hc Hl H0 H1.
  - cbn. rewrite app_nil_r, Z.add_0_r. destruct c; reflexivity.
  - pose proof (Forall_inv Hl) as Hq. pose proof (Forall_inv_tail Hl) as Hr. rewrite last_cons. cbn [fold_left lifts deltas steps]. rewrite lift_eqb by assumption. destruct (lift_step p' (last_pt c) q) as [-> ->].
    unfold zlen in *. cbn [length] in H1.
    assert (E : LinePoint c q = if pt_eqb (last_pt c) q then mkCur (geo c) q (cnt c) else mkCur (geo c ++ [zigzag (wrap32 (fst q - fst (last_pt c))); zigzag (wrap32 (snd q - snd (last_pt c)))]) q (u32 (cnt c + 1))).
    { unfold LinePoint. rewrite !paramEnc_zigzag by apply wrap32_range. rewrite <- (lift_eqb (0, 0) (last_pt c) q) by assumption. unfold pt_eqb, lift. cbn [fst snd]. rewrite !Z.add_0_l, !(Z.eqb_sym 0). destruct (_ && _); reflexivity. }
    rewrite E. destruct (pt_eqb (last_pt c) q) eqn:Eq.
    + rewrite (IH _ (lift p' (last_pt c) q)) by (cbn [last_pt cnt geo]; auto; lia). cbn [geo last_pt cnt app]. f_equal; lia.
    + rewrite u32_id by (unfold in_u32; lia). rewrite (IH _ (lift p' (last_pt c) q)) by (cbn [last_pt cnt geo]; auto; lia). cbn [geo last_pt cnt]. rewrite <- app_assoc. f_equal; lia.
Qed.
Lemma make_line c p' l : l <> [] -> int32_pt (last_pt c) -> Forall int32_pt l -> zlen l < 2 ^ 29 ->
  exists n, MakeLine c l = Ok (mkCur (geo c ++ enc_line p' (lifts p' (last_pt c) l)) (last l (last_pt c)) n).
Proof.
  intros N Hc Hl Hn. destruct l as [|p r]; [congruence|]. pose proof (Forall_inv Hl) as Hp. pose proof (Forall_inv_tail Hl) as Hr. unfold MakeLine. unfold zlen in Hn; cbn [length] in Hn.
  rewrite (line_points r _ (lift p' (last_pt c) p)); cbn [geo last_pt cnt MovePoint]; auto; try (unfold zlen; lia).
  rewrite !paramEnc_zigzag by apply wrap32_range. eexists. f_equal. cbn [lifts enc_line]. destruct (lift_step p' (last_pt c) p) as [-> ->]. rewrite last_cons, Z.add_0_l. f_equal.
  rewrite <- !app_assoc. cbn [app].
  match goal with |- set_nth _ _ (_ ++ ?a :: ?b :: ?d :: ?e :: ?f) = _ => change (a :: b :: d :: e :: f) with ([a; b; d] ++ e :: f); set (h := [a; b; d]) end.
  rewrite app_assoc. replace (length (geo c) + 3)%nat with (length (geo c ++ h)) by (rewrite app_length; reflexivity). rewrite set_nth_app, <- app_assoc. reflexivity.
Qed.
(** The lines read: each one starts from the last point read *)
Fixpoint lifted (p' p : pt) (ls : list (list pt)) : list (list pt) :=
  match ls with [] => [] | l :: r => lifts p' p l :: lifted (last (lifts p' p l) (0, 0)) (last l p) r end.
Definition line32 (l : list pt) : Prop := l <> [] /\ Forall int32_pt l /\ zlen l < 2 ^ 29.
Lemma last_int32 l : forall p, int32_pt p -> Forall int32_pt l -> int32_pt (last l p).
Proof. induction l as [|q l IH]; intros p Hp H; [exact Hp|]. rewrite last_cons. apply IH; [exact (Forall_inv H)|exact (Forall_inv_tail H)]. Qed.
Lemma make_lines ls : forall c p', int32_pt (last_pt c) -> Forall line32 ls -> exists c', MakeMultiLine c ls = Ok c' /\ geo c' = geo c ++ enc_lines p' (lifted p' (last_pt c) ls).
Proof.
  induction ls as [|l r IH]; intros c p' Hc H; [exists c; cbn; rewrite app_nil_r; auto|]. destruct (Forall_inv H) as (A & B & C). destruct (make_line c p' l A Hc B C) as [n E].
  unfold MakeMultiLine in *. cbn [fold_res]. rewrite E. cbn [bind].
  destruct (IH (mkCur (geo c ++ enc_line p' (lifts p' (last_pt c) l)) (last l (last_pt c)) n) (last (lifts p' (last_pt c) l) (0, 0))) as (c' & E' & G); [apply last_int32; assumption|exact (Forall_inv_tail H)|].
  exists c'. split; [exact E'|]. rewrite G. cbn [geo last_pt lifted enc_lines]. rewrite app_assoc. reflexivity.
Qed.
Definition long_enough (l : list pt) : Prop := l <> [] /\ zlen l < 2 ^ 29.
Lemma loop_any ls : forall f total first fp lines p, Forall long_enough ls -> total <> 3 -> (first = true -> p = (0, 0)) -> (first = false -> fp = Some p) -> (length ls <= f)%nat ->
  geom_loop f total 2 first fp lines (enc_lines p ls) = Ok (lines ++ map merge_runs ls).
Proof.
  induction ls as [|l r IH]; intros f total first fp lines p H Ht H1 H2 Hf; [cbn [enc_lines map]; rewrite geom_loop_nil, app_nil_r; reflexivity|].
  destruct (Forall_inv H) as (A & C). cbn [length] in Hf. destruct f as [|f]; [lia|]. cbn [enc_lines]. rewrite geom_loop_line; auto; try lia. rewrite IH; auto; try lia; try discriminate; [|exact (Forall_inv_tail H)]. cbn [map]. rewrite <- app_assoc. reflexivity.
Qed.
Lemma lines_len p ls : Forall long_enough ls -> (4 * length ls <= length (enc_lines p ls))%nat.
Proof.
  intros H; revert p; induction H as [|l r (N & _) _ IH]; intros p; cbn [enc_lines length]; [lia|]. rewrite app_length. pose proof (enc_line_len p l N). specialize (IH (last l (0, 0))). lia.
Qed.
Lemma lifted_long ls : forall p' p, Forall line32 ls -> Forall long_enough (lifted p' p ls).
Proof.
  induction ls as [|l r IH]; intros p' p H; cbn [lifted]; constructor; [|apply IH, (Forall_inv_tail H)]. destruct (Forall_inv H) as (A & _ & C). split; [|unfold zlen in *; rewrite lifts_len; exact C]. destruct l; [congruence|discriminate].
Qed.
Lemma read_any ls : ls <> [] -> Forall line32 ls -> exists c, MakeMultiLine cursor0 ls = Ok c /\ LoadGeometryCmds 2 (geo c) = Ok (read_lines (map merge_runs (lifted (0, 0) (0, 0) ls))).
Proof.
  intros N H. assert (I0 : int32_pt (last_pt cursor0)) by (cbn; unfold int32_pt, int32; cbn; lia). destruct (make_lines ls cursor0 (0, 0) I0 H) as (c & E & G). exists c. split; [exact E|]. cbn [cursor0 geo last_pt app] in G. rewrite G.
  pose proof (lifted_long ls (0, 0) (0, 0) H) as L. pose proof (lines_len (0, 0) _ L) as K. unfold LoadGeometryCmds. assert (Np : lt 0 (length (lifted (0, 0) (0, 0) ls))) by (destruct ls; [congruence|cbn [lifted length]; lia]).
  rewrite loop_any; auto; try discriminate; try (unfold zlen; lia); try lia. cbn [bind app]. change (2 =? 3) with false. change (2 =? 1) with false. change (2 =? 2) with true. cbv iota. unfold read_lines. destruct (map merge_runs _) as [|a [|b r]]; reflexivity.
Qed.
(** Merging and lifting *)
Lemma lift_same p' p q : same_mod p p' -> same_mod q (lift p' p q).
Proof.
  intros (a & b & A & B). unfold lift. destruct (wrap32_mod (fst q - fst p)) as [x X], (wrap32_mod (snd q - snd p)) as [y Y]. exists (a + x), (b + y). cbn [fst snd]. rewrite X, Y, A, B. lia.
Qed.
Lemma lifts_merge l : forall p' p, int32_pt p -> Forall int32_pt l -> merge_runs (lifts p' p l) = lifts p' p (merge_runs l).
Proof.
  induction l as [|q l IH]; intros p' p Hp H; [reflexivity|]. pose proof (Forall_inv H) as Hq. pose proof (Forall_inv_tail H) as Hr. destruct l as [|s l]; [reflexivity|].
  assert (M : forall a b k, merge_runs (a :: b :: k) = if pt_eqb a b then merge_runs (b :: k) else a :: merge_runs (b :: k)) by reflexivity.
  specialize (IH (lift p' p q) q Hq Hr). cbn [lifts] in IH |- *. rewrite M, M. rewrite lift_eqb by (auto; exact (Forall_inv Hr)). destruct (pt_eqb q s) eqn:E.
  - apply pt_eqb_eq in E. subst s. rewrite IH. destruct (merge_runs_cons q l) as [t T]. rewrite T. cbn [lifts].
    assert (Z0 : lift (lift p' p q) q q = lift p' p q). { unfold lift at 1. rewrite !Z.sub_diag. change (wrap32 0) with 0. rewrite !Z.add_0_r. destruct (lift p' p q); reflexivity. }
    rewrite Z0. reflexivity.
  - rewrite IH. reflexivity.
Qed.
Lemma lifts_same l : forall p' p, same_mod p p' -> Forall2 same_mod l (lifts p' p l).
Proof. induction l as [|q l IH]; intros p' p H; cbn [lifts]; constructor; [apply lift_same, H|apply IH, lift_same, H]. Qed.
Lemma lifts_steps l : forall p' p, int_steps p' (lifts p' p l).
Proof.
  induction l as [|q l IH]; intros p' p; cbn [lifts int_steps]; [exact I|]. destruct (lift_step p' p q) as [-> ->]. split; [apply wrap32_range|]. split; [apply wrap32_range|apply IH].
Qed.
Lemma steps_app a : forall p b, int_steps p (a ++ b) <-> int_steps p a /\ int_steps (last a p) b.
Proof. induction a as [|q a IH]; intros p b; [cbn; tauto|]. rewrite last_cons. cbn [app int_steps]. rewrite IH. tauto. Qed.
Lemma lifts_last l : forall p' p d, l <> [] -> same_mod p p' -> same_mod (last l p) (last (lifts p' p l) d).
Proof.
  induction l as [|q l IH]; intros p' p d N H; [congruence|]. cbn [lifts]. rewrite !last_cons. destruct l as [|s l]; [cbn [lifts last]; apply lift_same, H|]. apply IH; [discriminate|apply lift_same, H].
Qed.
Lemma merge_last l : forall d, last (merge_runs l) d = last l d.
Proof.
  intros d. destruct l as [|q l]; [reflexivity|]. destruct (merge_runs_cons q l) as [t T]. pose proof (merge_runs_last l q) as K. rewrite T in *. rewrite !last_cons. rewrite last_cons in K. exact K.
Qed.
Lemma lifted_spec ls : forall p' p, int32_pt p -> same_mod p p' -> Forall line32 ls ->
  Forall2 (Forall2 same_mod) (map merge_runs ls) (map merge_runs (lifted p' p ls)) /\ int_steps p' (concat (map merge_runs (lifted p' p ls))).
Proof.
  induction ls as [|l r IH]; intros p' p Hp Hs H; [split; [constructor|exact I]|]. destruct (Forall_inv H) as (A & B & _). cbn [lifted map concat].
  destruct (IH (last (lifts p' p l) (0, 0)) (last l p)) as (I1 & I2); [apply last_int32; assumption|apply lifts_last; assumption|exact (Forall_inv_tail H)|].
  rewrite lifts_merge by assumption. split; [constructor; [apply lifts_same, Hs|exact I1]|]. apply steps_app. split; [apply lifts_steps|]. rewrite <- lifts_merge by assumption. rewrite merge_last.
  rewrite (last_ne _ p' (0, 0)); [exact I2|]. destruct l; [congruence|discriminate].
Qed.
Lemma lift_unique l : forall p a b, Forall2 same_mod l a -> Forall2 same_mod l b -> int_steps p a -> int_steps p b -> a = b.
Proof.
  induction l as [|q l IH]; intros p a b Ha Hb Sa Sb; inversion Ha as [|? x ? a' X A]; subst; inversion Hb as [|? y ? b' Y B]; subst; [reflexivity|]. cbn [int_steps] in *. destruct Sa as (A1 & A2 & A3), Sb as (B1 & B2 & B3).
  assert (x = y). { destruct X as (i & j & X1 & X2), Y as (m & n & Y1 & Y2). unfold int32 in *. destruct x, y; cbn [fst snd] in *. f_equal; nia. }
  subst y. f_equal. eapply IH; eassumption.
Qed.
Lemma steps_merge l : forall p, int_steps p (merge_runs l) <-> int_steps p l.
Proof.
  induction l as [|q l IH]; intros p; [tauto|]. destruct l as [|s l]; [tauto|]. change (merge_runs (q :: s :: l)) with (if pt_eqb q s then merge_runs (s :: l) else q :: merge_runs (s :: l)). destruct (pt_eqb q s) eqn:E.
  - apply pt_eqb_eq in E. subst s. rewrite IH. cbn [int_steps]. assert (int32 (fst q - fst q) /\ int32 (snd q - snd q)) by (unfold int32; lia). tauto.
  - assert (K : int_steps p (q :: merge_runs (s :: l)) <-> int32 (fst q - fst p) /\ int32 (snd q - snd p) /\ int_steps q (merge_runs (s :: l))) by reflexivity. rewrite K, IH. reflexivity.
Qed.
Lemma steps_merges ls : forall p, int_steps p (concat (map merge_runs ls)) <-> int_steps p (concat ls).
Proof. induction ls as [|l ls IH]; intros p; [tauto|]. cbn [map concat]. rewrite !steps_app, steps_merge, merge_last, IH. tauto. Qed.
Lemma same_refl l : Forall2 same_mod l l.
Proof. induction l as [|p l IH]; constructor; [exists 0, 0; lia|exact IH]. Qed.

(** ** Theorems *)
(** The points read are those written, repeated neighbours once, moved by multiples of 2^32 so that all steps from the origin are in the range of int32, *)
Theorem C156_lines : forall ls, ls <> [] -> Forall (fun l => l <> [] /\ Forall int32_pt l /\ Z.of_nat (length l) < 2 ^ 29) ls ->
  exists c rs, MakeMultiLine cursor0 ls = Ok c /\ LoadGeometryCmds 2 (geo c) = Ok (read_lines rs) /\
    Forall2 (Forall2 same_mod) (map merge_runs ls) rs /\ int_steps (0, 0) (concat rs).
Proof.
  intros ls N H. destruct (read_any ls N H) as (c & E & D). exists c. eexists. split; [exact E|]. split; [exact D|]. apply lifted_spec; [unfold int32_pt, int32; cbn; lia|exists 0, 0; lia|exact H].
Qed.
Print Assumptions C156_lines.
(** which leaves one choice; *)
Theorem C156_unique : forall ls a b, Forall2 (Forall2 same_mod) ls a -> Forall2 (Forall2 same_mod) ls b -> int_steps (0, 0) (concat a) -> int_steps (0, 0) (concat b) -> a = b.
Proof.
  intros ls. generalize (0, 0). induction ls as [|l ls IH]; intros p a b Ha Hb Sa Sb; inversion Ha as [|? x ? a' X A]; subst; inversion Hb as [|? y ? b' Y B]; subst; [reflexivity|]. cbn [concat] in *. apply steps_app in Sa. apply steps_app in Sb. destruct Sa as [S1 S2], Sb as [T1 T2]. assert (x = y) by (eapply lift_unique; eassumption). subst y. f_equal. eapply IH; eassumption.
Qed.
Print Assumptions C156_unique.
(** so lines come back as they are exactly if no step is too long. *)
Theorem C156_exact : forall ls, ls <> [] -> Forall (fun l => l <> [] /\ Forall int32_pt l /\ Z.of_nat (length l) < 2 ^ 29) ls ->
  exists c, MakeMultiLine cursor0 ls = Ok c /\ (LoadGeometryCmds 2 (geo c) = Ok (read_lines (map merge_runs ls)) <-> int_steps (0, 0) (concat ls)).
Proof.
  intros ls N H. destruct (C156_lines ls N H) as (c & rs & E & D & F & S). exists c. split; [exact E|]. rewrite D. split.
  - intros K. assert (rs = map merge_runs ls). { injection K as K. unfold read_lines in K. destruct rs as [|a [|b r]], (map merge_runs ls) as [|a' [|b' r']]; congruence. } subst rs. apply (proj1 (steps_merges ls (0, 0))). exact S.
  - intros K. f_equal. f_equal. apply (C156_unique (map merge_runs ls)); [exact F| |exact S|apply steps_merges, K]. clear. induction (map merge_runs ls) as [|l l0 IH]; [constructor|]. constructor; [apply same_refl|exact IH].
Qed.
Print Assumptions C156_exact.
Theorem C156_line : forall l, l <> [] -> Forall int32_pt l -> Z.of_nat (length l) < 2 ^ 29 ->
  exists c, MakeLine cursor0 l = Ok c /\ (LoadGeometryCmds 2 (geo c) = Ok (GLineString (merge_runs l)) <-> int_steps (0, 0) l).
Proof.
  intros l N H L. destruct (C156_exact [l] ltac:(discriminate) ltac:(constructor; [auto|constructor])) as (c & E & K). exists c. split.
  - unfold MakeMultiLine in E. cbn [fold_res] in E. destruct (MakeLine cursor0 l); cbn in E; congruence.
  - cbn [concat map] in K. rewrite app_nil_r in K. exact K.
Qed.
Print Assumptions C156_line.

(** ** Not vacuous: from -2000000000 to 2000000000 is a step of 4000000000, read as -294967296. *)
Example C156_nonvacuous : Forall int32_pt [(-2000000000, 5); (2000000000, 5); (-2000000000, 5)] /\ ~ int_steps (0, 0) [(-2000000000, 5); (2000000000, 5); (-2000000000, 5)] /\
  int_steps (0, 0) [(-2000000000, 5); (100000000, 7)] /\
  exists c, MakeLine cursor0 [(-2000000000, 5); (2000000000, 5); (-2000000000, 5)] = Ok c /\ LoadGeometryCmds 2 (geo c) = Ok (GLineString [(-2000000000, 5); (-2294967296, 5); (-2000000000, 5)]).
Proof.
  split; [repeat (apply Forall_cons; [split; unfold int32; cbn [fst snd]; lia|]); apply Forall_nil|]. split; [cbn [int_steps fst snd]; unfold int32; lia|]. split; [cbn [int_steps fst snd]; unfold int32; lia|]. eexists. split; vm_compute; reflexivity.
Qed.
