(** Property C131: memory requested by the geometry decoder. *)
From Coq Require Import ZArith List Lia Bool.
From Verif Require Import GoBase MvtGeom_Model MvtGeom_Spec MvtGeom_Proofs MvtDecode_Props MvtAlloc_Model.
Import ListNotations.
Open Scope Z_scope.

Lemma made_line f gtype first fp p l g :
  l <> [] -> zlen l < 2 ^ 29 ->
  (first = true -> p = (0, 0)) ->
  (first = false -> fp = Some p /\ (gtype = 2 \/ gtype = 3)) ->
  made_loop (S f) gtype first fp (enc_line p l ++ g) =
  zlen (merge_runs l) :: made_loop f gtype false (Some (last l (0, 0))) g.
Proof.
  intros Hne Hlen H1 H2. destruct l as [|q r]; [congruence|].
  cbn [enc_line app made_loop]. change (9 =? 9) with true. cbn iota zeta.
  rewrite !DeltaDim_zigzag.
  pose proof (steps_bound q r) as Hs. unfold zlen in Hs, Hlen. cbn [length] in Hlen.
  assert (Hn : zlen (merge_runs (q :: r)) = steps q r + 1).
  { pose proof (read_pairs_deltas r q []) as E. rewrite app_nil_r in E.
    destruct (merge_runs_cons q r) as [t Ht]. rewrite Ht in *. cbn [tl] in E.
    clear -E. unfold zlen. cbn [length].
    enough (H : forall r q n ps fp g, n = steps q r -> read_pairs (deltas q r) n q = (ps, fp, g) -> Z.of_nat (length ps) = n).
    { specialize (H r q _ _ _ _ eq_refl E). lia. }
    clear. induction r as [|a r IH]; intros q n ps fp g Hn E.
    - cbn [deltas steps] in *. subst n. cbn in E. injection E as <- <- <-. reflexivity.
    - cbn [deltas steps] in *. destruct (pt_eqb q a) eqn:Ea.
      + apply pt_eqb_eq in Ea. subst a. cbn [app] in E. rewrite Z.add_0_l in Hn. eapply IH; eauto.
      + cbn [app read_pairs] in E. pose proof (steps_bound a r).
        replace (n >? 0) with true in E by lia. rewrite !DeltaDim_zigzag in E.
        replace (fst q + (fst a - fst q), snd q + (snd a - snd q)) with a in E by (destruct a; cbn [fst snd]; f_equal; lia).
        destruct (read_pairs (deltas a r) (n - 1) a) as [[ps1 fp1] g1] eqn:E1. injection E as <- <- <-.
        apply IH in E1; [|lia]. cbn [length]. lia. }
  rewrite Hn.
  assert (Hgo : forall fp1, fp1 = q ->
     (let '(_, fp2, r4) := read_pairs (deltas q r ++ g) (Z.shiftr (lineTo (steps q r)) 3) fp1 in
      (Z.shiftr (lineTo (steps q r)) 3 + 1) :: made_loop f gtype false (Some fp2) r4) =
     (steps q r + 1) :: made_loop f gtype false (Some (last (q :: r) (0, 0))) g).
  { intros fp1 ->. rewrite lineTo_shift by lia. rewrite read_pairs_deltas. rewrite last_cons. reflexivity. }
  destruct first; cbn [negb andb].
  - rewrite (H1 eq_refl). cbn [fst snd]. apply Hgo. rewrite !Z.sub_0_r. destruct q; reflexivity.
  - destruct (H2 eq_refl) as [-> Hg]. replace ((gtype =? 2) || (gtype =? 3)) with true by lia. cbn iota.
    apply Hgo. destruct q, p; cbn [fst snd]. f_equal; lia.
Qed.

Lemma made_nil f gtype first fp : made_loop f gtype first fp [] = [].
Proof. destruct f; reflexivity. Qed.

Lemma made_lines ls : forall f first fp p, Forall line_ok ls ->
  (first = true -> p = (0, 0)) -> (first = false -> fp = Some p) -> (length ls <= f)%nat ->
  made_loop f 2 first fp (enc_lines p ls) = map (fun l => zlen (merge_runs l)) ls.
Proof.
  induction ls as [|l r IH]; intros f first fp p Hls H1 H2 Hf; cbn [enc_lines map].
  - apply made_nil.
  - inversion Hls as [|? ? (Hne & Hfit & Hlen) Hr]; subst. cbn [length] in Hf. destruct f; [lia|].
    rewrite made_line; auto. f_equal. apply IH; auto; try lia; try discriminate.
Qed.

Lemma made_rings ls : forall f first fp p, Forall ring_fits ls ->
  (first = true -> p = (0, 0)) -> (first = false -> fp = Some p) -> (2 * length ls <= f)%nat ->
  made_loop f 3 first fp (enc_rings p ls) = map (fun l => zlen (merge_runs l)) ls.
Proof.
  induction ls as [|l r IH]; intros f first fp p Hls H1 H2 Hf; cbn [enc_rings map].
  - apply made_nil.
  - inversion Hls as [|? ? (Hne & Hfit & Hlen) Hr]; subst. cbn [length] in Hf.
    destruct f as [|f]; [lia|]. rewrite <- app_assoc. rewrite made_line; auto. f_equal.
    destruct f as [|f]; [lia|]. cbn [app made_loop]. change (15 =? 9) with false. cbn iota.
    apply IH; auto; try lia; try discriminate.
Qed.

(** Lines: every slot the reader asks for is a point of the line it returns. *)
Theorem C131_written_lines : forall (P : Type) (q : P -> Z * Z) ls,
  Forall (fun l => l <> [] /\ Z.of_nat (length l) < 2 ^ 29 /\ Forall fits (map q l)) ls ->
  exists c, MakeMultiLineFloat q cursor0 ls = Ok c /\
    GeometryMade 2 (geo c) = map (fun l => Z.of_nat (length (merge_runs (map q l)))) ls.
Proof.
  intros P q ls H. rewrite MakeMultiLineFloat_map.
  assert (Hok : Forall line_ok (map (map q) ls)).
  { apply Forall_map. eapply Forall_impl; [|exact H]. intros l (Hne & Hl & Hf).
    repeat split; auto. - destruct l; [congruence|discriminate]. - unfold zlen. rewrite map_length. exact Hl. }
  destruct (MakeMultiLine_eq _ cursor0 fits0 Hok) as (c & E & G). exists c. split; auto.
  cbn [cursor0 geo last_pt app] in G. rewrite G. unfold GeometryMade.
  pose proof (enc_lines_len (0, 0) _ Hok). rewrite made_lines; auto; try discriminate; [|lia].
  rewrite map_map. reflexivity.
Qed.

(** Polygons: the same, so a tile written by this library never makes its reader ask for more
    than it returns ([seen_polygon] is what C13 reads back). *)
Theorem C131_written_polygons : forall (P : Type) (q : P -> Z * Z) (same : P -> P -> bool) polys,
  Forall (fun rings => rings <> [] /\
     Forall (fun r => r <> [] /\ bounded 23170 (map q r) /\ short r) rings) polys ->
  exists c, MakeMultiPolygonFloat q same cursor0 polys = Ok c /\
    GeometryMade 3 (geo c) = map (fun r => Z.of_nat (length r)) (concat (map (seen_polygon q same) polys)).
Proof.
  intros P proj peq polys Hall.
  set (ps := map (fun rings => map (fun l => map proj (close_with peq l)) rings) polys).
  assert (Hshape : Forall (fun rings => rings <> [] /\ Forall (fun l => l <> []) rings) polys).
  { eapply Forall_impl; [|exact Hall]. intros rings [H1 H2]. split; auto.
    eapply Forall_impl; [|exact H2]. cbn. tauto. }
  assert (Hfits : Forall (Forall ring_fits) ps).
  { subst ps. rewrite Forall_forall in *. intros x Hx. rewrite in_map_iff in Hx.
    destruct Hx as (rings & <- & Hin). destruct (Hall _ Hin) as [_ H2].
    rewrite Forall_forall in *. intros y Hy. rewrite in_map_iff in Hy. destruct Hy as (l & <- & Hl).
    destruct (H2 _ Hl) as (A1 & A2 & A3). apply close_with_fits; auto. }
  destruct (MakeMultiPolygonFloat_eq proj peq polys cursor0 Hshape Hfits fits0) as [n E].
  fold ps in E. eexists. split; [exact E|]. cbn [geo cursor0 last_pt app].
  set (ls := concat (map emitted ps)).
  assert (Hls : Forall ring_fits ls).
  { apply Forall_concat'. rewrite Forall_forall in *. intros x Hx. rewrite in_map_iff in Hx.
    destruct Hx as (y & <- & Hy). apply emitted_fits; auto. }
  assert (Hseen : map (seen_polygon proj peq) polys = map (map merge_runs) (map emitted ps)).
  { subst ps. rewrite !map_map. apply map_ext. intros. symmetry. apply emitted_seen. }
  rewrite Hseen. pose proof (enc_rings_len (0, 0) ls Hls) as Hlen.
  unfold GeometryMade. rewrite made_rings; auto; try discriminate; [|lia].
  subst ls. rewrite <- concat_map, map_map. reflexivity.
Qed.
Print Assumptions C131_written_polygons.

(** ** Any command list *)

Definition slots (l : list Z) : Z := fold_right Z.add 0 l.

Lemma read_pairs_short k : forall g, (length g <= k)%nat -> forall n fp ps fp' g', 0 <= n -> read_pairs g n fp = (ps, fp', g') ->
  Z.of_nat (length ps) = n \/ Z.of_nat (length ps) < n /\ (length g' <= 1)%nat.
Proof.
  induction k as [|k IH]; intros l Hl n fp ps fp' g' Hn E.
  - destruct l; cbn in Hl; [|lia]. cbn in E. injection E as <- <- <-. cbn. lia.
  - destruct l as [|x [|y r]]; cbn [read_pairs] in E; try (injection E as <- <- <-; cbn; lia).
    destruct (n >? 0) eqn:En; [|injection E as <- <- <-; cbn; lia].
    destruct (read_pairs r (n - 1) _) as [[ps1 fp1] g1] eqn:E1. injection E as <- <- <-.
    cbn in Hl. apply IH in E1; [cbn [length]; lia|lia|lia].
Qed.

Lemma made_one f gtype first fp g : (length g <= 1)%nat -> made_loop f gtype first fp g = [].
Proof.
  destruct g as [|c [|d r]]; intros H; [apply made_nil| |cbn in H; lia].
  destruct f; [reflexivity|]. cbn [made_loop]. destruct (c =? 9); [reflexivity|apply made_nil].
Qed.

Lemma made_bound f : forall gtype first fp g, Forall (fun c => 0 <= c < 2 ^ 32) g ->
  Forall (fun n => 1 <= n <= 2 ^ 29) (made_loop f gtype first fp g) /\
  2 * slots (made_loop f gtype first fp g) < 2 ^ 30 + Z.of_nat (length g).
Proof.
  induction f as [|f IH]; intros gtype first fp g Hg.
  - destruct g; cbn [made_loop length slots fold_right]; split; auto; lia.
  - destruct g as [|c r]; cbn [made_loop]; [cbn [slots fold_right length]; split; auto; lia|].
    inversion Hg as [|? ? Hc Hr]; subst.
    destruct (c =? 9).
    2:{ destruct (IH gtype false fp r Hr) as [H1 H2]. split; auto. cbn [length]. lia. }
    destruct r as [|x [|y r2]]; try (cbn [slots fold_right length]; split; auto; lia).
    inversion Hr as [|? ? Hx Hr1]; subst. inversion Hr1 as [|? ? Hy Hr2]; subst.
    assert (Hgo : forall fp1, let l := match r2 with
                  | [] => []
                  | cmd :: r3 =>
                      let '(_, fp2, r4) := read_pairs r3 (Z.shiftr cmd 3) fp1 in
                      (Z.shiftr cmd 3 + 1) :: made_loop f gtype false (Some fp2) r4
                  end in Forall (fun n => 1 <= n <= 2 ^ 29) l /\ 2 * slots l < 2 ^ 30 + Z.of_nat (length (c :: x :: y :: r2))).
    { intros fp1. destruct r2 as [|cmd r3]; [cbn [slots fold_right length]; split; auto; lia|].
      inversion Hr2 as [|? ? Hcmd Hr3]; subst. cbn zeta.
      assert (Hn : 0 <= Z.shiftr cmd 3 < 2 ^ 29).
      { rewrite Z.shiftr_div_pow2 by lia. split; [apply Z.div_pos; lia|]. apply Z.div_lt_upper_bound; lia. }
      destruct (read_pairs r3 (Z.shiftr cmd 3) fp1) as [[ps fp2] r4] eqn:E.
      pose proof (read_pairs_len _ _ _ _ _ _ E) as Hlen.
      assert (Hr4 : Forall (fun c => 0 <= c < 2 ^ 32) r4).
      { clear -E Hr3. revert E. generalize (Z.shiftr cmd 3) as n. intros n.
        assert (H : forall k g, (length g <= k)%nat -> Forall (fun c => 0 <= c < 2 ^ 32) g -> forall n fp ps fp' g',
                   read_pairs g n fp = (ps, fp', g') -> Forall (fun c => 0 <= c < 2 ^ 32) g').
        { clear. induction k as [|k IH]; intros l Hl Hf n fp ps fp' g' E.
          - destruct l; cbn in Hl; [|lia]. cbn in E. injection E as <- <- <-. auto.
          - destruct l as [|x [|y r]]; cbn [read_pairs] in E; try (injection E as <- <- <-; auto; fail).
            destruct (n >? 0); [|injection E as <- <- <-; auto].
            destruct (read_pairs r (n - 1) _) as [[ps1 fp1] g1] eqn:E1. injection E as <- <- <-.
            inversion Hf as [|? ? _ Hf1]; subst. inversion Hf1; subst. cbn in Hl. eapply IH in E1; eauto. lia. }
        intros E. eapply H in E; eauto. }
      destruct (read_pairs_short _ r3 (Nat.le_refl _) _ _ _ _ _ (proj1 Hn) E) as [Hfull | [Hlt Hone]].
      - destruct (IH gtype false (Some fp2) r4 Hr4) as [H1 H2]. split; [constructor; auto; lia|].
        unfold slots in *. cbn [fold_right length]. lia.
      - rewrite made_one by auto. split; [constructor; auto; lia|]. unfold slots. cbn [fold_right length]. lia. }
    cbn zeta in Hgo |- *.
    destruct (negb first && _); [destruct fp as [q|]|]; [apply Hgo| |apply Hgo].
    cbn [slots fold_right length]; split; auto; lia.
Qed.

(** Whatever the command list, a single request is for at most 2^29 slots, and all requests
    together are for at most 2^29 more than half the numbers: only the last count can claim
    more points than follow it. *)
Theorem C131_any_list_bound : forall gtype g, Forall (fun c => 0 <= c < 2 ^ 32) g ->
  Forall (fun n => 1 <= n <= 2 ^ 29) (GeometryMade gtype g) /\
  2 * slots (GeometryMade gtype g) < 2 ^ 30 + Z.of_nat (length g).
Proof. intros. apply made_bound. auto. Qed.
Print Assumptions C131_any_list_bound.

(** That the memory requested is bounded by the input is false: four numbers, whatever the
    geometry type, ask for any number of slots up to 2^29 (24 bytes each, so 12 GiB) and the
    geometry that comes back has one point. *)
Theorem C131_input_bound_refuted : forall gtype n, 0 <= n < 2 ^ 29 ->
  let g := [9; 0; 0; 8 * n + 2] in
  Forall (fun c => 0 <= c < 2 ^ 32) g /\
  GeometryMade gtype g = [n + 1] /\
  geom_loop (length g) (zlen g) gtype true None [] g = Ok [[(0, 0)]].
Proof.
  intros gtype n Hn g. subst g.
  assert (E : Z.shiftr (8 * n + 2) 3 = n).
  { rewrite Z.shiftr_div_pow2 by lia. change (2 ^ 3) with 8. symmetry. apply Z.div_unique with 2; lia. }
  split; [repeat apply Forall_cons; try apply Forall_nil; lia|].
  unfold GeometryMade. cbn [length made_loop geom_loop]. change (9 =? 9) with true. cbn iota zeta.
  cbn [negb andb bind]. rewrite E. cbn [read_pairs]. split; reflexivity.
Qed.
Print Assumptions C131_input_bound_refuted.

(** For lists the reader accepts, the requests are the lines in order, each with room for the
    points read and no fewer. *)
Theorem C131_room_for_points : forall gtype g out, Z.of_nat (length g) <> 3 ->
  Forall (fun c => 0 <= c) g ->
  geom_loop (length g) (zlen g) gtype true None [] g = Ok out ->
  Forall2 (fun n l => Z.of_nat (length l) <= n) (GeometryMade gtype g) out.
Proof.
  intros gtype g out H3 Hg E. unfold GeometryMade.
  assert (H : forall f total first fp lines g out, total <> 3 -> Forall (fun c => 0 <= c) g ->
     geom_loop f total gtype first fp lines g = Ok out ->
     exists more, out = lines ++ more /\ Forall2 (fun n l => Z.of_nat (length l) <= n) (made_loop f gtype first fp g) more).
  2:{ destruct (H _ _ _ _ _ _ _ H3 Hg E) as (more & -> & F). exact F. }
  clear. induction f as [|f IH]; intros total first fp lines g out Ht Hg E.
  - destruct g; cbn [geom_loop made_loop] in *; [|discriminate]. injection E as <-. exists []. rewrite app_nil_r. auto.
  - destruct g as [|c r]; cbn [geom_loop made_loop] in *.
    { injection E as <-. exists []. rewrite app_nil_r. auto. }
    inversion Hg as [|? ? Hc Hr]; subst.
    destruct (c =? 9); [|eapply IH; eauto].
    destruct r as [|x [|y r2]]; try discriminate.
    inversion Hr as [|? ? Hx Hr1]; subst. inversion Hr1 as [|? ? Hy Hr2]; subst.
    replace (total =? 3) with false in E by lia.
    assert (Hgo : forall fp1,
       match r2 with
       | [] => Ok lines
       | cmd :: r3 => let '(ps, fp2, r4) := read_pairs r3 (Z.shiftr cmd 3) fp1 in
                      geom_loop f total gtype false (Some fp2) (lines ++ [fp1 :: ps]) r4
       end = Ok out ->
       exists more, out = lines ++ more /\ Forall2 (fun n l => Z.of_nat (length l) <= n)
         match r2 with
         | [] => []
         | cmd :: r3 => let '(_, fp2, r4) := read_pairs r3 (Z.shiftr cmd 3) fp1 in
                        (Z.shiftr cmd 3 + 1) :: made_loop f gtype false (Some fp2) r4
         end more).
    { intros fp1 E1. destruct r2 as [|cmd r3].
      { injection E1 as <-. exists []. rewrite app_nil_r. auto. }
      inversion Hr2 as [|? ? Hcmd Hr3]; subst.
      assert (Hn : 0 <= Z.shiftr cmd 3) by (apply Z.shiftr_nonneg; lia).
      destruct (read_pairs r3 (Z.shiftr cmd 3) fp1) as [[ps fp2] r4] eqn:E2.
      assert (Hr4 : Forall (fun c => 0 <= c) r4).
      { clear -E2 Hr3. revert E2. generalize (Z.shiftr cmd 3) as n. intros n.
        assert (H : forall k g, (length g <= k)%nat -> Forall (fun c => 0 <= c) g -> forall n fp ps fp' g',
                   read_pairs g n fp = (ps, fp', g') -> Forall (fun c => 0 <= c) g').
        { clear. induction k as [|k IH]; intros l Hl Hf n fp ps fp' g' E.
          - destruct l; cbn in Hl; [|lia]. cbn in E. injection E as <- <- <-. auto.
          - destruct l as [|x [|y r]]; cbn [read_pairs] in E; try (injection E as <- <- <-; auto; fail).
            destruct (n >? 0); [|injection E as <- <- <-; auto].
            destruct (read_pairs r (n - 1) _) as [[ps1 fp1] g1] eqn:E1. injection E as <- <- <-.
            inversion Hf as [|? ? _ Hf1]; subst. inversion Hf1; subst. cbn in Hl. eapply IH in E1; eauto. lia. }
        intros E. eapply H in E; eauto. }
      destruct (IH _ _ _ _ _ _ Ht Hr4 E1) as (more & -> & F).
      exists ((fp1 :: ps) :: more). rewrite <- app_assoc. split; [reflexivity|].
      constructor; auto. cbn [length].
      destruct (read_pairs_short _ r3 (Nat.le_refl _) _ _ _ _ _ Hn E2) as [Hf | [Hf _]]; lia. }
    destruct (negb first && _); [destruct fp as [q|]|]; cbn [bind] in E; [apply Hgo in E; exact E|discriminate|apply Hgo in E; exact E].
Qed.
Print Assumptions C131_room_for_points.

Example C131_nonvacuous :
  (exists c, MakeMultiLineFloat (fun p => p) cursor0 [[(1, 2); (1, 2); (3, 4)]; [(5, 6); (7, 8)]] = Ok c /\
    GeometryMade 2 (geo c) = [2; 2]) /\
  GeometryMade 2 [9; 2; 2; 4294967290] = [2 ^ 29] /\
  GeometryMade 2 [9; 2; 2; 18; 4; 4; 0; 0; 9; 2; 2; 34; 2] = [3; 5].
Proof. split; [eexists; split; reflexivity|]. split; vm_compute; reflexivity. Qed.
