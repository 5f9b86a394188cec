(** Properties C43-C45: the sprite packer and the sprite sheet. *)
From Coq Require Import String ZArith List Lia Bool Permutation.
From Verif Require Import GoBase Sprite_Model Sprite_Proofs.
Import ListNotations.
Open Scope Z_scope.

(** Spec: two boxes (x,y,w,h) share no pixel. *)
Definition disjoint_boxes (x1 y1 w1 h1 x2 y2 w2 h2 : Z) : Prop :=
  forall px py, ~ (x1 <= px < x1 + w1 /\ y1 <= py < y1 + h1 /\ x2 <= px < x2 + w2 /\ y2 <= py < y2 + h2).

Definition nonneg_sizes (bs : list (Z * Z)) : Prop := forall b, In b bs -> 0 <= fst b /\ 0 <= snd b.

Lemma nonneg_nn bs : nonneg_sizes bs -> nn_sizes bs.
Proof. intros H. apply Forall_forall. exact H. Qed.

(** C43: every block gets a position and no two placed blocks share a pixel. *)
Theorem C43_no_overlap : forall blocks pos, nonneg_sizes blocks -> Fit blocks = Ok pos ->
  length pos = length blocks /\
  forall i j bi bj pi pj, i <> j ->
    nth_error blocks i = Some bi -> nth_error pos i = Some pi ->
    nth_error blocks j = Some bj -> nth_error pos j = Some pj ->
    disjoint_boxes (fst pi) (snd pi) (fst bi) (snd bi) (fst pj) (snd pj) (fst bj) (snd bj).
Proof.
  intros bs ps Hn HF. destruct (Fit_inv bs ps (nonneg_nn _ Hn) HF) as [L [root I]]. split; auto.
  intros i j bi bj pi pj Hij Hi1 Hi2 Hj1 Hj2.
  pose proof (all_apart_app_r _ _ (inv_apart _ _ I)) as HA.
  pose proof (all_apart_nth _ HA i j _ _ Hij (rects_nth _ _ _ _ _ Hi1 Hi2) (rects_nth _ _ _ _ _ Hj1 Hj2)) as H.
  cbn in H. intros px py. lia.
Qed.
Print Assumptions C43_no_overlap.

(** The sprites of the sheet: for distinct texture names and any result of sort.Slice, the map
    returned has one entry per texture, of its size, and entries share no pixel. *)
Theorem C43_sprites_disjoint : forall (ts bs : list (string * (Z * Z))) m size,
  NoDup (map fst ts) -> nonneg_sizes (map snd ts) -> sort_result ts bs ->
  GenerateSprite String.eqb ts bs = Ok (m, size) ->
  map fst m = map fst ts /\
  (forall k v, In (k, v) m -> In (k, (sW v, sH v)) ts) /\
  (forall k1 v1 k2 v2, In (k1, v1) m -> In (k2, v2) m -> k1 <> k2 ->
    disjoint_boxes (sX v1) (sY v1) (sW v1) (sH v1) (sX v2) (sY v2) (sW v2) (sH v2)).
Proof.
  intros ts bs m size Hn Hs [Hp _] HG.
  assert (Hs' : nonneg_sizes (map snd bs)).
  { intros b Hb. apply Hs. eapply Permutation_in; [apply Permutation_sym, Permutation_map; exact Hp|exact Hb]. }
  destruct (GenerateSprite_spec String.eqb String.eqb_eq ts bs m size Hn Hp (nonneg_nn _ Hs') HG)
    as (ps & HF & L & _ & Hk & Hspec).
  split; [exact Hk|split].
  - intros k v Hin. apply Hspec in Hin. destruct Hin as (i & b & p & Hb & _ & <- & ->). cbn [sW sH].
    eapply Permutation_in; [apply Permutation_sym; exact Hp|]. destruct b as [? [? ?]]. cbn. eapply nth_error_In; eauto.
  - intros k1 v1 k2 v2 H1 H2 Hk12. apply Hspec in H1. apply Hspec in H2.
    destruct H1 as (i & b1 & p1 & Hb1 & Hp1 & <- & ->). destruct H2 as (j & b2 & p2 & Hb2 & Hp2 & <- & ->). cbn [sW sH sX sY].
    destruct (C43_no_overlap _ _ Hs' HF) as [_ H].
    apply (H i j (snd b1) (snd b2) p1 p2); auto; try (rewrite nth_error_map, ?Hb1, ?Hb2; reflexivity).
    intros ->. rewrite Hb1 in Hb2. injection Hb2 as ->. auto.
Qed.
Print Assumptions C43_sprites_disjoint.

(** With repeated names the entry mixes the size of one texture with the position of another,
    and entries can overlap: here "a" (3x1) is drawn at the place of its 1x1 namesake, over "c". *)
Theorem C43_duplicate_names_refuted :
  exists ts bs m size, sort_result ts bs /\ nonneg_sizes (map snd ts) /\
    GenerateSprite String.eqb ts bs = Ok (m, size) /\
    exists va vb, In ("a"%string, va) m /\ In ("c"%string, vb) m /\
      ~ disjoint_boxes (sX va) (sY va) (sW va) (sH va) (sX vb) (sY vb) (sW vb) (sH vb).
Proof.
  exists [("a", (1, 1)); ("b", (2, 2)); ("c", (1, 1)); ("a", (3, 1))]%string,
         [("b", (2, 2)); ("a", (3, 1)); ("a", (1, 1)); ("c", (1, 1))]%string.
  eexists. eexists. split; [|split; [|split; [vm_compute; reflexivity|]]].
  - split.
    + apply perm_trans with [("b", (2, 2)); ("a", (1, 1)); ("c", (1, 1)); ("a", (3, 1))]%string; [apply perm_swap|].
      constructor. apply (Permutation_cons_append [("a", (1, 1)); ("c", (1, 1))]%string ("a", (3, 1))%string) || apply Permutation_sym, (Permutation_cons_append [("a", (1, 1)); ("c", (1, 1))]%string ("a", (3, 1))%string).
    + intros i j bi bj Hij Hi Hj. unfold area.
      destruct i as [|[|[|[|[|]]]]]; destruct j as [|[|[|[|[|]]]]]; cbn in Hi, Hj; try lia; try discriminate;
        injection Hi as <-; injection Hj as <-; cbn; lia.
  - cbn. intros b [<-|[<-|[<-|[<-|[]]]]]; cbn; lia.
  - exists (mkSprite 3 1 2 1). exists (mkSprite 1 1 3 1). split; [left; reflexivity|split; [right; right; left; reflexivity|]].
    intros H. apply (H 3 1). cbn. lia.
Qed.
Print Assumptions C43_duplicate_names_refuted.

(** Drawing: for every iteration order of the map, every pixel of every sprite shows that
    sprite's image and every pixel outside all sprites stays blank. *)
Theorem C43_drawing_faithful : forall (C : Type) (ts bs : list (string * (Z * Z))) m size
    (img : string -> @picture C) (blank : @picture C) (order : list (string * sprite)),
  NoDup (map fst ts) -> nonneg_sizes (map snd ts) -> sort_result ts bs ->
  GenerateSprite String.eqb ts bs = Ok (m, size) -> Permutation m order ->
  let dst := draw_all size blank (map (fun e => (snd e, img (fst e))) order) in
  (forall k v i j, In (k, v) m -> 0 <= i < sW v -> 0 <= j < sH v -> dst (sX v + i) (sY v + j) = img k i j) /\
  (forall px py, (forall k v, In (k, v) m -> ~ (sX v <= px < sX v + sW v /\ sY v <= py < sY v + sH v)) ->
    dst px py = blank px py).
Proof.
  intros C ts bs m size img blank order Hn Hs [Hp Has] HG Hord dst.
  destruct (C43_sprites_disjoint ts bs m size Hn Hs (conj Hp Has) HG) as (Hk & Hsz & Hdis).
  assert (Hs' : nonneg_sizes (map snd bs)).
  { intros b Hb. apply Hs. eapply Permutation_in; [apply Permutation_sym, Permutation_map; exact Hp|exact Hb]. }
  destruct (GenerateSprite_spec String.eqb String.eqb_eq ts bs m size Hn Hp (nonneg_nn _ Hs') HG)
    as (ps & HF & L & Esz & _ & Hspec).
  destruct (Fit_inv _ _ (nonneg_nn _ Hs') HF) as [_ [root I]].
  assert (Hsheet : forall k v, In (k, v) m -> 0 <= sX v /\ 0 <= sY v /\ sX v + sW v <= fst size /\ sY v + sH v <= snd size).
  { intros k v Hin. apply Hspec in Hin. destruct Hin as (i & b & p & Hb & Hpp & <- & ->). cbn [sX sY sW sH].
    pose proof (sheet_bound bs ps i b p Hb Hpp) as Hsb. rewrite Esz.
    pose proof (inv_in _ _ I) as Hin. apply Forall_app in Hin. destruct Hin as [_ Hin]. rewrite Forall_forall in Hin.
    assert (Hb' : nth_error (map snd bs) i = Some (snd b)) by (rewrite nth_error_map, Hb; reflexivity).
    specialize (Hin _ (nth_error_In _ _ (rects_nth _ _ _ _ _ Hb' Hpp))). cbn in Hin. lia. }
  assert (Hno : NoDup (map fst order)).
  { eapply Permutation_NoDup; [apply Permutation_map; exact Hord|]. rewrite Hk. auto. }
  split.
  - intros k v i j Hin Hi Hj. destruct (Hsheet _ _ Hin) as (? & ? & ? & ?).
    subst dst. rewrite (draw_all_in size _ blank (v, img k)); cbn [fst snd].
    + f_equal; lia.
    + apply in_map_iff. exists (k, v). split; auto. eapply Permutation_in; eauto.
    + unfold covers. lia.
    + intros a b sa sb Hab Ha Hb [Ca Cb].
      apply map_nth_error_inv in Ha. apply map_nth_error_inv in Hb.
      destruct Ha as ([ka va] & Ha & ->). destruct Hb as ([kb vb] & Hb & ->). cbn [fst snd] in *.
      assert (ka <> kb).
      { intros ->. apply Hab. apply (proj1 (NoDup_nth_error (map fst order)) Hno).
        - rewrite map_length. apply nth_error_Some. rewrite Ha. discriminate.
        - rewrite !nth_error_map, Ha, Hb. reflexivity. }
      assert (Ia : In (ka, va) m) by (eapply Permutation_in; [apply Permutation_sym; exact Hord|eapply nth_error_In; eauto]).
      assert (Ib : In (kb, vb) m) by (eapply Permutation_in; [apply Permutation_sym; exact Hord|eapply nth_error_In; eauto]).
      apply (Hdis _ _ _ _ Ia Ib H3 (sX v + i) (sY v + j)). unfold covers in *. lia.
    + lia.
    + lia.
  - intros px py H. subst dst. apply draw_all_out. intros s Hin. apply in_map_iff in Hin.
    destruct Hin as ([k v] & <- & Hin). cbn [fst snd]. unfold covers. eapply H.
    eapply Permutation_in; [apply Permutation_sym; exact Hord|exact Hin].
Qed.
Print Assumptions C43_drawing_faithful.

Example C43_nonvacuous :
  Fit [(4, 4); (3, 5); (2, 2); (1, 7)] = Ok [(0, 0); (0, 4); (4, 0); (4, 2)] /\
  Fit [(4, 4); (4, 3); (2, 2); (1, 4)] = Ok [(0, 0); (4, 0); (0, 4); (8, 0)].
Proof. vm_compute. auto. Qed.

(** C44: positions are non-negative and blocks lie in the sheet computed by GenerateSprite; the
    sheet is the smallest such one (at least one pixel). *)
Theorem C44_inside_sheet : forall (ts bs : list (string * (Z * Z))) m size,
  NoDup (map fst ts) -> nonneg_sizes (map snd ts) -> sort_result ts bs ->
  GenerateSprite String.eqb ts bs = Ok (m, size) ->
  (forall k v, In (k, v) m -> 0 <= sX v /\ 0 <= sY v /\ sX v + sW v <= fst size /\ sY v + sH v <= snd size) /\
  (fst size = 1 \/ exists k v, In (k, v) m /\ sX v + sW v = fst size) /\
  (snd size = 1 \/ exists k v, In (k, v) m /\ sY v + sH v = snd size).
Proof.
  intros ts bs m size Hn Hs [Hp Has] HG.
  assert (Hs' : nonneg_sizes (map snd bs)).
  { intros b Hb. apply Hs. eapply Permutation_in; [apply Permutation_sym, Permutation_map; exact Hp|exact Hb]. }
  destruct (GenerateSprite_spec String.eqb String.eqb_eq ts bs m size Hn Hp (nonneg_nn _ Hs') HG)
    as (ps & HF & L & Esz & _ & Hspec).
  destruct (Fit_inv _ _ (nonneg_nn _ Hs') HF) as [_ [root I]].
  split; [|split].
  - intros k v Hin. apply Hspec in Hin. destruct Hin as (i & b & p & Hb & Hpp & <- & ->). cbn [sX sY sW sH].
    pose proof (sheet_bound bs ps i b p Hb Hpp) as Hsb. rewrite Esz.
    pose proof (inv_in _ _ I) as Hin. apply Forall_app in Hin. destruct Hin as [_ Hin]. rewrite Forall_forall in Hin.
    assert (Hb' : nth_error (map snd bs) i = Some (snd b)) by (rewrite nth_error_map, Hb; reflexivity).
    specialize (Hin _ (nth_error_In _ _ (rects_nth _ _ _ _ _ Hb' Hpp))). cbn in Hin. lia.
  - rewrite Esz. unfold sheet. cbn [fst].
    destruct (fold_max_attained (fun bp : (string * (Z * Z)) * (Z * Z) => fst (snd (fst bp)) + fst (snd bp)) (combine bs ps) 0) as [E|([b p] & Hin & E)];
    rewrite E; [auto|]. destruct (Z.eqb_spec (fst (snd (fst (b, p))) + fst (snd (b, p))) 0); auto. right.
    apply combine_in_nth in Hin. destruct Hin as (i & Hb & Hpp). exists (fst b), (mkSprite (fst (snd b)) (snd (snd b)) (fst p) (snd p)).
    split; [apply Hspec; exists i, b, p; auto|]. cbn. lia.
  - rewrite Esz. unfold sheet. cbn [snd].
    destruct (fold_max_attained (fun bp : (string * (Z * Z)) * (Z * Z) => snd (snd (fst bp)) + snd (snd bp)) (combine bs ps) 0) as [E|([b p] & Hin & E)];
    rewrite E; [auto|]. destruct (Z.eqb_spec (snd (snd (fst (b, p))) + snd (snd (b, p))) 0); auto. right.
    apply combine_in_nth in Hin. destruct Hin as (i & Hb & Hpp). exists (fst b), (mkSprite (fst (snd b)) (snd (snd b)) (fst p) (snd p)).
    split; [apply Hspec; exists i, b, p; auto|]. cbn. lia.
Qed.
Print Assumptions C44_inside_sheet.

Example C44_nonvacuous :
  GenerateSprite String.eqb [("a", (2, 2)); ("b", (3, 1))]%string [("a", (2, 2)); ("b", (3, 1))]%string
  = Ok ([("a"%string, mkSprite 2 2 0 0); ("b"%string, mkSprite 3 1 2 0)], (5, 2)).
Proof. vm_compute. reflexivity. Qed.

(** C45: no panic on area-sorted blocks; more generally when the first block has the largest area. *)
Theorem C45_no_panic_first_largest : forall b bs, nonneg_sizes (b :: bs) ->
  (forall c, In c bs -> fst c * snd c <= fst b * snd b) ->
  exists pos, Fit (b :: bs) = Ok pos.
Proof.
  intros b bs Hn Ha. apply Fit_ok_head; [apply nonneg_nn; auto|]. apply Forall_forall. exact Ha.
Qed.
Print Assumptions C45_no_panic_first_largest.

Theorem C45_generate_never_panics : forall (ts bs : list (string * (Z * Z))),
  nonneg_sizes (map snd ts) -> sort_result ts bs ->
  exists m size, GenerateSprite String.eqb ts bs = Ok (m, size).
Proof.
  intros ts bs Hs [Hp Has].
  assert (Hs' : nonneg_sizes (map snd bs)).
  { intros b Hb. apply Hs. eapply Permutation_in; [apply Permutation_sym, Permutation_map; exact Hp|exact Hb]. }
  assert (H : exists pos, Fit (map snd bs) = Ok pos).
  { destruct bs as [|b bs]; [exists []; reflexivity|]. apply C45_no_panic_first_largest; auto.
    intros c Hc. apply in_map_iff in Hc. destruct Hc as (c' & <- & Hc). apply In_nth_error in Hc. destruct Hc as [j Hj].
    exact (Has 0%nat (S j) b c' (Nat.lt_0_succ j) eq_refl Hj). }
  destruct H as [pos E]. unfold GenerateSprite. rewrite E. cbn. eauto.
Qed.
Print Assumptions C45_generate_never_panics.

Theorem C45_unsorted_refuted : nonneg_sizes [(1, 1); (2, 2)] /\ Fit [(1, 1); (2, 2)] = Panic.
Proof. split; [intros b [<-|[<-|[]]]; cbn; lia|vm_compute; reflexivity]. Qed.
Print Assumptions C45_unsorted_refuted.

(** An order sort.Slice may return always exists. *)
Example C45_nonvacuous : sort_result [("a", (1, 1)); ("b", (2, 2))]%string [("b", (2, 2)); ("a", (1, 1))]%string.
Proof.
  split; [constructor|]. intros i j bi bj Hij Hi Hj. unfold area.
  destruct i as [|[|[|]]]; destruct j as [|[|[|]]]; cbn in Hi, Hj; try lia; try discriminate;
    injection Hi as <-; injection Hj as <-; cbn; lia.
Qed.
