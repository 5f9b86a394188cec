(** Features made from clipped geometries, and feature files. *)
From Coq Require Import String ZArith List Bool Lia Permutation.
From Verif Require Import GoBase GoStr Tileid_Model Tileid_Props Features_Model.
Import ListNotations.
Open Scope nat_scope.
Open Scope string_scope.

(** ** Maps on the heap *)
Section Heap.
Context {V : Type}.
Implicit Types (m : @props V) (h : @heap V).
Lemma pget_pput k k' (v : V) m : pget k (pput k' v m) = if String.eqb k k' then Some v else pget k m.
Proof.
  induction m as [|[a x] m IH]; cbn [pput pget].
  - destruct (String.eqb_spec k k'); reflexivity.
  - destruct (String.eqb_spec k' a) as [->|N]; cbn [pget].
    + destruct (String.eqb_spec k a); reflexivity.
    + destruct (String.eqb_spec k a) as [->|]; [|exact IH]. destruct (String.eqb_spec a k'); congruence.
Qed.
Lemma hset_app h m k v h' : hset (h ++ m :: h')%list (List.length h) k v = (h ++ pput k v m :: h')%list.
Proof. induction h as [|a h IH]; cbn; [reflexivity|]. rewrite IH. reflexivity. Qed.
Lemma copy_app (l : list (string * V)) h m : fold_left (fun h' e => hset h' (List.length h) (fst e) (snd e)) l (h ++ [m])%list =
  (h ++ [fold_left (fun a e => pput (fst e) (snd e) a) l m])%list.
Proof. revert m. induction l as [|e l IH]; intros m; cbn [fold_left]; [reflexivity|]. rewrite hset_app. apply IH. Qed.
Lemma pget_none k m : pget k m = None <-> ~ In k (map fst m).
Proof.
  induction m as [|[a x] m IH]; cbn [pget map fst In]; [tauto|]. destruct (String.eqb_spec k a) as [->|N]; [split; [discriminate|tauto]|]. rewrite IH.
  split; intros H; [intros [E|E]; [congruence|tauto]|tauto].
Qed.
Lemma pget_in k v m : NoDup (map fst m) -> (pget k m = Some v <-> In (k, v) m).
Proof.
  induction m as [|[a x] m IH]; intros N; cbn [pget In]; [split; [discriminate|tauto]|]. cbn [map fst] in N. inversion N as [|? ? N1 N2]; subst.
  destruct (String.eqb_spec k a) as [->|E].
  - split; [intros H; injection H as ->; auto|]. intros [H|H]; [injection H as ->; auto|]. exfalso. apply N1. apply (in_map fst) in H. exact H.
  - rewrite IH by auto. split; [auto|]. intros [H|H]; [injection H as <- <-; congruence|auto].
Qed.
Lemma copy_get k (l : list (string * V)) m : NoDup (map fst l) ->
  pget k (fold_left (fun a e => pput (fst e) (snd e) a) l m) = match pget k l with Some v => Some v | None => pget k m end.
Proof.
  revert m. induction l as [|[a x] l IH]; intros m N; cbn [fold_left pget fst snd]; [reflexivity|]. cbn [map fst] in N. inversion N as [|? ? N1 N2]; subst. rewrite IH, pget_pput by auto.
  destruct (String.eqb_spec k a) as [->|]; [|reflexivity]. assert (H : pget a l = None) by (apply pget_none; auto). rewrite H. reflexivity.
Qed.
Lemma pget_perm k l l' : NoDup (map fst l) -> Permutation l l' -> pget k l' = @pget V k l.
Proof.
  intros N P. assert (N' : NoDup (map fst l')) by (eapply Permutation_NoDup; [apply Permutation_map; exact P|exact N]).
  destruct (pget k l) as [v|] eqn:E.
  - apply pget_in; auto. eapply Permutation_in; [exact P|]. apply pget_in; auto.
  - apply pget_none. apply pget_none in E. intros H. apply E. eapply Permutation_in; [apply Permutation_map, Permutation_sym; exact P|exact H].
Qed.
End Heap.

Section C107.
Context {V D : Type} (str : string -> V) (walk : list (string * V) -> list (string * V)).
Hypothesis walk_perm : forall l, Permutation l (walk l).

(** The member of a geometry by the name of its type; other names have none *)
Definition member (t : string) (g : gdata D) : option D :=
  if t =? "Point" then gdPoint g else if t =? "MultiPoint" then gdMultiPoint g else if t =? "LineString" then gdLineString g
  else if t =? "MultiLineString" then gdMultiLineString g else if t =? "Polygon" then gdPolygon g else if t =? "MultiPolygon" then gdMultiPolygon g else None.
(** [g'] is [g] reduced to its own type's coordinates *)
Definition only_own (g g' : gdata D) : Prop :=
  gdType g' = gdType g /\ gdBox g' = None /\ forall t, member t g' = if t =? gdType g then member t g else None.
(** What a lookup in the map of the new feature for tile [k] gives *)
Definition tile_props (h : @heap V) (ps : option nat) (k : TileID) (key : string) : option V :=
  if key =? "COLORKEY" then Some (str "white") else if key =? "TILEID" then Some (str (Tilestr k)) else pget key (cell h ps).
(** Go maps have no key twice; a reference points into the heap *)
Definition heap_ok (h : @heap V) (ps : option nat) : Prop := NoDup (map fst (cell h ps)) /\ match ps with Some r => r < List.length h | None => True end.

Lemma copy_own g : only_own g (copy_geometry g).
Proof.
  unfold only_own, copy_geometry, member. destruct g as [t a b c d e f x]. cbn [gdType gdPoint gdMultiPoint gdLineString gdMultiLineString gdPolygon gdMultiPolygon gdBox].
  repeat match goal with |- context[if ?x =? ?y then _ else _] => destruct (String.eqb_spec x y); subst end; cbn; repeat split; auto; try congruence;
  intros u; repeat match goal with |- context[if ?x =? ?y then _ else _] => destruct (String.eqb_spec x y); subst end; cbn; try congruence; auto.
Qed.
Lemma cell_app h h' ps : heap_ok h ps -> cell (h ++ h')%list ps = cell h ps.
Proof. intros [_ L]. destruct ps as [r|]; cbn [cell]; [apply app_nth1; exact L|reflexivity]. Qed.
Lemma cell_ok h h' ps : heap_ok h ps -> heap_ok (h ++ h')%list ps.
Proof. intros H. pose proof (cell_app h h' ps H) as E. destruct H as [N L]. split; [rewrite E; auto|]. destruct ps; auto. rewrite app_length. lia. Qed.
Lemma copy_props_spec h ps : heap_ok h ps -> exists m, copy_props walk h ps = (List.length h, (h ++ [m])%list) /\ forall key, pget key m = pget key (cell h ps).
Proof.
  intros [N L]. unfold copy_props. eexists. split; [cbv zeta; apply f_equal; apply copy_app|]. intros key.
  assert (P := walk_perm (cell h ps)). rewrite copy_get by (eapply Permutation_NoDup; [apply Permutation_map; exact P|exact N]).
  rewrite (pget_perm key _ _ N P). destruct (pget key (cell h ps)); reflexivity.
Qed.

Lemma NewFeatures_spec (order : list (TileID * gdata D)) h ps h0 fs0 : heap_ok h ps ->
  exists ms, fst (fold_left (add_feature str walk ps) order ((h ++ h0)%list, fs0)) = (h ++ h0 ++ ms)%list /\
  Forall2 (fun e (m : props) => forall key, pget key m = tile_props h ps (fst e) key) order ms /\
  snd (fold_left (add_feature str walk ps) order ((h ++ h0)%list, fs0)) =
  (fs0 ++ map (fun e => mkF (copy_geometry (snd (fst e))) (List.length h + List.length h0 + snd e)) (combine order (seq 0 (List.length order))))%list.
Proof.
  intros OK. revert h0 fs0. induction order as [|[k g] order IH]; intros h0 fs0; cbn [fold_left]; [|unfold add_feature at 2 4].
  - exists []. rewrite !app_nil_r. repeat split; constructor.
  - destruct (copy_props_spec (h ++ h0)%list ps (cell_ok _ _ _ OK)) as (m & -> & Hm). rewrite !hset_app. rewrite cell_app in Hm by auto.
    rewrite <- app_assoc. set (m2 := pput "COLORKEY" (str "white") (pput "TILEID" (str (Tilestr k)) m)).
    destruct (IH (h0 ++ [m2])%list (fs0 ++ [mkF (copy_geometry g) (List.length (h ++ h0))])%list) as (ms & E1 & E2 & E3).
    exists (m2 :: ms). split; [|split].
    + etransitivity; [exact E1|]. rewrite <- app_assoc. reflexivity.
    + constructor; auto. intros key. unfold m2, tile_props. cbn [fst]. rewrite !pget_pput, Hm. reflexivity.
    + etransitivity; [exact E3|]. rewrite <- app_assoc. f_equal. cbn [List.length seq combine map app fst snd]. f_equal.
      * f_equal. rewrite app_length. lia.
      * rewrite <- seq_shift. rewrite app_length. cbn [List.length]. generalize (seq 0 (List.length order)) as sq. intros sq. revert order E1 E2 E3 IH. clear.
        intros order _ _ _ _. revert sq. induction order as [|e order IH]; intros [|i sq]; cbn [combine map]; auto. rewrite IH. cbn [fst snd]. f_equal. f_equal. lia.
Qed.

(** One feature per tile, in the order the map is walked; each has a map of its own, and no map that existed changes. *)
Theorem C107_tiles : forall h (order : list (TileID * gdata D)) ps, heap_ok h ps -> exists ms fs,
  NewFeatures str walk h order ps = ((h ++ ms)%list, fs) /\
  Forall2 (fun e f => only_own (snd e) (ftGeom f)) order fs /\
  map ftProps fs = seq (List.length h) (List.length order) /\
  Forall2 (fun e (m : props) => forall key, pget key m = tile_props h ps (fst e) key) order ms.
Proof.
  intros h order ps OK. destruct (NewFeatures_spec order h ps [] [] OK) as (ms & E1 & E2 & E3). rewrite !app_nil_r in *. cbn [app List.length] in *.
  exists ms, (map (fun e => mkF (copy_geometry (snd (fst e))) (List.length h + 0 + snd e)) (combine order (seq 0 (List.length order)))).
  split; [|split; [|split; auto]].
  - unfold NewFeatures. rewrite <- E1, <- E3. apply surjective_pairing.
  - clear. generalize (List.length h + 0) as n. generalize 0 as i. induction order as [|e order IH]; intros i n; cbn [List.length seq combine map]; constructor; [apply copy_own|]. apply (IH (S i) n).
  - clear. rewrite map_map. cbn [ftProps]. rewrite Nat.add_0_r. generalize (List.length h) as n. intros n. replace (seq n (List.length order)) with (seq (n + 0) (List.length order)) by (f_equal; lia). generalize 0 as i.
    induction order as [|e order IH]; intros i; cbn [List.length seq combine map snd]; auto. f_equal. replace (S (n + i)) with (n + S i) by lia. apply IH.
Qed.

(** So each feature names its own tile: TILEID is the tile string, from which the tile comes back. *)
Theorem C107_tile_known : forall h (order : list (TileID * gdata D)) ps, heap_ok h ps -> Forall (fun e => tile_wf (fst e)) order -> forall h' fs, NewFeatures str walk h order ps = (h', fs) ->
  Forall2 (fun e f => exists s, pget "TILEID" (nth (ftProps f) h' []) = Some (str s) /\ Strtile s = Ok (fst e)) order fs.
Proof.
  intros h order ps OK W h' fs E. destruct (C107_tiles h order ps OK) as (ms & fs' & E' & _ & R & F). rewrite E in E'. injection E' as -> ->. clear E OK.
  assert (G : forall i n, nth (List.length h + n) (h ++ ms)%list i = nth n ms i) by (intros; rewrite app_nth2_plus; reflexivity).
  assert (K : forall base (order' : list (TileID * gdata D)) (ms' : list props) fs'', Forall2 (fun e (m : props) => forall key, pget key m = tile_props h ps (fst e) key) order' ms' -> Forall (fun e => tile_wf (fst e)) order' ->
      map ftProps fs'' = seq (List.length h + base) (List.length order') -> (forall n, nth (base + n) ms [] = nth n ms' []) ->
      Forall2 (fun e f => exists s, pget "TILEID" (nth (ftProps f) (h ++ ms)%list []) = Some (str s) /\ Strtile s = Ok (fst e)) order' (fs'' : list (feat D))).
  { intros base order' ms' fs'' F'. revert base fs''. induction F' as [|e m order' ms' Hm F' IH]; intros base fs'' W' R' N; cbn [List.length seq] in R'.
    - destruct fs''; [constructor|discriminate].
    - destruct fs'' as [|f fs'']; [discriminate|]. cbn [map] in R'. injection R' as R1 R2. inversion W' as [|? ? W1 W2]; subst. constructor.
      + exists (Tilestr (fst e)). rewrite R1, G. pose proof (N 0) as N0. rewrite Nat.add_0_r in N0. rewrite N0. cbn [nth]. rewrite Hm. unfold tile_props. cbn. split; [reflexivity|].
        destruct (fst e) as [x y z]. destruct W1 as (Wx & Wy & Wz). apply C03_tilestr_round_trip; auto.
      + apply (IH (S base)); auto; [rewrite R2; f_equal; lia|]. intros n. specialize (N (S n)). cbn [nth] in N. rewrite <- N. f_equal. lia. }
  apply (K 0 order ms fs'); auto. rewrite Nat.add_0_r. exact R.
Qed.

(** NewFeature: the geometry as given, a copy of the properties with a colour and no tile. *)
Theorem C107_single : forall h (g : gdata D) ps, heap_ok h ps -> exists m,
  NewFeature str walk h g ps = ((h ++ [m])%list, mkF g (List.length h)) /\
  forall key, pget key m = if key =? "COLORKEY" then Some (str "white") else pget key (cell h ps).
Proof.
  intros h g ps OK. unfold NewFeature. destruct (copy_props_spec h ps OK) as (m & -> & Hm). rewrite hset_app.
  eexists. split; [reflexivity|]. intros key. rewrite pget_pput, Hm. reflexivity.
Qed.
End C107.
Print Assumptions C107_tiles.
Print Assumptions C107_tile_known.
Print Assumptions C107_single.

Example C107_nonvacuous :
  let h := [[("name", "a"); ("TILEID", "old")]] in
  let g t := mkGD t (Some 1) (Some 2) (Some 3) (Some 4) (Some 5) (Some 6) (Some 7) in
  let '(h', fs) := NewFeatures (fun s => s) (fun l => rev l) h [(mkTile 1 2 3, g "Polygon"); (mkTile 4 5 6, g "Circle")] (Some 0) in
  heap_ok h (Some 0) /\ map ftProps fs = [1; 2] /\ map (fun f => gdPolygon (ftGeom f)) fs = [Some 5; None] /\ map (fun f => pget "TILEID" (nth (ftProps f) h' [])) fs = [Some "1/2/3"; Some "4/5/6"] /\
  nth 0 h' [] = [("name", "a"); ("TILEID", "old")].
Proof.
  cbn. repeat split; auto. constructor; [intros [E|[]]; discriminate|]. constructor; [intros []|constructor].
Qed.

(** ** Feature files *)
Section C108.
Context {F : Type} (unmarshal : list Z -> option (list F)) (marshal : list F -> option (list Z)).
Lemma fread_fwrite n n' b fs : fread n (fwrite n' b fs) = if String.eqb n n' then Some b else fread n fs.
Proof.
  induction fs as [|[a x] fs IH]; cbn [fwrite fread].
  - destruct (String.eqb_spec n n'); reflexivity.
  - destruct (String.eqb_spec n' a) as [->|N]; cbn [fread].
    + destruct (String.eqb_spec n a); reflexivity.
    + destruct (String.eqb_spec n a) as [->|]; [|exact IH]. destruct (String.eqb_spec a n'); congruence.
Qed.

(** What is read: the parsed file, where a missing file counts as an empty one; anything that does not parse panics. *)
Theorem C108_read : forall fs name,
  (forall l, ReadFeatures unmarshal fs name = Ok l <->
     (exists b, fread name fs = Some b /\ unmarshal b = Some l) \/ (fread name fs = None /\ unmarshal [] = Some l)) /\
  (ReadFeatures unmarshal fs name = Panic <-> (exists b, fread name fs = Some b /\ unmarshal b = None) \/ (fread name fs = None /\ unmarshal [] = None)).
Proof.
  intros fs name. unfold ReadFeatures. destruct (fread name fs) as [b|]; [destruct (unmarshal b) eqn:E|destruct (unmarshal []) eqn:E];
    (split; [intros l'|]); split; intros H; try discriminate; try (injection H as <-); eauto 6;
    destruct H as [(b' & H1 & H2)|[H1 H2]]; try discriminate; try (injection H1 as <-); congruence.
Qed.

(** Features written and read back, as far as the GeoJSON library brings them back; other files are left alone. *)
Theorem C108_round_trip : forall fs feats name other b, marshal feats = Some b -> unmarshal b = Some feats ->
  ReadFeatures unmarshal (MakeFeatures marshal fs feats name) name = Ok feats /\
  (other <> name -> fread other (MakeFeatures marshal fs feats name) = fread other fs).
Proof.
  intros fs feats name other b M U. unfold ReadFeatures, MakeFeatures. rewrite M, !fread_fwrite, String.eqb_refl, U. split; [reflexivity|].
  intros N. destruct (String.eqb_spec other name); congruence.
Qed.

(** When the features cannot be written as JSON the file that was there is emptied; reading it then panics. *)
Theorem C108_failed_write : forall fs feats name old, marshal feats = None -> unmarshal [] = None -> fread name fs = Some old ->
  fread name (MakeFeatures marshal fs feats name) = Some [] /\ ReadFeatures unmarshal (MakeFeatures marshal fs feats name) name = Panic.
Proof. intros fs feats name old M U R. unfold ReadFeatures, MakeFeatures. rewrite M, fread_fwrite, String.eqb_refl, U. auto. Qed.
End C108.
Print Assumptions C108_read.
Print Assumptions C108_round_trip.
Print Assumptions C108_failed_write.

(** A codec that writes lists of small numbers only *)
Example C108_nonvacuous :
  let unmarshal b := match b with [] => None | _ :: l => Some l end in
  let marshal l := if forallb (fun n => n <? 256)%Z l then Some (91%Z :: l) else None in
  ReadFeatures unmarshal (MakeFeatures marshal [] [1; 2]%Z "f") "f" = Ok [1; 2]%Z /\
  ReadFeatures unmarshal (MakeFeatures marshal [("f", [91; 5]%Z)] [300%Z] "f") "f" = Panic /\ ReadFeatures unmarshal [] "f" = Panic.
Proof. repeat split. Qed.
