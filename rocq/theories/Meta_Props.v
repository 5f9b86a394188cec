(** Theorems about tileset metadata (C66, C69). *)
From Coq Require Import String ZArith Reals List Lia Lra Bool Permutation.
From Flocq Require Import Core.
From Verif Require Import GoBase Num TileF64_Proofs F64 Json Regex StyleFile_Model StyleFile_Props Mbtiles_Model Mbtiles_Props Meta_Model Meta_Proofs.
Import ListNotations.
Open Scope Z_scope.

(** ** C69: comma-separated numbers *)

Definition int64 (n : Z) : Prop := - 2 ^ 63 <= n < 2 ^ 63.
(** Integers survive exactly, floats up to rounding at the eighth decimal. *)
Theorem C69_round_trip :
  (forall a b, int64 a -> int64 b -> stringToTileSize (tileSizeToString [a; b]) = Val ([a; b], false)) /\
  (forall l, length l = 4%nat -> Forall float_ok l -> stringToBounds (floatsToString l) = Val (map round8 l, false)) /\
  (forall l, length l = 3%nat -> Forall float_ok l -> stringToCenter (floatsToString l) = Val (map round8 l, false)).
Proof.
  split; [|split].
  - intros a b Ha Hb. unfold stringToTileSize, tileSizeToString.
    pose proof (parse_written int64 0 FormatInt ParseInt (fun x => x) 1 [a; b]) as W. cbn [map] in W. apply W; [|auto|reflexivity].
    intros x Hx. split; [apply FormatInt_plain|apply parse_int]; exact Hx.
  - intros l Ln O. unfold stringToBounds, floatsToString. apply (parse_written float_ok); auto. intros x Hx. split; [apply FormatFloat8_plain|apply parse_format]; exact Hx.
  - intros l Ln O. unfold stringToCenter, floatsToString. apply (parse_written float_ok); auto. intros x Hx. split; [apply FormatFloat8_plain|apply parse_format]; exact Hx.
Qed.
Print Assumptions C69_round_trip.
(** The rounding is to the nearest multiple of 10^-8 and then to binary64: off by less than 10^-8, nothing for numbers of
    2^26 and more, and a second round trip changes nothing. *)
Theorem C69_rounding : forall r, fmt r ->
  (Rabs (dec8 r - r) < / 100000000)%R /\ (67108864 <= Rabs r -> dec8 r = r)%R /\ dec8 (dec8 r) = dec8 r /\ fmt (dec8 r).
Proof. intros r F. split; [apply dec8_close; auto|]. split; [apply dec8_big; auto|]. split; [apply dec8_idem; auto|apply dec8_fmt]. Qed.
Print Assumptions C69_rounding.

Definition commas (s : gstr) : nat := length (filter (fun c => c =? 44) s).
Lemma split_length s : length (split_comma s) = Datatypes.S (commas s).
Proof.
  unfold commas. induction s as [|c t IH]; cbn [split_comma filter]; auto. destruct (c =? 44); cbn [length]; [rewrite IH; reflexivity|]. destruct (split_comma t); cbn [length] in *; [lia|exact IH].
Qed.
(** More commas than the array has room for panic, for any text between them; fewer never do. *)
Theorem C69_panics : forall s,
  (stringToBounds s = Crash <-> (4 <= commas s)%nat) /\ (stringToCenter s = Crash <-> (3 <= commas s)%nat) /\ (stringToTileSize s = Crash <-> (2 <= commas s)%nat).
Proof.
  assert (G : forall A (zero : A) parse cap s, parse_parts zero parse cap (split_comma s) false = Crash <-> (cap <= commas s)%nat).
  { intros A zero parse cap s. pose proof (split_length s) as L. split.
    - intros H. destruct (Nat.le_gt_cases (length (split_comma s)) cap) as [K|K]; [|lia]. rewrite parse_parts_all in H by auto. discriminate.
    - intros H. apply parse_parts_crash. lia. }
  intros s. split; [|split]; apply G.
Qed.
Print Assumptions C69_panics.
(** Otherwise missing components are 0, each component has the value of its own text, and the error is that of the last
    component alone. *)
Theorem C69_values : forall parts : list gstr, parts <> [] -> Forall (fun p => ~ In 44 p) parts ->
  let last_err {A} (parse : gstr -> A * bool) := snd (parse (TrimSpace (last parts []))) in
  let vals {A} (parse : gstr -> A * bool) := map (fun p => fst (parse (TrimSpace p))) parts in
  ((length parts <= 4)%nat -> stringToBounds (join parts) = Val (vals ParseFloat ++ repeat (Fin 0) (4 - length parts), last_err ParseFloat)) /\
  ((length parts <= 3)%nat -> stringToCenter (join parts) = Val (vals ParseFloat ++ repeat (Fin 0) (3 - length parts), last_err ParseFloat)) /\
  ((length parts <= 2)%nat -> stringToTileSize (join parts) = Val (vals ParseInt ++ repeat 0 (2 - length parts), last_err ParseInt)).
Proof.
  intros parts N C. cbv zeta.
  assert (E : exists l x, parts = l ++ [x]) by (destruct (exists_last N) as (l & x & E); eauto). destruct E as (l & x & E).
  assert (Rv : rev parts = last parts [] :: rev l) by (rewrite E, rev_app_distr, last_last; reflexivity).
  assert (G : forall A (zero : A) parse cap, (length parts <= cap)%nat -> parse_parts zero parse cap (split_comma (join parts)) false = Val (map (fun p => fst (parse (TrimSpace p))) parts ++ repeat zero (cap - length parts), snd (parse (TrimSpace (last parts []))))).
  { intros A zero parse cap H. rewrite split_join by auto. rewrite parse_parts_all by auto. rewrite Rv. reflexivity. }
  split; [|split]; intros H; apply G; auto.
Qed.
Print Assumptions C69_values.
(** So errors get lost. *)
Theorem C69_errors_refuted : stringToTileSize (B "wide,256") = Val ([0; 256], false) /\ stringToTileSize (B "256,") = Val ([256; 0], true) /\ ParseInt (B "wide") = (0, true).
Proof. vm_compute. auto. Qed.
Print Assumptions C69_errors_refuted.
Example C69_nonvacuous : tileSizeToString [512; -3] = B "512,-3" /\ stringToTileSize (B " 512 ,-3") = Val ([512; -3], false) /\ stringToTileSize (B "1,2,3") = Crash /\ stringToTileSize (B "99999999999999999999") = Val ([9223372036854775807; 0], true).
Proof. vm_compute. auto. Qed.
Example C69_rounding_nonvacuous : exists r, fmt r /\ dec8 r <> r.
Proof.
  exists (bpow radix2 (-40)). split; [apply generic_format_bpow; unfold FLT_exp; lia|]. unfold dec8.
  assert (Bp : (0 < bpow radix2 (-40) <= / 1024000000)%R).
  { split; [apply bpow_gt_0|]. eapply Rle_trans; [apply (bpow_le radix2 (-40) (-30)); lia|]. change (-30) with (- (30)). rewrite bpow_opp, bpow_IZR by lia. change (2 ^ 30) with 1073741824. lra. }
  replace (ZnearestE (bpow radix2 (-40) * P8)) with 0; [unfold Rdiv; rewrite Rmult_0_l, round_0 by apply valid_rnd_N; lra|].
  symmetry. apply Znearest_imp. rewrite Rminus_0_r, Rabs_right by lra. lra.
Qed.
Print Assumptions C69_rounding_nonvacuous.

(** ** C66: rows *)

Fixpoint assoc (k : gstr) (rows : list (gstr * gstr)) : option gstr :=
  match rows with [] => None | (k', v) :: t => if seqb k k' then Some v else assoc k t end.
Definition nonempty (r : gstr * gstr) : bool := match snd r with [] => false | _ => true end.

Lemma assoc_in k rows : NoDup (map fst rows) -> forall v, assoc k rows = Some v <-> In (k, v) rows.
Proof.
  induction rows as [|[k' w] t IH]; intros N v; cbn [assoc]; [split; [discriminate|intros []]|]. cbn [map fst] in N. inversion N; subst.
  destruct (seqb_spec k k') as [<-|Nk].
  - split; [intros [= ->]; left; auto|]. intros [E|E]; [congruence|]. destruct H1. apply (in_map fst) in E. exact E.
  - rewrite IH by auto. split; [right; auto|]. intros [E|E]; [congruence|auto].
Qed.
Lemma assoc_perm k a b : Permutation a b -> NoDup (map fst a) -> assoc k a = assoc k b.
Proof.
  intros P N. assert (N' : NoDup (map fst b)) by (eapply Permutation_NoDup; [apply Permutation_map; exact P|auto]).
  destruct (assoc k a) as [v|] eqn:E.
  - symmetry. apply assoc_in; auto. apply assoc_in in E; auto. eapply Permutation_in; eauto.
  - destruct (assoc k b) as [v|] eqn:F; auto. apply assoc_in in F; auto. apply Permutation_sym in P. apply (Permutation_in _ P) in F. apply assoc_in in F; auto. congruence.
Qed.
Lemma nodup_filter {A B} (f : A -> B) p l : NoDup (map f l) -> NoDup (map f (filter p l)).
Proof.
  induction l as [|a l IH]; intros N; cbn [filter]; auto. cbn [map] in N. inversion N; subst. destruct (p a); auto. cbn [map]. constructor; auto.
  intros K. apply H1. apply in_map_iff in K. destruct K as (x & E & K). apply filter_In in K. apply in_map_iff. exists x. tauto.
Qed.
Lemma assoc_filter k rows : NoDup (map fst rows) -> assoc k (filter nonempty rows) = match assoc k rows with Some [] => None | o => o end.
Proof.
  intros N. pose proof (nodup_filter fst nonempty rows N) as N'. destruct (assoc k rows) as [[|c t]|] eqn:E.
  - destruct (assoc k (filter nonempty rows)) as [v|] eqn:F; auto. apply assoc_in in F; auto. apply filter_In in F. destruct F as [F G]. apply assoc_in in F; auto. rewrite E in F. injection F as <-. discriminate.
  - apply assoc_in; auto. apply filter_In. split; [|reflexivity]. apply assoc_in; auto.
  - destruct (assoc k (filter nonempty rows)) as [v|] eqn:F; auto. apply assoc_in in F; auto. apply filter_In in F. destruct F as [F G]. apply assoc_in in F; auto. congruence.
Qed.
Lemma permutation_filter {A} (p : A -> bool) a b : Permutation a b -> Permutation (filter p a) (filter p b).
Proof.
  induction 1; cbn [filter]; auto.
  - destruct (p x); auto.
  - destruct (p x), (p y); auto. apply perm_swap.
  - eapply Permutation_trans; eauto.
Qed.

Section Rows.
Context {L : Type} (enc : L -> gstr) (decj : gstr -> option (option L)).
Notation Metadata := (Metadata L).

Lemma set_rows_filter rows : forall m : Metadata, set_rows decj m rows = set_rows decj m (filter nonempty rows).
Proof.
  induction rows as [|[k v] rows IH]; intros m; cbn [set_rows filter]; auto. destruct v as [|c t]; cbn [nonempty snd]; [apply IH|]. cbn [set_rows]. destruct (set_row decj m k (c :: t)); cbn [obind]; auto.
Qed.
Definition of_out {A} (d : A) (o : out (A * bool)) : A := match o with Val (a, _) => a | _ => d end.
Definition or_field {A} (o : option gstr) (f : gstr -> A) (d : A) : A := match o with Some v => f v | None => d end.
(** The record with every field taken from its row, if there is one *)
Definition collect (m : Metadata) (rows : list (gstr * gstr)) : Metadata :=
  let id := fun v : gstr => v in
  mkMD (or_field (assoc (B "name") rows) id (mName m)) (or_field (assoc (B "format") rows) StringToTileFormat (mFormat m))
       (or_field (assoc (B "bounds") rows) (fun v => of_out [] (stringToBounds v)) (mBounds m)) (or_field (assoc (B "center") rows) (fun v => of_out [] (stringToCenter v)) (mCenter m))
       (or_field (assoc (B "minzoom") rows) (fun v => fst (ParseInt v)) (mMinZoom m)) (or_field (assoc (B "maxzoom") rows) (fun v => fst (ParseInt v)) (mMaxZoom m))
       (or_field (assoc (B "description") rows) id (mDescription m)) (or_field (assoc (B "version") rows) id (mVersion m)) (or_field (assoc (B "type") rows) stringToLayerType (mType m))
       (or_field (assoc (B "attribution") rows) id (mAttribution m)) (or_field (assoc (B "json") rows) (fun v => match decj v with Some d => d | None => None end) (mLayerData m))
       (or_field (assoc (B "directory_layout") rows) id (mDirectoryLayout m)) (or_field (assoc (B "origin") rows) id (mOrigin m)) (or_field (assoc (B "srs") rows) id (mSrs m)) (or_field (assoc (B "bounds_srs") rows) id (mBoundsSrs m))
       (or_field (assoc (B "res_factor") rows) stringToResFactor (mResFactor m)) (or_field (assoc (B "tile_size") rows) (fun v => Some (of_out [] (stringToTileSize v))) (mTileSize m)).
(** A row that is read without an error *)
Definition row_good (r : gstr * gstr) : Prop := exists m : Metadata, set_row decj md0 (fst r) (snd r) = Val m.

Lemma assoc_other k rows : ~ In k (map fst rows) -> assoc k rows = None.
Proof.
  induction rows as [|[k' v] t IH]; intros N; auto. cbn [map fst In] in N. cbn [assoc]. destruct (seqb_spec k k') as [->|]; [tauto|]. apply IH. tauto.
Qed.
Lemma set_rows_collect rows : forall m : Metadata, NoDup (map fst rows) -> Forall (fun r => nonempty r = true) rows -> Forall row_good rows -> set_rows decj m rows = Val (collect m rows).
Proof.
  induction rows as [|[k v] rows IH]; intros m N E G.
  - destruct m. reflexivity.
  - cbn [map fst] in N. inversion N; subst. inversion E; subst. inversion G; subst. cbn [set_rows]. destruct v as [|c t]; [discriminate|]. set (v := c :: t) in *. clearbody v. clear c t.
    pose proof (assoc_other _ _ H1) as A. destruct H5 as [m' Hm']. cbn [fst snd] in Hm'. specialize (fun m => IH m H2 H4 H6). clear - IH A Hm'.
    destruct m as [name format bounds center minzoom maxzoom description version type attribution layer dir origin srs bsrs res size].
    unfold set_row in *. cbn [md0] in Hm'. revert Hm'.
    repeat match goal with
    | |- context [if seqb k ?w then _ else _] => destruct (seqb_spec k w) as [Ek|]
    end; intros Hm'.
    all: try (subst k; cbn [obind];
      try match goal with
      | |- context [ParseInt ?w] => destruct (ParseInt w) as [? []] eqn:EP; cbn [ok_or_err obind] in *; [discriminate|]
      | |- context [stringToCenter ?w] => destruct (stringToCenter w) as [[? []]| |] eqn:EP; cbn [ok_or_err obind] in *; try discriminate
      | |- context [stringToBounds ?w] => destruct (stringToBounds w) as [[? []]| |] eqn:EP; cbn [ok_or_err obind] in *; try discriminate
      | |- context [stringToTileSize ?w] => destruct (stringToTileSize w) as [[? []]| |] eqn:EP; cbn [ok_or_err obind] in *; try discriminate
      end;
      try match goal with |- context [decj ?w] => destruct (decj w) eqn:EP; [|discriminate] end; cbn [obind]; rewrite IH; f_equal; unfold collect; rewrite A;
      cbn [assoc mName mFormat mBounds mCenter mMinZoom mMaxZoom mDescription mVersion mType mAttribution mLayerData mDirectoryLayout mOrigin mSrs mBoundsSrs mResFactor mTileSize];
      repeat match goal with |- context [seqb (B ?a) (B ?b)] => let x := eval vm_compute in (seqb (B a) (B b)) in change (seqb (B a) (B b)) with x end; cbv iota;
      cbn [or_field]; try rewrite EP; cbn [fst of_out]; reflexivity).
    cbn [obind]. rewrite IH. f_equal. unfold collect. cbn [assoc mName mFormat mBounds mCenter mMinZoom mMaxZoom mDescription mVersion mType mAttribution mLayerData mDirectoryLayout mOrigin mSrs mBoundsSrs mResFactor mTileSize].
    repeat match goal with |- context [seqb (B ?a) k] => destruct (seqb_spec (B a) k); [congruence|] end. reflexivity.
Qed.

(** ** C66: the round trip *)

(** A record the database can hold: a known format, 64 bit integers, arrays of their Go lengths and binary64 numbers *)
Definition md_ok (m : Metadata) : Prop :=
  0 <= mFormat m <= 10 /\ int64 (mMinZoom m) /\ int64 (mMaxZoom m) /\
  (length (mBounds m) = 4%nat /\ Forall float_ok (mBounds m)) /\ (length (mCenter m) = 3%nat /\ Forall float_ok (mCenter m)) /\
  (forall f, mResFactor m = RFloat f -> float_ok f) /\ (forall ts, mTileSize m = Some ts -> exists a b, ts = [a; b] /\ int64 a /\ int64 b).
(** JSON of the layer data is not empty and can be read back *)
Definition json_ok (m : Metadata) : Prop := forall d, mLayerData m = Some d -> enc d <> [] /\ decj (enc d) = Some (Some d).
(** What is left of a record: no version, no attribution, rounded bounds and centre, types other than the two are base
    layers, a resolution factor that is a string other than "sqrt2" is read as a number *)
Definition stored_res (r : resfactor) : resfactor :=
  match r with
  | RFloat f => RFloat (round8 f)
  | RStr s => if seqb s (B "sqrt2") then RStr s else let '(f, err) := ParseFloat (TrimSpace s) in if err then RNil else RFloat f
  | _ => RNil
  end.
Definition stored (m : Metadata) : Metadata :=
  mkMD (mName m) (mFormat m) (map round8 (mBounds m)) (map round8 (mCenter m)) (mMinZoom m) (mMaxZoom m) (mDescription m) [] (if mType m =? 1 then 1 else 0)
       [] (mLayerData m) (mDirectoryLayout m) (mOrigin m) (mSrs m) (mBoundsSrs m) (stored_res (mResFactor m)) (mTileSize m).

Definition entries (m : Metadata) (format : gstr) : list (gstr * gstr) :=
  [(B "name", mName m); (B "description", mDescription m); (B "minzoom", FormatInt (mMinZoom m)); (B "maxzoom", FormatInt (mMaxZoom m));
   (B "center", floatsToString (mCenter m)); (B "bounds", floatsToString (mBounds m)); (B "type", layerTypeToString (mType m)); (B "format", format);
   (B "json", match mLayerData m with Some d => enc d | None => [] end); (B "directory_layout", mDirectoryLayout m); (B "origin", mOrigin m); (B "srs", mSrs m); (B "bounds_srs", mBoundsSrs m);
   (B "res_factor", resFactorToString (mResFactor m)); (B "tile_size", match mTileSize m with Some ts => tileSizeToString ts | None => [] end)].
Lemma filter_cons_app {A} p (x : A) l : filter p (x :: l) = filter p [x] ++ filter p l.
Proof. cbn [filter]. destruct (p x); reflexivity. Qed.
Lemma filter_opt k v : filter nonempty (opt_entry k v) = filter nonempty [(k, v)].
Proof. destruct v; reflexivity. Qed.
Lemma ToMap_entries m format l : TileFormatToString (mFormat m) = Val format -> ToMap enc m = Val l -> filter nonempty l = filter nonempty (entries m format).
Proof.
  intros F T. unfold ToMap in T. rewrite F in T. cbn [obind] in T. injection T as <-. unfold entries.
  rewrite !filter_app, !filter_opt.
  repeat match goal with |- context [filter nonempty ((?a, ?b) :: ?x :: ?l)] => rewrite (filter_cons_app nonempty (a, b) (x :: l)) end.
  match goal with |- context [filter nonempty ((B "format", format) :: ?l)] => rewrite (filter_cons_app nonempty (B "format", format) l) end. rewrite !filter_app, !filter_opt.
  do 8 f_equal. f_equal; [destruct (mLayerData m); reflexivity|]. do 4 f_equal. f_equal; [|destruct (mTileSize m); reflexivity]. { destruct (mResFactor m); reflexivity. }
Qed.
Lemma entries_keys m format : NoDup (map fst (entries m format)).
Proof.
  unfold entries. cbn [map fst]. repeat constructor; cbn [In]; intros K; repeat match type of K with _ \/ _ => destruct K as [K|K] end; try contradiction; vm_compute in K; congruence.
Qed.

Lemma fmt_nonempty fuel n : 0 <= n < 10 ^ Z.of_nat (Datatypes.S fuel) -> fmt_pos (Datatypes.S fuel) n <> [].
Proof. intros H. apply dec_fmt; [exact H|lia]. Qed.
Lemma FormatInt_nonempty n : int64 n -> FormatInt n <> [].
Proof. unfold int64. intros H. unfold FormatInt. destruct (Z.ltb_spec n 0); [discriminate|]. apply fmt_nonempty. change (10 ^ Z.of_nat 20) with (10 ^ 20). lia. Qed.
Lemma Format8_nonempty x : float_ok x -> FormatFloat8 x <> [].
Proof.
  intros O E. pose proof (parse_format x O) as P. rewrite E in P. change (ParseFloat []) with (Fin 0, true) in P. congruence.
Qed.
Lemma join_nonempty a b l : join (a :: b :: l) <> [].
Proof. cbn [join]. destruct a; discriminate. Qed.
Lemma res_float f : float_ok f -> stringToResFactor (FormatFloat8 f) = RFloat (round8 f).
Proof.
  intros O. pose proof (parse_format f O) as P. unfold stringToResFactor. destruct (seqb_spec (FormatFloat8 f) (B "sqrt2")) as [E|N].
  - rewrite E in P. change (ParseFloat (B "sqrt2")) with (Fin 0, true) in P. congruence.
  - rewrite TrimSpace_plain by (apply FormatFloat8_plain; auto). rewrite P. reflexivity.
Qed.

Ltac rg E := eexists; cbn [fst snd]; cbn -[ParseInt stringToCenter stringToBounds stringToTileSize stringToResFactor StringToTileFormat stringToLayerType]; rewrite ?E; reflexivity.
Lemma rg_plain k v : In k [B "name"; B "description"; B "type"; B "format"; B "directory_layout"; B "origin"; B "srs"; B "bounds_srs"; B "res_factor"] -> row_good (k, v).
Proof. intros H. cbn [In] in H. repeat destruct H as [<-|H]; try contradiction; rg (@eq_refl nat 0%nat). Qed.
Lemma rg_int k v n : In k [B "minzoom"; B "maxzoom"] -> ParseInt v = (n, false) -> row_good (k, v).
Proof. intros H E. cbn [In] in H. repeat destruct H as [<-|H]; try contradiction; rg E. Qed.
Lemma rg_center v l : stringToCenter v = Val (l, false) -> row_good (B "center", v).
Proof. intros E. rg E. Qed.
Lemma rg_bounds v l : stringToBounds v = Val (l, false) -> row_good (B "bounds", v).
Proof. intros E. rg E. Qed.
Lemma rg_size v l : stringToTileSize v = Val (l, false) -> row_good (B "tile_size", v).
Proof. intros E. rg E. Qed.
Lemma rg_json v d : decj v = Some d -> row_good (B "json", v).
Proof. intros E. rg E. Qed.
Lemma entries_good m format : md_ok m -> json_ok m -> Forall (row_good) (filter nonempty (entries m format)).
Proof.
  intros (Hf & Hmin & Hmax & (Lb & Ob) & (Lc & Oc) & Hr & Ht) J. destruct C69_round_trip as (TS & BS & CS).
  assert (G : Forall (fun r => nonempty r = true -> row_good r) (entries m format)).
  { unfold entries. repeat (apply Forall_cons; [intros NE|]); try apply Forall_nil; try (apply rg_plain; cbn [In]; tauto).
    - eapply rg_int; [cbn [In]; tauto|apply parse_int; auto].
    - eapply rg_int; [cbn [In]; tauto|apply parse_int; auto].
    - eapply rg_center; apply CS; auto.
    - eapply rg_bounds; apply BS; auto.
    - destruct (mLayerData m) as [d|] eqn:E; [|discriminate]. destruct (J d E) as [_ D]. eapply rg_json; exact D.
    - destruct (mTileSize m) as [ts|] eqn:E; [|discriminate]. destruct (Ht ts eq_refl) as (a & b & -> & Ha & Hb). eapply rg_size; apply TS; auto. }
  rewrite Forall_forall in *. intros r Hin. apply filter_In in Hin. destruct Hin. auto.
Qed.

Lemma field_id (v d : gstr) : d = [] -> or_field (match v with [] => None | z :: l => Some (z :: l) end) (fun x => x) d = v.
Proof. intros ->. destruct v; reflexivity. Qed.
Lemma field_ne {A} (v : gstr) (f : gstr -> A) d a : v <> [] -> f v = a -> or_field (match v with [] => None | z :: l => Some (z :: l) end) f d = a.
Proof. destruct v; [congruence|]. intros _ E. exact E. Qed.
Lemma mkMD_ext name format bounds center minzoom maxzoom description version type attribution layer dir origin srs bsrs res size : forall name' format' bounds' center' minzoom' maxzoom' description' version' type' attribution' layer' dir' origin' srs' bsrs' res' size', name = name' -> format = format' -> bounds = bounds' -> center = center' -> minzoom = minzoom' -> maxzoom = maxzoom' -> description = description' -> version = version' -> type = type' -> attribution = attribution' -> layer = layer' -> dir = dir' -> origin = origin' -> srs = srs' -> bsrs = bsrs' -> res = res' -> size = size' -> @mkMD L name format bounds center minzoom maxzoom description version type attribution layer dir origin srs bsrs res size = mkMD name' format' bounds' center' minzoom' maxzoom' description' version' type' attribution' layer' dir' origin' srs' bsrs' res' size'.
Proof. intros; subst; reflexivity. Qed.
Lemma collect_entries m format : md_ok m -> json_ok m -> TileFormatToString (mFormat m) = Val format -> collect md0 (filter nonempty (entries m format)) = stored m.
Proof.
  intros (Hf & Hmin & Hmax & (Lb & Ob) & (Lc & Oc) & Hr & Ht) J F. destruct C69_round_trip as (TS & BS & CS). pose proof (entries_keys m format) as N.
  unfold collect. rewrite !assoc_filter by exact N. unfold entries. cbn [assoc].
  repeat match goal with |- context [seqb (B ?a) (B ?b)] => let x := eval vm_compute in (seqb (B a) (B b)) in change (seqb (B a) (B b)) with x end. cbv iota.
  cbn [md0 mName mFormat mBounds mCenter mMinZoom mMaxZoom mDescription mVersion mType mAttribution mLayerData mDirectoryLayout mOrigin mSrs mBoundsSrs mResFactor mTileSize].
  unfold stored. apply mkMD_ext.
  - apply field_id; reflexivity.
  - destruct (C67_round_trip (mFormat m) ltac:(lia)) as [K _]. destruct (K ltac:(lia)) as (s & E1 & E2). rewrite F in E1. injection E1 as <-. destruct format as [|c t].
    + cbn in E2. cbn [or_field]. exact E2.
    + cbn [or_field]. exact E2.
  - apply field_ne; [|rewrite BS by auto; reflexivity]. unfold floatsToString. destruct (mBounds m) as [|x [|y l]]; try discriminate. apply join_nonempty.
  - apply field_ne; [|rewrite CS by auto; reflexivity]. unfold floatsToString. destruct (mCenter m) as [|x [|y l]]; try discriminate. apply join_nonempty.
  - apply field_ne; [apply FormatInt_nonempty; auto|]. rewrite parse_int by auto. reflexivity.
  - apply field_ne; [apply FormatInt_nonempty; auto|]. rewrite parse_int by auto. reflexivity.
  - apply field_id; reflexivity.
  - reflexivity.
  - unfold layerTypeToString. destruct (Z.eqb_spec (mType m) 0) as [E|E0]; [rewrite E; reflexivity|]. destruct (mType m =? 1); reflexivity.
  - reflexivity.
  - destruct (mLayerData m) as [d|] eqn:E; [|reflexivity]. destruct (J d E) as [Ne D]. apply field_ne; auto. rewrite D. reflexivity.
  - apply field_id; reflexivity.
  - apply field_id; reflexivity.
  - apply field_id; reflexivity.
  - apply field_id; reflexivity.
  - destruct (mResFactor m) as [|s|f|] eqn:E; try reflexivity.
    + destruct s as [|c t]; reflexivity.
    + apply field_ne; [apply Format8_nonempty; auto|apply res_float; auto].
  - destruct (mTileSize m) as [ts|] eqn:E; [|reflexivity]. destruct (Ht ts eq_refl) as (a & b & -> & Ha & Hb). apply field_ne; [apply join_nonempty|]. rewrite TS by auto. reflexivity.
Qed.
Lemma set_rows_stored m l rows : md_ok m -> json_ok m -> ToMap enc m = Val l -> Permutation rows l -> set_rows decj md0 rows = Val (stored m).
Proof.
  intros O J T P. destruct (C67_round_trip (mFormat m)) as [K _]; [unfold md_ok in O; lia|]. destruct K as (format & F & _); [unfold md_ok in O; lia|].
  rewrite set_rows_filter. pose proof (permutation_filter nonempty _ _ P) as P'. rewrite (ToMap_entries m format l F T) in P'.
  assert (N : NoDup (map fst (filter nonempty (entries m format)))) by (apply nodup_filter, entries_keys).
  assert (N' : NoDup (map fst (filter nonempty rows))) by (eapply Permutation_NoDup; [apply Permutation_map, Permutation_sym; exact P'|exact N]).
  rewrite set_rows_collect; auto.
  - f_equal. rewrite <- (collect_entries m format O J F). unfold collect.
    repeat match goal with |- context [assoc ?k (filter nonempty rows)] => rewrite (assoc_perm k _ _ P' N') end. reflexivity.
  - apply Forall_forall. intros r Hr. apply filter_In in Hr. tauto.
  - eapply Permutation_Forall; [apply Permutation_sym; exact P'|]. apply entries_good; auto.
Qed.
Lemma ToMap_val m : md_ok m -> exists l, ToMap enc m = Val l.
Proof.
  intros O. destruct (C67_round_trip (mFormat m)) as [K _]; [unfold md_ok in O; lia|]. destruct K as (format & F & _); [unfold md_ok in O; lia|]. unfold ToMap. rewrite F. eexists. reflexivity.
Qed.
(** The smallest and largest zoom of the stored tiles *)
Definition zooms (tiles : list row) (a b : Z) : Prop :=
  (exists r, In r tiles /\ rZ r = a) /\ (exists r, In r tiles /\ rZ r = b) /\ forall r, In r tiles -> a <= rZ r <= b.
Lemma min_max_spec tiles : match min_max tiles with None => tiles = [] | Some (a, b) => zooms tiles a b end.
Proof.
  induction tiles as [|r t IH]; cbn [min_max]; auto. destruct (min_max t) as [[a b]|].
  - destruct IH as ((ra & Ia & Ea) & (rb & Ib & Eb) & H). split; [|split].
    + destruct (Z.le_ge_cases (rZ r) a); [exists r; split; [left; auto|lia]|exists ra; split; [right; auto|lia]].
    + destruct (Z.le_ge_cases b (rZ r)); [exists r; split; [left; auto|lia]|exists rb; split; [right; auto|lia]].
    + intros x [<-|Hx]; [lia|]. specialize (H x Hx). lia.
  - subst. split; [|split]; [exists r; cbn; auto..|]. intros x [<-|[]]. lia.
Qed.
Lemma zooms_unique tiles a b a' b' : zooms tiles a b -> zooms tiles a' b' -> a = a' /\ b = b'.
Proof.
  intros ((r1 & I1 & E1) & (r2 & I2 & E2) & H) ((r3 & I3 & E3) & (r4 & I4 & E4) & H').
  pose proof (H _ I3). pose proof (H _ I4). pose proof (H' _ I1). pose proof (H' _ I2). lia.
Qed.

(** After an update that went through, reading gives [stored md], in whatever order the map was iterated and whatever the
    table held before. *)
Theorem C66_round_trip : forall m, md_ok m -> json_ok m -> exists l, ToMap enc m = Val l /\
  forall old rows tiles, Permutation rows l -> UpdateMetadata (fun _ => Done) old (Some rows) = (RetNil, rows) /\
    (mMaxZoom m <> 0 -> GetMetadata decj rows tiles = Val (stored m)) /\
    (mMaxZoom m = 0 -> (tiles = [] -> GetMetadata decj rows tiles = Err) /\
                       (forall a b, zooms tiles a b -> GetMetadata decj rows tiles = Val (set_zooms (stored m) a b))).
Proof.
  intros m O J. destruct (ToMap_val m O) as [l T]. exists l. split; auto. intros old rows tiles P. split; [|].
  - destruct (C65_outcomes (fun _ => Done) old (Some rows)) as [_ K]. cbv zeta in K. destruct K as [K _]; auto. apply K; auto. intros k _. reflexivity.
  - unfold GetMetadata. rewrite (set_rows_stored m l rows) by auto. cbn [obind]. change (mMaxZoom (stored m)) with (mMaxZoom m). split; intros Z.
    + destruct (Z.eqb_spec (mMaxZoom m) 0); [contradiction|reflexivity].
    + rewrite Z. change (0 =? 0) with true. cbv iota. split.
      * intros ->. reflexivity.
      * intros a b Q. pose proof (min_max_spec tiles) as S. destruct (min_max tiles) as [[a' b']|]; [|subst; destruct Q as ((r & [] & _) & _)].
        destruct (zooms_unique _ _ _ _ _ Q S) as [-> ->]. reflexivity.
Qed.
(** So exactly the records without version and attribution, of one of the two layer types, with numbers of at most eight
    decimals survive. *)
Theorem C66_identity : forall m, stored m = m <->
  mVersion m = [] /\ mAttribution m = [] /\ (mType m = 0 \/ mType m = 1) /\ map round8 (mBounds m) = mBounds m /\ map round8 (mCenter m) = mCenter m /\
  (mResFactor m = RNil \/ mResFactor m = RStr (B "sqrt2") \/ exists f, mResFactor m = RFloat f /\ round8 f = f).
Proof.
  intros [name format bounds center minzoom maxzoom description version type attribution layer dir origin srs bsrs res size].
  unfold stored. cbn [mName mFormat mBounds mCenter mMinZoom mMaxZoom mDescription mVersion mType mAttribution mLayerData mDirectoryLayout mOrigin mSrs mBoundsSrs mResFactor mTileSize]. split.
  - intros E.
    assert (E1 := f_equal mVersion E). assert (E2 := f_equal mAttribution E). assert (E3 := f_equal mType E). assert (E4 := f_equal mBounds E). assert (E5 := f_equal mCenter E). assert (E6 := f_equal mResFactor E). clear E.
    cbn [mBounds mCenter mVersion mType mAttribution mResFactor] in *. repeat split; auto.
    + destruct (type =? 1); auto.
    + destruct res as [|s|f|]; auto; try discriminate.
      * right. left. cbn [stored_res] in E6. destruct (seqb_spec s (B "sqrt2")) as [->|]; auto. destruct (ParseFloat (TrimSpace s)) as [f []]; discriminate.
      * right. right. exists f. split; auto. cbn [stored_res] in E6. congruence.
  - intros (-> & -> & Ht & -> & -> & Hr).
    assert ((if type =? 1 then 1 else 0) = type) as -> by (destruct Ht as [->| ->]; reflexivity).
    assert (stored_res res = res) as -> by (destruct Hr as [->|[->|(f & -> & E)]]; [reflexivity|reflexivity|cbn [stored_res]; congruence]). reflexivity.
Qed.
(** A second update with what was read changes nothing more, unless the resolution factor was a number given as a string. *)
Theorem C66_stable : forall m, md_ok m -> (forall s, mResFactor m = RStr s -> s = B "sqrt2") -> stored (stored m) = stored m.
Proof.
  intros m (Hf & Hmin & Hmax & (Lb & Ob) & (Lc & Oc) & Hr & Ht) Hs. apply C66_identity. unfold stored. cbn [mBounds mCenter mVersion mType mAttribution mResFactor].
  assert (I : forall x, float_ok x -> round8 (round8 x) = round8 x) by (intros [r|n|] Hx; cbn [round8]; auto; rewrite dec8_idem; auto; apply Hx).
  assert (IL : forall l, Forall float_ok l -> map round8 (map round8 l) = map round8 l) by (intros l F; rewrite map_map; apply map_ext_in; rewrite Forall_forall in F; auto).
  split; [reflexivity|]. split; [reflexivity|]. split; [destruct (mType m =? 1); auto|]. split; [apply IL; auto|]. split; [apply IL; auto|].
  destruct (mResFactor m) as [|s|f|]; auto.
  - rewrite (Hs s eq_refl). auto.
  - right. right. exists (round8 f). split; auto.
Qed.
End Rows.
Print Assumptions C66_round_trip.
Print Assumptions C66_identity.
Print Assumptions C66_stable.
(** Two fields of the record are never written: the full round trip fails for any metadata with a version or an attribution. *)
Theorem C66_refuted : forall (L : Type) (enc : L -> gstr) (decj : gstr -> option (option L)) (m : Metadata L), md_ok m -> json_ok enc decj m -> mMaxZoom m <> 0 -> mVersion m <> [] \/ mAttribution m <> [] ->
  exists l, ToMap enc m = Val l /\ forall tiles m', GetMetadata decj l tiles = Val m' -> m' <> m.
Proof.
  intros L enc decj m O J Z H. destruct (C66_round_trip enc decj m O J) as (l & T & K). exists l. split; auto. intros tiles m' E ->.
  destruct (K [] l tiles (Permutation_refl l)) as (_ & G & _). rewrite (G Z) in E. injection E as E. apply C66_identity in E. tauto.
Qed.
Print Assumptions C66_refuted.
(** Rows written by other programs: zooms have to be integers, and any type but overlay is read as a base layer *)
Section Foreign.
  Context {L : Type} (decj : gstr -> option (option L)).
  Ltac rows_cases H := repeat match type of H with context [if seqb ?k ?x then _ else _] => destruct (seqb_spec k x) as [?E|?N]; [|] end.
  Lemma layer_type_of v : stringToLayerType v = if seqb v (B "overlay") then 1 else 0.
  Proof.
    unfold stringToLayerType, layerTypeStrings. cbn [index_of]. destruct (seqb_spec (B "baselayer") v) as [<-|N]; [reflexivity|].
    destruct (seqb_spec (B "overlay") v) as [<-|N']; [reflexivity|]. destruct (seqb_spec v (B "overlay")); [congruence|reflexivity].
  Qed.
  Lemma set_row_spec m k v m' : set_row decj m k v = Val m' ->
    mType m' = (if seqb k (B "type") then (if seqb v (B "overlay") then 1 else 0) else mType m) /\ (k = B "minzoom" \/ k = B "maxzoom" -> snd (ParseInt v) = false).
  Proof.
    destruct m as [name format bounds center minzoom maxzoom description version type attribution layer dir origin srs bsrs res size]. unfold set_row. cbn [mType]. intros H.
    assert (OE : forall (A : Type) (r : A * bool) (f : A -> out (Metadata L)), obind (ok_or_err r) f = Val m' -> snd r = false /\ f (fst r) = Val m').
    { intros A [a e] f E. unfold ok_or_err in E. destruct e; cbn [obind] in E; [discriminate|]. auto. }
    rows_cases H; try (match goal with E : k = _ |- _ => subst k end);
      try (apply OE in H; destruct H as [H0 H]);
      try (destruct (stringToCenter v) as [r| |]; cbn [obind] in H; try discriminate; apply OE in H; destruct H as [H0 H]);
      try (destruct (stringToBounds v) as [r| |]; cbn [obind] in H; try discriminate; apply OE in H; destruct H as [H0 H]);
      try (destruct (stringToTileSize v) as [r| |]; cbn [obind] in H; try discriminate; apply OE in H; destruct H as [H0 H]);
      try (destruct (decj v) as [r|]; try discriminate);
      inversion H; subst; cbn [mType];
      (split; [|first [intros [K|K]; first [discriminate K | contradiction | exact H0] | intros _; exact H0]]);
      rewrite ?layer_type_of; try reflexivity.
  Qed.
  Lemma set_rows_spec rows : forall m m', set_rows decj m rows = Val m' ->
    (forall k v, In (k, v) rows -> v <> [] -> k = B "minzoom" \/ k = B "maxzoom" -> snd (ParseInt v) = false) /\
    ((forall v, In (B "type", v) rows -> v = []) -> mType m' = mType m) /\
    (forall pre v post, rows = pre ++ (B "type", v) :: post -> v <> [] -> (forall v', In (B "type", v') post -> v' = []) -> mType m' = if seqb v (B "overlay") then 1 else 0).
  Proof.
    induction rows as [|[k v] rows IH]; intros m m' H; cbn [set_rows] in H.
    - inversion H; subst. split; [intros ? ? []|]. split; [reflexivity|]. intros [|] ? ? E; discriminate.
    - assert (V : v = [] \/ v <> []) by (destruct v; [left; reflexivity|right; discriminate]). destruct V as [->|V].
      + destruct (IH _ _ H) as (I1 & I2 & I3). split; [intros k' v' [E|E] Nv; [inversion E; subst; contradiction|eauto]|]. split.
        * intros F. apply I2. intros v' Hv'. apply F. right. exact Hv'.
        * intros [|e pre] v' post E Nv F; cbn [app] in E; inversion E; subst; [contradiction|]. eapply I3; eauto.
      + assert (H' : obind (set_row decj m k v) (fun m' => set_rows decj m' rows) = Val m') by (destruct v; [contradiction|exact H]). clear H.
        destruct (set_row decj m k v) as [m1| |] eqn:E1; cbn [obind] in H'; try discriminate. destruct (IH _ _ H') as (I1 & I2 & I3). apply set_row_spec in E1. destruct E1 as [T Zm].
        split; [intros k' v' [E|E] Nv; [inversion E; subst; exact Zm|eauto]|]. split.
        * intros F. rewrite I2, T by (intros v' Hv'; apply F; right; exact Hv'). destruct (seqb_spec k (B "type")) as [->|]; [|reflexivity].
          exfalso. apply V, F. left. reflexivity.
        * intros [|e pre] v' post E Nv F; cbn [app] in E; inversion E; subst; [|eapply I3; eauto]. rewrite I2, T by exact F. rewrite seqb_refl. reflexivity.
  Qed.
  Theorem C66_foreign_rows : forall rows tiles m, GetMetadata decj rows tiles = Val m ->
    (forall k v, In (k, v) rows -> v <> [] -> k = B "minzoom" \/ k = B "maxzoom" -> snd (ParseInt v) = false) /\
    ((forall v, In (B "type", v) rows -> v = []) -> mType m = 0) /\
    (forall pre v post, rows = pre ++ (B "type", v) :: post -> v <> [] -> (forall v', In (B "type", v') post -> v' = []) -> mType m = if seqb v (B "overlay") then 1 else 0).
  Proof.
    intros rows tiles m H. unfold GetMetadata in H. destruct (set_rows decj md0 rows) as [m1| |] eqn:E; cbn [obind] in H; try discriminate.
    assert (T : mType m = mType m1).
    { destruct (mMaxZoom m1 =? 0); [|inversion H; reflexivity]. destruct (min_max tiles) as [[a b]|]; inversion H. reflexivity. }
    rewrite T. apply set_rows_spec in E. exact E.
  Qed.
End Foreign.
Print Assumptions C66_foreign_rows.
Definition md_example : Metadata unit := mkMD (B "world") 1 (repeat (Fin 0) 4) [NaN; Inf true; Inf false] 0 14 [] (B "1.0") 1 [] (Some tt) [] [] (B "EPSG:3857") [] (RStr (B "sqrt2")) (Some [512; 512]).
Example C66_nonvacuous : md_ok md_example /\ json_ok (fun _ => B "{}") (fun s => if seqb s (B "{}") then Some (Some tt) else None) md_example /\
  stored md_example = mkMD (B "world") 1 (repeat (Fin (dec8 0)) 4) [NaN; Inf true; Inf false] 0 14 [] [] 1 [] (Some tt) [] [] (B "EPSG:3857") [] (RStr (B "sqrt2")) (Some [512; 512]).
Proof.
  split; [|split].
  - unfold md_ok, md_example, int64. cbn [mFormat mMinZoom mMaxZoom mBounds mCenter mResFactor mTileSize repeat].
    assert (F0 : float_ok (Fin 0)) by (split; [apply generic_format_0|rewrite Rabs_R0; apply bpow_gt_0]).
    repeat split; try lia; auto; try discriminate; try (repeat constructor; auto; fail).
    intros ts [= <-]. exists 512, 512. split; auto. split; lia.
  - intros [] _. split; [discriminate|reflexivity].
  - reflexivity.
Qed.
Print Assumptions C66_nonvacuous.
