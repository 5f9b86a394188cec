(** Theorems about tile databases (C64, C65, C67, C68). *)
From Coq Require Import String ZArith List Lia Bool Permutation.
From Verif Require Import GoBase Json Mbtiles_Model.
Import ListNotations.
Open Scope Z_scope.

(** ** C64 *)

(** A history of calls of StoreTile on a new database *)
Record store := mkStore { sZ : Z; sX : Z; sY : Z; sData : option gstr }.
(** The table after a history; a failed call changes nothing *)
Definition run (h : list store) : list row :=
  fold_left (fun t s => match StoreTile t (sZ s) (sX s) (sY s) (sData s) with Val t' => t' | _ => t end) h [].
(** The data of the last call for those coordinates in a history, newest first *)
Fixpoint latest (h : list store) (z x y : Z) : option gstr :=
  match h with
  | [] => None
  | s :: h' => if (sZ s =? z) && (sX s =? x) && (sY s =? y) then sData s else latest h' z x y
  end.
Definition row_key (r : row) : Z * Z * Z := (rZ r, rX r, rY r).
Definition store_key (s : store) : Z * Z * Z := (sZ s, sX s, sY s).

Lemma same_key_spec z x y r : same_key z x y r = true <-> row_key r = (z, x, y).
Proof. unfold same_key, row_key. rewrite !andb_true_iff, !Z.eqb_eq. split; [intros [[-> ->] ->]; auto|]. intros E. injection E as -> -> ->. auto. Qed.
Lemma find_app {A} (f : A -> bool) a b : find f (a ++ b) = match find f a with Some x => Some x | None => find f b end.
Proof. induction a as [|x a IH]; cbn; auto. destruct (f x); auto. Qed.
Lemma find_filter_self {A} (f : A -> bool) l : find f (filter (fun x => negb (f x)) l) = None.
Proof. induction l as [|x l IH]; cbn; auto. destruct (f x) eqn:E; cbn; auto. rewrite E. auto. Qed.
Lemma find_filter_other {A} (f g : A -> bool) l : (forall x, g x = true -> f x = false) -> find g (filter (fun x => negb (f x)) l) = find g l.
Proof. intros H. induction l as [|x l IH]; cbn; auto. destruct (g x) eqn:E; [rewrite (H x E); cbn; rewrite E; auto|]. destruct (f x); cbn; auto. rewrite E. auto. Qed.

Definition step (t : list row) (s : store) : list row := match StoreTile t (sZ s) (sX s) (sY s) (sData s) with Val t' => t' | _ => t end.
Lemma step_read t s z x y : bindable x && bindable y = true ->
  ReadTile (step t s) z x y = if (sZ s =? z) && (sX s =? x) && (sY s =? y) then Val (sData s) else ReadTile t z x y.
Proof.
  intros Hb. unfold ReadTile, step, StoreTile. rewrite Hb. destruct ((sZ s =? z) && (sX s =? x) && (sY s =? y)) eqn:E.
  - apply andb_prop in E. destruct E as [E E3]. apply andb_prop in E. destruct E as [E1 E2]. apply Z.eqb_eq in E1, E2, E3. subst. rewrite Hb.
    rewrite find_app, find_filter_self. cbn [find]. unfold same_key. cbn [rZ rX rY]. rewrite !Z.eqb_refl. reflexivity.
  - destruct (bindable (sX s) && bindable (sY s)); auto. rewrite find_app, find_filter_other.
    + destruct (find (same_key z x y) t); auto. cbn [find]. unfold same_key. cbn [rZ rX rY]. rewrite E. reflexivity.
    + intros r Hr. apply same_key_spec in Hr. destruct (same_key (sZ s) (sX s) (sY s) r) eqn:K; auto. apply same_key_spec in K. rewrite Hr in K. injection K as -> -> ->. rewrite !Z.eqb_refl in E. discriminate.
Qed.

(** Reading returns the data of the latest call for those coordinates, nil if there was none; coordinates of 2^63 and more are errors. *)
Theorem C64_map : forall h z x y,
  (x < 2 ^ 63 -> y < 2 ^ 63 -> ReadTile (run h) z x y = Val (latest (rev h) z x y)) /\
  (2 ^ 63 <= x \/ 2 ^ 63 <= y -> ReadTile (run h) z x y = Err /\ forall d, StoreTile (run h) z x y d = Err).
Proof.
  intros h z x y. split.
  - intros Hx Hy. assert (Hb : bindable x && bindable y = true) by (unfold bindable; apply andb_true_intro; split; apply Z.ltb_lt; auto).
    induction h as [|s h IH] using rev_ind.
    + cbn. unfold ReadTile. rewrite Hb. reflexivity.
    + unfold run. rewrite fold_left_app. cbn [fold_left]. fold (run h). change (ReadTile (step (run h) s) z x y = Val (latest (rev (h ++ [s])) z x y)). rewrite step_read by auto. rewrite rev_unit. cbn [latest].
      destruct ((sZ s =? z) && (sX s =? x) && (sY s =? y)); auto.
  - intros H. assert (Hb : bindable x && bindable y = false) by (unfold bindable; apply andb_false_iff; destruct H; [left|right]; apply Z.ltb_ge; auto).
    unfold ReadTile, StoreTile. rewrite Hb. auto.
Qed.
Print Assumptions C64_map.
(** The table holds one row for each coordinates stored, so storing again replaces. *)
Theorem C64_rows : forall h, NoDup (map row_key (run h)) /\
  forall k, In k (map row_key (run h)) <-> exists s, In s h /\ store_key s = k /\ sX s < 2 ^ 63 /\ sY s < 2 ^ 63.
Proof.
  induction h as [|s h [ND IN]] using rev_ind.
  - split; [constructor|]. intros k. split; [intros []|intros (s & [] & _)].
  - unfold run. rewrite fold_left_app. cbn [fold_left]. fold (run h). unfold StoreTile. destruct (bindable (sX s) && bindable (sY s)) eqn:Hb.
    + assert (F : forall k, In k (map row_key (filter (fun r => negb (same_key (sZ s) (sX s) (sY s) r)) (run h))) <-> In k (map row_key (run h)) /\ k <> store_key s).
      { intros k. rewrite !in_map_iff. split.
        - intros (r & <- & Hr). apply filter_In in Hr. destruct Hr as [Hr K]. split; eauto. intros E. apply (proj2 (same_key_spec (sZ s) (sX s) (sY s) r)) in E. rewrite E in K. discriminate.
        - intros [(r & <- & Hr) N]. exists r. split; auto. apply filter_In. split; auto. destruct (same_key (sZ s) (sX s) (sY s) r) eqn:K; auto. apply same_key_spec in K. contradiction. }
      rewrite map_app. cbn [map]. unfold row_key at 2. cbn [rZ rX rY]. fold (store_key s). split.
      * apply (Permutation_NoDup (l := store_key s :: map row_key (filter (fun r => negb (same_key (sZ s) (sX s) (sY s) r)) (run h)))); [apply Permutation_cons_append|]. constructor; [rewrite F; tauto|].
        clear F IN. induction (run h) as [|r t IH]; cbn [filter map]; [constructor|]. inversion ND as [|? ? N1 N2]; subst. destruct (negb _); auto. cbn [map]. constructor; auto. intros K. apply N1. apply in_map_iff in K. destruct K as (r' & E & K). apply filter_In in K. apply in_map_iff. exists r'. tauto.
      * intros k. rewrite in_app_iff, F, IN. cbn [In]. split.
        -- intros [[(s' & I & E & B) _]|[<-|[]]]; [exists s'; rewrite in_app_iff; auto|]. exists s. rewrite in_app_iff. cbn [In]. apply andb_prop in Hb. unfold bindable in Hb. rewrite !Z.ltb_lt in Hb. tauto.
        -- intros (s' & I & E & B). destruct (Z.eq_dec (fst (fst k)) (sZ s)) as [E1|N].
           ++ destruct (Z.eq_dec (snd (fst k)) (sX s)) as [E2|N]; [destruct (Z.eq_dec (snd k) (sY s)) as [E3|N]|].
              ** right. left. destruct k as [[a b] c]. cbn in *. subst. reflexivity.
              ** left. split; [|intros ->; auto]. apply in_app_iff in I. destruct I as [I|[<-|[]]]; eauto. subst k. contradiction.
              ** left. split; [|intros ->; auto]. apply in_app_iff in I. destruct I as [I|[<-|[]]]; eauto. subst k. contradiction.
           ++ left. split; [|intros ->; auto]. apply in_app_iff in I. destruct I as [I|[<-|[]]]; eauto. subst k. contradiction.
    + split; auto. intros k. rewrite IN. split; [intros (s' & I & K); exists s'; rewrite in_app_iff; auto|]. intros (s' & I & E & B1 & B2). apply in_app_iff in I. destruct I as [I|[<-|[]]]; eauto.
      apply andb_false_iff in Hb. unfold bindable in Hb. rewrite !Z.ltb_ge in Hb. lia.
Qed.
Print Assumptions C64_rows.
Example C64_nonvacuous : let h := [mkStore 1 0 0 (Some [1]); mkStore 1 0 1 (Some [2]); mkStore 1 0 0 (Some [3])] in
  ReadTile (run h) 1 0 0 = Val (Some [3]) /\ ReadTile (run h) 1 0 1 = Val (Some [2]) /\ ReadTile (run h) 1 1 1 = Val None /\ length (run h) = 2%nat.
Proof. vm_compute. auto. Qed.

(** ** C65 *)

Definition all_done (ev : nat -> event) (n : nat) : Prop := forall k, (k < n)%nat -> ev k = Done.
Lemma inserts_spec ev rows : forall k, match inserts ev k rows with
  | inr k' => k' = (k + length rows)%nat /\ forall i, (k <= i < k + length rows)%nat -> ev i = Done
  | inl e => (e = RetErr \/ e = Ended) /\ exists i, (k <= i < k + length rows)%nat /\ ev i <> Done
  end.
Proof.
  induction rows as [|r rows IH]; intros k; cbn [inserts length].
  - split; [lia|]. intros. lia.
  - destruct (ev k) eqn:E.
    + specialize (IH (S k)). destruct (inserts ev (S k) rows).
      * destruct IH as [A (i & L & N)]. split; auto. exists i. split; auto. lia.
      * destruct IH as [A D]. split; [lia|]. intros i L. destruct (Nat.eq_dec i k) as [->|N]; auto. apply D. lia.
    + split; auto. exists k. split; [lia|]. congruence.
    + split; auto. exists k. split; [lia|]. congruence.
Qed.

(** Whatever fails and wherever the process ends, the table holds the old rows, the new rows or no rows: the old ones exactly
    when the deletion did not take place, the new ones exactly when every statement and the commit did. *)
Theorem C65_outcomes : forall ev old new,
  let r := UpdateMetadata ev old new in
  (ev 0%nat <> Done -> snd r = old /\ (fst r = RetErr \/ fst r = Ended)) /\
  (ev 0%nat = Done -> (forall rows, new = Some rows -> all_done ev (length rows + 4) -> r = (RetNil, rows)) /\
                      ((forall rows, new = Some rows -> ~ all_done ev (length rows + 4)) -> snd r = [])).
Proof.
  intros ev old new. cbv zeta. unfold UpdateMetadata. split.
  - intros H. destruct (ev 0%nat); [contradiction|cbn; auto..].
  - intros E0. rewrite E0. split.
    + intros rows -> A. rewrite (A 1%nat), (A 2%nat) by lia. pose proof (inserts_spec ev rows 3) as I. destruct (inserts ev 3 rows) as [e|k].
      * destruct I as [_ (i & L & N)]. exfalso. apply N, A. lia.
      * destruct I as [-> _]. rewrite (A (3 + length rows)%nat) by lia. reflexivity.
    + intros N. destruct (ev 1%nat) eqn:E1; auto. destruct (ev 2%nat) eqn:E2; auto. destruct new as [rows|]; auto. pose proof (inserts_spec ev rows 3) as I. destruct (inserts ev 3 rows) as [e|k]; auto.
      destruct I as [-> D]. destruct (ev (3 + length rows)%nat) eqn:E3; auto. cbn [snd]. exfalso. apply (N rows eq_refl). intros k L.
      destruct (Nat.eq_dec k 0) as [->|N0]; auto. destruct (Nat.eq_dec k 1) as [->|N1]; auto. destruct (Nat.eq_dec k 2) as [->|N2]; auto.
      destruct (Nat.eq_dec k (3 + length rows)) as [->|N3]; auto. apply D. lia.
Qed.
Print Assumptions C65_outcomes.
(** So the update is not atomic: ending the process at any later statement leaves no metadata at all, and a failing commit is even reported as success. *)
Theorem C65_atomic_refuted : forall old rows, old <> [] -> rows <> [] ->
  (forall n, (1 <= n < length rows + 4)%nat -> UpdateMetadata (fun k => if Nat.eqb k n then Ends else Done) old (Some rows) = (Ended, [])) /\
  UpdateMetadata (fun k => if Nat.eqb k (length rows + 3) then Fails else Done) old (Some rows) = (RetNil, []).
Proof.
  intros old rows _ _. split.
  - intros n L. pose proof (C65_outcomes (fun k => if Nat.eqb k n then Ends else Done) old (Some rows)) as [_ K]. cbv zeta in K. destruct (UpdateMetadata _ old (Some rows)) as [e t] eqn:E. cbn [fst snd] in K.
    assert (t = []) as ->. { apply K; [destruct (Nat.eqb_spec 0 n); [lia|auto]|]. intros rows' Er A. injection Er as <-. specialize (A n ltac:(lia)). cbv beta in A. rewrite Nat.eqb_refl in A. discriminate. }
    f_equal. clear K. unfold UpdateMetadata in E. destruct (Nat.eqb_spec 0 n); [lia|]. destruct (Nat.eqb_spec 1 n); [congruence|]. destruct (Nat.eqb_spec 2 n); [congruence|].
    assert (I : forall rs k, (k <= n)%nat -> match inserts (fun k => if Nat.eqb k n then Ends else Done) k rs with inl e => e = Ended | inr k' => (k' <= n)%nat end).
    { induction rs as [|r rs IH]; intros k Lk; cbn [inserts]; auto. destruct (Nat.eqb_spec k n); auto. apply IH. lia. }
    specialize (I rows 3%nat ltac:(lia)). pose proof (inserts_spec (fun k => if Nat.eqb k n then Ends else Done) rows 3) as J. destruct (inserts _ 3 rows) as [e'|k'].
    + subst. congruence.
    + destruct (Nat.eqb_spec k' n); [congruence|]. lia.
  - unfold UpdateMetadata. destruct (Nat.eqb_spec 0 (length rows + 3)); [lia|]. destruct (Nat.eqb_spec 1 (length rows + 3)); [lia|]. destruct (Nat.eqb_spec 2 (length rows + 3)); [lia|].
    pose proof (inserts_spec (fun k => if Nat.eqb k (length rows + 3) then Fails else Done) rows 3) as J. destruct (inserts _ 3 rows) as [e'|k'].
    + destruct J as [_ (i & L & N)]. cbv beta in N. destruct (Nat.eqb_spec i (length rows + 3)); [lia|contradiction].
    + destruct J as [-> _]. destruct (Nat.eqb_spec (3 + length rows) (length rows + 3)); [auto|lia].
Qed.
Print Assumptions C65_atomic_refuted.
Example C65_nonvacuous : UpdateMetadata (fun _ => Done) [(B "name", B "a")] (Some [(B "name", B "b")]) = (RetNil, [(B "name", B "b")]) /\
  UpdateMetadata (fun k => if Nat.eqb k 3 then Fails else Done) [(B "name", B "a")] (Some [(B "name", B "b")]) = (RetErr, []).
Proof. vm_compute. auto. Qed.

(** ** C67 *)

(** Every format survives being stored by name; other values of the type panic. *)
Theorem C67_round_trip : forall t, 0 <= t <= 255 ->
  (t <= 10 -> exists s, TileFormatToString t = Val s /\ StringToTileFormat s = t) /\ (10 < t -> TileFormatToString t = Crash).
Proof.
  intros t H. split; intros L.
  - assert (K : In t [0; 1; 2; 3; 4; 5; 6; 7; 8; 9; 10]) by (cbn; lia). cbn [In] in K. repeat destruct K as [<-|K]; try contradiction; eexists; split; reflexivity.
  - unfold TileFormatToString. destruct (nth_error formatStrings (Z.to_nat t)) eqn:E; auto. assert (K : (Z.to_nat t < length formatStrings)%nat) by (apply nth_error_Some; congruence). cbn [length formatStrings] in K. lia.
Qed.
Print Assumptions C67_round_trip.
(** The name of a format that is stored is the one String returns only for the formats below: a PNG tileset is stored as "jpg". *)
Theorem C67_names : forall t, 0 <= t <= 10 ->
  (TileFormatToString t = Val (FormatString t) <-> In t [UNKNOWN; LERC; TIFF; TERRAIN; TIF]) /\
  (StringToTileFormat (FormatString t) = t <-> In t [UNKNOWN; LERC; TIFF; TERRAIN; TIF]).
Proof.
  intros t H. assert (K : In t [0; 1; 2; 3; 4; 5; 6; 7; 8; 9; 10]) by (cbn; lia). cbn [In] in K. repeat destruct K as [<-|K]; try contradiction; vm_compute; split; split; intros Q; try discriminate; auto 12; repeat destruct Q as [Q|Q]; try discriminate; try contradiction; auto.
Qed.
Print Assumptions C67_names.
Theorem C67_names_refuted : TileFormatToString PNG = Val (B "jpg") /\ TileFormatToString JPG = Val (B "webp") /\ TileFormatToString PBF = Val (B "gzib") /\ TileFormatToString WEBP = Val (B "zlib") /\
  StringToTileFormat (B "png") = ZLIB /\ StringToTileFormat (B "jpg") = PNG /\ StringToTileFormat (B "pbf") = GZIP /\ StringToTileFormat (B "webp") = JPG.
Proof. vm_compute. auto 12. Qed.
Print Assumptions C67_names_refuted.
Lemma index_of_spec s l : forall i, match index_of s l i with Some j => i <= j /\ In s l | None => ~ In s l end.
Proof.
  induction l as [|k l IH]; intros i; cbn [index_of]; [intros []|]. destruct (seqb_spec k s) as [->|N]; [split; [lia|left; auto]|].
  specialize (IH (i + 1)). destruct (index_of s l (i + 1)); [destruct IH; split; [lia|right; auto]|]. intros [K|K]; auto.
Qed.
(** Names outside the table are the unknown format *)
Theorem C67_unknown : forall s, StringToTileFormat s <> UNKNOWN <-> In s (tl formatStrings).
Proof.
  intros s. unfold StringToTileFormat, formatStrings. cbn [index_of tl]. destruct (seqb_spec (B "") s) as [<-|N].
  - split; [intros K; exfalso; apply K; reflexivity|]. intros K _. revert K. vm_compute. intros K. repeat destruct K as [K|K]; try discriminate; contradiction.
  - match goal with |- context [if seqb (B "pbf") s then ?a else ?b] => change (if seqb (B "pbf") s then a else b) with (index_of s (tl formatStrings) 1) end.
    change [B "pbf"; B "png"; B "jpg"; B "webp"; B "gzib"; B "zlib"; B "lerc"; B "tiff"; B "terrain"; B "tif"] with (tl formatStrings).
    pose proof (index_of_spec s (tl formatStrings) 1) as H. destruct (index_of s (tl formatStrings) 1); unfold UNKNOWN; [destruct H; split; auto; lia|tauto].
Qed.
Print Assumptions C67_unknown.
(** PNG, JPG, PBF, WEBP, LERC, TIFF, TERRAIN and TIF have pairwise different names and content types; the compressions have none. *)
Theorem C67_content_types : forall a b, In a [PNG; JPG; PBF; WEBP; LERC; TIFF; TERRAIN; TIF] ->
  FormatString a <> [] /\ ContentType a <> [] /\ (In b [PNG; JPG; PBF; WEBP; LERC; TIFF; TERRAIN; TIF] -> (FormatString a = FormatString b -> a = b) /\ (ContentType a = ContentType b -> a = b)) /\
  (~ In b [PNG; JPG; PBF; WEBP; LERC; TIFF; TERRAIN; TIF] -> FormatString b = [] /\ ContentType b = []).
Proof.
  intros a b Ha. assert (N : ~ In b [PNG; JPG; PBF; WEBP; LERC; TIFF; TERRAIN; TIF] -> FormatString b = [] /\ ContentType b = []).
  { intros N. cbn [In] in N. unfold FormatString, ContentType. repeat match goal with |- context [b =? ?k] => destruct (Z.eqb_spec b k) as [->|?]; [exfalso; apply N; auto 12|] end. auto. }
  cbn [In] in Ha. repeat destruct Ha as [<-|Ha]; try contradiction; (split; [discriminate|]); (split; [discriminate|]); (split; [|exact N]); intros Hb; cbn [In] in Hb; repeat destruct Hb as [<-|Hb]; try contradiction; split; intros E; try reflexivity; vm_compute in E; discriminate.
Qed.
Print Assumptions C67_content_types.
(** The content types are the registered media types of the image formats, and the extension under which a format is listed
    is the subtype for the formats without one. *)
Theorem C67_media_types :
  map (fun t => (FormatString t, ContentType t)) [PNG; JPG; WEBP; PBF; TERRAIN; LERC; TIFF; TIF] =
  [(B "png", B "image/png"); (B "jpg", B "image/jpeg"); (B "webp", B "image/webp"); (B "pbf", B "application/x-protobuf");
   (B "terrain", B "application/vnd.quantized-mesh"); (B "lerc", B "image/lerc"); (B "tiff", B "image/tiff"); (B "tif", B "image/tif")].
Proof. reflexivity. Qed.
Print Assumptions C67_media_types.
Example C67_nonvacuous : StringToTileFormat (B "terrain") = TERRAIN /\ FormatString TERRAIN = B "terrain" /\ StringToTileFormat (B "gif") = UNKNOWN.
Proof. vm_compute. auto. Qed.

(** ** C68 *)

(** Data beginning with a signature of a format *)
Definition signature (f : Z) (p : gstr) : Prop :=
  (f = GZIP /\ p = [0x1f; 0x8b]) \/ (f = ZLIB /\ p = [0x78; 0x9c]) \/ (f = PNG /\ p = [0x89; 0x50; 0x4E; 0x47; 0x0D; 0x0A; 0x1A; 0x0A]) \/ (f = JPG /\ p = [0xFF; 0xD8; 0xFF]) \/
  (f = WEBP /\ p = B "RIFF" ++ [0xc0; 0; 0; 0] ++ B "WEBPVP") \/ (f = LERC /\ (p = B "CntZImage " \/ p = B "Lerc2 ")) \/ (f = TIFF /\ (p = B "MM" \/ p = B "II")).
Definition has_signature (data : gstr) (f : Z) : Prop := exists p t, signature f p /\ data = p ++ t.

Lemma is_prefix_spec p s : is_prefix p s = true <-> exists t, s = p ++ t.
Proof.
  revert s. induction p as [|a p IH]; intros s; cbn [is_prefix].
  - split; [intros _; exists s; auto|auto].
  - destruct s as [|b s]; [split; [discriminate|intros [t K]; discriminate]|]. rewrite andb_true_iff, Z.eqb_eq, IH. split.
    + intros [-> [t ->]]. exists t. auto.
    + intros [t K]. injection K as -> ->. eauto.
Qed.
Lemma signature_patterns f p : signature f p <-> exists ps, In (f, ps) patterns /\ In p ps.
Proof.
  unfold signature, patterns. split.
  - intros H. repeat match goal with H : _ \/ _ |- _ => destruct H | H : _ /\ _ |- _ => destruct H end; subst f p; eexists; (split; [cbn [In]; eauto 12|]); vm_compute; auto.
  - intros (ps & H & I). cbn [In] in H. repeat (destruct H as [H|H]; [injection H as <- <-; cbn [In] in I; repeat (destruct I as [<-|I]; [vm_compute; auto 20|]); contradiction|]). contradiction.
Qed.
Lemma has_signature_patterns data f : has_signature data f <-> exists ps, In (f, ps) patterns /\ existsb (fun p => is_prefix p data) ps = true.
Proof.
  unfold has_signature. split.
  - intros (p & t & S & ->). apply signature_patterns in S. destruct S as (ps & I & J). exists ps. split; auto. apply existsb_exists. exists p. split; auto. apply is_prefix_spec. eauto.
  - intros (ps & I & J). apply existsb_exists in J. destruct J as (p & K & L). apply is_prefix_spec in L. destruct L as [t ->]. exists p, t. split; auto. apply signature_patterns. eauto.
Qed.
(** Signatures of different formats exclude each other. *)
Lemma signature_unique data f g : has_signature data f -> has_signature data g -> f = g.
Proof.
  intros (p & t & S & ->) (q & u & R & E). unfold signature in S, R.
  repeat (destruct S as [S|S]); destruct S as [-> S]; repeat (destruct R as [R|R]); destruct R as [-> R]; auto; exfalso;
  try (destruct S as [S|S]); try (destruct R as [R|R]); subst p q; cbn in E; discriminate.
Qed.
Lemma match_patterns_spec order data : Permutation order patterns ->
  match match_patterns order data with Some f => has_signature data f | None => forall f, ~ has_signature data f end.
Proof.
  intros P. assert (A : match match_patterns order data with Some f => exists ps, In (f, ps) order /\ existsb (fun p => is_prefix p data) ps = true | None => forall f ps, In (f, ps) order -> existsb (fun p => is_prefix p data) ps = false end).
  { clear P. induction order as [|[f ps] order IH]; cbn [match_patterns]; [intros f ps []|]. destruct (existsb _ ps) eqn:E; [exists ps; split; [left; auto|auto]|].
    destruct (match_patterns order data) as [g|].
    - destruct IH as (ps' & I & K). exists ps'. split; [right; auto|auto].
    - intros g ps' [K|K]; [injection K as <- <-; auto|eauto]. }
  destruct (match_patterns order data) as [f|].
  - destruct A as (ps & I & K). apply has_signature_patterns. exists ps. split; auto. eapply Permutation_in; eauto.
  - intros f H. apply has_signature_patterns in H. destruct H as (ps & I & K). rewrite (A f ps) in K; [discriminate|]. eapply Permutation_in; [apply Permutation_sym; eauto|auto].
Qed.

(** The fields of a quantized mesh header that are compared *)
Definition is_mesh (data : gstr) : Prop :=
  (88 <= length data)%nat /\ f64_eq (field64 data 0) (field64 data 32) = true /\ f64_eq (field64 data 8) (field64 data 40) = true /\ f64_eq (field64 data 16) (field64 data 48) = true.
(** Detection does not depend on the iteration order of the table: the format whose signature begins the data, else terrain
    for a header whose two centres agree, else an error. *)
Theorem C68_detects : forall order data, Permutation order patterns ->
  (forall f, detectTileFormat order data = Val f <-> has_signature data f \/ (f = TERRAIN /\ is_mesh data /\ forall g, ~ has_signature data g)) /\
  (detectTileFormat order data = Err <-> ~ is_mesh data /\ forall g, ~ has_signature data g) /\
  detectTileFormat order data = detectTileFormat patterns data.
Proof.
  assert (D : forall order data, Permutation order patterns -> forall r, detectTileFormat order data = r <->
    (exists f, r = Val f /\ has_signature data f) \/ ((forall g, ~ has_signature data g) /\ ((r = Val TERRAIN /\ is_mesh data) \/ (r = Err /\ ~ is_mesh data)))).
  { intros order data P r. unfold detectTileFormat. pose proof (match_patterns_spec order data P) as S. destruct (match_patterns order data) as [f|].
    - split; [intros <-; left; eauto|]. intros [(g & -> & G)|[N _]]; [f_equal; eapply signature_unique; eauto|destruct (N f S)].
    - assert (IM : is_mesh data \/ ~ is_mesh data). { unfold is_mesh. destruct (f64_eq _ _), (f64_eq _ _), (f64_eq _ _), (le_lt_dec 88 (length data)); try (left; auto; fail); right; intros (K1 & K2 & K3 & K4); try discriminate; lia. }
      set (e := if Nat.ltb _ _ then _ else _). assert (E : (is_mesh data -> e = Val TERRAIN) /\ (~ is_mesh data -> e = Err)).
      { unfold e, is_mesh. split.
        - intros (K1 & -> & -> & ->). destruct (Nat.ltb_spec (length data) 88); [lia|]. reflexivity.
        - intros N. destruct (Nat.ltb_spec (length data) 88); auto. destruct (f64_eq _ _), (f64_eq _ _), (f64_eq _ _); auto. exfalso. apply N. auto. }
      clearbody e. destruct E as [E1 E2]. split.
      + intros <-. right. split; auto. destruct IM; auto.
      + intros [(g & -> & G)|[_ [[-> I]|[-> I]]]]; [destruct (S g G)|auto|auto]. }
  intros order data P. split; [|split].
  - intros f. rewrite (D order data P (Val f)). split.
    + intros [(g & E & G)|[N [[E I]|[E _]]]]; [injection E as <-; auto|injection E as ->; auto|discriminate].
    + intros [G|(-> & I & N)]; [left; eauto|right; auto].
  - rewrite (D order data P Err). split.
    + intros [(g & E & G)|[N [[E I]|[E I]]]]; [discriminate|discriminate|auto].
    + intros [I N]. auto.
  - apply (D order data P). apply (D patterns data (Permutation_refl _)). reflexivity.
Qed.
Print Assumptions C68_detects.
(** A WebP file is recognised only if its RIFF size field says 192 bytes. *)
Theorem C68_webp : forall order a b c d t, Permutation order patterns ->
  (detectTileFormat order (B "RIFF" ++ [a; b; c; d] ++ B "WEBPVP" ++ t) = Val WEBP <-> le [a; b; c; d] = 192 /\ [a; b; c; d] = [192; 0; 0; 0]).
Proof.
  intros order a b c d t P. destruct (C68_detects order (B "RIFF" ++ [a; b; c; d] ++ B "WEBPVP" ++ t) P) as [H _]. rewrite H. split.
  - intros [(p & u & S & E)|(E & _)]; [|discriminate]. unfold signature in S. repeat destruct S as [S|S]; destruct S as [S1 S2]; try discriminate. subst p. cbn in E. injection E as -> -> -> -> _. split; reflexivity.
  - intros [_ E]. injection E as -> -> -> ->. left. exists (B "RIFF" ++ [0xc0; 0; 0; 0] ++ B "WEBPVP"), t. split; [|reflexivity]. unfold signature. auto 10.
Qed.
Print Assumptions C68_webp.
(** A mesh whose first bytes happen to be a signature is taken for something else. *)
Theorem C68_mesh_refuted : exists data, is_mesh data /\ detectTileFormat patterns data = Val TIFF.
Proof.
  exists ([77; 77; 0; 0; 0; 0; 0; 64] ++ repeat 0 24 ++ [77; 77; 0; 0; 0; 0; 0; 64] ++ repeat 0 48). vm_compute. repeat split; auto.
Qed.
Print Assumptions C68_mesh_refuted.
(** Opening a database takes the format of the sample tile, compressed tiles being vector tiles. *)
Theorem C68_open : forall order r f, Permutation order patterns ->
  (NewDB order (Some r) = Val f <-> exists g, detectTileFormat patterns (match rData r with Some d => d | None => [] end) = Val g /\ ((g = GZIP /\ f = PBF) \/ (g <> GZIP /\ f = g))) /\ NewDB order None = Err.
Proof.
  intros order r f P. split; auto. unfold NewDB. rewrite (proj2 (proj2 (C68_detects order _ P))). destruct (detectTileFormat patterns _) as [g| |]; cbn [obind].
  - destruct (Z.eqb_spec g GZIP) as [->|N]; split.
    + intros E. exists GZIP. split; auto. left. split; auto. congruence.
    + intros (g & E & K). injection E as <-. destruct K as [[_ ->]|[K _]]; congruence.
    + intros E. exists g. split; auto. right. split; auto. congruence.
    + intros (g' & E & K). injection E as <-. destruct K as [[K _]|[_ ->]]; congruence.
  - split; [discriminate|]. intros (g & E & _). discriminate.
  - split; [discriminate|]. intros (g & E & _). discriminate.
Qed.
Print Assumptions C68_open.
Example C68_nonvacuous : NewDB patterns (Some (mkRow 0 0 0 (Some [31; 139; 8]))) = Val PBF /\ detectTileFormat (rev patterns) (B "Lerc2 x") = Val LERC /\ detectTileFormat patterns (repeat 0 88) = Val TERRAIN /\ detectTileFormat patterns (B "test") = Err.
Proof. vm_compute. auto. Qed.
