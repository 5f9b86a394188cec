(** Properties C30, C31, C77: splitting MultiPoints by tile. *)
From Coq Require Import ZArith Reals List Bool Lia Lra Permutation.
From Verif Require Import GoBase Tileid_Model TileR_Model Clip_Model Clip_Props.
Import ListNotations.

Section Group.
  Context {P T : Type} (tile : P -> T) (teq : T -> T -> bool).
  Hypothesis teq_eq : forall a b, teq a b = true <-> a = b.
  Lemma teq_refl a : teq a a = true. Proof. apply teq_eq; auto. Qed.

  (** Spec of the map built so far: keys distinct, each entry the points of that tile in order. *)
  Definition good (ps : list P) (m : list (T * list P)) : Prop :=
    NoDup (map fst m) /\
    (forall t l, In (t, l) m -> l = filter (fun p => teq (tile p) t) ps /\ l <> []) /\
    (forall p, In p ps -> In (tile p) (map fst m)).

  Lemma add_keys (t : T) (p : P) m : forall k, In k (map fst (add_point teq t p m)) <-> k = t \/ In k (map fst m).
  Proof.
    induction m as [|[t' l] m IH]; intros k; cbn [add_point map fst In].
    - intuition.
    - destruct (teq t t') eqn:E; cbn [map fst In].
      + apply teq_eq in E. subst. intuition.
      + rewrite IH. intuition.
  Qed.
  Lemma add_nodup (t : T) (p : P) m : NoDup (map fst m) -> NoDup (map fst (add_point teq t p m)).
  Proof.
    induction m as [|[t' l] m IH]; intros H; cbn [add_point map fst].
    - repeat constructor. intros [].
    - inversion H; subst. destruct (teq t t') eqn:E; cbn [map fst]; auto. constructor; auto.
      rewrite add_keys. intros [->|]; auto. rewrite teq_refl in E. discriminate.
  Qed.
  Lemma add_entry (t : T) (p : P) m : NoDup (map fst m) -> forall k l, In (k, l) (add_point teq t p m) <->
    (k <> t /\ In (k, l) m) \/ (k = t /\ ((exists l0, In (t, l0) m /\ l = l0 ++ [p]) \/ (~ In t (map fst m) /\ l = [p]))).
  Proof.
    induction m as [|[t' l'] m IH]; intros H k l; cbn [add_point map fst In].
    - split.
      + intros [E|[]]. injection E as <- <-. right. split; auto.
      + intros [[_ []]|[-> [(l0 & [] & _)|[_ ->]]]]. auto.
    - inversion H as [|? ? Hn Hnd]; subst. destruct (teq t t') eqn:E; cbn [In].
      + apply teq_eq in E. subst t'. split.
        * intros [X|X].
          -- injection X as <- <-. right. split; auto. left. eexists. split; [left|]; reflexivity.
          -- assert (k <> t). { intros ->. apply Hn. change t with (fst (t, l)). apply in_map. auto. }
             left. auto.
        * intros [[Hk [X|X]]|[-> [(l0 & [X|X] & ->)|[X _]]]].
          -- congruence.
          -- auto.
          -- left. congruence.
          -- exfalso. apply Hn. change t with (fst (t, l0)). apply in_map. auto.
          -- destruct X. auto.
      + assert (Ht : t <> t'). { intros ->. rewrite teq_refl in E. discriminate. }
        rewrite (IH Hnd). split.
        * intros [X|[[Hk X]|[-> [(l0 & X & ->)|[X ->]]]]].
          -- injection X as <- <-. left. auto.
          -- left; auto.
          -- right. split; auto. left. eauto.
          -- right. split; auto. right. split; auto. intros [?|?]; congruence.
        * intros [[Hk [X|X]]|[-> [(l0 & [X|X] & ->)|[X ->]]]].
          -- left; auto.
          -- right. left. auto.
          -- congruence.
          -- right. right. split; auto. left. eauto.
          -- right. right. split; auto. right. split; auto.
  Qed.

  Lemma good_step ps m p : good ps m -> good (ps ++ [p]) (add_point teq (tile p) p m).
  Proof.
    intros (Hn & He & Hk). split; [apply add_nodup; auto|]. split.
    - intros t l H. apply add_entry in H; auto. rewrite filter_app. cbn [filter].
      destruct H as [[Ht H]|[-> [(l0 & H & ->)|[H ->]]]].
      + destruct (He _ _ H) as [-> Hl]. split; auto.
        destruct (teq (tile p) t) eqn:E; [apply teq_eq in E; congruence|]. symmetry. apply app_nil_r.
      + destruct (He _ _ H) as [-> Hl]. rewrite teq_refl. split; auto. intros X. apply app_eq_nil in X. destruct X. discriminate.
      + rewrite teq_refl. split; [|discriminate].
        replace (filter (fun q => teq (tile q) (tile p)) ps) with (@nil P); auto.
        symmetry. destruct (filter (fun q => teq (tile q) (tile p)) ps) as [|q r] eqn:E; auto.
        assert (HI : In q (filter (fun q => teq (tile q) (tile p)) ps)) by (rewrite E; left; auto).
        apply filter_In in HI. destruct HI as [HI HT]. apply teq_eq in HT. destruct H. rewrite <- HT. auto.
    - intros q Hq. apply add_keys. apply in_app_iff in Hq. destruct Hq as [Hq|[<-|[]]]; auto.
  Qed.

  Lemma group_good ps : good ps (group_points tile teq ps).
  Proof.
    unfold group_points.
    assert (H : forall l pre m, good pre m -> good (pre ++ l) (fold_left (fun m p => add_point teq (tile p) p m) l m)).
    { induction l as [|p l IH]; intros pre m Hm; cbn [fold_left]; [rewrite app_nil_r; auto|].
      replace (pre ++ p :: l) with ((pre ++ [p]) ++ l) by (rewrite <- app_assoc; auto). apply IH. apply good_step; auto. }
    apply (H ps [] []). split; [constructor|]. split; [intros ? ? []|intros ? []].
  Qed.

  Lemma add_perm (t : T) (p : P) m : Permutation (concat (map snd (add_point teq t p m))) (concat (map snd m) ++ [p]).
  Proof.
    induction m as [|[t' l] m IH]; cbn [add_point map snd concat app]; auto.
    destruct (teq t t'); cbn [map snd concat].
    - rewrite <- !app_assoc. apply Permutation_app_head. apply Permutation_app_comm.
    - rewrite <- app_assoc. apply Permutation_app_head. auto.
  Qed.
  Lemma group_perm ps : Permutation (concat (map snd (group_points tile teq ps))) ps.
  Proof.
    unfold group_points.
    assert (H : forall l m, Permutation (concat (map snd (fold_left (fun m p => add_point teq (tile p) p m) l m))) (concat (map snd m) ++ l)).
    { induction l as [|p l IH]; intros m; cbn [fold_left]; [rewrite app_nil_r; auto|].
      rewrite IH, add_perm, <- app_assoc. auto. }
    apply (H ps []).
  Qed.
End Group.

(** C30: for any way of computing tiles, the MultiPoint is partitioned: keys are distinct, the
    entry of a tile is the list of exactly its points in input order, nothing is empty, every
    point's tile has an entry, and all entries together are the input. *)
Theorem C30_partition : forall (P T : Type) (tile : P -> T) (teq : T -> T -> bool),
  (forall a b, teq a b = true <-> a = b) -> forall ps,
  let m := group_points tile teq ps in
  NoDup (map fst m) /\
  (forall t l, In (t, l) m -> l = filter (fun p => teq (tile p) t) ps /\ l <> []) /\
  (forall p, In p ps -> exists l, In (tile p, l) m /\ In p l) /\
  Permutation (concat (map snd m)) ps.
Proof.
  intros P T tile teq H ps m. destruct (group_good tile teq H ps) as (H1 & H2 & H3). fold m in H1, H2, H3.
  split; auto. split; auto. split; [|apply group_perm].
  intros p Hp. specialize (H3 p Hp). apply in_map_iff in H3. destruct H3 as ([t l] & Et & HI). cbn [fst] in Et. subst t.
  exists l. split; auto. destruct (H2 _ _ HI) as [-> _]. apply filter_In. split; auto. apply H. auto.
Qed.
Print Assumptions C30_partition.

(** The instance for real coordinates and the tile function of the library. *)
Theorem C30_partition_tiles : forall zoom (ps : list (R * R)),
  let m := group_points (fun p => Tile (fst p) (snd p) zoom) tile_eqb ps in
  (forall t l p, In (t, l) m -> In p l -> Tile (fst p) (snd p) zoom = t) /\ Permutation (concat (map snd m)) ps.
Proof.
  intros zoom ps m. destruct (C30_partition _ _ (fun p => Tile (fst p) (snd p) zoom) tile_eqb tile_eqb_eq ps) as (_ & H & _ & HP).
  split; auto. intros t l p HI Hp. destruct (H _ _ HI) as [-> _]. apply filter_In in Hp. apply tile_eqb_eq. tauto.
Qed.
Print Assumptions C30_partition_tiles.

Example C30_nonvacuous : group_points (fun p => Z.div p 10) Z.eqb [11; 25; 12]%Z = [(1, [11; 12]); (2, [25])]%Z.
Proof. reflexivity. Qed.

Lemma split_spec {P T} (old : option T) (order : list (T * list P)) : Forall (fun e => snd e <> []) order ->
  split_features old order = (order, match order with [] => old | e :: _ => Some (fst (last order e)) end).
Proof.
  unfold split_features. intros H.
  assert (G : forall l pre o, Forall (fun e : T * list P => snd e <> []) l ->
    fold_left (fun s e => match snd e with [] => s | _ => (fst s ++ [e], Some (fst e)) end) l (pre, o)
    = (pre ++ l, match l with [] => o | e :: _ => Some (fst (last l e)) end)).
  { induction l as [|e l IH]; intros pre o HF; cbn [fold_left]; [rewrite app_nil_r; auto|].
    inversion HF as [|? ? He HF']; subst. destruct (snd e) as [|q r] eqn:E; [congruence|]. cbn [fst].
    rewrite IH by auto. rewrite <- app_assoc. cbn [app]. f_equal.
    destruct l as [|x l]; [reflexivity|]. f_equal. f_equal. clear. revert x. induction l as [|y l IH]; intros; [reflexivity|].
    change (last (x :: y :: l) x) with (last (y :: l) x). change (last (e :: x :: y :: l) e) with (last (x :: y :: l) e).
    change (last (x :: y :: l) e) with (last (y :: l) e). clear IH. revert y. induction l as [|z l IH]; intros; [reflexivity|].
    change (last (y :: z :: l) x) with (last (z :: l) x). change (last (y :: z :: l) e) with (last (z :: l) e). apply IH. }
  rewrite (G order [] old H). reflexivity.
Qed.

(** C31: whatever order Go iterates the groups in, all resulting features report one and the same
    TILEID afterwards, it is right for exactly one of them. *)
Theorem C31_shared_tileid : forall (P T : Type) (tile : P -> T) (teq : T -> T -> bool),
  (forall a b, teq a b = true <-> a = b) -> forall ps old order,
  ps <> [] -> Permutation order (group_points tile teq ps) ->
  exists k, split_features old order = (order, Some k) /\ In k (map fst order) /\
    forall t l t' l', In (t, l) order -> In (t', l') order -> t = k -> t' = k -> l = l' /\ t = t'.
Proof.
  intros P T tile teq H ps old order Hne HP.
  destruct (C30_partition _ _ tile teq H ps) as (H1 & H2 & H3 & _).
  assert (HF : Forall (fun e : T * list P => snd e <> []) order).
  { apply Forall_forall. intros [t l] HI. apply (Permutation_in _ HP) in HI. cbn. apply (H2 _ _ HI). }
  rewrite (split_spec old order HF). destruct order as [|e order].
  - exfalso. destruct ps as [|p ps]; [congruence|]. destruct (H3 p (or_introl eq_refl)) as (l & HI & _).
    apply (Permutation_in _ (Permutation_sym HP)) in HI. destruct HI.
  - exists (fst (last (e :: order) e)). split; auto. split.
    + apply in_map. destruct (@exists_last _ (e :: order) ltac:(discriminate)) as (l' & x & E). rewrite E, last_last. apply in_app_iff. right. left. auto.
    + intros t l t' l' HI HI' -> ->. split; auto.
      destruct (H2 _ _ (Permutation_in _ HP HI)) as [-> _]. destruct (H2 _ _ (Permutation_in _ HP HI')) as [-> _]. auto.
Qed.
Print Assumptions C31_shared_tileid.

(** With two or more tiles some returned feature reports a tile it does not lie in. *)
Theorem C31_wrong_for_the_others : forall (P T : Type) (tile : P -> T) (teq : T -> T -> bool),
  (forall a b, teq a b = true <-> a = b) -> forall ps old order p q,
  In p ps -> In q ps -> tile p <> tile q -> Permutation order (group_points tile teq ps) ->
  exists k, snd (split_features old order) = Some k /\
    exists t l, In (t, l) (fst (split_features old order)) /\ t <> k /\ forall x, In x l -> tile x = t.
Proof.
  intros P T tile teq H ps old order p q Hp Hq Hd HP.
  destruct (C31_shared_tileid P T tile teq H ps old order) as (k & E & _ & _); auto.
  { intros ->. destruct Hp. }
  rewrite E. cbn [fst snd]. exists k. split; auto.
  destruct (C30_partition _ _ tile teq H ps) as (_ & H2 & H3 & _).
  assert (G : forall x, In x ps -> tile x <> k -> exists t l, In (t, l) order /\ t <> k /\ forall x, In x l -> tile x = t).
  { intros x Hx Hk. destruct (H3 x Hx) as (l & HI & _). exists (tile x), l.
    split; [apply (Permutation_in _ (Permutation_sym HP)); auto|]. split; auto.
    intros y Hy. destruct (H2 _ _ HI) as [-> _]. apply filter_In in Hy. apply H. tauto. }
  destruct (teq (tile p) k) eqn:Ek.
  - apply H in Ek. apply (G q Hq). congruence.
  - apply (G p Hp). intros X. apply H in X. congruence.
Qed.
Print Assumptions C31_wrong_for_the_others.

Example C31_nonvacuous : split_features None (group_points (fun p => Z.div p 10) Z.eqb [11; 25; 12]%Z)
  = ([(1, [11; 12]); (2, [25])]%Z, Some 2%Z).
Proof. reflexivity. Qed.

(** C77: clipping a MultiPoint to one tile keeps exactly that tile's points, in order, and so
    agrees with the corresponding entry of the split by zoom. *)
Theorem C77_point_clip_consistent : forall (P T : Type) (tile : P -> T) (teq : T -> T -> bool),
  (forall a b, teq a b = true <-> a = b) -> forall ps t,
  (forall p, In p (keep_points tile teq t ps) <-> In p ps /\ tile p = t) /\
  (keep_points tile teq t ps <> [] <-> In (t, keep_points tile teq t ps) (group_points tile teq ps)).
Proof.
  intros P T tile teq H ps t. split.
  - intros p. unfold keep_points. rewrite filter_In, H. tauto.
  - destruct (C30_partition _ _ tile teq H ps) as (_ & H2 & H3 & _). split.
    + intros Hne. unfold keep_points in *. destruct (filter _ ps) as [|q r] eqn:E; [congruence|].
      assert (HI : In q (filter (fun p => teq (tile p) t) ps)) by (rewrite E; left; auto).
      apply filter_In in HI. destruct HI as [HI HT]. apply H in HT. subst t.
      destruct (H3 q HI) as (l & HL & _). destruct (H2 _ _ HL) as [El _]. rewrite <- E, <- El. auto.
    + intros HI. apply (H2 _ _ HI).
Qed.
Print Assumptions C77_point_clip_consistent.

Example C77_nonvacuous : keep_points (fun p => Z.div p 10) Z.eqb 1%Z [11; 25; 12]%Z = [11; 12]%Z.
Proof. reflexivity. Qed.
