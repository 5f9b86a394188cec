(** Lemmas about the layer writer and readers. *)
From Coq Require Import ZArith List Lia Bool.
From Verif Require Import GoBase Pbf_Model Pbf_Proofs MvtGeom_Model MvtLayer_Model MvtLayer_Spec.
Import ListNotations.
Open Scope Z_scope.

Lemma bytes_eqb_eq a : forall b, bytes_eqb a b = true <-> a = b.
Proof.
  induction a as [|x a IH]; intros [|y b]; cbn [bytes_eqb]; try (split; [discriminate|discriminate]).
  - split; auto.
  - rewrite andb_true_iff, Z.eqb_eq, IH. split; [intros [-> ->]; auto|intros E; injection E; auto].
Qed.
Lemma bytes_eqb_refl a : bytes_eqb a a = true. Proof. apply bytes_eqb_eq; auto. Qed.

Definition dialect (P : proto) : Prop := P = MapboxProto \/ P = LKProto.
Lemma getProto_dialect p : dialect (getProto p).
Proof. unfold getProto, dialect. destruct (p =? 0); auto. destruct (p =? 1); auto. Qed.

(** ** Dictionary *)
Fixpoint numbered {A} (i : Z) (l : list A) : list (A * Z) :=
  match l with [] => [] | a :: r => (a, u32 i) :: numbered (i + 1) r end.
Lemma numbered_app {A} (l r : list A) : forall i, numbered i (l ++ r) = numbered i l ++ numbered (i + zlen l) r.
Proof.
  induction l as [|a l IH]; intros i; cbn [numbered app]; [rewrite zlen_nil, Z.add_0_r; auto|].
  rewrite IH, zlen_cons. do 3 f_equal. lia.
Qed.
Lemma numbered_len {A} (l : list A) : forall i, zlen (numbered i l) = zlen l.
Proof. induction l as [|a l IH]; intros i; cbn [numbered]; auto. rewrite !zlen_cons, IH. auto. Qed.
Lemma assoc_numbered {A} (eqb : A -> A -> bool) k l : forall i t, assoc eqb k (numbered i l) = Some t ->
  exists n a, nth_error l n = Some a /\ eqb k a = true /\ t = u32 (i + Z.of_nat n).
Proof.
  induction l as [|a l IH]; intros i t H; cbn [numbered assoc] in H; [discriminate|].
  destruct (eqb k a) eqn:E.
  - injection H as <-. exists 0%nat, a. rewrite Z.add_0_r. auto.
  - apply IH in H as (n & b & H1 & H2 & ->). exists (S n), b. split; auto. split; auto. f_equal. lia.
Qed.
Lemma assoc_none_numbered {A} (eqb : A -> A -> bool) k l : forall i, assoc eqb k (numbered i l) = None -> forall a, In a l -> eqb k a = false.
Proof.
  induction l as [|a l IH]; intros i H x Hx; cbn [numbered assoc] in *; [destruct Hx|].
  destruct (eqb k a) eqn:E; [discriminate|]. destruct Hx as [<-|Hx]; auto. apply (IH (i + 1)); auto.
Qed.

Definition value_field (P : proto) (v : gval) : bytes :=
  WriteMessage (pValues P) (WriteTag (fst (WriteValue v P)) wBytes ++ snd (WriteValue v P)).

Definition dict_inv (P : proto) (s : layerw) (kt : list (list Z)) (vt : list gval) : Prop :=
  lwKeysMap s = numbered 0 kt /\ lwValuesMap s = numbered 0 vt /\ NoDup kt /\
  lwKeys s = flat_map (WriteString (pKeys P)) kt /\ lwValues s = flat_map (value_field P) vt.

(** A value and the table entry its index points at: the same value or one Go's == identifies with it. *)
Definition entry_for (v v' : gval) : Prop := v' = v \/ veqb v v' = true.

Inductive resolves (kt : list (list Z)) (vt : list gval) : list (list Z * gval) -> list Z -> Prop :=
| res_nil : resolves kt vt [] []
| res_cons k v r i j tags v' : nth_error kt (Z.to_nat i) = Some k -> nth_error vt (Z.to_nat j) = Some v' -> entry_for v v' ->
    in_u32 i -> in_u32 j -> resolves kt vt r tags -> resolves kt vt ((k, v) :: r) (i :: j :: tags).

Lemma nth_error_ext {A} (l r : list A) n a : nth_error l n = Some a -> nth_error (l ++ r) n = Some a.
Proof. intros H. rewrite nth_error_app1; auto. apply nth_error_Some. congruence. Qed.
Lemma resolves_ext kt vt k2 v2 props tags : resolves kt vt props tags -> resolves (kt ++ k2) (vt ++ v2) props tags.
Proof. induction 1; [constructor|]. econstructor; eauto using nth_error_ext. Qed.
Lemma resolves_u32 kt vt props tags : resolves kt vt props tags -> Forall in_u32 tags.
Proof. induction 1; auto. Qed.

Lemma nodup_snoc {A} (l : list A) a : NoDup l -> ~ In a l -> NoDup (l ++ [a]).
Proof.
  intros H Hn. apply NoDup_rev in H. rewrite <- (rev_involutive (l ++ [a])). apply NoDup_rev. rewrite rev_app_distr. cbn [rev app].
  constructor; auto. rewrite <- in_rev. auto.
Qed.

Lemma GetTags_inv P props : forall s kt vt tags s',
  dict_inv P s kt vt -> zlen kt + zlen props <= 2 ^ 32 -> zlen vt + zlen props <= 2 ^ 32 ->
  GetTags P s props = Ok (tags, s') ->
  exists k2 v2, dict_inv P s' (kt ++ k2) (vt ++ v2) /\ zlen k2 <= zlen props /\ zlen v2 <= zlen props /\
    lwFeatures s' = lwFeatures s /\ resolves (kt ++ k2) (vt ++ v2) props tags /\
    (forall k, In k k2 -> In k (map fst props)) /\ (forall v, In v v2 -> In v (map snd props)).
Proof.
  induction props as [|[k v] r IH]; intros s kt vt tags s' HI Hk Hv H.
  - cbn [GetTags] in H. injection H as <- <-. exists [], []. rewrite !app_nil_r.
    split; auto. split; [reflexivity|]. split; [reflexivity|]. split; auto. split; [constructor|]. split; intros ? [].
  - cbn [GetTags] in H. rewrite zlen_cons in Hk, Hv. pose proof (zlen_nonneg r). pose proof (zlen_nonneg kt). pose proof (zlen_nonneg vt).
    set (X := match assoc bytes_eqb k (lwKeysMap s) with Some t => (t, s) | None => AddKey P s k end) in H.
    assert (S1 : exists k1, dict_inv P (snd X) (kt ++ k1) vt /\ zlen k1 <= 1 /\ lwFeatures (snd X) = lwFeatures s /\
              nth_error (kt ++ k1) (Z.to_nat (fst X)) = Some k /\ in_u32 (fst X) /\ (forall a, In a k1 -> a = k)).
    { subst X. destruct HI as (I1 & I2 & I3 & I4 & I5). destruct (assoc bytes_eqb k (lwKeysMap s)) as [t|] eqn:E.
      - rewrite I1 in E. apply assoc_numbered in E as (n & a & E1 & E2 & ->). apply bytes_eqb_eq in E2 as <-.
        assert (n < length kt)%nat by (apply nth_error_Some; congruence).
        exists []. rewrite app_nil_r. cbn [fst snd]. rewrite Z.add_0_l, u32_id by (unfold in_u32, zlen in *; lia).
        rewrite Nat2Z.id. repeat split; auto; try (unfold zlen in *; cbn [length] in *; lia). intros ? [].
      - rewrite I1 in E. exists [k]. unfold AddKey. cbn [fst snd lwFeatures]. rewrite I1, numbered_len.
        assert (Hu : u32 (zlen kt) = zlen kt) by (apply u32_id; unfold in_u32; lia).
        repeat split; cbn [lwKeysMap lwValuesMap lwKeys lwValues]; auto.
        + rewrite ?I1, numbered_app. cbn [numbered]. rewrite Z.add_0_l. reflexivity.
        + apply nodup_snoc; auto. intros Hin. pose proof (assoc_none_numbered _ _ _ _ E _ Hin). rewrite bytes_eqb_refl in *. discriminate.
        + rewrite I4, flat_map_app. cbn [flat_map]. rewrite app_nil_r. reflexivity.
        + unfold zlen. cbn. lia.
        + rewrite Hu. unfold zlen. rewrite Nat2Z.id, nth_error_app2, Nat.sub_diag by lia. reflexivity.
        + rewrite Hu. lia.
        + rewrite Hu. lia.
        + intros a [<-|[]]; auto. }
    destruct X as [i s1]. cbn [fst snd] in S1. destruct S1 as (k1 & HI1 & L1 & F1 & N1 & U1 & K1).
    assert (S2 : exists j s2 v1, (match v with VUnhash => Panic | _ => match assoc veqb v (lwValuesMap s1) with Some t => Ok (t, s1) | None => Ok (AddValue P s1 v) end end) = Ok (j, s2) /\
              dict_inv P s2 (kt ++ k1) (vt ++ v1) /\ zlen v1 <= 1 /\ lwFeatures s2 = lwFeatures s1 /\
              (exists v', nth_error (vt ++ v1) (Z.to_nat j) = Some v' /\ entry_for v v') /\ in_u32 j /\ (forall a, In a v1 -> a = v)).
    { destruct HI1 as (I1 & I2 & I3 & I4 & I5).
      assert (Hn : v = VUnhash \/ v <> VUnhash) by (destruct v; auto; right; discriminate).
      destruct Hn as [->|Hn]; [cbn [bind] in H; discriminate|].
      assert (EM : forall (A : Type) (a b : A), match v with VUnhash => a | _ => b end = b) by (intros; destruct v; auto; congruence).
      rewrite EM. destruct (assoc veqb v (lwValuesMap s1)) as [t|] eqn:E.
      - rewrite I2 in E. apply assoc_numbered in E as (n & a & E1 & E2 & ->).
        assert (n < length vt)%nat by (apply nth_error_Some; congruence).
        exists (u32 (0 + Z.of_nat n)), s1, []. rewrite app_nil_r. rewrite Z.add_0_l, u32_id by (unfold in_u32, zlen in *; lia). rewrite Nat2Z.id.
        repeat split; auto; try (unfold zlen in *; cbn [length] in *; lia); [|intros ? []]. exists a. split; auto. right. auto.
      - rewrite I2 in E. unfold AddValue. destruct (WriteValue v P) as [tag vals] eqn:EW.
        eexists _, _, [v]. split; [reflexivity|]. cbn [lwFeatures]. rewrite I2, numbered_len.
        assert (Hu : u32 (zlen vt) = zlen vt) by (apply u32_id; unfold in_u32; lia).
        repeat split; cbn [lwKeysMap lwValuesMap lwKeys lwValues]; auto.
        + rewrite ?I2, numbered_app. cbn [numbered]. rewrite Z.add_0_l. reflexivity.
        + rewrite I5, flat_map_app. cbn [flat_map]. rewrite app_nil_r. unfold value_field. rewrite EW. reflexivity.
        + unfold zlen. cbn. lia.
        + exists v. split; [|left; auto]. rewrite Hu. unfold zlen. rewrite Nat2Z.id, nth_error_app2, Nat.sub_diag by lia. reflexivity.
        + rewrite Hu. lia.
        + rewrite Hu. lia.
        + intros a [<-|[]]; auto. }
    destruct S2 as (j & s2 & v1 & EV & HI2 & L2 & F2 & (v' & N2 & En) & U2 & V1). rewrite EV in H. cbn [bind] in H. clear EV.
    destruct (GetTags P s2 r) as [[tags' s3]| |] eqn:ER; cbn [bind] in H; try discriminate. injection H as <- <-.
    assert (Hk' : zlen (kt ++ k1) + zlen r <= 2 ^ 32) by (rewrite zlen_app; lia).
    assert (Hv' : zlen (vt ++ v1) + zlen r <= 2 ^ 32) by (rewrite zlen_app; lia).
    destruct (IH _ _ _ _ _ HI2 Hk' Hv' ER) as (k2 & v2 & J1 & J2 & J3 & J4 & J5 & J6 & J7).
    exists (k1 ++ k2), (v1 ++ v2). rewrite !app_assoc. split; auto. rewrite !zlen_app, zlen_cons. split; [lia|]. split; [lia|].
    split; [congruence|]. split; [|split].
    + econstructor; eauto using nth_error_ext.
    + intros a Ha. cbn [map fst]. apply in_app_iff in Ha as [Ha|Ha]; [left; symmetry; auto|right; auto].
    + intros a Ha. cbn [map snd]. apply in_app_iff in Ha as [Ha|Ha]; [left; symmetry; auto|right; auto].
Qed.

Lemma GetTags_total P props : forall s, (forall k, ~ In (k, VUnhash) props) -> exists tags s', GetTags P s props = Ok (tags, s').
Proof.
  induction props as [|[k v] r IH]; intros s H; cbn [GetTags]; [eauto|].
  destruct (match assoc bytes_eqb k (lwKeysMap s) with Some t => (t, s) | None => AddKey P s k end) as [i s1].
  assert (Hn : v <> VUnhash) by (intros ->; apply (H k); left; auto).
  assert (EM : forall (A : Type) (a b : A), match v with VUnhash => a | _ => b end = b) by (intros; destruct v; auto; congruence).
  rewrite EM. assert (exists j s2, (match assoc veqb v (lwValuesMap s1) with Some t => Ok (t, s1) | None => Ok (AddValue P s1 v) end) = Ok (j, s2)) as (j & s2 & ->).
  { destruct (assoc veqb v (lwValuesMap s1)); [eauto|]. destruct (AddValue P s1 v). eauto. }
  cbn [bind]. destruct (IH s2) as (tags & s' & ->); [intros k' Hk; apply (H k'); right; auto|]. cbn [bind]. eauto.
Qed.
Lemma GetTags_panic P props : forall s k, In (k, VUnhash) props -> GetTags P s props = Panic.
Proof.
  induction props as [|[k v] r IH]; intros s k0 H; [destruct H|]. cbn [GetTags].
  destruct (match assoc bytes_eqb k (lwKeysMap s) with Some t => (t, s) | None => AddKey P s k end) as [i s1].
  destruct H as [H|H]; [injection H as -> ->; reflexivity|].
  destruct v; [..|reflexivity]; match goal with |- context [assoc veqb ?x ?y] => destruct (assoc veqb x y) end; cbn [bind];
    try destruct (AddValue P s1 _); cbn [bind]; rewrite (IH _ k0 H); reflexivity.
Qed.
