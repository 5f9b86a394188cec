(** The lower envelope of parabolas (Felzenszwalb and Huttenlocher). *)
From Coq Require Import ZArith Reals List Lia Lra Psatz Bool Arith.
From Verif Require Import GoBase GoArr Num TileR_Model MvtProj_Model Sdf_Model Sdf_Spec.
Import ListNotations.
Open Scope R_scope.

Lemma for_each_det {S A} (f : S -> A -> res S) l s a b : for_each f l s = Ok a -> for_each f l s = Ok b -> a = b.
Proof. congruence. Qed.

Lemma advance_ok k z q : nth (S k) z 0 = INF -> INR q <= INF -> (S k < length z)%nat ->
    forall fuel j, (j <= k)%nat -> (k - j < fuel)%nat -> (j = 0%nat \/ nth j z 0 < INR q) ->
    exists j', advance fuel z q j = Ok j' /\ (j' <= k)%nat /\ (j' = 0%nat \/ nth j' z 0 < INR q) /\ INR q <= nth (S j') z 0.
  Proof.
    intros Ez Hq Hl. induction fuel as [|fuel IH]; intros j Hj Hfu Hlo; [lia|]. cbn [advance]. replace (j + 1)%nat with (S j) by lia.
    rewrite (get_ok z (S j) 0) by lia. cbn [bind]. destruct (Rltb_spec (nth (S j) z 0) (INR q)) as [H|H].
    - assert (j <> k) by (intros ->; lra). destruct (IH (S j)) as (j' & E & H1 & H2 & H3); [lia|lia|right; auto|]. exists j'. auto.
    - exists j. split; auto. split; auto. split; auto. lra.
  Qed.

Section Env.
  Variable f : list R.
  Notation F p := (nth p f 0).
  Definition val (p : nat) (x : R) : R := (x - INR p) * (x - INR p) + F p.
  Definition inter (p q : nat) : R := ((F q + INR q * INR q) - (F p + INR p * INR p)) / (2 * INR q - 2 * INR p).

  Lemma val_diff p q x : (p < q)%nat -> val q x - val p x = 2 * (INR q - INR p) * (inter p q - x).
  Proof. intros H. apply lt_INR in H. unfold val, inter. field. lra. Qed.
  Lemma val_le p q x : (p < q)%nat -> x <= inter p q -> val p x <= val q x.
  Proof. intros H Hx. pose proof (val_diff p q x H). apply lt_INR in H. nra. Qed.
  Lemma val_ge p q x : (p < q)%nat -> inter p q <= x -> val q x <= val p x.
  Proof. intros H Hx. pose proof (val_diff p q x H). apply lt_INR in H. nra. Qed.

  (** Intersections are above -INF for sampled values in [0, INF]. *)
  Lemma inter_low p q : (p < q)%nat -> 0 <= F q -> F p <= INF -> - INF < inter p q.
  Proof.
    intros H H1 H2. pose proof (pos_INR p) as Hp. assert (H3 : INR p + 1 <= INR q) by (rewrite <- S_INR; apply le_INR; lia).
    unfold inter. apply Rmult_lt_reg_r with (2 * INR q - 2 * INR p); [lra|]. unfold Rdiv. rewrite Rmult_assoc, Rinv_l, Rmult_1_r by lra.
    unfold INF in *. nra.
  Qed.

  (** The stack v[0..k] with separators z[0..k] *)
  Definition stack (k : nat) (v : list nat) (z : list R) : Prop :=
    nth 0 z 0 = - INF /\
    (forall i, (i < k)%nat -> (nth i v 0 < nth (S i) v 0)%nat) /\
    (forall i, (i < k)%nat -> nth (S i) z 0 = inter (nth i v 0%nat) (nth (S i) v 0%nat)) /\
    (forall i, (i < k)%nat -> nth i z 0 < nth (S i) z 0).

(** The parabola of the segment containing x is the lowest. *)
  Lemma segment_min k v z j x : stack k v z -> (j <= k)%nat -> (j = 0%nat \/ nth j z 0 < x) -> (j = k \/ x <= nth (S j) z 0) ->
    forall i, (i <= k)%nat -> val (nth j v 0%nat) x <= val (nth i v 0%nat) x.
  Proof.
    intros (S1 & S2 & S3 & S4) Hj Hlo Hhi.
    assert (ZM : forall a b, (a <= b)%nat -> (b <= k)%nat -> nth a z 0 <= nth b z 0).
    { intros a b Hab. induction Hab as [|b Hab IH]; intros Hb; [lra|]. specialize (IH ltac:(lia)). specialize (S4 b ltac:(lia)). lra. }
    assert (UP : forall m, (j + m <= k)%nat -> val (nth j v 0%nat) x <= val (nth (j + m) v 0%nat) x).
    { induction m as [|m IH]; intros Hm; [rewrite Nat.add_0_r; lra|]. specialize (IH ltac:(lia)). eapply Rle_trans; [exact IH|].
      replace (j + S m)%nat with (S (j + m)) by lia. apply val_le; [apply S2; lia|]. rewrite <- S3 by lia.
      destruct Hhi as [->|Hhi]; [lia|]. eapply Rle_trans; [exact Hhi|]. apply ZM; lia. }
    assert (DN : forall m, (m <= j)%nat -> val (nth j v 0%nat) x <= val (nth (j - m) v 0%nat) x).
    { induction m as [|m IH]; intros Hm; [rewrite Nat.sub_0_r; lra|]. specialize (IH ltac:(lia)). eapply Rle_trans; [exact IH|].
      replace (j - m)%nat with (S (j - S m)) by lia. apply val_ge; [apply S2; lia|]. rewrite <- S3 by lia.
      destruct Hlo as [->|Hlo]; [lia|]. apply Rlt_le. eapply Rle_lt_trans; [|exact Hlo]. apply ZM; lia. }
    intros i Hi. destruct (le_lt_dec j i) as [H|H].
    - replace i with (j + (i - j))%nat by lia. apply UP. lia.
    - replace i with (j - (j - i))%nat by lia. apply DN. lia.
  Qed.


  Variable n : nat.
  Hypothesis Hf : (n <= length f)%nat.
  Hypothesis Hlow : forall p, (p < n)%nat -> 0 <= F p <= INF.

  Lemma pop_ok v z q : (q < n)%nat -> (n <= length v)%nat -> (n < length z)%nat ->
    forall k, (k < n)%nat -> stack k v z -> (nth k v 0 < q)%nat ->
    (forall x p, (p <= q)%nat -> val q x <= val p x \/ exists i, (i <= k)%nat /\ val (nth i v 0%nat) x <= val p x) ->
    exists k', pop f v z q k = Ok (k', inter (nth k' v 0%nat) q) /\ (k' <= k)%nat /\ (nth k' v 0 < q)%nat /\ nth k' z 0 < inter (nth k' v 0%nat) q /\
      (forall x p, (p <= q)%nat -> val q x <= val p x \/ exists i, (i <= k')%nat /\ val (nth i v 0%nat) x <= val p x).
  Proof.
    intros Hq Hv Hz k. induction k as [|k IH]; intros Hk Hs Hvk He.
    - cbn [pop]. unfold getS. rewrite (get_ok f q 0) by lia. rewrite (get_ok v 0 0%nat) by lia. cbn [bind].
      rewrite (get_ok f (nth 0 v 0%nat) 0) by lia. cbn [bind]. rewrite (get_ok z 0 0) by lia. cbn [bind]. fold (inter (nth 0 v 0%nat) q).
      assert (X : - INF < inter (nth 0 v 0%nat) q) by (apply inter_low; [auto|apply Hlow; lia|apply Hlow; lia]).
      destruct Hs as (Hs & _). rewrite Hs. destruct (Rleb_spec (inter (nth 0 v 0%nat) q) (- INF)); [lra|].
      exists 0%nat. rewrite Hs. split; auto.
    - cbn [pop]. unfold getS. rewrite (get_ok f q 0) by lia. rewrite (get_ok v (S k) 0%nat) by lia. cbn [bind].
      rewrite (get_ok f (nth (S k) v 0%nat) 0) by lia. cbn [bind]. rewrite (get_ok z (S k) 0) by lia. cbn [bind]. fold (inter (nth (S k) v 0%nat) q).
      destruct (Rleb_spec (inter (nth (S k) v 0%nat) q) (nth (S k) z 0)) as [Hle|Hgt].
      + destruct Hs as (S1 & S2 & S3 & S4). pose proof (S2 k ltac:(lia)) as Hkk.
        destruct (IH ltac:(lia)) as (k' & E & H1 & H2); [| |clear IH|exists k'; split; [exact E|split; [lia|exact H2]]].
        * split; auto. split; [|split]; intros i Hi; [apply S2|apply S3|apply S4]; lia.
        * lia.
        * intros x p Hp. destruct (He x p Hp) as [H|(i & Hi & H)]; [left; auto|].
          assert (i = S k \/ i <= k)%nat as [->|Hi'] by lia; [|right; exists i; auto].
          rewrite S3 in Hle by lia. destruct (Rle_or_lt x (inter (nth k v 0%nat) (nth (S k) v 0%nat))) as [Hx|Hx].
          -- right. exists k. split; auto. eapply Rle_trans; [|exact H]. apply val_le; auto.
          -- left. eapply Rle_trans; [|exact H]. apply val_ge; auto. lra.
      + exists (S k). split; auto. split; auto. split; auto. split; [lra|auto].
  Qed.

  (** The state after the parabolas 0..q-1 *)
  Definition built (lv lz q : nat) (st : nat * list nat * list R) : Prop :=
    let '(k, v, z) := st in
    length v = lv /\ length z = lz /\ (k < q)%nat /\ stack k v z /\ nth k v 0%nat = (q - 1)%nat /\ nth (S k) z 0 = INF /\
    forall x p, (p < q)%nat -> exists i, (i <= k)%nat /\ val (nth i v 0%nat) x <= val p x.

  Lemma push_ok lv lz q st : (n <= lv)%nat -> (n < lz)%nat -> (1 <= q < n)%nat -> built lv lz q st ->
    exists st', push_step f st q = Ok st' /\ built lv lz (q + 1) st'.
  Proof.
    intros Hv Hz Hq. destruct st as [[k v] z]. intros (L1 & L2 & Hk & Hs & Ek & Ez & He). unfold push_step.
    destruct (pop_ok v z q ltac:(lia) ltac:(lia) ltac:(lia) k ltac:(lia) Hs ltac:(lia)) as (k' & E & H1 & H2 & H3 & H4).
    { intros x p Hp. assert (p = q \/ p < q)%nat as [->|Hp'] by lia; [left; lra|right; auto]. }
    rewrite E. cbn [bind]. rewrite set_at_ok by lia. cbn [bind]. rewrite set_at_ok by lia. cbn [bind]. rewrite set_at_ok by (rewrite upd_length; lia). cbn [bind].
    eexists. split; [reflexivity|]. unfold built. rewrite !upd_length. split; auto. split; auto. split; [lia|].
    assert (NV : forall i, nth i (upd v (S k') q) 0%nat = if (i =? S k')%nat then q else nth i v 0%nat) by (intros; apply nth_upd; lia).
    assert (NZ : forall i, nth i (upd (upd z (S k') (inter (nth k' v 0%nat) q)) (S k' + 1) INF) 0 =
       if (i =? S k' + 1)%nat then INF else if (i =? S k')%nat then inter (nth k' v 0%nat) q else nth i z 0).
    { intros i. rewrite nth_upd by (rewrite upd_length; lia). destruct (i =? S k' + 1)%nat; auto. apply nth_upd. lia. }
    destruct Hs as (S1 & S2 & S3 & S4). split; [split; [|split; [|split]]|split; [|split]].
    - rewrite NZ. replace (0 =? S k' + 1)%nat with false by (symmetry; apply Nat.eqb_neq; lia). cbn. auto.
    - intros i Hi. rewrite !NV. destruct (Nat.eqb_spec i (S k')); [lia|]. destruct (Nat.eqb_spec (S i) (S k')) as [Ei|Ei].
      + replace i with k' by lia. auto.
      + apply S2. lia.
    - intros i Hi. rewrite NZ, !NV. destruct (Nat.eqb_spec (S i) (S k' + 1)); [lia|]. destruct (Nat.eqb_spec i (S k')); [lia|].
      destruct (Nat.eqb_spec (S i) (S k')) as [Ei|Ei]; [replace i with k' by lia; auto|apply S3; lia].
    - intros i Hi. rewrite !NZ. destruct (Nat.eqb_spec (S i) (S k' + 1)); [lia|]. destruct (Nat.eqb_spec i (S k' + 1)); [lia|]. destruct (Nat.eqb_spec i (S k')); [lia|].
      destruct (Nat.eqb_spec (S i) (S k')) as [Ei|Ei]; [replace i with k' by lia; auto|apply S4; lia].
    - rewrite NV, Nat.eqb_refl. lia.
    - rewrite NZ. replace (S k' + 1)%nat with (S (S k')) by lia. rewrite Nat.eqb_refl. auto.
    - intros x p Hp. destruct (H4 x p ltac:(lia)) as [H|(i & Hi & H)].
      + exists (S k'). rewrite NV, Nat.eqb_refl. auto.
      + exists i. rewrite NV. destruct (Nat.eqb_spec i (S k')); [lia|]. split; auto.
  Qed.

End Env.

Definition line_ok (f : list R) (n : nat) : Prop :=
  (n <= length f)%nat /\ forall p, (p < n)%nat -> 0 <= nth p f 0 <= INF.

Lemma edt1d_ok f d v z n : line_ok f n -> INR n <= INF -> (1 <= n)%nat -> (n <= length d)%nat -> (n <= length v)%nat -> (n < length z)%nat ->
  exists d' v' z', edt1d f d v z n = Ok (d', v', z') /\ length d' = length d /\ length v' = length v /\ length z' = length z /\
    (forall q, (q < n)%nat -> is_min n (fun p => sq q p + nth p f 0) (nth q d' 0)).
Proof.
  intros (Hf & Hlow) Hn Hn1 Hd Hv Hz. unfold edt1d. rewrite set_at_ok by lia. cbn [bind]. rewrite set_at_ok by lia. cbn [bind]. rewrite set_at_ok by (rewrite upd_length; lia). cbn [bind].
  set (v0 := upd v 0 0%nat). set (z0 := upd (upd z 0 (- INF)) 1 INF).
  assert (B : built f (length v) (length z) 1 (0%nat, v0, z0)).
  { unfold built, v0, z0. rewrite !upd_length. split; auto. split; auto. split; [lia|]. split; [split; [|split; [|split]]|split; [|split]]; try (intros; lia).
    - rewrite nth_upd by (rewrite upd_length; lia). cbn. rewrite nth_upd by lia. reflexivity.
    - rewrite nth_upd by lia. reflexivity.
    - rewrite nth_upd by (rewrite upd_length; lia). reflexivity.
    - intros x p Hp. exists 0%nat. split; auto. rewrite nth_upd by lia. cbn. replace p with 0%nat by lia. lra. }
  destruct (for_seq (built f (length v) (length z)) (push_step f) 1 (n - 1) _ B) as (st & E & B').
  { intros q st Hq Hb. apply (push_ok f n Hf Hlow); auto; lia. }
  rewrite E. cbn [bind]. replace (1 + (n - 1))%nat with n in B' by lia. destruct st as [[k v1] z1]. destruct B' as (L1 & L2 & Hk & Hs & Ek & Ez & He). cbn [bind].
  assert (Vb : forall i, (i <= k)%nat -> (nth i v1 0 < n)%nat).
  { intros i Hi. destruct Hs as (_ & S2 & _). assert (G : forall m, (m <= k)%nat -> (nth (k - m) v1 0 <= nth k v1 0)%nat).
    { induction m as [|m IH]; intros Hm; [rewrite Nat.sub_0_r; lia|]. specialize (IH ltac:(lia)). specialize (S2 (k - S m)%nat ltac:(lia)). replace (S (k - S m)) with (k - m)%nat in S2 by lia. lia. }
    specialize (G (k - i)%nat ltac:(lia)). replace (k - (k - i))%nat with i in G by lia. lia. }
  set (P := fun (q : nat) (st : nat * list R) => (fst st <= k)%nat /\ length (snd st) = length d /\
     (fst st = 0%nat \/ nth (fst st) z1 0 < INR q) /\
     forall p, (p < q)%nat -> is_min n (fun r => sq p r + nth r f 0) (nth p (snd st) 0)).
  destruct (for_seq P (query_step f v1 z1) 0 n (0%nat, d)) as (st & E2 & B2).
  { unfold P; cbn [fst snd]; split; [lia|]. split; auto. split; auto. intros; lia. }
  { intros q [j dd] Hq (P1 & P2 & P3 & P4). cbn [fst snd] in *. unfold query_step.
    assert (INR q <= INF) by (apply Rle_trans with (INR n); auto; apply le_INR; lia).
    destruct (advance_ok k z1 q Ez H ltac:(lia) (length z1) j P1 ltac:(lia) P3) as (j' & -> & J1 & J2 & J3). cbn [bind].
    rewrite (get_ok v1 j' 0%nat) by lia. cbn [bind]. rewrite (get_ok f (nth j' v1 0%nat) 0) by (specialize (Vb j' J1); lia). cbn [bind].
    rewrite set_at_ok by lia. cbn [bind]. eexists. split; [reflexivity|]. unfold P. cbn [fst snd]. rewrite upd_length. split; auto. split; auto. split.
    - destruct J2 as [->|J2]; [auto|right]. rewrite plus_INR. cbn [INR]. lra.
    - intros p Hp. rewrite nth_upd by lia. destruct (Nat.eqb_spec p q) as [->|Hne]; [|apply P4; lia].
      assert (VAL : forall r, sq q r + nth r f 0 = val f r (INR q)) by (intros; unfold sq, val; ring).
      split.
      + intros r Hr. rewrite VAL. destruct (He (INR q) r Hr) as (i & Hi & Hle). eapply Rle_trans; [|exact Hle].
        change ((INR q - INR (nth j' v1 0%nat)) * (INR q - INR (nth j' v1 0%nat)) + nth (nth j' v1 0%nat) f 0) with (val f (nth j' v1 0%nat) (INR q)).
        apply (segment_min f k v1 z1); auto.
      + exists (nth j' v1 0%nat). split; [apply Vb; auto|]. unfold sq. ring. }
  rewrite E2. cbn [bind]. destruct st as [j d']. destruct B2 as (_ & P2 & _ & P4). cbn [fst snd] in *. cbn [bind].
  exists d', v1, z1. auto.
Qed.

(** ** Two dimensions *)

Definition scr_ok (N : nat) (s : scratch) : Prop :=
  (N <= length (sF s) /\ N <= length (sD s) /\ N <= length (sV s) /\ N < length (sZ s))%nat.

Lemma pass_ok N at_ g n data s : scr_ok N s -> (1 <= n <= N)%nat -> INR N <= INF ->
  (forall i, (i < n)%nat -> (at_ i < length data)%nat) ->
  (forall i j, (i < n)%nat -> (j < n)%nat -> at_ i = at_ j -> i = j) ->
  (forall i, (i < n)%nat -> 0 <= nth (at_ i) data 0 <= INF) ->
  exists data' s', pass at_ g n data s = Ok (data', s') /\ scr_ok N s' /\ length data' = length data /\
    (forall i, (i < n)%nat -> exists m, is_min n (fun p => sq i p + nth (at_ p) data 0) m /\ nth (at_ i) data' 0 = g m) /\
    (forall j, (forall i, (i < n)%nat -> at_ i <> j) -> nth j data' 0 = nth j data 0).
Proof.
  intros (K1 & K2 & K3 & K4) Hn HN Hin Hinj Hr. unfold pass.
  destruct (for_seq (fun q f => length f = length (sF s) /\ forall i, (i < q)%nat -> nth i f 0 = nth (at_ i) data 0)
    (fun f i => let! a := get data (at_ i) in set_at f i a) 0 n (sF s)) as (f & Ef & L & Hf).
  { split; auto. intros; lia. }
  { intros q f Hq (L & H). rewrite (get_ok data (at_ q) 0) by (apply Hin; lia). cbn [bind]. rewrite set_at_ok by lia. eexists. split; [reflexivity|].
    rewrite upd_length. split; auto. intros i Hi. rewrite nth_upd by lia. destruct (Nat.eqb_spec i q) as [->|]; auto. apply H. lia. }
  rewrite Ef. cbn [bind]. cbn [plus] in Hf.
  destruct (edt1d_ok f (sD s) (sV s) (sZ s) n) as (d & v & z & E & L1 & L2 & L3 & Hd); try lia.
  { split; [lia|]. intros p Hp. rewrite Hf by auto. apply Hr. auto. }
  { apply Rle_trans with (INR N); auto. apply le_INR. lia. }
  rewrite E. cbn [bind].
  destruct (for_seq (fun q dt => length dt = length data /\ (forall i, (i < q)%nat -> nth (at_ i) dt 0 = g (nth i d 0)) /\
       (forall j, (forall i, (i < q)%nat -> at_ i <> j) -> nth j dt 0 = nth j data 0))
    (fun data i => let! a := get d i in set_at data (at_ i) (g a)) 0 n data) as (dt & Ed & L4 & H1 & H2).
  { split; auto. split; auto. intros; lia. }
  { intros q dt Hq (L4 & H1 & H2). rewrite (get_ok d q 0) by lia. cbn [bind]. specialize (Hin q ltac:(lia)). rewrite set_at_ok by lia. eexists. split; [reflexivity|].
    rewrite upd_length. split; auto. split.
    - intros i Hi. rewrite nth_upd by lia. destruct (Nat.eqb_spec (at_ i) (at_ q)) as [Ei|Ei]; [apply Hinj in Ei; try lia; subst; auto|]. apply H1. assert (i <> q) by congruence. lia.
    - intros j Hj. rewrite nth_upd by lia. destruct (Nat.eqb_spec j (at_ q)) as [->|Ej]; [exfalso; apply (Hj q); auto; lia|]. apply H2. intros i Hi. apply Hj. lia. }
  rewrite Ed. cbn [bind plus] in *. exists dt, (mkScr f d v z). split; auto. split; [split; [|split; [|split]]; cbn; lia|]. split; auto. split; [|exact H2].
  intros i Hi. exists (nth i d 0). split; [|apply H1; auto]. destruct (Hd i Hi) as (M1 & p & Hp & M2). split.
  - intros q Hq. rewrite <- Hf by auto. apply M1; auto.
  - exists p. split; auto. rewrite <- Hf by auto. auto.
Qed.

Lemma cell_inj w x y x' y' : (x < w)%nat -> (x' < w)%nat -> (y * w + x = y' * w + x')%nat -> x = x' /\ y = y'.
Proof. intros H H' E. assert (y = y') by nia. subst. lia. Qed.
Lemma cell_lt w h x y : (x < w)%nat -> (y < h)%nat -> (y * w + x < w * h)%nat.
Proof. intros. nia. Qed.

Lemma edt_ok data w h s N : length data = (w * h)%nat -> (1 <= w <= N)%nat -> (1 <= h <= N)%nat -> INR N <= INF -> scr_ok N s ->
  (forall i, (i < w * h)%nat -> 0 <= nth i data 0 <= INF) ->
  exists data' s', edt data w h s = Ok (data', s') /\ scr_ok N s' /\ length data' = (w * h)%nat /\
    forall x y, (x < w)%nat -> (y < h)%nat ->
      exists m, is_min2 w h (fun x' y' => sq x x' + sq y y' + nth (y' * w + x') data 0) m /\ nth (y * w + x) data' 0 = sqrt m.
Proof.
  intros Hl Hw Hh HN Hs Hr. unfold edt.
  set (P := fun (x : nat) (st : list R * scratch) => scr_ok N (snd st) /\ length (fst st) = (w * h)%nat /\
    forall x' y, (x' < w)%nat -> (y < h)%nat ->
      ((x' < x)%nat -> is_min h (fun p => sq y p + nth (p * w + x') data 0) (nth (y * w + x') (fst st) 0)) /\
      ((x <= x')%nat -> nth (y * w + x') (fst st) 0 = nth (y * w + x') data 0)).
  destruct (for_seq P (fun '(data, s) x => pass (fun y => y * w + x)%nat (fun a => a) h data s) 0 w (data, s)) as ((d1 & s1) & E & B1 & B2 & B3).
  { split; auto. split; auto. intros x' y Hx Hy. split; [lia|auto]. }
  { intros x [dt st] Hx (P1 & P2 & P3). cbn [fst snd] in *.
    destruct (pass_ok N (fun y => y * w + x)%nat (fun a => a) h dt st P1 Hh HN) as (dt' & st' & -> & Q1 & Q2 & Q3 & Q4).
    - intros i Hi. rewrite P2. apply cell_lt; lia.
    - intros i j Hi Hj Eij. lazy beta in Eij. apply cell_inj in Eij as [_ ?]; auto; lia.
    - intros i Hi. lazy beta. destruct (P3 x i ltac:(lia) Hi) as [_ ->]; auto. apply Hr. apply cell_lt; lia.
    - eexists. split; [reflexivity|]. unfold P. cbn [fst snd]. split; auto. split; [congruence|]. intros x' y Hx' Hy. destruct (Nat.eq_dec x' x) as [->|Hne].
      + split; [intros _|lia]. destruct (Q3 y Hy) as (m & (M1 & p & Hp & M2) & ->). split.
        * intros q Hq. specialize (M1 q Hq). destruct (P3 x q ltac:(lia) Hq) as [_ X]. lazy beta in M1. rewrite X in M1; auto.
        * exists p. split; auto. destruct (P3 x p ltac:(lia) Hp) as [_ X]. rewrite M2, X; auto.
      + assert (X : nth (y * w + x') dt' 0 = nth (y * w + x') dt 0).
        { apply Q4. intros i Hi Eij. lazy beta in Eij. apply cell_inj in Eij as [? _]; lia. }
        rewrite X. destruct (P3 x' y Hx' Hy) as [G1 G2]. split; intros; [apply G1|apply G2]; lia. }
  rewrite E. cbn [bind plus fst snd] in *.
  assert (R1 : forall x y, (x < w)%nat -> (y < h)%nat -> is_min h (fun p => sq y p + nth (p * w + x) data 0) (nth (y * w + x) d1 0)) by (intros; apply B3; auto).
  assert (R2 : forall x y, (x < w)%nat -> (y < h)%nat -> 0 <= nth (y * w + x) d1 0 <= INF).
  { intros x y Hx Hy. destruct (R1 x y Hx Hy) as (M1 & p & Hp & M2). split.
    - rewrite M2. destruct (Hr (p * w + x)%nat (cell_lt _ _ _ _ Hx Hp)). unfold sq. pose proof (pow2_ge_0 (INR y - INR p)). lra.
    - specialize (M1 y Hy). destruct (Hr (y * w + x)%nat (cell_lt _ _ _ _ Hx Hy)). unfold sq in M1. replace ((INR y - INR y) ^ 2) with 0 in M1 by ring. lra. }
  set (Q := fun (y : nat) (st : list R * scratch) => scr_ok N (snd st) /\ length (fst st) = (w * h)%nat /\
    forall x y', (x < w)%nat -> (y' < h)%nat ->
      ((y' < y)%nat -> exists m, is_min w (fun p => sq x p + nth (y' * w + p) d1 0) m /\ nth (y' * w + x) (fst st) 0 = sqrt m) /\
      ((y <= y')%nat -> nth (y' * w + x) (fst st) 0 = nth (y' * w + x) d1 0)).
  destruct (for_seq Q (fun '(data, s) y => pass (fun x => y * w + x)%nat sqrt w data s) 0 h (d1, s1)) as ((d2 & s2) & E2 & C1 & C2 & C3).
  { split; auto. split; auto. intros x y' Hx Hy. split; [lia|auto]. }
  { intros y [dt st] Hy (P1 & P2 & P3). cbn [fst snd] in *.
    destruct (pass_ok N (fun x => y * w + x)%nat sqrt w dt st P1 Hw HN) as (dt' & st' & -> & Q1 & Q2 & Q3 & Q4).
    - intros i Hi. rewrite P2. apply cell_lt; lia.
    - intros i j Hi Hj Eij. lazy beta in Eij. lia.
    - intros i Hi. lazy beta. destruct (P3 i y Hi ltac:(lia)) as [_ ->]; auto. apply R2; lia.
    - eexists. split; [reflexivity|]. unfold Q. cbn [fst snd]. split; auto. split; [congruence|]. intros x y' Hx Hy'. destruct (Nat.eq_dec y' y) as [->|Hne].
      + split; [intros _|lia]. destruct (Q3 x Hx) as (m & (M1 & p & Hp & M2) & ->). exists m. split; auto. split.
        * intros q Hq. specialize (M1 q Hq). destruct (P3 q y Hq ltac:(lia)) as [_ X]. lazy beta in M1. rewrite X in M1; auto.
        * exists p. split; auto. destruct (P3 p y Hp ltac:(lia)) as [_ X]. rewrite M2, X; auto.
      + assert (X : nth (y' * w + x) dt' 0 = nth (y' * w + x) dt 0).
        { apply Q4. intros i Hi Eij. lazy beta in Eij. apply cell_inj in Eij as [_ ?]; lia. }
        rewrite X. destruct (P3 x y' Hx Hy') as [G1 G2]. split; intros; [apply G1|apply G2]; lia. }
  rewrite E2. cbn [plus fst snd] in *. exists d2, s2. split; auto. split; auto. split; auto. intros x y Hx Hy.
  destruct (C3 x y Hx Hy) as [C3' _]. destruct (C3' Hy) as (m & (M1 & p & Hp & M2) & ->). exists m. split; auto. split.
  - intros x' y' Hx' Hy'. specialize (M1 x' Hx'). destruct (R1 x' y Hx' Hy) as (N1 & _). specialize (N1 y' Hy'). lra.
  - destruct (R1 p y Hp Hy) as (_ & r & Hr' & N2). exists p, r. split; auto. split; auto. rewrite M2, N2. ring.
Qed.
