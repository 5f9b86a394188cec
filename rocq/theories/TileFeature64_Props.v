(** Property C150: polygons clipped to the tiles of a zoom by ClipFeature, written and read, in binary64. *)
From Coq Require Import ZArith List Lia Bool Reals Lra.
From Flocq Require Import Core BinarySingleNaN.
From Verif Require Import GoBase Num Tileid_Model TileR_Model TileR_Proofs TileF64_Model TileF64_Proofs F64 ColorF64_Model ColorF64_Proofs Tile64_Model Tile64_Proofs Tile64_Props
  MvtProj_Proofs MvtProj64_Model MvtProj64_Proofs MvtProj64_Props Pbf_Model MvtGeom_Model MvtGeom_Spec MvtLayer_Model MvtLayer_Spec Clip_Model Clip_Spec Clip_Proofs ClipRing_Proofs Clip_Props Clip64_Proofs Clip64_Props Parity_Proofs ClipPoly64_Props ClipTile64_Model ClipTile64_Proofs ClipTile64_Props
  ClipLine64_Proofs ClipLine64_Props ClipSquare64_Props ClipFeature64_Model ClipFeature64_Proofs ClipFeature64_Props
  Pbf_Proofs MvtGeo_Model Decode64_Model MvtAgain64_Model MvtTile_Props MvtLayer_Props MvtGeo64_Model MvtGeo64_Proofs MvtGeo64_Props MvtRead64_Model MvtRead64_Props TileLine64_Proofs TileLine64_Props TilePoly64_Proofs TilePoly64_Props TileCut64_Props.
From Coq Require Import Sorting.Permutation.
From Verif Require ClipFeature_Props ClipFeature_Proofs.
Import ListNotations.
Open Scope R_scope.

(** ** Specification *)
(** The distance at which points are safe from [n] levels of clipping and from the grid *)
Definition levels_off (t : TileID) (e : Z) (n : Z) : R := unit_off t e + (margin + 46 / 10 ^ 8 * IZR n).

(** ** Lemmas *)
Definition lat_upto (L : R) (p : f64 * f64) : Prop := fin p /\ Rabs (B2R (fst p)) <= 255 /\ Rabs (B2R (snd p)) <= L.
Definition in_upto (L : R) (t : TileID) (p : f64 * f64) : Prop := lat_upto L p /\ inside (- tiny) t (val p).
Lemma cut_between eps t (w e s n : f64) L rings mid out : tol_ok eps -> near_edges t w e s n -> on_map t -> (tZ t <= 40)%Z -> 0 <= L <= 90 -> (forall r, In r rings -> r <> [] /\ Forall (lat_upto L) r) ->
  clip F64Num eps (CPolygon rings) w e false = Ok (CPolygon mid) -> (forall r, In r mid -> r <> []) -> clip F64Num eps (CPolygon mid) s n true = Ok (CPolygon out) ->
  forall r p, In r out -> In p r -> in_upto (L + / 10 ^ 12) t p.
Proof.
  intros [FE HE] ((Fw & Fe & Fs & Fn) & Ew & Ee & Es & En) M Hz HL HR E1 N1 E2. destruct (tile_height t M Hz) as [H1 H2]. destruct (bounds_small t M) as (S1 & S2 & S3 & S4 & _). apply ab in Es, En.
  assert (B8 : bpow radix2 (8 - 49) = / 2199023255552) by (apply (bpm 41 2199023255552); [lia|reflexivity]). assert (B9 : bpow radix2 8 = 256) by reflexivity.
  pose proof (poly_range 8 rings eps w e false (-255) 255 (- L) L mid ltac:(lia) FE ltac:(lra) Fw Fe ltac:(lra)) as P1.
  assert (HR1 : forall r, In r rings -> r <> [] /\ Forall (fun p => upto 8 p /\ range false (-255) 255 p /\ range (negb false) (- L) L p) r).
  { intros r Hr. destruct (HR r Hr) as [A B]. split; [exact A|]. eapply Forall_impl; [|exact B]. intros p (B0 & B1 & B2). split; [split; [exact B0|]; rewrite B9; lra|]. apply ab in B1, B2. unfold range, val. cbn [coord negb fst snd]. lra. }
  specialize (P1 HR1 E1). rewrite B8 in P1.
  assert (HR2 : forall r, In r mid -> r <> [] /\ Forall (fun p => upto 8 p /\ range true (- L - / 2199023255552) (L + / 2199023255552) p /\ range (negb true) (eW (Bounds t)) (eE (Bounds t)) p) r).
  { intros r Hr. split; [apply N1; exact Hr|]. rewrite Forall_forall. intros p Hp. destruct (P1 r p Hr Hp) as (A & B & C & D). unfold range, val in *. cbn [coord negb fst snd] in *. split; [split; [exact A|]; rewrite B9; split; apply ab; lra|]. lra. }
  pose proof (poly_range 8 mid eps s n true _ _ _ _ out ltac:(lia) FE ltac:(lra) Fs Fn ltac:(lra) HR2 E2) as P2. rewrite B8 in P2.
  intros r p Hr Hp. destruct (P2 r p Hr Hp) as (A & B & C & D). unfold in_upto, lat_upto, inside, range, tiny, val in *. cbn [coord negb fst snd] in *. split; [split; [exact A|split; apply ab; lra]|lra].
Qed.
Lemma square_in m t L : good_libm m -> on_map t -> (tZ t <= 44)%Z -> - L <= eS (Bounds t) -> eN (Bounds t) <= L -> Forall (in_upto (L + / 10 ^ 11) t) (tile_square64 m t).
Proof.
  intros G M Hz HS HN. pose proof (edges64 m t G M Hz) as HE. cbv zeta in HE. destruct HE as ((Fw & Fe & Fs & Fn) & Ew & Ee & Es & En). destruct (bounds_small t M) as (S1 & S2 & S3 & S4 & S5 & S6). apply ab in Es, En. unfold tile_square64. cbv zeta. set (b := Bounds64 m t) in *.
  repeat apply Forall_cons; try apply Forall_nil; (unfold in_upto, lat_upto, inside, tiny, val, fin; cbn [fst snd]; split; [split; [auto|split; apply ab; lra]|lra]).
Qed.

Section Reach.
Context (m : libm) (eps : f64) (G : good_libm m) (HT : tol_ok eps) (t : TileID) (Ot : on_map t) (rings : list (list (f64 * f64))) (HR : rings <> []) (HC : coords254 rings) (HM : Forall (Forall midlat) rings).
Lemma fits_start : fits64 t (CPolygon rings).
Proof. split; auto. exists rings. split; [auto|]. split; [auto|]. intros r Hr. apply (HC r Hr). Qed.
(** Below the first tile the rings are in their tiles. *)
Lemma reach_in n : forall c gc, (tZ t + Z.of_nat n <= 40)%Z -> reach64 m eps t (CPolygon rings) n c gc ->
  exists rs, gc = CPolygon rs /\ rs <> [] /\ forall r, In r rs -> r <> [] /\ Forall (fun p => lat_upto (85 + INR n * (2 / 10 ^ 7)) p /\ (n <> O -> inside (- tiny) c (val p))) r.
Proof.
  induction n as [|n IH]; intros c gc Hz R.
  - inversion R; subst. exists rings. split; [reflexivity|]. split; [exact HR|]. intros r Hr. destruct (HC r Hr) as [A B]. split; [exact A|]. rewrite Forall_forall in *. specialize (HM r Hr). rewrite Forall_forall in HM. intros p Hp. specialize (HM p Hp). unfold midlat in HM. destruct (B p Hp) as (B0 & B1 & B2). cbn [INR]. split; [|congruence]. split; [exact B0|]. split; [lra|]. lra.
  - inversion R as [|n1 k gk ch c1 gc1 R1 E1 I1]; subst. destruct (reach64_fits m G eps t _ fits_start n k gk R1 ltac:(lia)) as [Fk Zk]. destruct (IH k gk ltac:(lia) R1) as (rs & -> & Ne & HB).
    assert (Z0 : (0 <= tZ t)%Z) by apply Ot. pose proof (pos_INR n) as N0. assert (NB : INR n <= 40) by (rewrite INR_IZR_INZ; apply IZR_le; lia). rewrite S_INR. set (L := 85 + INR n * (2 / 10 ^ 7)) in *. assert (HL : 85 <= L <= 86) by (unfold L; lra). replace (85 + (INR n + 1) * (2 / 10 ^ 7)) with (L + 2 / 10 ^ 7) by (unfold L; ring).
    assert (HB1 : forall r, In r rs -> r <> [] /\ Forall (lat_upto L) r) by (intros r Hr; destruct (HB r Hr) as [A B]; split; [exact A|]; eapply Forall_impl; [|exact B]; intros p H; apply H).
    assert (Ok : on_map k) by apply Fk. assert (Nr : forall r, In r rs -> r <> []) by (intros r Hr; apply (HB r Hr)).
    assert (WEAK : forall d p, d <= 2 / 10 ^ 7 -> in_upto (L + d) c p -> lat_upto (L + 2 / 10 ^ 7) p /\ (S n <> O -> inside (- tiny) c (val p))) by (intros d p Hd ((A & B & C) & D); split; [split; [exact A|split; [exact B|lra]]|intros _; exact D]).
    destruct (near_square64 m eps k (CPolygon rs)) eqn:NS.
    + assert (Ech : ch = map (fun c => (c, CPolygon [tile_square64 m c])) (Children k)) by (unfold ClipDown64 in E1; destruct rs as [|[|q r] l]; [congruence|destruct (Nr []); [left; reflexivity|reflexivity]|]; rewrite NS in E1; congruence).
      rewrite Ech in I1. apply in_map_iff in I1. destruct I1 as (c' & E & Hc). injection E as -> <-. exists [tile_square64 m c]. split; [reflexivity|]. split; [discriminate|]. intros r [<-|[]]. split; [discriminate|].
      destruct (children_map k c Ok ltac:(lia) Hc) as (OC & ZC & _). destruct (ClipFeature_Proofs.child_inside k c (proj1 (maps_agree _) Ok) ltac:(lia) Hc) as (C1 & C2 & C3 & C4).
      assert (CO : coords_ok rs) by (intros r Hr; destruct (HB1 r Hr) as [A B]; split; [exact A|]; eapply Forall_impl; [|exact B]; intros p (B0 & B1 & B2); split; [exact B0|]; split; [exact B1|lra]).
      destruct (proj1 (C134_near_square m eps k rs G HT Ok ltac:(lia) CO) NS) as (r & -> & _ & (_ & _ & _ & (p1 & P1 & Q1) & (p2 & P2 & Q2))). destruct (HB1 r (or_introl eq_refl)) as [_ HB2]. rewrite Forall_forall in HB2. destruct (HB2 p1 P1) as (_ & _ & L1). destruct (HB2 p2 P2) as (_ & _ & L2). apply ab in L1, L2.
      pose proof (square_in m c (L + 112 / 10 ^ 9) G OC ltac:(lia) ltac:(lra) ltac:(lra)) as SQ. eapply Forall_impl; [|exact SQ]. intros p Hp. apply (WEAK (112 / 10 ^ 9 + / 10 ^ 11)); [lra|]. rewrite <- Rplus_assoc. exact Hp.
    + destruct (down_entries m eps k rs G Ok ltac:(lia) Ne Nr NS) as (l & E & A & B & C). rewrite E1 in E. injection E as <-. pose proof (A c gc I1) as Hc. destruct (C c Hc) as (w & e & s & n' & mid & out & NE & X1 & X2 & N & I). apply I in I1. destruct I1 as [-> NO]. exists out. split; [reflexivity|]. split; [exact NO|].
      destruct (children_map k c Ok ltac:(lia) Hc) as (OC & ZC & _). assert (N1 : forall r, In r mid -> r <> []). { destruct (clip_any F64Num eps rs w e false Nr) as (mid' & Y1 & Y2). rewrite X1 in Y1. injection Y1 as <-. exact Y2. }
      pose proof (cut_between eps c w e s n' L rs mid out HT NE OC ltac:(lia) ltac:(lra) HB1 X1 N1 X2) as CB. intros r Hr. split; [apply N; exact Hr|]. apply Forall_forall. intros p Hp. apply (WEAK (/ 10 ^ 12)); [lra|]. apply (CB r p Hr Hp).
Qed.
End Reach.

(** ** Theorem *)
(** Every polygon ClipFeature returns has its vertices in its tile; written to a layer and read again, it contains the points of
    the tile the polygon contained, except next to the outline and the edges of the tile (and where the clipping took a polygon
    that is not the whole tile for the whole tile). *)
Theorem C150_polygon : forall m mExp eps order fuel bb rings endzoom z t mp c gc e eb name ver pt id, good_proj m mExp -> tol_ok eps -> (forall mp, Permutation (order mp) mp) -> in_world64 bb -> rings <> [] -> coords254 rings -> Forall (Forall midlat) rings ->
  GetFirstZoom64 m bb = (z, t) -> (z < endzoom <= 30)%Z -> (endzoom - z <= Z.of_nat fuel)%Z -> ClipFeature64 m eps order fuel bb (CPolygon rings) endzoom false = Ok mp -> In (c, gc) mp ->
  fine c e -> (2 <= e <= 23168)%Z -> (zlen name <= 2 ^ 32)%Z -> (- 2 ^ 63 <= ver < 2 ^ 63)%Z -> (- 2 ^ 63 <= id < 2 ^ 63)%Z ->
  exists rs, gc = CPolygon rs /\ rs <> [] /\ Forall (ring_in c) rs /\ ((Z.of_nat (words (XPolygon rs)) <= 2 ^ 21)%Z ->
    exists bs, WriteLayer64 m [mkFeat (IDInt id) [] (Some (XPolygon rs))] (mkCfg c name e ver eb pt) = Ok bs /\ forall fuel, (length bs + 4 < fuel)%nat ->
    exists gf rs', ReadTile64 m mExp fuel pt bs c = OValue [gf] /\ g6ID gf = id /\ g6Geom gf = XPolygon rs' /\ length rs' = length rs /\
      forall p, inside (levels_off c e (endzoom - z)) c p -> clear_by (levels_off c e (endzoom - z)) (map (map val) rings) p -> honest m eps t rings (endzoom - z) p ->
        even_odd (map (map val) rs') p = even_odd (map (map val) rings) p).
Proof.
  intros m mExp eps order fuel bb rings endzoom z t mp c gc e eb name ver pt id GP HT Hord HW HR HC HM EZ He Hfu EM Hin F HE HN HV HI. assert (G := proj1 GP).
  destruct (C135_first_zoom m bb z t G HW EZ) as [(-> & _)|(Hz & Zt & Ot & _)]; [lia|]. pose proof (fits_start t Ot rings HR HC) as Hf.
  set (d := Z.to_nat (endzoom - z)). assert (Ed : Z.of_nat d = (endzoom - z)%Z) by (unfold d; lia).
  assert (CF : ClipFeature64 m eps order fuel bb (CPolygon rings) endzoom false = levels64 m eps order fuel false (tZ t + Z.of_nat 0) (tZ t + Z.of_nat (0 + d)) [(t, CPolygon rings)]).
  { unfold ClipFeature64. rewrite EZ. destruct (Z.leb_spec endzoom z); [lia|]. f_equal; cbn [Nat.add]; lia. }
  assert (RC : reach64 m eps t (CPolygon rings) d c gc).
  { destruct (levels64_cases m G eps order Hord t (CPolygon rings) Hf d 0 [(t, CPolygon rings)] ltac:(lia) (holds64_start m eps t (CPolygon rings) false)) as [(mp' & E & (N & I) & Hex)|[E NR]]; [exists t, (CPolygon rings); constructor| |rewrite CF, E in EM; discriminate].
    rewrite CF, E in EM by lia. injection EM as <-. cbn [Nat.add] in I. apply I. exact Hin. }
  destruct (reach_in m eps G HT t Ot rings HR HC HM d c gc ltac:(lia) RC) as (rs & -> & Ne & HB). exists rs. split; [reflexivity|]. split; [exact Ne|].
  assert (RI : Forall (ring_in c) rs).
  { apply Forall_forall. intros r Hr. destruct (HB r Hr) as [A B]. split; [exact A|]. eapply Forall_impl; [|exact B]. intros p ((B0 & B1 & B2) & B3). split; [exact B0|]. split; [|apply B3; lia]. assert (INR d <= 30) by (rewrite INR_IZR_INZ; apply IZR_le; lia). lra. }
  split; [exact RI|]. intros HWd. destruct (C148_polygon m mExp c e eb name ver pt id rs GP F HE HN HV HI (conj Ne RI) HWd) as (bs & EB & RB). exists bs. split; [exact EB|]. intros fuel' Hf'. destruct (RB fuel' Hf') as (gf & rs' & R1 & R2 & R3 & R4 & R5). exists gf, rs'. split; [exact R1|]. split; [exact R2|]. split; [exact R3|]. split; [congruence|].
  intros p Hp HP HH. assert (U0 : 0 < unit_off c e). { unfold unit_off. pose proof (N_range c e F) as NR. assert (0 < 180 / IZR (e * 2 ^ tZ c)) by (apply Rdiv_lt_0_compat; lra). lra. }
  assert (BC : below t (Z.of_nat d) c) by (eapply (reach64_below m eps t (CPolygon rings) d G Hf); [lia|exact RC]).
  destruct (reach_member m eps t rings (levels_off c e (endzoom - z)) p d G HT Ot HR HC ltac:(lia)) with (c := c) as [(rs2 & A1 & A2 & _ & A4)|(A1 & _)]; auto.
  - unfold levels_off. rewrite INR_IZR_INZ, Ed. lra.
  - rewrite Ed. exact HH.
  - assert (CPolygon rs = CPolygon rs2) as ER by (eapply (reach64_fun m G eps t _ Hf d c); eauto; lia). injection ER as <-. rewrite R5; [exact A2|]. intros r q Hr Hq W. apply (A4 r q Hr Hq). eapply within_mono; [|exact W]. unfold levels_off, margin. rewrite INR_IZR_INZ, Ed. lra.
  - destruct (A1 _ RC).
Qed.
Print Assumptions C150_polygon.

(** ** An example: the triangle of C149 in the box of C135, clipped to zoom 1 *)
Example C150_nonvacuous : let c := mkTile 0 0 1 in good_proj exact_libm exact_exp /\ tol_ok power7_64 /\ in_world64 plate_box /\ coords254 [loop4] /\ Forall (Forall midlat) [loop4] /\
  GetFirstZoom64 exact_libm plate_box = (0%Z, mkTile 0 0 0) /\ fine c 4096 /\
  (exists mp, ClipFeature64 exact_libm power7_64 (fun mp => mp) 1 plate_box (CPolygon [loop4]) 1 false = Ok mp /\ In (c, CPolygon [loop4]) mp) /\
  inside (levels_off c 4096 1) c (-55, 15) /\ clear_by (levels_off c 4096 1) (map (map val) [loop4]) (-55, 15) /\ honest exact_libm power7_64 (mkTile 0 0 0) [loop4] 1 (-55, 15) /\ even_odd (map (map val) [loop4]) (-55, 15) = true.
Proof.
  intros c. destruct C149_nonvacuous as (GP & HT & F & CO & HM & _ & IN & CL & EO). destruct C135_nonvacuous as (_ & _ & HW & _ & EZ & _). assert (G := proj1 GP). set (t := mkTile 0 0 0). assert (Ot : on_map t) by (unfold on_map, t; cbn [tX tY tZ]; lia).
  destruct (fint_f 10 ltac:(lia)) as [F10 V10]. destruct (fint_f 40 ltac:(lia)) as [F40 V40]. destruct (fint_f (-100) ltac:(lia)) as [Fa Va]. destruct (fint_f (-50) ltac:(lia)) as [Fb Vb].
  assert (ALL : forall p, In p loop4 -> fin p /\ -100 <= B2R (fst p) <= -50 /\ 10 <= B2R (snd p) <= 40) by (intros p [<-|[<-|[<-|[<-|[]]]]]; (split; [split; assumption|]); cbn [fst snd]; lra).
  assert (NV : map val loop4 = [(-100, 10); (-50, 10); (-50, 40); (-100, 10)]) by (unfold loop4, val; cbn [map fst snd]; rewrite V10, V40, Va, Vb; reflexivity).
  assert (HC : coords254 [loop4]). { intros r [<-|[]]. split; [discriminate|]. apply Forall_forall. intros p Hp. destruct (ALL p Hp) as (A & B & C). split; [exact A|]. split; apply ab; lra. }
  destruct (Bounds_exact t Ot) as (BW & BE & BN & BS). cbn [t tX tY tZ] in BW, BE. change (IZR (2 ^ 0)) with 1 in *.
  assert (NS : near_square64 exact_libm power7_64 t (CPolygon [loop4]) = false).
  { destruct (near_square64 exact_libm power7_64 t (CPolygon [loop4])) eqn:E; [|reflexivity]. exfalso. destruct (proj1 (C134_near_square exact_libm power7_64 t [loop4] G HT Ot ltac:(cbn [t tZ]; lia) CO) E) as (r & Er & _ & (_ & (p & Hp & Q) & _)). injection Er as <-. destruct (ALL p Hp) as (_ & B & _). fold t in BW. rewrite BW in Q. lra. }
  assert (Hc : In c (Children t)) by (unfold t, c; rewrite Children_eq by lia; left; reflexivity). assert (Oc : on_map c) by (unfold on_map, c; cbn [tX tY tZ]; lia).
  assert (RC : reach64 exact_libm power7_64 t (CPolygon [loop4]) 1 c (CPolygon [loop4])).
  { destruct (down_entries exact_libm power7_64 t [loop4] G Ot ltac:(cbn [t tZ]; lia) ltac:(discriminate) ltac:(intros r [<-|[]]; discriminate) NS) as (l & E & _ & _ & C). destruct (C c Hc) as (w & e & s & n & mid & out & (FF & EW & EE & ES & EN) & X1 & X2 & _ & I). destruct FF as (Fw & Fe & Fs & Fn).
    destruct (Bounds_exact c Oc) as (CW & CE & CN & CS). cbn [c tX tY tZ] in CW, CE, CN, CS. change (IZR (2 ^ 1)) with 2 in *. change (IZR (0 + 1)) with 1 in *. replace (PI * (1 - 2 * 0 / 2)) with PI in CN by field. replace (PI * (1 - 2 * (0 + 1) / 2)) with 0 in CS by field. assert (G0 : gd 0 = 0) by (unfold gd; rewrite sinh_0; apply atan_0). rewrite G0, Rmult_0_r in CS. pose proof gd_PI as GPI. fold c in CW, CE, CN, CS. rewrite CW in EW. rewrite CE in EE. rewrite CS in ES. rewrite CN in EN. apply ab in ES, EN. destruct HT as [FE HE].
    assert (SH : shut loop4) by (exists (fint (-100), fint 10), [(fint (-50), fint 10); (fint (-50), fint 40)]; reflexivity). assert (U8 : Forall (upto 8) loop4) by (apply Forall_forall; intros p Hp; destruct (ALL p Hp) as (A & B & C'); split; [exact A|]; change (bpow radix2 8) with 256; split; apply ab; lra).
    rewrite clip_amid in X1; [|exact FE|lra|assumption|assumption|intros r [<-|[]]; split; [exact SH|split; [exact U8|]]; apply Forall_forall; intros p Hp; destruct (ALL p Hp) as (A & B & C'); split; [exact A|]; cbn [coord]; lra]. injection X1 as <-.
    rewrite clip_amid in X2; [|exact FE|lra|assumption|assumption|intros r [<-|[]]; split; [exact SH|split; [exact U8|]]; apply Forall_forall; intros p Hp; destruct (ALL p Hp) as (A & B & C'); split; [exact A|]; cbn [coord]; lra]. injection X2 as <-.
    eapply R6_down; [apply R6_here|exact E|]. apply I. split; [reflexivity|discriminate]. }
  split; [exact GP|]. split; [exact HT|]. split; [exact HW|]. split; [exact HC|]. split; [exact HM|]. split; [exact EZ|]. split; [exact F|]. split.
  { pose proof (fits_start t Ot [loop4] ltac:(discriminate) HC) as Hf. destruct (levels64_cases exact_libm G power7_64 (fun mp => mp) ltac:(intros; apply Permutation_refl) t (CPolygon [loop4]) Hf 1 0 [(t, CPolygon [loop4])] ltac:(cbn [t tZ]; lia) (holds64_start exact_libm power7_64 t (CPolygon [loop4]) false)) as [(mp & E & (N & I) & Hex)|[E NR]]; [exists t, (CPolygon [loop4]); constructor| |destruct (NR c (CPolygon [loop4]) RC)].
    exists mp. split; [|apply I; exact RC]. unfold ClipFeature64. rewrite EZ. cbn [Z.leb Z.compare]. apply E. lia. }
  assert (LO : levels_off c 4096 1 = cut_off c 4096 + 46 / 10 ^ 8) by (unfold levels_off, cut_off; ring). rewrite LO. unfold cut_off, unit_off, margin, c in *. cbn [tZ] in *. change (IZR (4096 * 2 ^ 1)) with 8192 in *. split.
  { unfold inside in *. destruct (Bounds_exact (mkTile 0 0 1) Oc) as (CW & CE & CN & CS). cbn [tX tY tZ] in CW, CE, CN, CS. change (IZR (2 ^ 1)) with 2 in *. change (IZR (0 + 1)) with 1 in *. replace (PI * (1 - 2 * 0 / 2)) with PI in CN by field. replace (PI * (1 - 2 * (0 + 1) / 2)) with 0 in CS by field. assert (G0 : gd 0 = 0) by (unfold gd; rewrite sinh_0; apply atan_0). rewrite G0, Rmult_0_r in CS. pose proof gd_PI as GPI. rewrite CW, CE, CN, CS. cbn [fst snd]. lra. }
  split.
  { intros r q [<-|[]] Hq [W1 W2]. rewrite NV in Hq. cbn [fst snd] in W1, W2. apply ab in W1, W2. cbn [on_ring app on_line] in Hq. repeat (destruct Hq as [(k & Hk & E1 & E2)|Hq]; [cbn [fst snd] in *; lra|]). subst q. cbn [fst snd] in *. lra. }
  split; [|exact EO]. intros j k rs Hj Rj Hsq. assert (j = O) by lia. subst j. inversion Rj; subst. unfold t in NS. congruence.
Qed.
