(** A box of the box mesh creator as a solver of examples/average: the facts behind C66_box, with the boundary
    sets and the smoothing in terms of mesh lines (C82). *)
From Coq Require Import Reals List Arith ZArith Lra Lia Bool.
Import ListNotations.
Require Import Verif.Base Verif.Model_Quad Verif.Proof_Quad Verif.Proof_Quad2 Verif.Proof_Quad3 Verif.Spec_Quad Verif.RBase Verif.RSum Verif.NatSum Verif.Spec_Patch Verif.Spec_High Verif.Model_Ref Verif.Model_Refine Verif.Model_Full Verif.Spec_Full Verif.Proof_Full Verif.Proof_Full3 Verif.Proof_Full4 Verif.Model_Box Verif.Spec_Box Verif.Proof_Box
  Verif.Model_Conn Verif.Model_Average Verif.Spec_Average Verif.Proof_Average5 Verif.Prop_Average Verif.Prop_Average2 Verif.Model_File Verif.Spec_File Verif.Proof_File Verif.Proof_File3 Verif.Prop_File
  Verif.Spec_Dump Verif.Prop_Init Verif.Proof_Lattice Verif.Spec_Run Verif.Proof_Run Verif.Prop_Run Verif.Prop_Run2 Verif.Proof_Average2 Verif.Proof_FloatAverage4 Verif.Model_Patch.
Local Open Scope nat_scope.

Lemma cells_surj p ne c : let ns := Spec_Full.sub1 p in c < ne * (ns * ns * ns) -> exists e x y z, e < ne /\ x < ns /\ y < ns /\ z < ns /\ c = cell_id p e x y z.
Proof.
  intros ns Hc. assert (P12 := pts1_sub p). fold ns in P12. destruct P12 as (_ & Ps). assert (Pc : 0 < ns * ns * ns) by nia.
  destruct (number_surj ns ns ns (c mod (ns * ns * ns))) as (x & y & z & Hx & Hy & Hz & Er); [apply Nat.mod_upper_bound; lia|].
  exists (c / (ns * ns * ns)), x, y, z. split; [apply Nat.div_lt_upper_bound; [lia|]; rewrite Nat.mul_comm; exact Hc|]. repeat (split; [assumption|]).
  rewrite (Nat.div_mod c (ns * ns * ns)) at 1 by lia. rewrite Er. unfold cell_id, number. fold ns. ring.
Qed.

(** the facts behind C66_box *)
Lemma box_solver : forall fmt inp ni nj nk lx ly lz sx sy sz D, let p := in_order inp in let ns := Spec_Full.sub1 p in
  let o := tri3 sx sy sz in let len := tri3 lx ly lz in let w := tri3 (lx / INR ni)%R (ly / INR nj)%R (lz / INR nk)%R in
  let A := ni * ns in let B := nj * ns in let C := nk * ns in let n := tri3 A B C D in
  p <= 5 -> 2 <= ni * nj * nk -> exact_coords fmt sx lx ni -> exact_coords fmt sy ly nj -> exact_coords fmt sz lz nk ->
  (0 < lx)%R -> (0 < ly)%R -> (0 < lz)%R -> (forall d, d < 3 -> (/ 10 ^ 6 <= w d)%R) -> (exists d, d < 3 /\ (w d <= 7 * INR (Nat.max 1 p))%R) ->
  D < 3 -> nth_error (in_bcs inp) 0 = Some (D, o D) -> nth_error (in_bcs inp) 3 = Some (D, o D + len D)%R ->
  exists t sv start mat node, meshbox_file fmt ni nj nk lx ly lz sx sy sz = Ok t /\ setup inp t = Ok (sv, start, mat) /\ let M := sv_mesh sv in
    cm_nodes M = (A + 1) * (B + 1) * (C + 1) /\ cm_cells M = A * B * C /\ sv_elems sv = ni * nj * nk /\ sv_ns sv = ns /\
    length start = cm_nodes M /\ length mat = cm_cells M /\
    (forall v, v < cm_nodes M -> exists a b c, a <= A /\ b <= B /\ c <= C /\ v = node a b c) /\
    (forall a b c, a <= A -> b <= B -> c <= C -> node a b c < cm_nodes M /\ (forall d, d < 3 -> cm_coord M (node a b c) d = Ok (line_at p (o d) (w d) (tri3 a b c d))) /\
       val start (node a b c) = if tri3 a b c D =? 0 then 10%R else 0%R) /\
    exists CN CX EC EN L Q, sound sv CN CX EC EN L Q /\ 0 < n /\ (forall v, corner_count CN (cm_cells M) v <= 8) /\
      (forall a b c a' b' c', a <= A -> b <= B -> c <= C -> a' <= A -> b' <= B -> c' <= C -> node a b c = node a' b' c' -> a = a' /\ b = b' /\ c = c') /\
      (forall a b c, a <= A -> b <= B -> c <= C -> (on_patches (L 0) Q (node a b c) <-> tri3 a b c D = 0) /\ (on_patches (L 3) Q (node a b c) <-> tri3 a b c D = n)) /\
      (forall H h, (forall a b c, a <= A -> b <= B -> c <= C -> h (node a b c) = H (tri3 a b c D)) ->
         (forall a b c, a <= A -> b <= B -> c <= C -> 0 < tri3 a b c D < n -> let t := tri3 a b c D in smoothed CN (cm_cells M) h (node a b c) = ((H (t - 1)%nat + 2 * H t + H (t + 1)%nat) / 4)%R)) /\
      (forall i j k x y z, i < ni -> j < nj -> k < nk -> x < ns -> y < ns -> z < ns -> forall l, l < 8 ->
         CN (cell_id p (cell_of ni nj i j k) x y z) l = node (i * ns + x + corner_coord l 0) (j * ns + y + corner_coord l 1) (k * ns + z + corner_coord l 2)).
Proof.
  intros fmt inp ni nj nk lx ly lz sx sy sz D p ns o len w A B C n Hp H2 Fx Fy Fz Px Py Pz Hwide Hsm HD E0 E3.
  assert (1 <= ni /\ 1 <= nj /\ 1 <= nk) as (Hi & Hj & Hk) by (destruct ni, nj, nk; lia).
  assert (Hw : forall d, d < 3 -> (0 < w d)%R) by (intros d Hd; specialize (Hwide d Hd); assert (0 < / 10 ^ 6)%R by (apply Rinv_0_lt_compat; lra); lra).
  destruct (C63_meshbox fmt p ni nj nk lx ly lz sx sy sz Hp H2 Fx Fy Fz Px Py Pz Hsm) as (t & m & r & cn & node & Et & Er & Hn1 & Hn2 & HM1 & HM2 & HM3 & HM4 & HM5 & HM6). cbv zeta in *. fold ns o w A B C in HM1, HM2, HM3, HM4, HM5, HM6.
  assert (Q : exists D', D' < 3 /\ forall d, d < 3 -> (w D' <= w d)%R).
  { destruct (Rle_dec (w 0) (w 1)), (Rle_dec (w 0) (w 2)), (Rle_dec (w 1) (w 2)); [exists 0|exists 0|exists 2|exists 2|exists 1|exists 1|exists 1|exists 2]; (split; [lia|]); intros [|[|[|d]]] Hd; try lia; lra. }
  destruct Q as (D' & HD' & Hmin).
  assert (Hs : forall d, d < 3 -> (0 < w D' <= w d)%R) by (intros d Hd; split; [apply Hw; exact HD'|apply Hmin; exact Hd]).
  assert (Hbig : (w D' <= 7 * INR (Nat.max 1 p))%R) by (destruct Hsm as (d & Hd & G); specialize (Hmin d Hd); lra).
  destruct (meshbox_mesh fmt ni nj nk lx ly lz sx sy sz Hi Hj Hk Fx Fy Fz) as (t' & m' & N & X & Et' & Em & Ec & _ & HM & HB & HN). cbv zeta in Ec, HB. fold w o in HB.
  rewrite Et in Et'. injection Et' as <-.
  destruct (box_touch ni nj nk N H2 HN) as (e & l & e' & l' & He & Hl & He' & Hl' & Ne & Q1 & Q2 & Eq).
  set (nD := tri3 ni nj nk D).
  assert (Hlen : (w D * INR nD = len D)%R).
  { assert (INR ni <> 0)%R by (apply not_0_INR; lia). assert (INR nj <> 0)%R by (apply not_0_INR; lia). assert (INR nk <> 0)%R by (apply not_0_INR; lia).
    unfold w, nD, len. destruct D as [|[|[|d]]]; [..|lia]; cbn [tri3]; field; assumption. }
  assert (Hpos : forall e, e < ni * nj * nk -> (0 <= box_pos ni nj e D /\ box_pos ni nj e D + 1 <= Z.of_nat nD)%Z).
  { intros c Hc. destruct (number_surj ni nj nk c Hc) as (i & j & k & Hi' & Hj' & Hk' & ->). fold (cell_of ni nj i j k). rewrite (box_pos_cell ni nj nk) by assumption.
    unfold nD. destruct D as [|[|[|d]]]; [..|lia]; cbn [tri3]; lia. }
  assert (Far : exists i j k, i < ni /\ j < nj /\ k < nk /\ tri3 i j k D + 1 = nD).
  { unfold nD. exists (ni - 1), (nj - 1), (nk - 1). repeat (split; [lia|]). destruct D as [|[|[|d]]]; [..|lia]; cbn [tri3]; lia. }
  destruct (ni * nj * nk) as [|ne] eqn:Ene; [lia|].
  assert (BC := box_corner p ne m' N X o w (box_pos ni nj) D' Hp Ec HB HD').
  destruct (C62_two_planes p ne m' N X o w (box_pos ni nj) D' (in_bcs inp) D (o D) D (o D + len D)%R Hp HM Ec HB HD' Hs Hbig (Hwide D' HD')) as (r' & cn' & sets & CN & CX & Er' & Eb & HCM & H); try assumption.
  { intros _. exists e, l, e', l'. repeat (split; [assumption|]). intros d Hd. rewrite Eq. reflexivity. }
  { intros c c' Hc Hc'. apply (box_pos_inj ni nj nk); try assumption; rewrite Ene; assumption. }
  { exists (cell_of ni nj 0 0 0), 0. assert (Cl := cell_of_lt ni nj nk 0 0 0 ltac:(lia) ltac:(lia) ltac:(lia)). rewrite Ene in Cl. split; [exact Cl|]. split; [lia|].
    rewrite (BC _ 0 D Cl ltac:(lia) HD). rewrite (box_pos_cell ni nj nk) by lia. replace (corner_coord 0 D) with 0 by (destruct D as [|[|[|d]]]; [reflexivity..|lia]).
    replace (tri3 0 0 0 D) with 0 by (destruct D as [|[|d]]; reflexivity). cbn. ring. }
  { destruct Far as (i & j & k & Hi' & Hj' & Hk' & EF). exists (cell_of ni nj i j k), 7. assert (Cl := cell_of_lt ni nj nk i j k Hi' Hj' Hk'). rewrite Ene in Cl. split; [exact Cl|]. split; [lia|].
    rewrite (BC _ 7 D Cl ltac:(lia) HD). rewrite (box_pos_cell ni nj nk) by assumption. replace (corner_coord 7 D) with 1 by (destruct D as [|[|[|d]]]; [reflexivity..|lia]).
    rewrite <- Hlen, <- EF, plus_INR, <- INR_IZR_INZ. cbn [INR]. ring. }
  { left. intros c q Hc Hq. rewrite (BC c q D Hc Hq HD). specialize (Hpos c Hc). specialize (Hw D HD).
    assert (0 <= IZR (box_pos ni nj c D))%R by (apply IZR_le; lia). assert (0 <= INR (corner_coord q D))%R by apply pos_INR. nra. }
  { right. intros c q Hc Hq. rewrite (BC c q D Hc Hq HD). specialize (Hpos c Hc). specialize (Hw D HD). assert (Cb := corner_bit q D).
    assert (IZR (box_pos ni nj c D) + 1 <= INR nD)%R by (rewrite INR_IZR_INZ, <- plus_IZR; apply IZR_le; lia). assert (INR (corner_coord q D) <= 1)%R by (replace 1%R with (INR 1) by reflexivity; apply le_INR; lia). nra. }
  { intros c Hc. rewrite <- Ene in Hc |- *. destruct (number_surj ni nj nk c Hc) as (i & j & k & Hi' & Hj' & Hk' & ->). fold (cell_of ni nj i j k).
    apply (box_chained ni nj nk D N X _ HD HN) with (q := tri3 i j k D); try assumption; [|reflexivity]. clear i j k Hi' Hj' Hk' Hc. intros i j k Hi' Hj' Hk' Ez. left.
    assert (Cl := cell_of_lt ni nj nk i j k Hi' Hj' Hk'). rewrite Ene in Cl. rewrite (BC _ 0 D Cl ltac:(lia) HD), (box_pos_cell ni nj nk), Ez by assumption.
    replace (corner_coord 0 D) with 0 by (destruct D as [|[|[|d]]]; [reflexivity..|lia]). cbn. ring. }
  cbv zeta in H. set (sv := Solver _ _ _ _ _ _ _) in H. destruct H as ((EC & EN & L & Q & HS & HLQ) & h & Hh & Hu & Hcv).
  assert (Id : m' = m /\ r' = r /\ cn' = cn).
  { unfold read_mesh in Er. rewrite Em in Er. cbn [bind] in Er. destruct (init_connectivity m'); [|discriminate]. cbn [bind] in Er. rewrite Er' in Er. cbn [bind] in Er. injection Er as -> -> ->. auto. }
  destruct Id as (-> & -> & ->). set (M := rf_mesh r) in *. set (nn := cm_nodes M) in *.
  assert (CNode : forall i j k x y z l, i < ni -> j < nj -> k < nk -> x < ns -> y < ns -> z < ns -> l < 8 ->
     CN (cell_id p (cell_of ni nj i j k) x y z) l = node (i * ns + x + corner_coord l 0) (j * ns + y + corner_coord l 1) (k * ns + z + corner_coord l 2)).
  { intros i j k x y z q Hi' Hj' Hk' Hx Hy Hz Hq. assert (G := HM6 i j k x y z q Hi' Hj' Hk' Hx Hy Hz Hq). destruct HCM as (HC1 & _).
    assert (Ci : cell_id p (cell_of ni nj i j k) x y z < cm_cells M).
    { rewrite HM2. replace (A * B * C) with (ni * nj * nk * (ns * ns * ns)) by (unfold A, B, C; ring). apply (cell_id_lt p); try assumption. apply cell_of_lt; assumption. }
    destruct (HC1 _ q Ci Hq) as (G' & _). congruence. }
  assert (CLine : forall a b c d, a <= A -> b <= B -> c <= C -> d < 3 -> CX (node a b c) d = line_at p (o d) (w d) (tri3 a b c d)).
  { intros a b c d Ha Hb Hc Hd. destruct (HM3 a b c Ha Hb Hc) as (Lt & G). specialize (G d Hd). destruct HCM as (_ & HC2). rewrite (HC2 _ d Lt Hd) in G. congruence. }
  assert (L0 : forall s0 w0, line_at p s0 w0 0 = s0).
  { intros s0 w0. assert (G := line_place p s0 w0 0 0 ltac:(lia) ltac:(lia)). cbn [Nat.mul Nat.add Z.of_nat] in G. rewrite G. unfold shifted. destruct (gap_facts_ok p ltac:(lia)) as (F0 & _). rewrite F0. cbn. field. }
  assert (Ln : forall s0 w0 u, line_at p s0 w0 (u * ns) = (s0 + w0 * INR u)%R).
  { intros s0 w0 u. assert (G := line_place p s0 w0 u 0 ltac:(lia) ltac:(lia)). rewrite Nat.add_0_r in G. fold ns in G. rewrite G. unfold shifted. destruct (gap_facts_ok p ltac:(lia)) as (F0 & _). rewrite F0, <- INR_IZR_INZ. field. }
  assert (En : n = nD * ns) by (unfold n, nD, A, B, C; destruct D as [|[|[|d]]]; [..|lia]; reflexivity).
  assert (V0 : forall a b c, a <= A -> b <= B -> c <= C -> (CX (node a b c) D = o D <-> tri3 a b c D = 0)).
  { intros a b c Ha Hb Hc. rewrite CLine by assumption. split; [|intros ->; apply L0]. intros G. apply (line_inj p (o D) (w D)); [lia|apply Hw; exact HD|]. rewrite L0. exact G. }
  assert (V3 : forall a b c, a <= A -> b <= B -> c <= C -> (CX (node a b c) D = (o D + len D)%R <-> tri3 a b c D = n)).
  { intros a b c Ha Hb Hc. rewrite CLine by assumption. rewrite En, <- Hlen. split; [|intros ->; apply Ln]. intros G. apply (line_inj p (o D) (w D)); [lia|apply Hw; exact HD|]. rewrite Ln. exact G. }
  assert (Pn : 0 < n).
  { rewrite En. destruct (pts1_sub p) as (_ & Ps). fold ns in Ps. assert (1 <= nD) by (unfold nD; destruct D as [|[|[|d]]]; [..|lia]; cbn [tri3]; lia). nia. }
  assert (Tn : forall a b c, a <= A -> b <= B -> c <= C -> tri3 a b c D <= n) by (intros a b c Ha Hb Hc; unfold n; destruct D as [|[|[|d]]]; [..|lia]; cbn [tri3]; assumption).
  destruct (C65_initial_field M CN CX (in_fills inp) (repeat 0%R (cm_cells M)) HCM (repeat_length _ _)) as (mat & Ei & Lmat & _).
  destruct (C62_apply_boundary sv L Q (repeat 0%R nn) (so_sets _ _ _ _ _ _ _ HS) (repeat_length _ _)) as (start & Ea & Lst & Vst).
  exists t, sv, start, mat, node. split; [exact Et|]. split.
  { unfold setup. fold p. rewrite Er. cbn [bind]. fold M. rewrite Eb. cbn [bind]. rewrite Hn2. fold sv. rewrite Ei. cbn [bind]. fold nn. rewrite Ea. reflexivity. }
  cbv zeta. change (sv_mesh sv) with M. fold nn.
  split; [exact HM1|]. split; [exact HM2|]. split; [reflexivity|]. split; [cbn [sv_ns sv]; apply sub1_model|]. split; [exact Lst|]. split; [exact Lmat|]. split; [exact HM4|]. split.
  { intros a b c Ha Hb Hc. destruct (HM3 a b c Ha Hb Hc) as (Lt & G). split; [exact Lt|]. split; [exact G|]. destruct (HLQ _ Lt) as (B0 & B3).
    destruct (Vst _ Lt) as (S0 & S3 & Sn). assert (Z : val (repeat 0%R nn) (node a b c) = 0%R) by (unfold val; apply nth_repeat).
    destruct (Nat.eqb_spec (tri3 a b c D) 0) as [G0|G0].
    - apply S0, B0, V0; assumption.
    - assert (N0 : ~ on_patches (L 0) Q (node a b c)) by (intros F; apply G0, V0, B0; assumption). rewrite B3 in S3, Sn.
      destruct (Req_dec (CX (node a b c) D) (o D + len D)%R) as [G3|G3]; [exact (S3 N0 G3)|rewrite (Sn N0 G3); exact Z]. }
  exists CN, CX, EC, EN, L, Q. split; [exact HS|]. split; [exact Pn|]. split; [|split; [exact HM5|split; [|split]]].
  - intros v. apply counts_8. intros c c' q Hc Hc' Hq. rewrite HM2 in Hc, Hc'.
    assert (EAB : A * B * C = ni * nj * nk * (ns * ns * ns)) by (unfold A, B, C; ring). rewrite EAB in Hc, Hc'.
    destruct (cells_surj p _ c Hc) as (e1 & x & y & z & He1 & Hx & Hy & Hz & ->). destruct (cells_surj p _ c' Hc') as (e2 & x' & y' & z' & He2 & Hx' & Hy' & Hz' & ->).
    destruct (number_surj ni nj nk e1 He1) as (i1 & j1 & k1 & Hi1 & Hj1 & Hk1 & ->). destruct (number_surj ni nj nk e2 He2) as (i2 & j2 & k2 & Hi2 & Hj2 & Hk2 & ->).
    fold (cell_of ni nj i1 j1 k1) in *. fold (cell_of ni nj i2 j2 k2) in *. intros G. rewrite !CNode in G by assumption.
    assert (Bq : forall d, corner_coord q d <= 1) by (intros d; apply Nat.lt_succ_r; apply corner_bit).
    assert (Up : forall u x n, u < n -> x < ns -> u * ns + x < n * ns) by (intros u0 x0 n0 Hu0 Hx0; nia).
    assert (B0 := Bq 0). assert (B1 := Bq 1). assert (B2 := Bq 2).
    assert (U1 := Up i1 x ni Hi1 Hx). assert (U2 := Up j1 y nj Hj1 Hy). assert (U3 := Up k1 z nk Hk1 Hz). assert (U4 := Up i2 x' ni Hi2 Hx'). assert (U5 := Up j2 y' nj Hj2 Hy'). assert (U6 := Up k2 z' nk Hk2 Hz').
    apply HM5 in G; try (unfold A, B, C; lia). destruct G as (G0 & G1 & G2).
    assert (Sp : forall u x u' x', x < ns -> x' < ns -> u * ns + x = u' * ns + x' -> u = u' /\ x = x').
    { intros u0 x0 u1 x1 H0 H1 E. assert (Dv : forall u x, x < ns -> (u * ns + x) / ns = u) by (intros; rewrite Nat.div_add_l, Nat.div_small by lia; lia). assert (Eu : u0 = u1) by (rewrite <- (Dv u0 x0 H0), <- (Dv u1 x1 H1), E; reflexivity). rewrite Eu in E. split; [exact Eu|lia]. }
    destruct (Sp i1 x i2 x' Hx Hx' ltac:(lia)) as (-> & ->). destruct (Sp j1 y j2 y' Hy Hy' ltac:(lia)) as (-> & ->). destruct (Sp k1 z k2 z' Hz Hz' ltac:(lia)) as (-> & ->). reflexivity.
  - intros a b c Ha Hb Hc. destruct (HM3 a b c Ha Hb Hc) as (Lt & _). destruct (HLQ _ Lt) as (B0 & B3). rewrite B0, B3. split; [apply V0|apply V3]; assumption.
  - intros H h' Hh' a b c Ha Hb Hc Ht. rewrite HM2. exact (smooth_lattice p ni nj nk CN node D H h' Hi Hj Hk HD HM5 CNode Hh' a b c Ha Hb Hc Ht).
  - intros i j k x y z Hi' Hj' Hk' Hx Hy Hz q Hq. apply CNode; assumption.
Qed.
