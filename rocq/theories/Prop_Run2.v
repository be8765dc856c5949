(** C66 on a box: from the file of the box mesh creator to the final temperature profile. *)
From Coq Require Import Reals List Arith ZArith Lra Lia Bool.
Import ListNotations.
Require Import Verif.Base Verif.Model_Quad Verif.Proof_Quad Verif.Proof_Quad2 Verif.Proof_Quad3 Verif.Spec_Quad Verif.RBase Verif.RSum Verif.NatSum Verif.Spec_Patch Verif.Spec_High Verif.Model_Ref Verif.Model_Refine Verif.Model_Full Verif.Spec_Full Verif.Proof_Full Verif.Proof_Full3 Verif.Proof_Full4 Verif.Model_Box Verif.Spec_Box Verif.Proof_Box
  Verif.Model_Conn Verif.Model_Average Verif.Spec_Average Verif.Proof_Average5 Verif.Prop_Average Verif.Prop_Average2 Verif.Model_File Verif.Spec_File Verif.Proof_File Verif.Proof_File3 Verif.Prop_File
  Verif.Spec_Dump Verif.Prop_Init Verif.Proof_Lattice Verif.Spec_Run Verif.Proof_Run Verif.Prop_Run Verif.Model_Patch.
Local Open Scope nat_scope.

(** ---- limits ---- *)
Lemma finite_choice {A} (d : A) (P : nat -> A -> Prop) n : (forall v, v < n -> exists y, P v y) -> exists f, forall v, v < n -> P v (f v).
Proof.
  induction n as [|n IH]; intros H; [exists (fun _ => d); lia|]. destruct IH as (f & Hf); [intros; apply H; lia|]. destruct (H n ltac:(lia)) as (y & Hy).
  exists (fun v => if v =? n then y else f v). intros v Hv. destruct (Nat.eqb_spec v n) as [->|]; [exact Hy|apply Hf; lia].
Qed.
Lemma cv_const x : Un_cv (fun _ => x) x.
Proof. intros e He. exists 0. intros. unfold R_dist. rewrite Rminus_eq_0, Rabs_R0. exact He. Qed.
Lemma cv_rsum n (f : nat -> nat -> R) g : (forall i, i < n -> Un_cv (fun k => f k i) (g i)) -> Un_cv (fun k => rsum n (f k)) (rsum n g).
Proof.
  induction n as [|n IH]; intros H; [exact (cv_const 0%R)|]. cbn [rsum]. apply (CV_plus (fun k => rsum n (f k)) (fun k => f k n)); [apply IH; intros; apply H; lia|apply H; lia].
Qed.
Lemma cv_mean N (f : nat -> nat -> R) g c : (forall l, l < 8 -> Un_cv (fun k => f k (N c l)) (g (N c l))) -> Un_cv (fun k => cell_mean N (f k) c) (cell_mean N g c).
Proof.
  intros H. unfold cell_mean, Rdiv. apply (CV_mult (fun k => rsum 8 (fun l => f k (N c l))) (fun _ => / 8)%R); [|apply cv_const]. apply (cv_rsum 8 (fun k l => f k (N c l)) (fun l => g (N c l))). exact H.
Qed.
Lemma cv_shift u l : Un_cv (fun k => u (S k)) l -> Un_cv u l.
Proof. intros H e He. destruct (H e He) as (n & Hn). exists (S n). intros [|k] Hk; [lia|]. apply Hn. lia. Qed.

(** ---- chains of cells ---- *)
Definition minus1 (D i : nat) (d : nat) : nat := if d =? D then i - 1 else i.
Lemma box_chained ni nj nk D N X (F : nat -> nat -> Prop) : D < 3 ->
  (forall i j k l, i < ni -> j < nj -> k < nk -> l < 8 -> N (cell_of ni nj i j k) l = point_of ni nj (i + corner_coord l 0) (j + corner_coord l 1) (k + corner_coord l 2)) ->
  (forall i j k, i < ni -> j < nj -> k < nk -> tri3 i j k D = 0 -> F (cell_of ni nj i j k) 0) ->
  forall q i j k, i < ni -> j < nj -> k < nk -> tri3 i j k D = q -> chained N X (ni * nj * nk) F (cell_of ni nj i j k).
Proof.
  intros HD HN HF. induction q as [|q IH]; intros i j k Hi Hj Hk E.
  - apply (chained_here _ _ _ _ _ 0); [apply cell_of_lt; assumption|lia|]. apply HF; assumption.
  - destruct D as [|[|[|D]]]; [| | |lia]; cbn [tri3] in *; subst.
    + apply (chained_next _ _ _ _ _ (cell_of ni nj q j k) 6 7); try lia; [apply cell_of_lt; assumption| |apply IH; lia || reflexivity].
      intros d Hd. rewrite !HN by lia. f_equal. unfold point_of, number. cbn. lia.
    + apply (chained_next _ _ _ _ _ (cell_of ni nj i q k) 5 7); try lia; [apply cell_of_lt; assumption| |apply IH; lia || reflexivity].
      intros d Hd. rewrite !HN by lia. f_equal. unfold point_of, number. cbn. lia.
    + apply (chained_next _ _ _ _ _ (cell_of ni nj i j q) 3 7); try lia; [apply cell_of_lt; assumption| |apply IH; lia || reflexivity].
      intros d Hd. rewrite !HN by lia. f_equal. unfold point_of, number. cbn. lia.
Qed.

(** A box written by the box mesh creator, refined at order 0 to 5; the conditions 0 (value 10) and 3 (value 0)
    are at the two ends of direction D.  The run sets up; its nodal field converges to the profile that falls in
    equal steps from 10 to 0 from line to line of the refined mesh, the cell field to the means of it.  See C66_profile for
    the shape of this profile. *)
Theorem C66_box : forall fmt inp ni nj nk lx ly lz sx sy sz D, let p := in_order inp in let ns := Spec_Full.sub1 p in
  let o := tri3 sx sy sz in let len := tri3 lx ly lz in let w := tri3 (lx / INR ni)%R (ly / INR nj)%R (lz / INR nk)%R in
  let A := ni * ns in let B := nj * ns in let C := nk * ns in let n := tri3 A B C D in
  p <= 5 -> 2 <= ni * nj * nk -> exact_coords fmt sx lx ni -> exact_coords fmt sy ly nj -> exact_coords fmt sz lz nk ->
  (0 < lx)%R -> (0 < ly)%R -> (0 < lz)%R -> (forall d, d < 3 -> (/ 10 ^ 6 <= w d)%R) -> (exists d, d < 3 /\ (w d <= 7 * INR (Nat.max 1 p))%R) ->
  D < 3 -> nth_error (in_bcs inp) 0 = Some (D, o D) -> nth_error (in_bcs inp) 3 = Some (D, o D + len D)%R ->
  exists t sv start mat node, meshbox_file fmt ni nj nk lx ly lz sx sy sz = Ok t /\ setup inp t = Ok (sv, start, mat) /\ let M := sv_mesh sv in
    cm_nodes M = (A + 1) * (B + 1) * (C + 1) /\ cm_cells M = A * B * C /\ sv_elems sv = ni * nj * nk /\ sv_ns sv = ns /\
    (exists N X EC EN L Q, sound sv N X EC EN L Q) /\ length start = cm_nodes M /\ length mat = cm_cells M /\
    (forall v, v < cm_nodes M -> exists a b c, a <= A /\ b <= B /\ c <= C /\ v = node a b c) /\
    (forall a b c, a <= A -> b <= B -> c <= C -> node a b c < cm_nodes M /\ (forall d, d < 3 -> cm_coord M (node a b c) d = Ok (line_at p (o d) (w d) (tri3 a b c d))) /\
       val start (node a b c) = if tri3 a b c D =? 0 then 10%R else 0%R) /\
    exists run_, (forall k, loop k (fun _ => advance sv) (Run start mat [] 0 (repeat 0%R 250) (10 ^ 8)%R 0%R) = Ok (run_ k)) /\
      (forall a b c, a <= A -> b <= B -> c <= C -> Un_cv (fun k => val (ru_node (run_ k)) (node a b c)) (10 * (1 - INR (tri3 a b c D) / INR n))%R) /\
      (forall i j k x y z, i < ni -> j < nj -> k < nk -> x < ns -> y < ns -> z < ns ->
         Un_cv (fun q => val (ru_mat (run_ q)) (cell_id p (cell_of ni nj i j k) x y z)) (10 * (1 - (INR (tri3 (i * ns + x)%nat (j * ns + y)%nat (k * ns + z)%nat D) + 1 / 2) / INR n))%R).
Proof.
  intros fmt inp ni nj nk lx ly lz sx sy sz D p ns o len w A B C n Hp H2 Fx Fy Fz Px Py Pz Hwide Hsm HD E0 E3.
  assert (1 <= ni /\ 1 <= nj /\ 1 <= nk) as (Hi & Hj & Hk) by (destruct ni, nj, nk; lia).
  assert (Hw : forall d, d < 3 -> (0 < w d)%R) by (intros d Hd; specialize (Hwide d Hd); assert (0 < / 10 ^ 6)%R by (apply Rinv_0_lt_compat; lra); lra).
  destruct (C63_meshbox fmt p ni nj nk lx ly lz sx sy sz Hp H2 Fx Fy Fz Px Py Pz Hsm) as (t & m & r & cn & node & Et & Er & Hn1 & Hn2 & HM1 & HM2 & HM3 & HM4 & HM5 & HM6). cbv zeta in *. fold ns o w A B C in HM1, HM2, HM3, HM4, HM5, HM6.
  assert (Q : exists D', D' < 3 /\ forall d, d < 3 -> (w D' <= w d)%R).
  { destruct (Rle_dec (w 0) (w 1)), (Rle_dec (w 0) (w 2)), (Rle_dec (w 1) (w 2)); [exists 0|exists 0|exists 2|exists 2|exists 1|exists 1|exists 1|exists 2]; (split; [lia|]); intros [|[|[|d]]] Hd; try lia; lra. }
  destruct Q as (D' & HD' & Hmin).
  assert (Hs : forall d, d < 3 -> (0 < w D' <= w d)%R) by (intros d Hd; split; [apply Hw; exact HD'|apply Hmin; exact Hd]).
  assert (Hbig : (w D' <= 7 * INR (Nat.max 1 p))%R) by (destruct Hsm as (d & Hd & G); specialize (Hmin d Hd); lra).
  destruct (meshbox_mesh fmt ni nj nk lx ly lz sx sy sz Hi Hj Hk Fx Fy Fz) as (t' & m' & N & X & Et' & Em & Ec & _ & HM & HB & HN). cbv zeta in Ec, HB. fold w o in HB.
  rewrite Et in Et'. injection Et' as <-.
  destruct (box_touch ni nj nk N H2 HN) as (e & l & e' & l' & He & Hl & He' & Hl' & Ne & Q1 & Q2 & Eq).
  set (nD := tri3 ni nj nk D).
  assert (Hlen : (w D * INR nD = len D)%R).
  { assert (INR ni <> 0)%R by (apply not_0_INR; lia). assert (INR nj <> 0)%R by (apply not_0_INR; lia). assert (INR nk <> 0)%R by (apply not_0_INR; lia).
    unfold w, nD, len. destruct D as [|[|[|d]]]; [..|lia]; cbn [tri3]; field; assumption. }
  assert (Hpos : forall e, e < ni * nj * nk -> (0 <= box_pos ni nj e D /\ box_pos ni nj e D + 1 <= Z.of_nat nD)%Z).
  { intros c Hc. destruct (number_surj ni nj nk c Hc) as (i & j & k & Hi' & Hj' & Hk' & ->). fold (cell_of ni nj i j k). rewrite (box_pos_cell ni nj nk) by assumption.
    unfold nD. destruct D as [|[|[|d]]]; [..|lia]; cbn [tri3]; lia. }
  assert (Far : exists i j k, i < ni /\ j < nj /\ k < nk /\ tri3 i j k D + 1 = nD).
  { unfold nD. exists (ni - 1), (nj - 1), (nk - 1). repeat (split; [lia|]). destruct D as [|[|[|d]]]; [..|lia]; cbn [tri3]; lia. }
  destruct (ni * nj * nk) as [|ne] eqn:Ene; [lia|].
  assert (BC := box_corner p ne m' N X o w (box_pos ni nj) D' Hp Ec HB HD').
  destruct (C62_two_planes p ne m' N X o w (box_pos ni nj) D' (in_bcs inp) D (o D) D (o D + len D)%R Hp HM Ec HB HD' Hs Hbig (Hwide D' HD')) as (r' & cn' & sets & CN & CX & Er' & Eb & HCM & H); try assumption.
  { intros _. exists e, l, e', l'. repeat (split; [assumption|]). intros d Hd. rewrite Eq. reflexivity. }
  { intros c c' Hc Hc'. apply (box_pos_inj ni nj nk); try assumption; rewrite Ene; assumption. }
  { exists (cell_of ni nj 0 0 0), 0. assert (Cl := cell_of_lt ni nj nk 0 0 0 ltac:(lia) ltac:(lia) ltac:(lia)). rewrite Ene in Cl. split; [exact Cl|]. split; [lia|].
    rewrite (BC _ 0 D Cl ltac:(lia) HD). rewrite (box_pos_cell ni nj nk) by lia. replace (corner_coord 0 D) with 0 by (destruct D as [|[|[|d]]]; [reflexivity..|lia]).
    replace (tri3 0 0 0 D) with 0 by (destruct D as [|[|d]]; reflexivity). cbn. ring. }
  { destruct Far as (i & j & k & Hi' & Hj' & Hk' & EF). exists (cell_of ni nj i j k), 7. assert (Cl := cell_of_lt ni nj nk i j k Hi' Hj' Hk'). rewrite Ene in Cl. split; [exact Cl|]. split; [lia|].
    rewrite (BC _ 7 D Cl ltac:(lia) HD). rewrite (box_pos_cell ni nj nk) by assumption. replace (corner_coord 7 D) with 1 by (destruct D as [|[|[|d]]]; [reflexivity..|lia]).
    rewrite <- Hlen, <- EF, plus_INR, <- INR_IZR_INZ. cbn [INR]. ring. }
  { left. intros c q Hc Hq. rewrite (BC c q D Hc Hq HD). specialize (Hpos c Hc). specialize (Hw D HD).
    assert (0 <= IZR (box_pos ni nj c D))%R by (apply IZR_le; lia). assert (0 <= INR (corner_coord q D))%R by apply pos_INR. nra. }
  { right. intros c q Hc Hq. rewrite (BC c q D Hc Hq HD). specialize (Hpos c Hc). specialize (Hw D HD). assert (Cb := corner_bit q D).
    assert (IZR (box_pos ni nj c D) + 1 <= INR nD)%R by (rewrite INR_IZR_INZ, <- plus_IZR; apply IZR_le; lia). assert (INR (corner_coord q D) <= 1)%R by (replace 1%R with (INR 1) by reflexivity; apply le_INR; lia). nra. }
  { intros c Hc. rewrite <- Ene in Hc |- *. destruct (number_surj ni nj nk c Hc) as (i & j & k & Hi' & Hj' & Hk' & ->). fold (cell_of ni nj i j k).
    apply (box_chained ni nj nk D N X _ HD HN) with (q := tri3 i j k D); try assumption; [|reflexivity]. clear i j k Hi' Hj' Hk' Hc. intros i j k Hi' Hj' Hk' Ez. left.
    assert (Cl := cell_of_lt ni nj nk i j k Hi' Hj' Hk'). rewrite Ene in Cl. rewrite (BC _ 0 D Cl ltac:(lia) HD), (box_pos_cell ni nj nk), Ez by assumption.
    replace (corner_coord 0 D) with 0 by (destruct D as [|[|[|d]]]; [reflexivity..|lia]). cbn. ring. }
  cbv zeta in H. set (sv := Solver _ _ _ _ _ _ _) in H. destruct H as ((EC & EN & L & Q & HS & HLQ) & h & Hh & Hu & Hcv).
  assert (Id : m' = m /\ r' = r /\ cn' = cn).
  { unfold read_mesh in Er. rewrite Em in Er. cbn [bind] in Er. destruct (init_connectivity m'); [|discriminate]. cbn [bind] in Er. rewrite Er' in Er. cbn [bind] in Er. injection Er as -> -> ->. auto. }
  destruct Id as (-> & -> & ->). set (M := rf_mesh r) in *. set (nn := cm_nodes M) in *.
  assert (CNode : forall i j k x y z l, i < ni -> j < nj -> k < nk -> x < ns -> y < ns -> z < ns -> l < 8 ->
     CN (cell_id p (cell_of ni nj i j k) x y z) l = node (i * ns + x + corner_coord l 0) (j * ns + y + corner_coord l 1) (k * ns + z + corner_coord l 2)).
  { intros i j k x y z q Hi' Hj' Hk' Hx Hy Hz Hq. assert (G := HM6 i j k x y z q Hi' Hj' Hk' Hx Hy Hz Hq). destruct HCM as (HC1 & _).
    assert (Ci : cell_id p (cell_of ni nj i j k) x y z < cm_cells M).
    { rewrite HM2. replace (A * B * C) with (ni * nj * nk * (ns * ns * ns)) by (unfold A, B, C; ring). apply (cell_id_lt p); try assumption. apply cell_of_lt; assumption. }
    destruct (HC1 _ q Ci Hq) as (G' & _). congruence. }
  assert (CLine : forall a b c d, a <= A -> b <= B -> c <= C -> d < 3 -> CX (node a b c) d = line_at p (o d) (w d) (tri3 a b c d)).
  { intros a b c d Ha Hb Hc Hd. destruct (HM3 a b c Ha Hb Hc) as (Lt & G). specialize (G d Hd). destruct HCM as (_ & HC2). rewrite (HC2 _ d Lt Hd) in G. congruence. }
  assert (L0 : forall s0 w0, line_at p s0 w0 0 = s0).
  { intros s0 w0. assert (G := line_place p s0 w0 0 0 ltac:(lia) ltac:(lia)). cbn [Nat.mul Nat.add Z.of_nat] in G. rewrite G. unfold shifted. destruct (gap_facts_ok p ltac:(lia)) as (F0 & _). rewrite F0. cbn. field. }
  assert (Ln : forall s0 w0 u, line_at p s0 w0 (u * ns) = (s0 + w0 * INR u)%R).
  { intros s0 w0 u. assert (G := line_place p s0 w0 u 0 ltac:(lia) ltac:(lia)). rewrite Nat.add_0_r in G. fold ns in G. rewrite G. unfold shifted. destruct (gap_facts_ok p ltac:(lia)) as (F0 & _). rewrite F0, <- INR_IZR_INZ. field. }
  assert (En : n = nD * ns) by (unfold n, nD, A, B, C; destruct D as [|[|[|d]]]; [..|lia]; reflexivity).
  assert (V0 : forall a b c, a <= A -> b <= B -> c <= C -> (CX (node a b c) D = o D <-> tri3 a b c D = 0)).
  { intros a b c Ha Hb Hc. rewrite CLine by assumption. split; [|intros ->; apply L0]. intros G. apply (line_inj p (o D) (w D)); [lia|apply Hw; exact HD|]. rewrite L0. exact G. }
  assert (V3 : forall a b c, a <= A -> b <= B -> c <= C -> (CX (node a b c) D = (o D + len D)%R <-> tri3 a b c D = n)).
  { intros a b c Ha Hb Hc. rewrite CLine by assumption. rewrite En, <- Hlen. split; [|intros ->; apply Ln]. intros G. apply (line_inj p (o D) (w D)); [lia|apply Hw; exact HD|]. rewrite Ln. exact G. }
  assert (Pn : 0 < n).
  { rewrite En. destruct (pts1_sub p) as (_ & Ps). fold ns in Ps. assert (1 <= nD) by (unfold nD; destruct D as [|[|[|d]]]; [..|lia]; cbn [tri3]; lia). nia. }
  assert (Tn : forall a b c, a <= A -> b <= B -> c <= C -> tri3 a b c D <= n) by (intros a b c Ha Hb Hc; unfold n; destruct D as [|[|[|d]]]; [..|lia]; cbn [tri3]; assumption).
  assert (INR n <> 0)%R as Nz by (apply not_0_INR; lia).
  set (Hf := fun q => (10 * (1 - INR q / INR n))%R).
  destruct (finite_choice 0%R (fun v y => exists a b c, a <= A /\ b <= B /\ c <= C /\ v = node a b c /\ y = Hf (tri3 a b c D)) nn) as (h' & Hh').
  { intros v Hv. destruct (HM4 v Hv) as (a & b & c & Ha & Hb & Hc & Ev). eexists. exists a, b, c. repeat (split; [eassumption|]). reflexivity. }
  assert (HhN : forall a b c, a <= A -> b <= B -> c <= C -> h' (node a b c) = Hf (tri3 a b c D)).
  { intros a b c Ha Hb Hc. destruct (Hh' (node a b c) (proj1 (HM3 a b c Ha Hb Hc))) as (a' & b' & c' & Ha' & Hb' & Hc' & Ev & ->). apply HM5 in Ev; try assumption. destruct Ev as (-> & -> & ->). reflexivity. }
  assert (Hhh : forall v, v < nn -> h' v = h v).
  { apply Hu. intros v Hv. destruct (HM4 v Hv) as (a & b & c & Ha & Hb & Hc & ->). rewrite (V0 a b c Ha Hb Hc), (V3 a b c Ha Hb Hc), (HhN a b c Ha Hb Hc). unfold Hf. split; [|split].
    - intros ->. cbn. field. exact Nz.
    - intros _ ->. field. exact Nz.
    - intros G0 G3. specialize (Tn a b c Ha Hb Hc). rewrite HM2.
      assert (SL := smooth_lattice p ni nj nk CN node D Hf h' Hi Hj Hk HD HM5 CNode HhN a b c Ha Hb Hc). fold ns A B C n in SL. rewrite SL by lia. unfold Hf.
      set (q := tri3 a b c D) in *. rewrite minus_INR, plus_INR by lia. cbn [INR]. field. exact Nz. }
  destruct (C65_initial_field M CN CX (in_fills inp) (repeat 0%R (cm_cells M)) HCM (repeat_length _ _)) as (mat & Ei & Lmat & _).
  destruct (C62_apply_boundary sv L Q (repeat 0%R nn) (so_sets _ _ _ _ _ _ _ HS) (repeat_length _ _)) as (start & Ea & Lst & Vst).
  exists t, sv, start, mat, node. split; [exact Et|]. split.
  { unfold setup. fold p. rewrite Er. cbn [bind]. fold M. rewrite Eb. cbn [bind]. rewrite Hn2. fold sv. rewrite Ei. cbn [bind]. fold nn. rewrite Ea. reflexivity. }
  cbv zeta. change (sv_mesh sv) with M. fold nn.
  split; [exact HM1|]. split; [exact HM2|]. split; [reflexivity|]. split; [cbn [sv_ns sv]; apply sub1_model|]. split; [exists CN, CX, EC, EN, L, Q; exact HS|]. split; [exact Lst|]. split; [exact Lmat|]. split; [exact HM4|]. split.
  { intros a b c Ha Hb Hc. destruct (HM3 a b c Ha Hb Hc) as (Lt & G). split; [exact Lt|]. split; [exact G|]. destruct (HLQ _ Lt) as (B0 & B3).
    destruct (Vst _ Lt) as (S0 & S3 & Sn). assert (Z : val (repeat 0%R nn) (node a b c) = 0%R) by (unfold val; apply nth_repeat).
    destruct (Nat.eqb_spec (tri3 a b c D) 0) as [G0|G0].
    - apply S0, B0, V0; assumption.
    - assert (N0 : ~ on_patches (L 0) Q (node a b c)) by (intros F; apply G0, V0, B0; assumption). rewrite B3 in S3, Sn.
      destruct (Req_dec (CX (node a b c) D) (o D + len D)%R) as [G3|G3]; [exact (S3 N0 G3)|rewrite (Sn N0 G3); exact Z]. }
  destruct (Hcv (Run start mat [] 0 (repeat 0%R 250) (10 ^ 8)%R 0%R)) as (run_ & Rk & Rc); [exact Lst|exact Lmat|].
  assert (RN : forall a b c, a <= A -> b <= B -> c <= C -> Un_cv (fun k => val (ru_node (run_ k)) (node a b c)) (10 * (1 - INR (tri3 a b c D) / INR n))%R).
  { intros a b c Ha Hb Hc. destruct (HM3 a b c Ha Hb Hc) as (Lt & _). assert (G := Rc _ Lt). rewrite <- (Hhh _ Lt), (HhN a b c Ha Hb Hc) in G. exact G. }
  exists run_. split; [exact Rk|]. split; [exact RN|].
  intros i j k x y z Hi' Hj' Hk' Hx Hy Hz. apply cv_shift.
  assert (Ci : cell_id p (cell_of ni nj i j k) x y z < cm_cells M).
  { rewrite HM2. replace (A * B * C) with (ni * nj * nk * (ns * ns * ns)) by (unfold A, B, C; ring). apply (cell_id_lt p); try assumption. apply cell_of_lt; assumption. }
  set (cc := cell_id p (cell_of ni nj i j k) x y z) in *.
  assert (Rm : forall q, val (ru_mat (run_ (S q))) cc = cell_mean CN (val (ru_node (run_ q))) cc).
  { intros q. destruct (advances_ok sv CN CX EC EN L Q HS q (Run start mat [] 0 (repeat 0%R 250) (10 ^ 8)%R 0%R) Lst Lmat) as (s1 & E1 & L1 & L2 & _). assert (R1 := Rk q). rewrite E1 in R1. injection R1 as R1.
    destruct (advance_ok sv CN CX EC EN L Q HS s1 L1 L2) as (s2 & E2 & _ & _ & G & _). assert (R2 := Rk (S q)). rewrite loop_succ, E1 in R2. cbn [bind] in R2. rewrite E2 in R2. injection R2 as R2. rewrite <- R1, <- R2. apply G. exact Ci. }
  assert (ML := mean_lattice p ni nj nk CN node D Hf h' Hi Hj Hk HD CNode HhN i j k x y z Hi' Hj' Hk' Hx Hy Hz). cbv zeta in ML. fold ns cc in ML.
  assert (G : Un_cv (fun q => cell_mean CN (val (ru_node (run_ q))) cc) (cell_mean CN h' cc)).
  { apply cv_mean. intros q Hq. destruct HCM as (HC1 & _). destruct (HC1 cc q Ci Hq) as (_ & Lt). rewrite (Hhh _ Lt). apply Rc. exact Lt. }
  rewrite ML in G. unfold Hf in G. rewrite plus_INR in G. change (INR 1) with 1%R in G.
  match goal with |- Un_cv _ ?x => match type of G with Un_cv _ ?y => replace x with y by (field; exact Nz) end end.
  intros e0 He0. destruct (G e0 He0) as (K & HK). exists K. intros q Hq. rewrite Rm. apply HK. exact Hq.
Qed.
Print Assumptions C66_box.

(** the profile from line to line, against the straight line from 10 at the start to 0 at the end of n elements
    of width w: the same at orders 0 and 1, where the lines are equispaced; another at orders 2 to 5 *)
Theorem C66_profile : forall p o w n, let ns := Spec_Full.sub1 p in (0 < w)%R -> 1 <= n ->
  let profile := fun q => (10 * (1 - INR q / INR (n * ns)))%R in let straight := fun q => (10 * (1 - (line_at p o w q - o) / (w * INR n)))%R in
  (p <= 1 -> forall q, profile q = straight q) /\ (2 <= p <= 5 -> profile 1 <> straight 1).
Proof.
  intros p o w n ns Hw Hn profile straight. assert (Nn : (1 <= INR n)%R) by (replace 1%R with (INR 1) by reflexivity; apply le_INR; exact Hn). split.
  - intros Hp q. unfold profile, straight, line_at. fold ns. destruct p as [|[|p]]; [| |lia].
    + change ns with 1. rewrite Nat.div_1_r, Nat.mod_1_r, Nat.mul_1_r. replace (lob (pts1 0) 0) with (-1)%R by (unfold lob; cbn; unfold Model_Quad.dec; cbn; lra). field. lra.
    + change ns with 2. assert (Eq := Nat.div_mod q 2 ltac:(lia)). assert (Em := Nat.mod_upper_bound q 2 ltac:(lia)).
      rewrite mult_INR. change (INR 2) with 2%R.
      assert (Eq' : (INR q = 2 * INR (q / 2) + INR (q mod 2))%R) by (rewrite Eq at 1; rewrite plus_INR, mult_INR; reflexivity). rewrite Eq'.
      destruct (q mod 2) as [|[|r]]; [| |lia]; [replace (lob (pts1 1) 0) with (-1)%R by (unfold lob; cbn; unfold Model_Quad.dec; cbn; lra)|replace (lob (pts1 1) 1) with 0%R by (unfold lob; cbn; unfold Model_Quad.dec; cbn; lra)]; cbn [INR]; field; lra.
  - intros Hp E. unfold profile, straight, line_at in E. fold ns in E.
    assert (G : ((lob (pts1 p) 1 + 1) / 2 <> / INR ns)%R).
    { unfold ns, lob. destruct p as [|[|[|[|[|[|p]]]]]]; try lia; cbn [pts1 Spec_Full.sub1 Nat.sub Nat.mul Nat.add Z.of_nat Pos.of_succ_nat Pos.succ lobatto_nodes_tab INR].
      1: { assert (B := sqrt_bd 21 (45 / 10) (46 / 10) ltac:(lra) ltac:(lra) ltac:(lra)). cbn [nth]. lra. }
      all: unfold decs, dec; cbn [nth map fst snd]; change (10 ^ Z.of_nat 30)%Z with 1000000000000000000000000000000%Z; change (10 ^ Z.of_nat 0)%Z with 1%Z; lra. }
    assert (Ns : 1 < ns) by (unfold ns, Spec_Full.sub1, pts1; destruct p as [|[|p]]; lia). assert (Ns' : (1 < INR ns)%R) by (replace 1%R with (INR 1) by reflexivity; apply lt_INR; exact Ns).
    rewrite Nat.div_small, Nat.mod_small in E by exact Ns. rewrite mult_INR in E. cbn [INR] in E. apply G.
    assert (E1 : (1 / (INR n * INR ns) = (o + w * (0 + (lob (pts1 p) 1 + 1) / 2) - o) / (w * INR n))%R) by lra.
    apply (Rmult_eq_compat_l (INR n)) in E1. replace (INR n * (1 / (INR n * INR ns)))%R with (/ INR ns)%R in E1 by (field; lra). rewrite E1. field. lra.
Qed.
Print Assumptions C66_profile.

(** the shipped input on a box from x = 0 to x = 2: 51 dumps, the field of 500 cycles *)
Theorem C66_shipped_box : forall fmt u ni nj nk ly lz sy sz, let w := tri3 (2 / INR ni)%R (ly / INR nj)%R (lz / INR nk)%R in
  2 <= ni * nj * nk -> exact_coords fmt 0 2 ni -> exact_coords fmt sy ly nj -> exact_coords fmt sz lz nk ->
  (0 < ly)%R -> (0 < lz)%R -> (forall d, d < 3 -> (/ 10 ^ 6 <= w d)%R) ->
  exists t sv start s run_, meshbox_file fmt ni nj nk 2 ly lz 0 sy sz = Ok t /\
    setup (shipped_input u) t = Ok (sv, start, repeat 0%R (cm_cells (sv_mesh sv))) /\ cm_cells (sv_mesh sv) = (6 * ni) * (6 * nj) * (6 * nk) /\
    (forall k, loop k (fun _ => advance sv) (Run start (repeat 0%R (cm_cells (sv_mesh sv))) [] 0 (repeat 0%R 250) (10 ^ 8)%R 0%R) = Ok (run_ k)) /\
    average fmt (shipped_input u) t = Ok s /\ ru_node s = ru_node (run_ 500) /\ ru_mat s = ru_mat (run_ 500) /\ length (ru_dumps s) = 51 /\
    (forall i, i < 51 -> exists d, nth_error (ru_dumps s) i = Some d /\ du_id d = i /\ nth_error (du_vars d) 0 = Some (map fmt (ru_mat (run_ (10 * i)))) /\ du_times d = map (fun j => fmt (INR j / 100)%R) (seq 0 (i + 1))).
Proof.
  intros fmt u ni nj nk ly lz sy sz w H2 Fx Fy Fz Py Pz Hwide.
  assert (1 <= ni /\ 1 <= nj /\ 1 <= nk) as (Hi & Hj & Hk) by (destruct ni, nj, nk; lia).
  destruct (C66_box fmt (shipped_input u) ni nj nk 2 ly lz 0 sy sz 0) as (t & sv & start & mat & node & Et & Es & H); try assumption; try lra; try lia; try (cbn [in_order shipped_input]; lia); try reflexivity.
  - exists 0. split; [lia|]. cbn [tri3 in_order shipped_input Nat.max INR]. assert (1 <= INR ni)%R by (replace 1%R with (INR 1) by reflexivity; apply le_INR; exact Hi).
    assert (2 / INR ni <= 2)%R by (apply Rmult_le_reg_r with (INR ni); [lra|]; unfold Rdiv; rewrite Rmult_assoc, Rinv_l by lra; lra). lra.
  - cbn [tri3 shipped_input in_bcs nth_error]. rewrite Rplus_0_l. reflexivity.
  - cbv zeta in H. cbn [in_order shipped_input] in H. destruct H as (H1 & H3 & H4 & H5 & (N & X & EC & EN & L & Q & HS) & H6 & H7 & _).
    change (Spec_Full.sub1 3) with 6 in *.
    assert (Cd := ms_cells _ _ _ (so_mesh _ _ _ _ _ _ _ HS)).
    assert (Em : mat = repeat 0%R (cm_cells (sv_mesh sv))).
    { unfold setup in Es. destruct (read_mesh _ t) as [(m0 & (r & cn))|]; [|discriminate]. cbn [bind] in Es. destruct (generate_bcs _ _ _) as [sets|]; [|discriminate]. cbn [bind] in Es.
      destruct (initialize_state _ _ _) as [mt|] eqn:Ei; [|discriminate]. cbn [bind] in Es. destruct (apply_boundary _ _) as [nd|]; [|discriminate]. cbn [bind] in Es. injection Es as <- <- <-. cbn [sv_mesh] in *.
      rewrite (C65_shipped u (rf_mesh r) N X _ Cd (repeat_length _ _)) in Ei. injection Ei as <-. reflexivity. }
    subst mat. destruct (C66_shipped fmt u sv N X EC EN L Q start (repeat 0%R (cm_cells (sv_mesh sv))) HS H6 (repeat_length _ _)) as (run_ & s & R1 & E & R2 & R3 & R4 & R5).
    + rewrite H4, H5, H3. ring.
    + exists t, sv, start, s, run_. split; [exact Et|]. split; [exact Es|]. split; [rewrite H3; ring|]. split; [exact R1|]. split; [unfold average; rewrite Es; cbn [bind]; exact E|]. split; [exact R2|]. split; [exact R3|].
      split; [rewrite R5, map_length, seq_length; reflexivity|]. intros i Hi'. rewrite R5. eexists. split; [rewrite nth_error_map, (nth_error_nth' (seq 0 51) 0) by (rewrite seq_length; lia); cbn [option_map]; rewrite seq_nth by lia; reflexivity|].
      change (0 + i) with i. split; [reflexivity|]. split; [|cbn [du_times dumps]; rewrite map_map; reflexivity].
      unfold dumps. cbn [du_vars nth_error]. f_equal. unfold per_cell.
      assert (Lm : length (ru_mat (run_ (10 * i))) = cm_cells (sv_mesh sv)).
      { destruct (advances_ok sv N X EC EN L Q HS (10 * i) (Run start (repeat 0%R (cm_cells (sv_mesh sv))) [] 0 (repeat 0%R 250) (10 ^ 8)%R 0%R) H6 (repeat_length _ _)) as (s1 & E1 & _ & L2 & _). assert (E2 := R1 (10 * i)). rewrite E1 in E2. assert (E3 : s1 = run_ (10 * i)) by congruence. rewrite <- E3. exact L2. }
      remember (ru_mat (run_ (10 * i))) as l eqn:El in *. rewrite <- Lm. clear. apply nth_ext with (d := fmt 0%R) (d' := fmt 0%R); [rewrite !map_length, seq_length; reflexivity|]. rewrite map_length, seq_length. intros q Hq.
      rewrite (nth_indep _ _ (fmt (val l 0))) by (rewrite map_length, seq_length; exact Hq). rewrite (map_nth (fun c => fmt (val l c))), (map_nth fmt), seq_nth by exact Hq. reflexivity.
Qed.
Print Assumptions C66_shipped_box.

(** the hypotheses can be met: two cells along x, unit widths *)
Example C66_box_nonvacuous : forall u, exists t s, meshbox_file (fun x => x) 2 2 2 2 2 2 0 0 0 = Ok t /\ average (fun x => x) (shipped_input u) t = Ok s /\ length (ru_dumps s) = 51.
Proof.
  intros u. destruct (C66_shipped_box (fun x => x) u 2 2 2 2 2 0 0) as (t & sv & start & s & run_ & Et & _ & _ & _ & Ea & _ & _ & Ed & _); try lra; try (cbn; lia); try (intros i Hi; reflexivity).
  - intros d Hd. destruct d as [|[|[|d]]]; [..|lia]; cbn [tri3 INR]; lra.
  - exists t, s. auto.
Qed.
