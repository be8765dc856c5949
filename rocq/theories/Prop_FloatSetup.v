(** Property theorem C83 (average.cpp:112-175 and 355-709 with swage.cpp:1046-1063 and 1983-2034): the setup of examples/average,
    and the whole program, in floating-point arithmetic. *)
From Coq Require Import Reals List Arith ZArith Lra Lia Bool.
Import ListNotations.
Require Import Verif.Base Verif.RBase Verif.RSum Verif.Proof_High3 Verif.Spec_Patch Verif.Spec_High Verif.Spec_Full Verif.Model_Geom Verif.Model_Conn Verif.Model_Refine Verif.Model_Ref Verif.Model_Full
  Verif.Proof_High Verif.Proof_Full Verif.Proof_Full2 Verif.Proof_Full4 Verif.Prop_Full Verif.Prop_Patch Verif.Model_Average Verif.Spec_Average Verif.Spec_Dump Verif.Prop_Init Verif.Proof_Average Verif.Proof_Average2 Verif.Proof_Average4 Verif.Proof_Average5 Verif.Proof_Dump
  Verif.Model_File Verif.Spec_File Verif.Proof_File Verif.Proof_File2
  Verif.Spec_Float Verif.Float_Base Verif.Spec_FloatRefine Verif.Model_FloatRefine Verif.Proof_FloatRefine Verif.Proof_FloatRefine5 Verif.Model_FloatPatch Verif.Spec_FloatPatch Verif.Proof_FloatPatch Verif.Proof_FloatPatch2 Verif.Proof_FloatPatch3 Verif.Proof_FloatPatch4
  Verif.Proof_FloatPatch5 Verif.Spec_FloatRun Verif.Proof_FloatRun2 Verif.Model_FloatAverage Verif.Proof_FloatAverage3 Verif.Prop_FloatAverage Verif.Prop_FloatRun
  Verif.Prop_High Verif.Prop_Full2 Verif.Ex_FloatRefine Verif.Prop_FloatRefine Verif.Prop_FloatPatch Verif.Prop_File Verif.Ex_FloatSetup Verif.Spec_FloatSetup Verif.Model_FloatSetup Verif.Proof_FloatSetup Verif.Proof_FloatSetup2 Verif.Proof_FloatSetup3 Verif.Spec_Average Verif.Model_Patch.
Local Open Scope nat_scope.

(** without rounding the program is the exact one of C62 to C67 *)
Theorem C83_exact : (forall m P bcs, generate_bcsf (fun x => x) m P bcs = generate_bcs m P bcs) /\
  (forall m fills mat, initialize_statef (fun x => x) m fills mat = initialize_state m fills mat) /\
  (forall p file, read_meshf (fun x => x) p file = read_mesh p file) /\
  (forall inp file, setupf (fun x => x) inp file = setup inp file) /\
  (forall fmt inp file, averagef (fun x => x) fmt inp file = average fmt inp file).
Proof. split; [exact generate_bcsf_id|]. split; [exact initialize_statef_id|]. split; [exact read_meshf_id|]. split; [exact setupf_id|exact averagef_id]. Qed.
Print Assumptions C83_exact.

(** the boundary sets: never an error; a set holds every corner of a boundary side that lies closer to its surface
    than 1e-8 by more than the rounding error, and none of a side farther by more than that *)
Theorem C83_boundary : forall u rnd m P bcs N X pt M, double_like u rnd -> (INR 5 * u < 1)%R ->
  cdescribes m N X -> patches_right P (cm_cells m) N pt -> bcs <> [] -> (forall n d, n < cm_nodes m -> d < 3 -> (Rabs (X n d) <= M)%R) ->
  let e := radius_err u M (centre_err u M) in
  exists b L Q, generate_bcsf rnd m P bcs = Ok b /\
    forall s tag v, nth_error bcs s = Some (tag, v) ->
      presents (num_bdy_patches_in_set b s) (bdy_patches_in_set b s) (L s) /\ patch_corners P (cm_nodes m) (L s) Q /\
      (forall n, on_patches (L s) Q n -> near_within N X (cm_cells m) pt tag v ((1 + gamma u 2) / 10 ^ 8 + e) n) /\
      (forall n, near_within N X (cm_cells m) pt tag v ((1 - gamma u 2) / 10 ^ 8 - e) n -> on_patches (L s) Q n).
Proof.
  intros u rnd m P bcs N X pt M HD H5 HM HP Hne HX e. destruct (generate_bcsf_ok rnd m P bcs N X pt HM HP Hne) as (b & L & Q & E & H). exists b, L, Q. split; [exact E|].
  intros s tag v Es. destruct (H s tag v Es) as (A1 & A2 & A3). split; [exact A1|]. split; [exact A2|].
  assert (U := dl_u1 u rnd HD). assert (H4 : (INR 4 * u < 1)%R) by (cbn [INR] in *; lra).
  assert (B : forall c t, c < cm_cells m -> t < 6 -> forall d, d < 3 -> (Rabs (face_centre N X c t d) <= M)%R /\ (Rabs (centref rnd N X c t d - face_centre N X c t d) <= centre_err u M)%R).
  { intros c t Hc Ht d Hd. assert (Q0 : forall l, l < 8 -> (Rabs (X (N c l) d) <= M)%R) by (intros l Hl; apply HX; [apply (proj1 HM c l Hc Hl)|exact Hd]).
    split; [|apply (centref_err u rnd HD); assumption].
    unfold face_centre, side_mean. do 6 (destruct t as [|t]; [cbn; match goal with |- (Rabs ((?a + ?b + ?c0 + ?d0) / 4) <= _)%R => idtac | _ => idtac end; apply Rabs_le;
      assert (Z0 := Rabs_in _ _ (Q0 0 ltac:(lia))); assert (Z1 := Rabs_in _ _ (Q0 1 ltac:(lia))); assert (Z2 := Rabs_in _ _ (Q0 2 ltac:(lia))); assert (Z3 := Rabs_in _ _ (Q0 3 ltac:(lia)));
      assert (Z4 := Rabs_in _ _ (Q0 4 ltac:(lia))); assert (Z5 := Rabs_in _ _ (Q0 5 ltac:(lia))); assert (Z6 := Rabs_in _ _ (Q0 6 ltac:(lia))); assert (Z7 := Rabs_in _ _ (Q0 7 ltac:(lia))); lra|]). lia. }
  split; intros n Hn.
  - apply A3 in Hn. destruct Hn as (c & t & l & Hb & C & Hl & El). destruct Hb as (Hc & Ht & Hu).
    destruct (check_in u rnd HD _ _ tag v M (centre_err u M) H4 (B c t Hc Ht) C) as (C1 & C2). exists c, t, l. split; [split; [exact Hc|split; assumption]|]. split; [exact C1|]. split; [exact C2|]. auto.
  - apply A3. destruct Hn as (c & t & l & Hb & C1 & C2 & Hl & El). exists c, t, l. split; [exact Hb|]. destruct Hb as (Hc & Ht & Hu). split; [|auto].
    exact (check_out u rnd HD _ _ tag v M (centre_err u M) H4 (B c t Hc Ht) C1 C2).
Qed.
Print Assumptions C83_boundary.

(** the cell field: for each cell there are a point close to its centre and two radii close to those of the centre such
    that the cell gets the second field value of the last region that covers them (without one it keeps its value) *)
Theorem C83_fill : forall u rnd m N X fills mat M, double_like u rnd -> (INR 9 * u < 1)%R -> cdescribes m N X -> length mat = cm_cells m ->
  (forall n d, n < cm_nodes m -> d < 3 -> (Rabs (X n d) <= M)%R) -> let e := (gamma u 9 * M)%R in
  exists mat', initialize_statef rnd m fills mat = Ok mat' /\ length mat' = cm_cells m /\
    forall c, c < cm_cells m -> let C := centre N X c in exists x y z rc rs,
      (Rabs (x - C 0%nat) <= e)%R /\ (Rabs (y - C 1%nat) <= e)%R /\ (Rabs (z - C 2%nat) <= e)%R /\
      (Rabs (rc - sqrt (C 0%nat * C 0%nat + C 1%nat * C 1%nat)) <= radius_err u M e)%R /\ (Rabs (rs - sqrt (C 0%nat * C 0%nat + C 1%nat * C 1%nat + C 2%nat * C 2%nat)) <= radius_err u M e)%R /\
      let inside := fun f => covers_at f x y z rc rs in
      ((exists i f, nth_error fills i = Some f /\ inside f /\ (forall j g, i < j -> nth_error fills j = Some g -> ~ inside g) /\ val mat' c = fl_field2 f) \/
       ((forall i f, nth_error fills i = Some f -> ~ inside f) /\ val mat' c = val mat c)).
Proof.
  intros u rnd m N X fills mat M HD H9 HM Lm HX e. destruct (initialize_statef_raw rnd m N X fills mat HM Lm) as (mat' & E & L' & H). exists mat'. split; [exact E|]. split; [exact L'|].
  intros c Hc C. assert (Q0 : forall d l, d < 3 -> l < 8 -> (Rabs (X (N c l) d) <= M)%R) by (intros d l Hd Hl; apply HX; [apply (proj1 HM c l Hc Hl)|exact Hd]).
  assert (B : forall d, d < 3 -> (Rabs (C d) <= M)%R /\ (Rabs (cenf rnd N X c d - C d) <= e)%R).
  { intros d Hd. split; [apply centre_bound; intros l Hl; apply Q0; assumption|apply (cenf_err u rnd HD); [exact H9|intros l Hl; apply Q0; assumption]]. }
  destruct (B 0 ltac:(lia)) as (M0 & E0). destruct (B 1 ltac:(lia)) as (M1 & E1). destruct (B 2 ltac:(lia)) as (M2 & E2).
  assert (U := dl_u1 u rnd HD). assert (H4 : (INR 4 * u < 1)%R) by (cbn [INR] in *; lra).
  eexists (cenf rnd N X c 0), (cenf rnd N X c 1), (cenf rnd N X c 2), _, _. split; [exact E0|]. split; [exact E1|]. split; [exact E2|].
  split; [apply (cylinder_close u rnd HD _ _ _ _ M e H4 M0 M1 E0 E1)|]. split; [apply (radius_close u rnd HD _ _ _ _ _ _ M e H4 M0 M1 M2 E0 E1 E2)|].
  cbv zeta. destruct (H c Hc) as [(i & f & Ef & If & Un & V)|(Un & V)].
  - left. exists i, f. split; [exact Ef|]. split; [apply fill_covers_at; exact If|]. split; [|exact V]. intros j g Hj Eg Z. apply (Un j g Hj Eg). apply fill_covers_at. exact Z.
  - right. split; [|exact V]. intros i f Ef Z. apply (Un i f Ef). apply fill_covers_at. exact Z.
Qed.
Print Assumptions C83_fill.

(** the whole setup: for a mesh file whose last element has no two corners at the same place and two of whose elements
    share a corner, at orders 1 to 9, with at least four boundary values: the mesh is read (its coordinates rounded) and refined
    without an error; if the last refined cell has no two corners at the same computed place (and none beyond 1e63),
    the setup ends without an error: it is sound, the fields have the right lengths, the start field is 0 with the boundary
    values set, the boundary sets are as in C83_boundary, the cell field as in C83_fill; and if all elements
    are linked through shared nodes to a node in the boundary sets 0 or 3, all nodes are linked to one through cells *)
Theorem C83_setup : forall u rnd inp file nn ne X V N d, let p := in_order inp in let Xr := fun n i => rnd (X n i) in
  let ns := Spec_Full.sub1 p in let nc := S ne * ns ^ 3 in
  double_like u rnd -> 1 <= p <= 9 -> lists_mesh file nn (S ne) X V -> (forall e v, e < S ne -> v < 8 -> V e v < nn) -> same_corners (S ne) V N ->
  corner_spacing N Xr ne d -> (0 < d <= 10 ^ 64)%R -> (exists c c', c < S ne /\ c' < S ne /\ c <> c' /\ touch 8 N c c') -> 4 <= length (in_bcs inp) ->
  exists m r CN CX, parse_meshf rnd file = Ok m /\ cm_nodes m = nn /\ cm_cells m = S ne /\ cdescribes m N Xr /\
    refine_cellsf rnd p m = Ok r /\ cm_cells (rf_mesh r) = nc /\ cdescribes (rf_mesh r) CN CX /\
    ((forall a b, a < 8 -> b < 8 -> a <> b -> exists i, i < 3 /\ CX (CN (nc - 1) a) i <> CX (CN (nc - 1) b) i) ->
     (forall l i, l < 8 -> i < 3 -> (Rabs (CX (CN (nc - 1)%nat l) i) <= 10 ^ 63)%R) ->
     exists sv start mat EC EN L Q pt, setupf rnd inp file = Ok (sv, start, mat) /\ sv_mesh sv = rf_mesh r /\ sv_elems sv = S ne /\ sv_ns sv = ns /\ sv_G sv = pts1 p ^ 3 /\
       sound sv CN CX EC EN L Q /\ patches_right (cn_patches (sv_conn sv)) nc CN pt /\
       length start = cm_nodes (sv_mesh sv) /\ length mat = nc /\ apply_boundary sv (repeat 0%R (cm_nodes (sv_mesh sv))) = Ok start /\
       generate_bcsf rnd (sv_mesh sv) (cn_patches (sv_conn sv)) (in_bcs inp) = Ok (sv_sets sv) /\
       initialize_statef rnd (sv_mesh sv) (in_fills inp) (repeat 0%R nc) = Ok mat /\
       (forall M s tag v, (INR 5 * u < 1)%R -> (forall n i, n < cm_nodes (sv_mesh sv) -> i < 3 -> (Rabs (CX n i) <= M)%R) -> nth_error (in_bcs inp) s = Some (tag, v) ->
          let e := radius_err u M (centre_err u M) in
          (forall n, on_patches (L s) Q n -> near_within CN CX nc pt tag v ((1 + gamma u 2) / 10 ^ 8 + e) n) /\
          (forall n, near_within CN CX nc pt tag v ((1 - gamma u 2) / 10 ^ 8 - e) n -> on_patches (L s) Q n)) /\
       ((forall e, e < S ne -> reach EN (S ne) (pts1 p ^ 3) (fun n => on_patches (L 0) Q n \/ on_patches (L 3) Q n) e) ->
        forall n, n < cm_nodes (sv_mesh sv) -> linked CN nc (fun n => on_patches (L 0) Q n \/ on_patches (L 3) Q n) n)).
Proof.
  intros u rnd inp file nn ne X V N d p Xr ns nc HD Hp HT HV HS HL Hd Hsh Hb.
  destruct (parse_meshf_ok rnd file nn (S ne) X V HT HV) as (m & Em & Enn & Ec & HM0).
  assert (HN := same_corners_vert (S ne) V N HS).
  assert (HM : cdescribes m N Xr).
  { split; [|exact (proj2 HM0)]. intros c l Hc Hl. rewrite (HN c l) by (lia || exact Hl). exact (proj1 HM0 c l Hc Hl). }
  assert (Ei : init_connectivityf rnd m = Ok tt) by (exact (init_connectivityf_ok u rnd HD m N Xr d ne HM Ec HL Hd Hsh)).
  destruct (refined_sound u rnd HD p m N Xr d ne Hp HM Ec HL Hd) as (r & nd & CN & CX & Er & Ecc & HMr & Hpts & HC & Hown & H).
  fold ns in Ecc, HC, H. fold nc in Ecc, H. exists m, r, CN, CX. repeat (split; [assumption|]).
  intros Hne H63. destruct (H Hne H63) as (C & pt & EC & HP & Hsv). clear H.
  assert (Bn : in_bcs inp <> []) by (intros Z; rewrite Z in Hb; cbn in Hb; lia).
  rewrite <- Ecc in HP. destruct (generate_bcsf_ok rnd (rf_mesh r) (cn_patches C) (in_bcs inp) CN CX pt HMr HP Bn) as (sets & L & Q & Eb & Hsets).
  destruct (Hsv sets) as (S1 & S2). set (sv := Solver (S ne) (num_sub_1d p) (num_g_pts_1d p ^ 3) (rf_maps r) (rf_mesh r) C sets) in *.
  set (EC0 := fun e l => cell_id p e (l mod ns) (l / ns mod ns) (l / ns / ns)) in *. set (EN := fun e l => nd (e * pts1 p ^ 3 + l)) in *.
  assert (SS : sets_sound sv L Q).
  { intros s Hs. destruct (nth_error (in_bcs inp) s) as [[tag v]|] eqn:Es; [|apply nth_error_None in Es; destruct Hs; lia]. destruct (Hsets s tag v Es) as (A1 & A2 & _). split; assumption. }
  assert (SO : sound sv CN CX EC0 EN L Q) by (split; assumption).
  destruct (initialize_statef_raw rnd (rf_mesh r) CN CX (in_fills inp) (repeat 0%R (cm_cells (rf_mesh r))) HMr (repeat_length _ _)) as (mat & E3 & L3 & _).
  destruct (apply_boundary_ok sv L Q (repeat 0%R (cm_nodes (rf_mesh r))) SS (repeat_length _ _)) as (start & E4 & L4 & _).
  exists sv, start, mat, EC0, EN, L, Q, pt.
  split. { unfold setupf, read_meshf. rewrite Em. cbn [bind]. rewrite Ei. cbn [bind]. fold p. rewrite EC. cbn [bind]. cbv beta iota zeta. rewrite Eb. cbn [bind]. rewrite E3. cbn [bind]. rewrite Ec. fold sv. rewrite E4. reflexivity. }
  split; [reflexivity|]. split; [reflexivity|]. split; [apply sub1_model|]. split; [unfold sv; cbn [sv_G]; rewrite pts1_model; reflexivity|]. split; [exact SO|]. split; [rewrite <- Ecc; exact HP|].
  split; [exact L4|]. split; [rewrite L3; exact Ecc|]. split; [exact E4|]. split; [exact Eb|]. split; [rewrite <- Ecc; exact E3|]. split.
  - intros M s tag v H5 HX Es e. destruct (C83_boundary u rnd (rf_mesh r) (cn_patches C) (in_bcs inp) CN CX pt M HD H5 HMr HP Bn HX) as (b' & L' & Q' & Eb' & H').
    rewrite Eb in Eb'. injection Eb' as <-. destruct (H' s tag v Es) as (P' & C' & I' & O'). destruct (Hsets s tag v Es) as (P0 & C0 & A0). rewrite Ecc in I', O'. fold e in I', O'.
    assert (T : forall n, on_patches (L s) Q n <-> on_patches (L' s) Q' n).
    { assert (EL : L s = L' s).
      { destruct P0 as (N1 & G1). destruct P' as (N2 & G2). rewrite N1 in N2. injection N2 as N2. apply nth_ext with (d := 0) (d' := 0); [exact N2|]. intros i Hi. assert (Hi' : i < length (L' s)) by lia. assert (Y1 := G1 i Hi). assert (Y2 := G2 i Hi'). rewrite Y1 in Y2. injection Y2 as Y2. exact Y2. }
      intros n. unfold on_patches. rewrite <- EL. rewrite <- EL in C'. split; intros (pp & k & H1 & H2 & H3); exists pp, k; (split; [exact H1|]); (split; [exact H2|]);
        destruct (C0 pp k H1 H2) as (Z1 & _); destruct (C' pp k H1 H2) as (Z2 & _); rewrite Z1 in Z2; injection Z2 as Z2; lia. }
    split; [intros n Hn; apply I'; apply T; exact Hn|intros n Hn; apply T; apply O'; exact Hn].
  - intros HR n Hn. destruct (Hown n Hn) as (g & Hg & <- & _). set (ng := pts1 p ^ 3) in *.
    assert (G0 : 0 < ng) by (unfold ng; destruct (pts1_sub p); assert (0 < pts1 p) by (unfold pts1; destruct p; lia); cbn [Nat.pow]; nia).
    assert (He : g / ng < S ne) by (apply Nat.div_lt_upper_bound; lia).
    assert (K := reach_link p (S ne) CN nd HC _ _ (HR (g / ng) He) (g mod ng) (Nat.mod_upper_bound g ng ltac:(lia))). fold ng in K.
    replace (g / ng * ng + g mod ng) with g in K by (rewrite (Nat.div_mod g ng) at 1 by lia; ring). exact K.
Qed.
Print Assumptions C83_setup.

(** the whole program in binary64: with a setup as in C83_setup and run parameters as in C81_run it ends without an error
    after K cycles; dump i shows the cell field of its cycle and the times of the dumps so far; and if at most eight cells
    meet in a node, no node value ever leaves [0, 10] or falls from one cycle to the next *)
Theorem C83_run : forall fmt inp file nn ne X V N d K, let p := in_order inp in let Xr := fun n i => binary64 (X n i) in
  let ns := Spec_Full.sub1 p in let nc := S ne * ns ^ 3 in let M := marks_at (clock binary64) (in_tfinal inp) (in_cyc_ival inp) K in
  1 <= p <= 9 -> lists_mesh file nn (S ne) X V -> (forall e v, e < S ne -> v < 8 -> V e v < nn) -> same_corners (S ne) V N ->
  corner_spacing N Xr ne d -> (0 < d <= 10 ^ 64)%R -> (exists c c', c < S ne /\ c' < S ne /\ c <> c' /\ touch 8 N c c') -> 4 <= length (in_bcs inp) ->
  (forall m r CN CX, parse_meshf binary64 file = Ok m -> refine_cellsf binary64 p m = Ok r -> cdescribes (rf_mesh r) CN CX ->
     (forall a b, a < 8 -> b < 8 -> a <> b -> exists i, i < 3 /\ CX (CN (nc - 1) a) i <> CX (CN (nc - 1) b) i) /\
     (forall l i, l < 8 -> i < 3 -> (Rabs (CX (CN (nc - 1)%nat l) i) <= 10 ^ 63)%R)) ->
  0 < in_cyc_ival inp -> (0 <= in_dt_ival inp)%R -> (in_tfinal inp <= 10 ^ 8)%R -> run_length_at (clock binary64) (in_tfinal inp) (in_stop inp) K -> length M <= 250 ->
  exists sv start mat CN CX run_ s, setupf binary64 inp file = Ok (sv, start, mat) /\ averagef binary64 fmt inp file = Ok s /\
    cm_cells (sv_mesh sv) = nc /\ cdescribes (sv_mesh sv) CN CX /\
    (forall k, loop k (fun _ => advancef binary64 sv) (Run start mat [] 0 (repeat 0%R 250) (10 ^ 8)%R 0%R) = Ok (run_ k)) /\
    ru_node s = ru_node (run_ K) /\ ru_mat s = ru_mat (run_ K) /\ ru_now s = clock binary64 K /\
    ru_dumps s = map (fun i => dumps fmt (cm_nodes (sv_mesh sv)) nc (ns ^ 3) CN CX (val (ru_mat (run_ (nth i M 0)))) i (map (clock binary64) (firstn (i + 1) M))) (seq 0 (length M)) /\
    ((forall n, n < cm_nodes (sv_mesh sv) -> corner_count CN nc n <= 8) ->
     forall k n, n < cm_nodes (sv_mesh sv) -> (0 <= val (ru_node (run_ k)) n <= val (ru_node (run_ (S k))) n)%R /\ (val (ru_node (run_ (S k))) n <= 10)%R).
Proof.
  intros fmt inp file nn ne X V N d K p Xr ns nc M Hp HT HV HS HL Hd Hsh Hb Hlast Hv Hdt Htf HK HM.
  destruct (C83_setup u64 binary64 inp file nn ne X V N d double_like_b64 Hp HT HV HS HL Hd Hsh Hb) as (m & r & CN & CX & Em & _ & _ & _ & Er & Ecc & HMr & H).
  fold p ns in Er, Ecc, H. fold nc in Ecc, H. destruct (Hlast m r CN CX Em Er HMr) as (D1 & D2).
  destruct (H D1 D2) as (sv & start & mat & EC & EN & L & Q & pt & Es & Emesh & Ese & Esn & _ & HSo & _ & L1 & L2 & Ea & _). clear H.
  rewrite <- Emesh in Ecc, HMr.
  assert (HE : sv_elems sv * (sv_ns sv * sv_ns sv * sv_ns sv) = cm_cells (sv_mesh sv)) by (rewrite Ese, Esn, Ecc; unfold nc; cbn [Nat.pow]; ring).
  assert (U := u64_range).
  destruct (C81_run u64 binary64 fmt inp sv CN CX EC EN L Q start mat K) as (run_ & s & R1 & E & R2 & R3 & R4 & R5); try assumption.
  - lra.
  - exact binary64_rounds.
  - exact b64_mono.
  - exact b64_e8.
  - rewrite Ecc. exact L2.
  - exists sv, start, mat, CN, CX, run_, s. split; [exact Es|]. split; [unfold averagef; rewrite Es; exact E|]. split; [exact Ecc|]. split; [exact HMr|].
    split; [exact R1|]. split; [exact R2|]. split; [exact R3|]. split; [exact R4|]. split.
    + rewrite R5, Ecc, Esn. replace (ns * ns * ns) with (ns ^ 3) by (cbn [Nat.pow]; ring). reflexivity.
    + intros H8 k n Hn. rewrite <- Ecc in H8.
      destruct (C80_rising sv CN CX EC EN L Q start (Run start mat [] 0 (repeat 0%R 250) (10 ^ 8)%R 0%R) k HSo H8 Ea eq_refl) as (s1 & s2 & F1 & F2 & F3); [cbn [ru_mat]; rewrite Ecc; exact L2|].
      assert (G := R1 (S k)). rewrite loop_succ, (R1 k) in G. rewrite (R1 k) in F1. injection F1 as <-. cbn [bind] in G. rewrite F2 in G. injection G as <-. apply F3. exact Hn.
Qed.
Print Assumptions C83_run.

(** ---- examples ---- *)

(** the mesh file of two unit cubes side by side *)
Definition cubes_file : list token :=
  TInt 12 :: flat_map (fun d => map (fun n => TNum (brick_x 1 1 1 n d)) (seq 0 12)) (seq 0 3) ++ TWord ::
  TInt 2 :: flat_map (fun c => map (fun v => TInt (Z.of_nat (two_v c v) + 1)%Z) (seq 0 8)) (seq 0 2) ++ [TWord].
Definition cubes_input : input := Input (1 / 2)%R (Z.to_nat 100000000) 1 10 (1 / 10)%R [Fill 0 0 0 0 0 0 0 0 0 1 0] [(0, 0%R); (1, 0%R); (2, 0%R); (0, 2%R)].
Lemma cubes_lists : lists_mesh cubes_file 12 2 (brick_x 1 1 1) two_v.
Proof. exists [TWord]. reflexivity. Qed.
Lemma cubes_v e v : e < 2 -> v < 8 -> two_v e v < 12.
Proof. intros He Hv. do 8 (destruct v as [|v]; [cbn; lia|]). lia. Qed.
Lemma cubes_same : same_corners 2 two_v brick_n.
Proof. intros e v He Hv. do 2 (destruct e as [|e]; [do 8 (destruct v as [|v]; [reflexivity|]); lia|]). lia. Qed.
Lemma cubes_node e l : e < 2 -> l < 8 -> brick_n e l < 12.
Proof. exact (fun He Hl => proj2 (brick_gauss e l He Hl)). Qed.
Lemma cubes_spacing : corner_spacing brick_n (fun n i => binary64 (brick_x 1 1 1 n i)) 1 1.
Proof.
  assert (B : forall l i, l < 8 -> i < 3 -> binary64 (brick_x 1 1 1 (brick_n 1 l) i) = brick_x 1 1 1 (brick_n 1 l) i) by (intros l i Hl Hi; apply brick_double; [apply cubes_node; lia|exact Hi]).
  split.
  - intros a b Ha Hb Ne. rewrite !B by (assumption || lia). rewrite <- sqrt_1 at 1. apply sqrt_le_1_alt. do 8 (destruct a as [|a]; [do 8 (destruct b as [|b]; [try (exfalso; lia); cbn; lra|]); lia|]). lia.
  - exists 0, 1. repeat (split; [lia|]). rewrite !B by lia. rewrite <- sqrt_1 at 1. f_equal. cbn. lra.
Qed.
Lemma cubes_last m r CN CX : parse_meshf binary64 cubes_file = Ok m -> refine_cellsf binary64 1 m = Ok r -> cdescribes (rf_mesh r) CN CX ->
  (forall a b, a < 8 -> b < 8 -> a <> b -> exists i, i < 3 /\ CX (CN 15 a) i <> CX (CN 15 b) i) /\ (forall l i, l < 8 -> i < 3 -> (Rabs (CX (CN 15%nat l) i) <= 10 ^ 63)%R).
Proof.
  intros Em Er HMr. destruct (parse_meshf_ok binary64 cubes_file 12 2 (brick_x 1 1 1) two_v cubes_lists cubes_v) as (m' & Em' & Enn & Ec & H1 & H2). rewrite Em in Em'. injection Em' as <-.
  apply (brick_last m r CN CX Enn Ec); [|exact Er|exact HMr]. split.
  - intros c l Hc Hl. rewrite (same_corners_vert 2 two_v brick_n cubes_same c l) by (lia || exact Hl). apply H1; assumption.
  - intros n i Hn Hi. rewrite H2 by assumption. f_equal. apply brick_double; lia.
Qed.

Example C83_run_nonvacuous : forall fmt, exists s sv CN CX, averagef binary64 fmt cubes_input cubes_file = Ok s /\ cm_cells (sv_mesh sv) = 16 /\ cdescribes (sv_mesh sv) CN CX /\ length (ru_dumps s) = 51 /\ ru_now s = clock binary64 500.
Proof.
  intros fmt. assert (EM : marks_at (clock binary64) (in_tfinal cubes_input) (in_cyc_ival cubes_input) 500 = map (fun i => 10 * i) (seq 0 51)) by exact shipped_marks_at.
  destruct (C83_run fmt cubes_input cubes_file 12 1 (brick_x 1 1 1) two_v brick_n 1%R 500) as (sv & start & mat & CN & CX & run_ & s & _ & E & Ec & HM & _ & _ & _ & R4 & R5 & _).
  - cbn [in_order cubes_input]. lia.
  - exact cubes_lists.
  - exact cubes_v.
  - exact cubes_same.
  - exact cubes_spacing.
  - exact one64.
  - exists 0, 1. repeat (split; [lia|]). exists 1, 0. repeat split; lia || reflexivity.
  - cbn. lia.
  - exact cubes_last.
  - cbn. lia.
  - cbn [in_dt_ival cubes_input]. lra.
  - cbn [in_tfinal cubes_input]. lra.
  - exact (proj2 (proj2 (C81_late _ (shipped_limit (fun _ => 0%R))))).
  - rewrite EM, map_length, seq_length. lia.
  - exists s, sv, CN, CX. split; [exact E|]. split; [exact Ec|]. split; [exact HM|]. split; [|exact R4]. rewrite R5, map_length, seq_length, EM, map_length, seq_length. reflexivity.
Qed.
Example C83_setup_nonvacuous : exists sv start mat, setupf binary64 cubes_input cubes_file = Ok (sv, start, mat) /\ cm_cells (sv_mesh sv) = 16 /\ length mat = 16.
Proof.
  destruct (C83_setup u64 binary64 cubes_input cubes_file 12 1 (brick_x 1 1 1) two_v brick_n 1%R double_like_b64) as (m & r & CN & CX & Em & _ & _ & _ & Er & Ec & HMr & H).
  - cbn [in_order cubes_input]. lia.
  - exact cubes_lists.
  - exact cubes_v.
  - exact cubes_same.
  - exact cubes_spacing.
  - exact one64.
  - exists 0, 1. repeat (split; [lia|]). exists 1, 0. repeat split; lia || reflexivity.
  - cbn. lia.
  - destruct (cubes_last m r CN CX Em Er HMr) as (D1 & D2). destruct (H D1 D2) as (sv & start & mat & EC & EN & L & Q & pt & E & Em' & _ & _ & _ & _ & _ & _ & Lm & _).
    exists sv, start, mat. split; [exact E|]. split; [rewrite Em'; exact Ec|exact Lm].
Qed.

Lemma brick_three n i : n < 12 -> i < 3 -> (Rabs (brick_x 1 2 3 n i) <= 3)%R.
Proof. intros Hn Hi. destruct (brick_box i Hi) as (Q & _). specialize (Q n Hn). apply Rabs_le. destruct i as [|[|[|i]]]; lra || lia. Qed.
(** the left brick gets the value of the region everywhere, the right one that of the box around it *)
Example C83_fill_nonvacuous : exists mat', initialize_statef binary64 (cbrick 1 2 3) [Fill 0 0 0 0 0 0 0 0 0 1 5; Fill 1 1 2 0 2 0 3 0 (-1) 2 8] [0; 0]%R = Ok mat' /\ val mat' 0 = 5%R /\ val mat' 1 = 8%R.
Proof.
  assert (U := u_e14). assert (B := u64_range). assert (S0 : (/ 10 ^ 14 <= / 10 ^ 3)%R) by (apply Rinv_le_contravar; [apply pow_lt; lra|apply Rle_pow; [lra|lia]]).
  destruct (C83_fill u64 binary64 (cbrick 1 2 3) brick_n (brick_x 1 2 3) [Fill 0 0 0 0 0 0 0 0 0 1 5; Fill 1 1 2 0 2 0 3 0 (-1) 2 8] [0; 0]%R 3%R double_like_b64) as (mat' & E & _ & H).
  - cbn [INR]. lra.
  - exact (cbrick_describes 1 2 3).
  - reflexivity.
  - exact brick_three.
  - assert (G9 := gamma_small 9 ltac:(lia)). assert (G4 := gamma_small 4 ltac:(lia)). cbn [INR] in G9, G4. assert (Ge : (0 <= gamma u64 9 * 3 <= / 10)%R) by lra.
    assert (Gr : (radius_err u64 3 (gamma u64 9 * 3) <= / 2)%R) by (unfold radius_err; assert (gamma u64 4 * (3 + gamma u64 9 * 3) <= / 100 * 4)%R by (apply Rmult_le_compat; lra); lra).
    exists mat'. split; [exact E|]. split.
    + destruct (H 0 ltac:(cbn; lia)) as (x & y & z & rc & rs & Hx & _ & _ & _ & _ & [(i & f & Ef & If & _ & ->)|(Un & _)]); [|exfalso; apply (Un 0 _ eq_refl); exact I].
      destruct i as [|[|i]]; cbn in Ef; [injection Ef as <-; reflexivity| |destruct i; discriminate]. injection Ef as <-. exfalso.
      apply Rabs_in in Hx. replace (centre brick_n (brick_x 1 2 3) 0 0) with (/ 2)%R in Hx by (unfold centre, cell_mean; cbn; lra).
      unfold covers_at in If. cbn [fl_volume fl_x1 fl_x2 fl_r1 fl_r2] in If. destruct If as [If|[If|If]]; lra.
    + destruct (H 1 ltac:(cbn; lia)) as (x & y & z & rc & rs & Hx & Hy & Hz & _ & _ & [(i & f & Ef & If & Un & ->)|(Un & _)]); [|exfalso; apply (Un 0 _ eq_refl); exact I].
      destruct i as [|[|i]]; cbn in Ef; [|injection Ef as <-; reflexivity|destruct i; discriminate]. exfalso. apply (Un 1 (Fill 1 1 2 0 2 0 3 0 (-1) 2 8) ltac:(lia) eq_refl).
      apply Rabs_in in Hx, Hy, Hz.
      replace (centre brick_n (brick_x 1 2 3) 1 0) with (3 / 2)%R in Hx by (unfold centre, cell_mean; cbn; lra). replace (centre brick_n (brick_x 1 2 3) 1 1) with 1%R in Hy by (unfold centre, cell_mean; cbn; lra).
      replace (centre brick_n (brick_x 1 2 3) 1 2) with (3 / 2)%R in Hz by (unfold centre, cell_mean; cbn; lra).
      unfold covers_at. cbn [fl_volume fl_x1 fl_x2 fl_y1 fl_y2 fl_z1 fl_z2]. left. lra.
Qed.
(** no boundary side lies in the plane x = 7 *)
Example C83_boundary_nonvacuous : exists P b, generate_bcsf binary64 (cbrick 1 2 3) P [(0, 7%R)] = Ok b /\ num_bdy_patches_in_set b 0 = Ok 0.
Proof.
  assert (U := u_e14). assert (B := u64_range). assert (S0 : (/ 10 ^ 14 <= / 10 ^ 3)%R) by (apply Rinv_le_contravar; [apply pow_lt; lra|apply Rle_pow; [lra|lia]]).
  destruct (C78_connectivity u64 binary64 8 2 brick_conn (cbrick 1 2 3) brick_n (brick_x 1 2 3) brick_n 1%R 1 double_like_b64 (cbrick_describes 1 2 3) eq_refl brick_spacing one64 brick_gauss ltac:(lia) brick_touch)
    as (C & pt & E & _ & _ & _ & HP & _).
  destruct (C83_boundary u64 binary64 (cbrick 1 2 3) (cn_patches C) [(0, 7%R)] brick_n (brick_x 1 2 3) pt 3%R double_like_b64) as (b & L & Q & Eb & H).
  - cbn [INR]. lra.
  - exact (cbrick_describes 1 2 3).
  - exact HP.
  - discriminate.
  - exact brick_three.
  - exists (cn_patches C), b. split; [exact Eb|]. destruct (H 0 0 7%R eq_refl) as ((P1 & _) & P2 & P3 & _). rewrite P1. f_equal. destruct (L 0) as [|q l] eqn:EL; [reflexivity|]. exfalso.
    destruct (P3 (Q q 0)) as (c & t & l0 & (Hc & Ht & _) & _ & D & _); [exists q, 0; split; [left; reflexivity|]; split; [lia|reflexivity]|].
    destruct (brick_centre c t 0 Hc Ht ltac:(lia)) as (k & Bk & Ek). unfold surface_distance in D. rewrite Ek in D. assert (K : (IZR k <= 6)%R) by (apply IZR_le; lia).
    assert (G5 := gamma_small 5 ltac:(lia)). assert (G4 := gamma_small 4 ltac:(lia)). assert (G2 := gamma_small 2 ltac:(lia)). cbn [INR] in G5, G4, G2.
    assert (Ge : (0 <= centre_err u64 3 <= / 10)%R) by (unfold centre_err; lra).
    assert (Gr : (radius_err u64 3 (centre_err u64 3) <= / 2)%R) by (unfold radius_err; assert (gamma u64 4 * (3 + centre_err u64 3) <= / 100 * 4)%R by (apply Rmult_le_compat; lra); lra).
    assert (T8 : (/ 10 ^ 8 <= / 10)%R) by (apply Rinv_le_contravar; [lra|]; apply Rle_trans with (10 ^ 1)%R; [lra|apply Rle_pow; [lra|lia]]).
    assert (T8' : ((1 + gamma u64 2) / 10 ^ 8 <= 2 * / 10)%R) by (unfold Rdiv; apply Rmult_le_compat; [lra|apply Rlt_le, Rinv_0_lt_compat, pow_lt; lra|lra|exact T8]).
    apply Rabs_in in D. lra.
Qed.
Example C83_exact_nonvacuous : forall fmt, averagef (fun x => x) fmt cubes_input cubes_file = average fmt cubes_input cubes_file.
Proof. intros fmt. apply C83_exact. Qed.
