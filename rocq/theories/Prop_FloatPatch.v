(** Property theorem C78 (swage/swage.cpp:1075-1093 build_connectivity, 1355-1512 build_patch_connectivity, 2050-2502 refine_mesh):
    patches and connectivity in floating-point arithmetic. *)
From Coq Require Import Reals List Arith ZArith Lra Lia.
Import ListNotations.
Require Import Verif.Base Verif.RBase Verif.RSum Verif.Spec_Patch Verif.Model_Quad Verif.Model_Geom Verif.Model_Conn Verif.Model_Refine Verif.Model_Ref Verif.Model_High Verif.Spec_Quad Verif.Spec_High Verif.Proof_High
  Verif.Proof_High3 Verif.Model_Full Verif.Spec_Full Verif.Proof_Full Verif.Proof_Full2 Verif.Proof_Full3 Verif.Proof_Full4 Verif.Prop_Full
  Verif.Spec_Float Verif.Float_Base Verif.Model_FloatRefine Verif.Spec_FloatRefine Verif.Proof_FloatRefine Verif.Proof_FloatRefine2 Verif.Proof_FloatRefine3 Verif.Proof_FloatRefine4 Verif.Proof_FloatRefine5 Verif.Prop_High Verif.Prop_Full2 Verif.Ex_FloatRefine Verif.Prop_FloatRefine
  Verif.Model_FloatPatch Verif.Spec_FloatPatch Verif.Proof_FloatPatch Verif.Proof_FloatPatch2 Verif.Proof_FloatPatch3 Verif.Proof_FloatPatch4 Verif.Proof_FloatPatch5 Verif.Ex_FloatPatch Verif.Float_Eval Verif.Model_Patch.
Local Open Scope nat_scope.

(** C78: without rounding the functions are those of C61 *)
Theorem C78_exact : (forall G ne gauss m, build_connectivityf (fun x => x) G ne gauss m = build_connectivity G ne gauss m) /\
  forall p m, refine_meshf (fun x => x) p m = refine_mesh p m.
Proof. split; [exact connectivityf_id|exact refine_meshf_id]. Qed.
Print Assumptions C78_exact.

(** C78, connectivity of any mesh whose last cell has no two corners at the same place and in which some two cells share a
    node: in rounded arithmetic build_connectivity ends without an error and all incidence lists are right; side t of
    cell c lies on patch pt c t; two sides whose corners, in the order around the side, are at the same places lie on the same patch;
    in particular the side between cell c and its neighbour c' in direction D, if both list its corners in the same order *)
Theorem C78_connectivity : forall u rnd G ne gauss m N X GN d nc, double_like u rnd -> cdescribes m N X -> cm_cells m = S nc -> corner_spacing N X nc d -> (0 < d <= 10 ^ 64)%R ->
  (forall e l, e < ne -> l < G -> getu gauss (e * G + l) = Ok (GN e l) /\ GN e l < cm_nodes m) -> ne <= S nc ->
  (exists c c', c < S nc /\ c' < S nc /\ c <> c' /\ touch 8 N c c') ->
  exists C pt, build_connectivityf rnd G ne gauss m = Ok C /\
    around_nodes (cn_node_cells C) (cm_nodes m) (S nc) 8 N /\
    corners_right (cn_corners C) (cm_nodes m) (S nc) N /\
    neighbours_right (num_cells_in_cell (cn_cell_cells C)) (cells_in_cell (cn_cell_cells C)) (S nc) 8 N /\
    patches_right (cn_patches C) (S nc) N pt /\
    (forall c t c' t', c < S nc -> t < 6 -> c' < S nc -> t' < 6 ->
       (forall k i, k < 4 -> i < 3 -> X (N c (side_corner t k)) i = X (N c' (side_corner t' k)) i) -> pt c t = pt c' t') /\
    (forall c c' D, c < S nc -> c' < S nc -> D < 3 -> (forall i j, i < 2 -> j < 2 -> N c (at3 2 D 1 i j) = N c' (at3 2 D 0 i j)) ->
       pt c (2 * D + 1) = pt c' (2 * D)) /\
    around_nodes (cn_node_elems C) (cm_nodes m) ne G GN /\
    (forall e l, e < ne -> l < G -> getu (cn_nodes_in_elem C) (e * G + l) = Ok (GN e l)) /\
    neighbours_right (num_elems_in_elem (cn_elem_elems C)) (elems_in_elem (cn_elem_elems C)) ne G GN.
Proof.
  intros u rnd G ne gauss m N X GN d nc HD HM Ec HL Hd HG Hne HS.
  destruct (connectivityf_ok u rnd HD G ne gauss m N X GN d nc HM Ec HL Hd HG Hne HS) as (C & pt & EC & A1 & A2 & A3 & A4 & A5 & A6 & A7 & A8).
  assert (B : forall c t c' t', c < S nc -> t < 6 -> c' < S nc -> t' < 6 ->
       (forall k i, k < 4 -> i < 3 -> X (N c (side_corner t k)) i = X (N c' (side_corner t' k)) i) -> pt c t = pt c' t').
  { intros c t c' t' Hc Ht Hc' Ht' Q. apply A5; try assumption. intros i Hi. apply centref_ext. intros k Hk. apply Q; assumption. }
  exists C, pt. split; [exact EC|]. repeat (split; [assumption|]). split; [|auto].
  intros c c' D Hc Hc' HD3 Q. apply B; try assumption; try lia. intros k i Hk Hi. f_equal.
  destruct D as [|[|[|D]]]; [| | |lia]; do 4 (destruct k as [|k]; [first [exact (Q 0 0 ltac:(lia) ltac:(lia))|exact (Q 0 1 ltac:(lia) ltac:(lia))|exact (Q 1 0 ltac:(lia) ltac:(lia))|exact (Q 1 1 ltac:(lia) ltac:(lia))]|]); lia.
Qed.
Print Assumptions C78_connectivity.

(** C78, agreement with exact arithmetic: if no exact key of a side is as close to a positive integer as the rounding
    errors allow, build_connectivity in rounded arithmetic gives exactly the result of exact arithmetic *)
Theorem C78_same_connectivity : forall u rnd G ne gauss m N X d nc lo hi M L, let delta := (d / 3)%R in
  double_like u rnd -> cdescribes m N X -> cm_cells m = S nc -> corner_spacing N X nc d -> (0 < d <= 10 ^ 64)%R -> (INR 12 * u < 1)%R ->
  is_box (cm_nodes m) X lo hi -> (forall i, i < 3 -> (hi i - lo i <= L)%R) -> (forall n i, n < cm_nodes m -> i < 3 -> (Rabs (X n i) <= M)%R) -> (M <= 10 ^ 63)%R ->
  (forall c s, c < S nc -> s < 6 -> clear (key_err u M L delta) (real_key delta lo hi (face_centre N X c s))) ->
  build_connectivityf rnd G ne gauss m = build_connectivity G ne gauss m.
Proof. intros u rnd G ne gauss m N X d nc lo hi M L delta HD. exact (same_connectivity u rnd HD G ne gauss m N X d nc lo hi M L). Qed.
Print Assumptions C78_same_connectivity.

(** C78, refinement: at orders 1 to 9, if the last element has no two corners at the same place, the refined cells are
    computed without an error; if the last refined cell has no two corners at the same computed place (and none beyond 1e63),
    all of refine_mesh ends without an error, all incidence lists of the refined mesh are right, cells that are
    neighbours in an element lie on a common patch, and so do the cells along a common face of two elements that list its
    corners in the same order (the second not being the first element of the mesh: its first point has a node of its own) *)
Theorem C78_refined : forall u rnd p m N X d ne, let n1 := pts1 p in let ns := Spec_Full.sub1 p in let ng := n1 ^ 3 in let nc := S ne * ns ^ 3 in
  double_like u rnd -> 1 <= p <= 9 -> cdescribes m N X -> cm_cells m = S ne -> corner_spacing N X ne d -> (0 < d <= 10 ^ 64)%R ->
  exists r nd CN CX, refine_cellsf rnd p m = Ok r /\ cm_cells (rf_mesh r) = nc /\ cdescribes (rf_mesh r) CN CX /\
    (forall g, g < S ne * ng -> node_in_gauss (rf_merged r) g = Ok (nd g)) /\
    (forall e i j k c, e < S ne -> i < ns -> j < ns -> k < ns -> c < 8 -> CN (cell_id p e i j k) c = nd (e * ng + corner_pt p i j k c)) /\
    ((forall a b, a < 8 -> b < 8 -> a <> b -> exists i, i < 3 /\ CX (CN (nc - 1) a) i <> CX (CN (nc - 1) b) i) ->
     (forall l i, l < 8 -> i < 3 -> (Rabs (CX (CN (nc - 1)%nat l) i) <= 10 ^ 63)%R) ->
     exists C pt, refine_meshf rnd p m = Ok (r, C) /\
       around_nodes (cn_node_cells C) (cm_nodes (rf_mesh r)) nc 8 CN /\
       corners_right (cn_corners C) (cm_nodes (rf_mesh r)) nc CN /\
       neighbours_right (num_cells_in_cell (cn_cell_cells C)) (cells_in_cell (cn_cell_cells C)) nc 8 CN /\
       patches_right (cn_patches C) nc CN pt /\
       around_nodes (cn_node_elems C) (cm_nodes (rf_mesh r)) (S ne) ng (fun e l => nd (e * ng + l)) /\
       neighbours_right (num_elems_in_elem (cn_elem_elems C)) (elems_in_elem (cn_elem_elems C)) (S ne) ng (fun e l => nd (e * ng + l)) /\
       (forall e D t a b, e < S ne -> D < 3 -> t + 1 < ns -> a < ns -> b < ns ->
          pt (at3 ns D t a b + ns ^ 3 * e) (2 * D + 1) = pt (at3 ns D (t + 1) a b + ns ^ 3 * e) (2 * D)) /\
       (forall e e' D a b, e < S ne -> 0 < e' < S ne -> D < 3 -> a < ns -> b < ns ->
          (forall i j, i < 2 -> j < 2 -> N e (at3 2 D 1 i j) = N e' (at3 2 D 0 i j)) ->
          pt (at3 ns D (ns - 1) a b + ns ^ 3 * e) (2 * D + 1) = pt (at3 ns D 0 a b + ns ^ 3 * e') (2 * D))).
Proof. intros u rnd p m N X d ne n1 ns ng nc HD. exact (refine_meshf_ok u rnd HD p m N X d ne). Qed.
Print Assumptions C78_refined.

(** C78, refinement, in terms of the input: under the conditions of C77_same_numbering, if the corners of the last
    refined cell are more than twice the rounding error apart in exact arithmetic, refine_mesh in rounded arithmetic
    ends without an error, with the nodes and cells of exact arithmetic; patches join the cells as in C78_refined *)
Theorem C78_refined_spaced : forall u rnd p m N X d ne lo hi M L r, let h := node_bin p d in let E := (gamma u 15 * M + 3 / 2 * gamma u 3 * L)%R in
  let ns := Spec_Full.sub1 p in let nc := S ne * ns ^ 3 in
  double_like u rnd -> 1 <= p <= 9 -> (INR 15 * u < 1)%R -> cdescribes m N X -> cm_cells m = S ne -> corner_spacing N X ne d -> (0 < d <= 10 ^ 64)%R ->
  is_box (cm_nodes m) X lo hi -> (forall i, i < 3 -> (hi i - lo i <= L)%R) -> (forall n i, n < cm_nodes m -> i < 3 -> (Rabs (X n i) <= M)%R) -> (M <= 10 ^ 15)%R -> (E <= 10 ^ 62)%R ->
  (forall g i, g < S ne * pts1 p ^ 3 -> i < 3 -> clear ((E + gamma u 12 * (L + E + / 10 ^ 14)) / h) ((tri_pos p N X g i - lo i + / 10 ^ 14) / h)) ->
  (forall i, i < 2 -> clear (gamma u 12 * (L + 1 + / 10 ^ 14) / h) ((hi i - lo i + 1 + / 10 ^ 14) / h)) ->
  refine_cells p m = Ok r ->
  (forall a b, a < 8 -> b < 8 -> a <> b -> exists i na nb x y, i < 3 /\ cm_node (rf_mesh r) (nc - 1) a = Ok na /\ cm_node (rf_mesh r) (nc - 1) b = Ok nb /\
     cm_coord (rf_mesh r) na i = Ok x /\ cm_coord (rf_mesh r) nb i = Ok y /\ (2 * E < Rabs (x - y))%R) ->
  exists r' C CN pt, refine_meshf rnd p m = Ok (r', C) /\ rf_merged r' = rf_merged r /\ rf_maps r' = rf_maps r /\ cm_nodes (rf_mesh r') = cm_nodes (rf_mesh r) /\
    (forall c l, c < nc -> l < 8 -> cm_node (rf_mesh r) c l = Ok (CN c l) /\ cm_node (rf_mesh r') c l = Ok (CN c l)) /\
    around_nodes (cn_node_cells C) (cm_nodes (rf_mesh r)) nc 8 CN /\
    corners_right (cn_corners C) (cm_nodes (rf_mesh r)) nc CN /\
    neighbours_right (num_cells_in_cell (cn_cell_cells C)) (cells_in_cell (cn_cell_cells C)) nc 8 CN /\
    patches_right (cn_patches C) nc CN pt /\
    (forall e D t a b, e < S ne -> D < 3 -> t + 1 < ns -> a < ns -> b < ns ->
       pt (at3 ns D t a b + ns ^ 3 * e) (2 * D + 1) = pt (at3 ns D (t + 1) a b + ns ^ 3 * e) (2 * D)) /\
    (forall e e' D a b, e < S ne -> 0 < e' < S ne -> D < 3 -> a < ns -> b < ns ->
       (forall i j, i < 2 -> j < 2 -> N e (at3 2 D 1 i j) = N e' (at3 2 D 0 i j)) ->
       pt (at3 ns D (ns - 1) a b + ns ^ 3 * e) (2 * D + 1) = pt (at3 ns D 0 a b + ns ^ 3 * e') (2 * D)).
Proof.
  intros u rnd p m N X d ne lo hi M L r h E ns nc HD Hp H15 HM Ec HL Hd HB HLL HX M15 HE Hc1 Hc2 Er Hsp.
  destruct (C77_same_numbering u rnd p m N X d ne lo hi M L HD (proj2 Hp) H15 HM Ec HL Hd HB HLL HX M15 Hc1 Hc2) as (r0 & r' & Er0 & Er' & Q1 & Q2 & Q3 & Q4 & Q5 & Q6).
  rewrite Er in Er0. injection Er0 as <-. fold E in Q6.
  destruct (C78_refined u rnd p m N X d ne HD Hp HM Ec HL Hd) as (r1 & nd & CN & CX & Er1 & Ecc & HMr & _ & _ & H). rewrite Er' in Er1. injection Er1 as <-.
  fold ns in H, Ecc. fold nc in H, Ecc.
  destruct (C61_refined_mesh p m N X d ne (proj2 Hp) HM Ec HL Hd) as (r2 & nd2 & Er2 & H2). rewrite Er in Er2. injection Er2 as <-. cbv zeta in H2. destruct H2 as (_ & _ & _ & Hown & _).
  assert (EN : forall c l, c < nc -> l < 8 -> cm_node (rf_mesh r) c l = Ok (CN c l) /\ cm_node (rf_mesh r') c l = Ok (CN c l) /\ CN c l < cm_nodes (rf_mesh r)).
  { intros c l Hc Hl. destruct (proj1 HMr c l ltac:(lia) Hl) as (A & B). split; [|rewrite <- Q3; auto]. unfold cm_node in *. rewrite <- Q5. exact A. }
  assert (Pc : nc - 1 < nc) by (assert (1 <= ns) by (unfold ns; apply pts1_sub); assert (0 < ns ^ 3) by (cbn [Nat.pow]; nia); unfold nc; nia).
  destruct H as (C & pt & EC & B1 & B2 & B3 & B4 & _ & _ & B5 & B6).
  - intros a b Ha Hb Ne. destruct (Hsp a b Ha Hb Ne) as (i & na & nb & x & y & Hi & Ena & Enb & Ex & Ey & G). exists i. split; [exact Hi|].
    destruct (EN (nc - 1) a Pc Ha) as (Ea & _ & La). rewrite Ena in Ea. injection Ea as ->. destruct (EN (nc - 1) b Pc Hb) as (Eb & _ & Lb). rewrite Enb in Eb. injection Eb as ->.
    destruct (Q6 _ i La Hi) as (xa & xa' & Fa & Fa' & Ga). destruct (Q6 _ i Lb Hi) as (xb & xb' & Fb & Fb' & Gb). rewrite Fa in Ex. rewrite Fb in Ey. injection Ex as ->. injection Ey as ->.
    rewrite <- Q3 in La, Lb. rewrite (proj2 HMr _ i La Hi) in Fa'. rewrite (proj2 HMr _ i Lb Hi) in Fb'. injection Fa' as ->. injection Fb' as ->. intros Q. rewrite Q in Ga.
    apply (Rlt_irrefl (2 * E)). eapply Rlt_le_trans; [exact G|]. replace (x - y)%R with ((xb' - y) - (xb' - x))%R by ring. eapply Rle_trans; [apply Rabs_triang|]. rewrite Rabs_Ropp. lra.
  - intros l i Hl Hi. destruct (EN (nc - 1) l Pc Hl) as (_ & _ & Lv). set (v := CN (nc - 1) l) in *.
    destruct (Q6 v i Lv Hi) as (x & x' & Fx & Fx' & G). destruct (Hown v Lv) as (g & Hg & _ & Hx). rewrite (Hx i Hi) in Fx. injection Fx as <-.
    rewrite <- Q3 in Lv. rewrite (proj2 HMr v i Lv Hi) in Fx'. injection Fx' as ->.
    destruct (tri_in_range p m N X g (proj2 Hp) HM ltac:(rewrite Ec; exact Hg) i Hi) as (a & b & Ha & Hb & Rg). assert (Ma := HX a i Ha Hi). assert (Mb := HX b i Hb Hi).
    assert (Ba := Rle_abs (- X a i)). assert (Bb := Rle_abs (X b i)). rewrite Rabs_Ropp in Ba.
    assert (T : (Rabs (tri_pos p N X g i) <= M)%R) by (apply Rabs_le; lra).
    replace x' with ((x' - tri_pos p N X g i) + tri_pos p N X g i)%R by ring. eapply Rle_trans; [apply Rabs_triang|].
    assert (P15 : (10 ^ 15 <= 10 ^ 62)%R) by (apply Rle_pow; [lra|lia]). assert (P63 : (10 ^ 63 = 10 * 10 ^ 62)%R) by reflexivity. assert (P0 : (0 < 10 ^ 62)%R) by (apply pow_lt; lra). rewrite P63. clear - G T M15 HE P15 P0. lra.
  - exists r', C, CN, pt. split; [exact EC|]. split; [exact Q1|]. split; [exact Q2|]. split; [exact Q3|]. split; [intros c l Hc Hl; destruct (EN c l Hc Hl) as (A & B & _); auto|].
    rewrite Q3 in B1, B2. auto 8.
Qed.
Print Assumptions C78_refined_spaced.

(** C78 does not extend to sides whose corners the two cells list in different orders: doubles add the four terms in the
    order of the list.  In this mesh of two cells, with coordinates that are doubles (in y near 2^30), both have the side between
    them as their side 1, with the other two directions swapped; in exact arithmetic the two sides lie on one patch, in doubles
    on two different patches *)
Theorem C78_swapped_side : exists m N X d gauss C C' ve v v', cdescribes m N X /\ cm_cells m = 2 /\ (forall n i, binary64 (X n i) = X n i) /\
  corner_spacing N X 1 d /\ (0 < d <= 10 ^ 64)%R /\
  (forall i j, i < 2 -> j < 2 -> N 0 (at3 2 0 1 i j) = N 1 (at3 2 0 1 j i)) /\
  build_connectivity 8 2 gauss m = Ok C /\ patches_in_cell (cn_patches C) 0 1 = Ok ve /\ patches_in_cell (cn_patches C) 1 1 = Ok ve /\
  build_connectivityf binary64 8 2 gauss m = Ok C' /\ patches_in_cell (cn_patches C') 0 1 = Ok v /\ patches_in_cell (cn_patches C') 1 1 = Ok v' /\ v <> v'.
Proof.
  destruct swapped_side as (C & C' & ve & v & v' & H). exists pmesh, tN, pX, 96%R, (map Some tconn), C, C', ve, v, v'.
  split; [exact p_describes|]. split; [reflexivity|]. split; [exact p_doubles|]. split; [exact p_spacing|]. split; [exact p96|].
  split; [intros i j Hi Hj; assert (i = 0 \/ i = 1) as [-> | ->] by lia; assert (j = 0 \/ j = 1) as [-> | ->] by lia; reflexivity|exact H].
Qed.
Print Assumptions C78_swapped_side.

(** ---- examples ---- *)

Lemma brick_spacing : corner_spacing brick_n (brick_x 1 2 3) 1 1.
Proof.
  split.
  - intros x y Hx Hy Ne. rewrite <- sqrt_1 at 1. apply sqrt_le_1_alt. do 8 (destruct x as [|x]; [do 8 (destruct y as [|y]; [try (exfalso; lia); cbn; lra|]); lia|]). lia.
  - exists 0, 1. repeat (split; [lia|]). rewrite <- sqrt_1 at 1. f_equal. cbn. lra.
Qed.
Definition brick_conn : list (option nat) := map (fun q => Some (brick_n (q / 8) (q mod 8))) (seq 0 16).
Lemma brick_gauss e l : e < 2 -> l < 8 -> getu brick_conn (e * 8 + l) = Ok (brick_n e l) /\ brick_n e l < 12.
Proof. exact (proj1 (cbrick_describes 1 2 3) e l). Qed.
Lemma brick_touch : exists c c', c < 2 /\ c' < 2 /\ c <> c' /\ touch 8 brick_n c c'.
Proof. exists 0, 1. repeat (split; [lia|]). exists 1, 0. repeat split; lia || reflexivity. Qed.
Example C78_connectivity_nonvacuous : exists C v, build_connectivityf binary64 8 2 brick_conn (cbrick 1 2 3) = Ok C /\
  patches_in_cell (cn_patches C) 0 1 = Ok v /\ patches_in_cell (cn_patches C) 1 0 = Ok v.
Proof.
  destruct (C78_connectivity u64 binary64 8 2 brick_conn (cbrick 1 2 3) brick_n (brick_x 1 2 3) brick_n 1%R 1 double_like_b64 (cbrick_describes 1 2 3) eq_refl brick_spacing one64 brick_gauss ltac:(lia) brick_touch)
    as (C & pt & E & _ & _ & _ & (_ & Ap & _) & _ & B & _).
  exists C, (Z.of_nat (pt 0 1)). split; [exact E|]. split; [apply Ap; lia|]. assert (Q := B 0 1 0 ltac:(lia) ltac:(lia) ltac:(lia)). cbn [Nat.mul Nat.add] in Q. rewrite Q; [apply Ap; lia|].
  intros i j Hi Hj. assert (i = 0 \/ i = 1) as [-> | ->] by lia; assert (j = 0 \/ j = 1) as [-> | ->] by lia; reflexivity.
Qed.
Lemma brick_box : is_box 12 (brick_x 1 2 3) (fun _ => 0%R) (fun i => match i with 2 => 3 | _ => 2 end%R).
Proof.
  intros i Hi. split; [|split].
  - intros n Hn. do 12 (destruct n as [|n]; [do 3 (destruct i as [|i]; [cbn; lra|]); lia|]). lia.
  - exists 0. split; [lia|]. do 3 (destruct i as [|i]; [cbn; ring|]). lia.
  - exists 11. split; [lia|]. do 3 (destruct i as [|i]; [cbn; ring|]). lia.
Qed.
Lemma brick_centre c s i : c < 2 -> s < 6 -> i < 3 -> exists k, (0 <= k <= 6)%Z /\ face_centre brick_n (brick_x 1 2 3) c s i = (IZR k / 2)%R.
Proof.
  intros Hc Hs Hi. unfold face_centre, side_mean.
  do 2 (destruct c as [|c]; [do 6 (destruct s as [|s]; [do 3 (destruct i as [|i]; [first [exists 0%Z; split; [lia|]; cbn; lra|exists 1%Z; split; [lia|]; cbn; lra|exists 2%Z; split; [lia|]; cbn; lra|exists 3%Z; split; [lia|]; cbn; lra|exists 4%Z; split; [lia|]; cbn; lra|exists 6%Z; split; [lia|]; cbn; lra]|]); lia|]); lia|]). lia.
Qed.
Example C78_same_connectivity_nonvacuous : build_connectivityf binary64 8 2 brick_conn (cbrick 1 2 3) = build_connectivity 8 2 brick_conn (cbrick 1 2 3).
Proof.
  apply (C78_same_connectivity u64 binary64 8 2 brick_conn (cbrick 1 2 3) brick_n (brick_x 1 2 3) 1%R 1 (fun _ => 0%R) (fun i => match i with 2 => 3 | _ => 2 end%R) 3%R 3%R double_like_b64 (cbrick_describes 1 2 3) eq_refl brick_spacing one64).
  - assert (U := u_e14). assert (B := u64_range). assert (S0 : (/ 10 ^ 14 <= / 10 ^ 3)%R) by (apply Rinv_le_contravar; [apply pow_lt; lra|apply Rle_pow; [lra|lia]]). cbn [INR]. lra.
  - exact brick_box.
  - intros i Hi. destruct i as [|[|[|i]]]; lra || lia.
  - intros n i Hn Hi. destruct (brick_box i Hi) as (Q & _). specialize (Q n Hn). apply Rabs_le. destruct i as [|[|[|i]]]; lra || lia.
  - apply Rle_trans with (10 ^ 1)%R; [lra|apply Rle_pow; [lra|lia]].
  - intros c s Hc Hs.
    destruct (brick_centre c s 0 Hc Hs ltac:(lia)) as (a & Ba & Ea). destruct (brick_centre c s 1 Hc Hs ltac:(lia)) as (b & Bb & Eb). destruct (brick_centre c s 2 Hc Hs ltac:(lia)) as (k & Bk & Ek).
    unfold real_key, face_bin. cbv zeta. rewrite Ea, Eb, Ek.
    assert (U := u_e14). assert (B := u64_range). assert (G5 := gamma_small 5 ltac:(lia)). assert (G12 := gamma_small 12 ltac:(lia)). assert (G3 := gamma_small 3 ltac:(lia)). cbn [INR] in G5, G12, G3.
    assert (T : (/ 10 ^ 14 = / 100 * / 10 ^ 12)%R) by (rewrite <- Rinv_mult; f_equal; ring). rewrite T in U.
    assert (E12 : (0 < / 10 ^ 12 <= / 10 ^ 6)%R) by (split; [apply Rinv_0_lt_compat, pow_lt; lra|apply Rinv_le_contravar; [apply pow_lt; lra|apply Rle_pow; [lra|lia]]]).
    assert (E16 : (0 < / 10 ^ 16 <= / 10 ^ 12)%R) by (split; [apply Rinv_0_lt_compat, pow_lt; lra|apply Rinv_le_contravar; [apply pow_lt; lra|apply Rle_pow; [lra|lia]]]).
    unfold key_err, bin_err, centre_err. cbv zeta.
    set (e := (/ 10 ^ 12)%R) in *. set (f := (/ 10 ^ 16)%R) in *. clearbody e f. clear T.
    assert (E6 : (/ 10 ^ 6 = / 1000000)%R) by (f_equal; ring). rewrite E6 in E12. clear E6.
    assert (Hr : forall z : Z, (0 <= z <= 6)%Z -> (0 <= IZR z <= 6)%R) by (intros z (H1 & H2); split; apply IZR_le; assumption).
    assert (Fb : forall z : Z, (0 <= z <= 6)%Z -> Rmax f ((IZR z / 2 - 0 + e) / (1 / 3)) = (3 * (IZR z / 2 + e))%R).
    { intros z Hz. apply Hr in Hz. replace ((IZR z / 2 - 0 + e) / (1 / 3))%R with (3 * (IZR z / 2 + e))%R by field. apply Rmax_right. lra. }
    rewrite !Fb by assumption.
    set (g3 := gamma u64 3) in *. set (g5 := gamma u64 5) in *. set (g12 := gamma u64 12) in *. set (u := u64) in *. clearbody g3 g5 g12 u. 
    assert (Sm : (0 <= u <= / 1000000 /\ u * 8000 <= e)%R) by lra. clear U.
    set (eb := ((g5 * 3 + g12 * (3 + g5 * 3 + e)) / (1 / 3) + u)%R). assert (Heb : (0 <= eb <= 173 * u)%R).
    { unfold eb. replace ((g5 * 3 + g12 * (3 + g5 * 3 + e)) / (1 / 3))%R with (3 * (g5 * 3 + g12 * (3 + g5 * 3 + e)))%R by field. assert (g12 * (3 + g5 * 3 + e) <= 13 * u * (301 / 100))%R by (apply Rmult_le_compat; lra). assert (0 <= g12 * (3 + g5 * 3 + e))%R by (apply Rmult_le_pos; lra). lra. }
    set (Q := ((3 + e) / (1 / 3) + 1 + eb)%R). assert (HQ : (0 <= Q <= 1001 / 100)%R) by (unfold Q; replace ((3 + e) / (1 / 3))%R with (9 + 3 * e)%R by field; lra).
    clearbody eb Q.
    assert (Q2 : (0 <= Q ^ 2 <= 1003 / 10)%R) by nra. assert (Q3 : (0 <= Q ^ 3 <= 1005)%R) by (replace (Q ^ 3)%R with (Q * Q ^ 2)%R by ring; nra).
    set (eta := (g3 * (Q + Q ^ 2 + Q ^ 3) + eb * (1 + 2 * Q + 3 * Q ^ 2))%R).
    assert (Heta : (0 <= eta <= 8 * e)%R).
    { unfold eta. assert (g3 * (Q + Q ^ 2 + Q ^ 3) <= 4 * u * 1116)%R by (apply Rmult_le_compat; lra). assert (eb * (1 + 2 * Q + 3 * Q ^ 2) <= 173 * u * 323)%R by (apply Rmult_le_compat; lra).
      assert (0 <= g3 * (Q + Q ^ 2 + Q ^ 3))%R by (apply Rmult_le_pos; lra). assert (0 <= eb * (1 + 2 * Q + 3 * Q ^ 2))%R by (apply Rmult_le_pos; lra). lra. }
    clearbody eta. apply Hr in Bb as Rb. apply Hr in Bk as Rk.
    replace (3 * (IZR a / 2 + e) + 3 * (IZR b / 2 + e) * ((2 - 0 + e) / (1 / 3)) + 3 * (IZR k / 2 + e) * ((2 - 0 + e) / (1 / 3)) * ((2 - 0 + e) / (1 / 3)))%R
      with (IZR a * (3 / 2) + IZR (9 * b + 54 * k) + e * (3 + 9 / 2 * IZR b + 3 * (6 + 3 * e) + 3 / 2 * IZR k * (36 + 9 * e) + 3 * (6 + 3 * e) ^ 2))%R by (rewrite plus_IZR, !mult_IZR; field).
    set (o := (3 + 9 / 2 * IZR b + 3 * (6 + 3 * e) + 3 / 2 * IZR k * (36 + 9 * e) + 3 * (6 + 3 * e) ^ 2)%R).
    assert (Ho : (100 <= o <= 1000)%R).
    { unfold o. assert (0 <= IZR k * (36 + 9 * e) <= 6 * 37)%R by (split; [apply Rmult_le_pos; lra|apply Rmult_le_compat; lra]). assert (36 <= (6 + 3 * e) ^ 2 <= 37)%R by nra. lra. }
    clearbody o. assert (Heo : (100 * e <= e * o <= / 1000)%R) by nra.
    destruct (Z.Even_or_Odd a) as [(a' & ->)|(a' & ->)].
    + apply (clear_near _ _ (3 * a' + (9 * b + 54 * k)) (e * o)); try lra. rewrite !plus_IZR, !mult_IZR. field.
    + apply (clear_near _ _ (3 * a' + 1 + (9 * b + 54 * k)) (/ 2 + e * o)); try lra. rewrite !plus_IZR, !mult_IZR. field.
Qed.
Lemma mesh_cells p m r C : refine_mesh p m = Ok (r, C) -> refine_cells p m = Ok r.
Proof. intros E. unfold refine_mesh in E. apply bind_ok in E. destruct E as (r0 & Er0 & E). apply bind_ok in E. destruct E as (c0 & _ & E). injection E as -> _. exact Er0. Qed.
Lemma meshf_cells rnd p m r C : refine_meshf rnd p m = Ok (r, C) -> refine_cellsf rnd p m = Ok r.
Proof. intros E. unfold refine_meshf in E. apply bind_ok in E. destruct E as (r0 & Er0 & E). apply bind_ok in E. destruct E as (c0 & _ & E). injection E as -> _. exact Er0. Qed.
Lemma cube_last c i : c < 8 -> i < 3 -> tri_pos 1 (fun _ l => l) cube_x (corner_pt 1 1 1 1 c) i = ((1 + INR (corner_coord c i)) / 2)%R.
Proof.
  intros Hc Hi. rewrite tri_pos_map. change (pts1 1) with 3%nat.
  assert (L : lob 3 1 = 0%R /\ lob 3 2 = 1%R) by (unfold lob; cbn; unfold dec; cbn; lra). destruct L as (L1 & L2).
  set (q := fun j => lob 3 (grid 3 (corner_pt 1 1 1 1 c) j)).
  assert (E : tri_map (fun v => cube_x v i) q = ((1 + q i) / 2)%R) by (unfold tri_map, tri_basis, ref_vert, cube_x; destruct i as [|[|[|i]]]; [| | |lia]; cbn; field).
  rewrite E. assert (Q : q i = INR (corner_coord c i)); [|rewrite Q; reflexivity]. unfold q. clear q E.
  do 8 (destruct c as [|c]; [do 3 (destruct i as [|i]; [first [transitivity (lob 3 1); [reflexivity|rewrite L1; reflexivity]|transitivity (lob 3 2); [reflexivity|rewrite L2; reflexivity]]|]); lia|]). lia.
Qed.
(** the unit cube at order 1, in doubles *)
Example C78_refined_spaced_nonvacuous : exists r' C v, refine_meshf binary64 1 (csingle cube_x) = Ok (r', C) /\ cm_cells (rf_mesh r') = 8 /\
  patches_in_cell (cn_patches C) 0 1 = Ok v /\ patches_in_cell (cn_patches C) 1 0 = Ok v.
Proof.
  assert (B := u64_range). assert (U := u_e14).
  assert (G15 := gamma_small 15 ltac:(lia)). assert (G12 := gamma_small 12 ltac:(lia)). assert (G3 := gamma_small 3 ltac:(lia)). cbn [INR] in G15, G12, G3.
  assert (S0 : (/ 10 ^ 14 <= / 1000)%R) by (apply Rinv_le_contravar; [lra|]; apply Rle_trans with (10 ^ 3)%R; [lra|]; apply Rle_pow; [lra|lia]).
  assert (Eh : forall x, (x / node_bin 1 1 = x * 7)%R) by (intros x; unfold node_bin; change (INR (Nat.max 1 1)) with 1%R; field).
  assert (UL : (u64 <= / 1024)%R) by (unfold u64; apply Rinv_le_contravar; [lra|]; apply Rle_trans with (2 ^ 10)%R; [lra|]; apply Rle_pow; [lra|lia]).
  set (e := (/ 10 ^ 14)%R) in *. set (E := (gamma u64 15 * 1 + 3 / 2 * gamma u64 3 * 1)%R).
  assert (HE : (0 <= E <= 22 * u64)%R) by (unfold E; lra).
  assert (He : ((E + gamma u64 12 * (1 + E + e)) * 7 < 7 * e)%R) by nra. assert (He0 : (0 <= (E + gamma u64 12 * (1 + E + e)) * 7)%R) by nra.
  assert (He' : (gamma u64 12 * (1 + 1 + e) * 7 < 7 * e)%R) by nra. assert (He0' : (0 <= gamma u64 12 * (1 + 1 + e) * 7)%R) by nra.
  destruct (C61_boxes 1 0 (csingle cube_x) (fun _ l => l) cube_x (fun _ => 0%R) (fun _ => 1%R) (fun _ _ => 0%Z) 0 ltac:(lia) (csingle_describes cube_x) eq_refl cube_boxes) as (r & C0 & nd & CN & CX & pt0 & E0 & H0);
    [lia|intros; lra|cbn; lra|lia|]. cbv zeta in H0. change (1 * pts1 1 ^ 3) with 27 in H0. change (1 * Spec_Full.sub1 1 ^ 3) with 8 in H0. destruct H0 as (Z1 & Z2 & Z3 & Z4 & Z5 & Z6 & Z7 & _).
  assert (Er : refine_cells 1 (csingle cube_x) = Ok r).
  { exact (mesh_cells _ _ _ _ E0). }
  destruct (C78_refined_spaced u64 binary64 1 (csingle cube_x) (fun _ l => l) cube_x 1%R 0 (fun _ => 0%R) (fun _ => 1%R) 1%R 1%R r double_like_b64 ltac:(lia)) as (r' & C & CN' & pt & EC & _ & _ & En & _ & _ & _ & _ & (_ & Ap & _) & Hin & _).
  - cbn [INR]. lra.
  - apply csingle_describes.
  - reflexivity.
  - exact cube_spacing.
  - exact one64.
  - exact cube_box.
  - intros; lra.
  - intros n i Hn Hi. destruct (cube_box i Hi) as (Q & _). specialize (Q n Hn). apply Rabs_le. lra.
  - apply pow_R1_Rle; lra.
  - fold E. apply Rle_trans with 1%R; [lra|apply pow_R1_Rle; lra].
  - change (1 * pts1 1 ^ 3)%nat with 27%nat. intros g i Hg Hi. fold e E. rewrite !Eh. destruct (cube_pos g i Hg Hi) as [-> |[-> | ->]].
    + apply (clear_near _ _ 0 (7 * e)); lra.
    + apply (clear_near _ _ 3 (/ 2 + 7 * e)); lra.
    + apply (clear_near _ _ 7 (7 * e)); lra.
  - intros i Hi. fold e. rewrite !Eh. apply (clear_near _ _ 14 (7 * e)); lra.
  - exact Er.
  - fold E. change (1 * Spec_Full.sub1 1 ^ 3 - 1) with 7. intros a b Ha Hb Ne.
    assert (P : forall c, c < 8 -> cm_node (rf_mesh r) 7 c = Ok (nd (corner_pt 1 1 1 1 c)) /\ forall i, i < 3 -> cm_coord (rf_mesh r) (nd (corner_pt 1 1 1 1 c)) i = Ok ((1 + INR (corner_coord c i)) / 2)%R).
    { intros c Hc. destruct (proj1 Z2 7 c ltac:(rewrite Z1; lia) Hc) as (Y1 & Y2). assert (Y3 := Z7 0 1 1 1 c ltac:(lia) ltac:(cbn; lia) ltac:(cbn; lia) ltac:(cbn; lia) Hc). change (cell_id 1 0 1 1 1) with 7 in Y3. cbn [Nat.mul Nat.add] in Y3.
      rewrite Y3 in Y1, Y2. split; [exact Y1|]. intros i Hi. rewrite (proj2 Z2 _ i Y2 Hi). f_equal.
      assert (L : corner_pt 1 1 1 1 c < 27) by (clear - Hc; do 8 (destruct c as [|c]; [vm_compute; lia|]); lia).
      rewrite (proj2 (proj2 (Z3 _ L)) i Hi). apply cube_last; assumption. }
    assert (exists i, i < 3 /\ corner_coord a i <> corner_coord b i) as (i & Hi & Nc).
    { clear - Ha Hb Ne. destruct (Nat.eq_dec (corner_coord a 0) (corner_coord b 0)) as [Q0|]; [|exists 0; auto]. destruct (Nat.eq_dec (corner_coord a 1) (corner_coord b 1)) as [Q1|]; [|exists 1; auto]. exists 2. split; [lia|]. intros Q2. apply Ne.
      do 8 (destruct a as [|a]; [do 8 (destruct b as [|b]; [try reflexivity; vm_compute in Q0, Q1, Q2; discriminate|]); lia|]). lia. }
    destruct (P a Ha) as (Pa & Xa). destruct (P b Hb) as (Pb & Xb). exists i, (nd (corner_pt 1 1 1 1 a)), (nd (corner_pt 1 1 1 1 b)). eexists. eexists.
    split; [exact Hi|]. split; [exact Pa|]. split; [exact Pb|]. split; [apply Xa, Hi|]. split; [apply Xb, Hi|].
    assert (c2 : forall c, corner_coord c i = 0 \/ corner_coord c i = 1) by (intros c; assert (corner_coord c i < 2) by (apply Nat.mod_upper_bound; lia); lia).
    destruct (c2 a) as [Qa|Qa], (c2 b) as [Qb|Qb]; rewrite Qa, Qb in *; try lia; cbn [INR]; [rewrite Rabs_left by lra|rewrite Rabs_right by lra]; lra.
  - assert (Ecc : cm_cells (rf_mesh r') = 8).
    { destruct (C78_refined u64 binary64 1 (csingle cube_x) (fun _ l => l) cube_x 1%R 0 double_like_b64 ltac:(lia) (csingle_describes cube_x) eq_refl cube_spacing one64) as (r1 & _ & _ & _ & Er1 & Q & _).
      apply meshf_cells in EC. rewrite Er1 in EC. injection EC as <-. exact Q. }
    exists r', C, (Z.of_nat (pt 0 1)). split; [exact EC|]. split; [exact Ecc|]. split; [apply Ap; cbn; lia|].
    assert (Q := Hin 0 0 0 0 0 ltac:(lia) ltac:(lia) ltac:(cbn; lia) ltac:(cbn; lia) ltac:(cbn; lia)). change (pt 0 1 = pt 1 0) in Q. rewrite Q. apply Ap; cbn; lia.
Qed.
