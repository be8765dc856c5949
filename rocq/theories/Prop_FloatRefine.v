(** Property theorem C77 (swage/swage.cpp:2050-2499 refine_mesh): mesh refinement in floating-point arithmetic. *)
From Coq Require Import Reals List Arith ZArith Lra Lia.
Import ListNotations.
Require Import Verif.Base Verif.RBase Verif.RSum Verif.Model_Quad Verif.Model_Geom Verif.Model_Refine Verif.Model_Ref Verif.Model_High Verif.Spec_Quad Verif.Spec_High
  Verif.Proof_Quad3 Verif.Proof_Quad7 Verif.Proof_Lob Verif.Proof_High3 Verif.Model_Full Verif.Spec_Full Verif.Proof_Full Verif.Prop_Full
  Verif.Spec_Float Verif.Float_Base Verif.Model_FloatRefine Verif.Spec_FloatRefine Verif.Proof_FloatRefine Verif.Proof_FloatRefine2 Verif.Proof_FloatRefine3 Verif.Proof_FloatRefine4 Verif.Proof_FloatRefine5 Verif.Prop_High Verif.Prop_Full2 Verif.Ex_FloatRefine.
Local Open Scope nat_scope.

(** C77: binary64 with unbounded exponent is such a rounding; so is no rounding at all, and then the
    function is the one of C61 *)
Theorem C77_doubles : double_like u64 binary64 /\ double_like 0 (fun x => x) /\ forall p m, refine_cellsf (fun x => x) p m = refine_cells p m.
Proof. split; [exact double_like_b64|]. split; [exact id_double_like|exact refine_cellsf_id]. Qed.
Print Assumptions C77_doubles.

(** C77, any mesh: for orders 0 to 9, if the last element has no two corners at the same place, refinement in
    rounded arithmetic ends without an error whatever the other elements look like; the mesh has one node per
    Gauss point up to merging; the first Gauss point has node 0 to itself; points at the same computed position
    (other than the first) have the same node; every node sits at one of its computed Gauss points; cell (i,j,k) of an
    element has the nodes of the eight Gauss points around it. *)
Theorem C77_refined_mesh : forall u rnd p m N X d ne, let n1 := pts1 p in let ns := Spec_Full.sub1 p in let ng := n1 ^ 3 in
  double_like u rnd -> p <= 9 -> cdescribes m N X -> cm_cells m = S ne -> corner_spacing N X ne d -> (0 < d <= 10 ^ 64)%R ->
  exists r nd pos, refine_cellsf rnd p m = Ok r /\ let M := rf_mesh r in
    cm_cells M = S ne * ns ^ 3 /\
    (forall g i, g < S ne * ng -> i < 3 -> getu (rf_points r) (g * 3 + i) = Ok (pos g i)) /\
    (forall g, g < S ne * ng -> node_in_gauss (rf_merged r) g = Ok (nd g) /\ nd g < cm_nodes M) /\
    (forall v, v < cm_nodes M -> exists g, g < S ne * ng /\ nd g = v /\ forall i, i < 3 -> cm_coord M v i = Ok (pos g i)) /\
    (forall g, g < S ne * ng -> (nd g = 0 <-> g = 0)) /\
    (forall g g', 0 < g < S ne * ng -> 0 < g' < S ne * ng -> (forall i, i < 3 -> pos g i = pos g' i) -> nd g = nd g') /\
    forall e i j k, e < S ne -> i < ns -> j < ns -> k < ns ->
      cells_in_elem (rf_maps r) ns e (i + j * ns + k * ns * ns) = Ok (cell_id p e i j k) /\
      elems_in_cell (rf_maps r) (cell_id p e i j k) = Ok e /\
      forall c, c < 8 -> gauss_in_cell (rf_maps r) (cell_id p e i j k) c = Ok (e * ng + corner_pt p i j k c) /\
        cm_node M (cell_id p e i j k) c = Ok (nd (e * ng + corner_pt p i j k c)).
Proof.
  intros u rnd p m N X d ne n1 ns ng HD Hp HM Ec HL Hd.
  destruct (refine_cellsf_ok u rnd HD p m N X d ne Hp HM Ec HL Hd) as (r & nd & Er & H). cbv zeta in H. fold n1 ns ng in H. destruct H as (H1 & H).
  exists r, nd, (tri_posf rnd p N X). split; [exact Er|]. cbv zeta. split; [rewrite H1; cbn [Nat.pow]; ring|exact H].
Qed.
Print Assumptions C77_refined_mesh.

(** C77, accuracy: if the corners of an element have coordinates at most M in absolute value and differ by at most L in
    direction i, every computed point of the element differs in that direction from the exact point by at most
    gamma_15 M + 3/2 gamma_3 L *)
Theorem C77_accuracy : forall u rnd p m N X d ne, let ng := pts1 p ^ 3 in
  double_like u rnd -> (INR 15 * u < 1)%R -> p <= 9 -> cdescribes m N X -> cm_cells m = S ne -> corner_spacing N X ne d -> (0 < d <= 10 ^ 64)%R ->
  exists r, refine_cellsf rnd p m = Ok r /\ forall e l i M L, e < S ne -> l < ng -> i < 3 ->
    (forall v w, v < 8 -> w < 8 -> (Rabs (X (N e v) i) <= M /\ X (N e v) i - X (N e w) i <= L)%R) ->
    exists c, getu (rf_points r) ((e * ng + l) * 3 + i) = Ok c /\ (Rabs (c - tri_pos p N X (e * ng + l)%nat i) <= gamma u 15 * M + 3 / 2 * gamma u 3 * L)%R.
Proof.
  intros u rnd p m N X d ne ng HD H15 Hp HM Ec HL Hd.
  destruct (refine_cellsf_ok u rnd HD p m N X d ne Hp HM Ec HL Hd) as (r & nd & Er & H). cbv zeta in H. fold ng in H. destruct H as (_ & Hpt & _).
  exists r. split; [exact Er|]. intros e l i M L He Hl Hi HB. exists (tri_posf rnd p N X (e * ng + l) i). split; [apply Hpt; [nia|exact Hi]|].
  assert (Ee : (e * ng + l) / ng = e) by (rewrite Nat.add_comm, Nat.div_add, Nat.div_small by lia; reflexivity).
  destruct (exists_min 8 (fun v => X (N e v) i) ltac:(lia)) as (a & Ha & Qa). destruct (exists_max 8 (fun v => X (N e v) i) ltac:(lia)) as (b & Hb & Qb).
  eapply Rle_trans; [apply (pos_err u rnd HD p N X (e * ng + l) i M (X (N e a) i) (X (N e b) i) Hp H15)|].
  - intros v Hv. fold ng. rewrite Ee. split; [apply (HB v v Hv Hv)|]. split; [apply (Qa v Hv)|apply (Qb v Hv)].
  - apply Rplus_le_compat_l. apply Rmult_le_compat_l; [|apply (HB b a Hb Ha)].
    assert (U1 := dl_u1 u rnd HD). assert (G := gamma_nonneg u U1 3 ltac:(cbn [INR] in *; lra)). lra.
Qed.
Print Assumptions C77_accuracy.

(** C77, nodes: the computed Lobatto nodes are exactly symmetric, for every number of points from 2 to 20 *)
Theorem C77_lobatto : forall u rnd n i, double_like u rnd -> 2 <= n <= 20 -> i < n ->
  length (lobatto_floats rnd (Z.of_nat n)) = n /\
  nth (n - 1 - i) (lobatto_floats rnd (Z.of_nat n)) 0%R = (- nth i (lobatto_floats rnd (Z.of_nat n)) 0)%R.
Proof.
  intros u rnd n i HD Hn Hi. destruct (Nat.eq_dec n 4) as [-> |N4]; [|destruct (Nat.eq_dec n 5) as [-> |N5]; [|destruct (Nat.eq_dec n 6) as [-> |N6]]].
  - assert (E : rnd (rnd (-1 / 5)%R * rnd (sqrt 5))%R = (- rnd (rnd (1 / 5) * rnd (sqrt 5)))%R).
    { rewrite <- (dl_opp u rnd HD). f_equal. replace (-1 / 5)%R with (- (1 / 5))%R by field. rewrite (dl_opp u rnd HD). ring. }
    split; [reflexivity|]. destruct i as [|[|[|[|i]]]]; [| | | |lia]; cbn [Nat.sub Z.of_nat Pos.of_succ_nat Pos.succ lobatto_floats nth]; rewrite ?E; ring.
  - split; [reflexivity|]. exact (lobf_sym u rnd HD 2 i ltac:(lia) ltac:(change (Spec_Full.sub1 2) with 4; lia)).
  - split; [reflexivity|]. destruct i as [|[|[|[|[|[|i]]]]]]; [| | | | | |lia]; cbn [Nat.sub Z.of_nat Pos.of_succ_nat Pos.succ lobatto_floats nth]; ring.
  - rewrite floats_map by assumption. split; [rewrite map_length; apply lob_len; lia|].
    fold (lob n i). assert (Q : forall j, nth j (map rnd (lobatto_nodes_tab (Z.of_nat n))) 0%R = rnd (lob n j)).
    { intros j. unfold lob. rewrite <- (dl_0 u rnd HD) at 1. apply map_nth. }
    rewrite !Q, <- (dl_opp u rnd HD). f_equal.
    destruct (lobatto_rule n ltac:(lia)) as (_ & _ & _ & R). destruct (q_symmetric _ _ _ _ _ R i Hi) as (Y & _). exact Y.
Qed.
Print Assumptions C77_lobatto.

(** C77, corners: the eight corner points of an element are its corners, rounded: unchanged if they are floating-point numbers *)
Theorem C77_corners : forall u rnd p m N X d ne, let n1 := pts1 p in let ns := Spec_Full.sub1 p in
  double_like u rnd -> p <= 9 -> cdescribes m N X -> cm_cells m = S ne -> corner_spacing N X ne d -> (0 < d <= 10 ^ 64)%R ->
  exists r, refine_cellsf rnd p m = Ok r /\ forall e a b c i, e < S ne -> a < 2 -> b < 2 -> c < 2 -> i < 3 ->
    getu (rf_points r) ((e * n1 ^ 3 + (a * ns + b * ns * n1 + c * ns * n1 * n1)) * 3 + i) = Ok (rnd (X (N e (a + b * 2 + c * 4)) i)).
Proof.
  intros u rnd p m N X d ne n1 ns HD Hp HM Ec HL Hd.
  destruct (refine_cellsf_ok u rnd HD p m N X d ne Hp HM Ec HL Hd) as (r & nd & Er & H). cbv zeta in H. fold n1 in H. destruct H as (_ & Hpt & _).
  exists r. split; [exact Er|]. intros e a b c i He Ha Hb Hc Hi.
  assert (La := end_lt p a Hp Ha). assert (Lb := end_lt p b Hp Hb). assert (Lc := end_lt p c Hp Hc). fold n1 ns in La, Lb, Lc.
  assert (L := at3_lt n1 0 _ _ _ ltac:(lia) La Lb Lc).
  assert (Q := corner_pos u rnd HD p N X Hp e 0 a b c i ltac:(lia) Ha Hb Hc). fold n1 ns in Q. unfold at3 in Q, L.
  rewrite Hpt by (nia || exact Hi). rewrite Q. replace (a + b * 2 + c * 4) with (a + b * 2 + c * 2 * 2) by lia. reflexivity.
Qed.
Print Assumptions C77_corners.

(** C77, edges: two elements with the same end points of an edge, whatever the position of the edge in either
    element, get the same nodes on the edge, also if they run through it in opposite directions *)
Theorem C77_edges : forall u rnd p m N X d ne e D s t e' D' s' t' i, let n1 := pts1 p in let ns := Spec_Full.sub1 p in
  double_like u rnd -> p <= 9 -> cdescribes m N X -> cm_cells m = S ne -> corner_spacing N X ne d -> (0 < d <= 10 ^ 64)%R ->
  e < S ne -> D < 3 -> s < 2 -> t < 2 -> e' < S ne -> D' < 3 -> s' < 2 -> t' < 2 -> i <= ns ->
  (forall a, a < 2 -> N e (at3 2 D a s t) = N e' (at3 2 D' a s' t')) ->
  0 < e * n1 ^ 3 + at3 n1 D i (s * ns) (t * ns) -> 0 < e' * n1 ^ 3 + at3 n1 D' i (s' * ns) (t' * ns) ->
  exists r v, refine_cellsf rnd p m = Ok r /\
    node_in_gauss (rf_merged r) (e * n1 ^ 3 + at3 n1 D i (s * ns) (t * ns)) = Ok v /\ node_in_gauss (rf_merged r) (e' * n1 ^ 3 + at3 n1 D' i (s' * ns) (t' * ns)) = Ok v.
Proof.
  intros u rnd p m N X d ne e D s t e' D' s' t' i n1 ns HD Hp HM Ec HL Hd He HD3 Hs Ht He' HD3' Hs' Ht' Hi HN P P'.
  destruct (pts1_sub p) as (A1 & A2). fold n1 ns in A1, A2. assert (Li : i < n1) by lia.
  assert (L := at3_lt n1 D i _ _ HD3 Li (end_lt p s Hp Hs) (end_lt p t Hp Ht)). assert (L' := at3_lt n1 D' i _ _ HD3' Li (end_lt p s' Hp Hs') (end_lt p t' Hp Ht')). fold ns in L, L'.
  apply (same_node u rnd HD p m N X d ne); try assumption; fold n1; [nia|nia|]. intros j. apply (edges_equal u rnd HD p N X Hp); assumption.
Qed.
Print Assumptions C77_edges.
Theorem C77_edges_reversed : forall u rnd p m N X d ne e D s t e' D' s' t' i, let n1 := pts1 p in let ns := Spec_Full.sub1 p in
  double_like u rnd -> p <= 9 -> cdescribes m N X -> cm_cells m = S ne -> corner_spacing N X ne d -> (0 < d <= 10 ^ 64)%R ->
  e < S ne -> D < 3 -> s < 2 -> t < 2 -> e' < S ne -> D' < 3 -> s' < 2 -> t' < 2 -> i <= ns ->
  (forall a, a < 2 -> N e (at3 2 D a s t) = N e' (at3 2 D' (1 - a) s' t')) ->
  0 < e * n1 ^ 3 + at3 n1 D i (s * ns) (t * ns) -> 0 < e' * n1 ^ 3 + at3 n1 D' (ns - i) (s' * ns) (t' * ns) ->
  exists r v, refine_cellsf rnd p m = Ok r /\
    node_in_gauss (rf_merged r) (e * n1 ^ 3 + at3 n1 D i (s * ns) (t * ns)) = Ok v /\ node_in_gauss (rf_merged r) (e' * n1 ^ 3 + at3 n1 D' (ns - i) (s' * ns) (t' * ns)) = Ok v.
Proof.
  intros u rnd p m N X d ne e D s t e' D' s' t' i n1 ns HD Hp HM Ec HL Hd He HD3 Hs Ht He' HD3' Hs' Ht' Hi HN P P'.
  destruct (pts1_sub p) as (A1 & A2). fold n1 ns in A1, A2. assert (Li : i < n1) by lia. assert (Li' : ns - i < n1) by lia.
  assert (L := at3_lt n1 D i _ _ HD3 Li (end_lt p s Hp Hs) (end_lt p t Hp Ht)). assert (L' := at3_lt n1 D' _ _ _ HD3' Li' (end_lt p s' Hp Hs') (end_lt p t' Hp Ht')). fold ns in L, L'.
  apply (same_node u rnd HD p m N X d ne); try assumption; fold n1; [nia|nia|]. intros j. apply (edges_reversed u rnd HD p N X Hp); assumption.
Qed.
Print Assumptions C77_edges_reversed.

(** C77, faces: two elements that list the corners of a common face in the same order, whatever sides of
    the elements the face is (side s of direction D and side s' of direction D'), get the same nodes on the face *)
Theorem C77_faces : forall u rnd p m N X d ne e D s e' D' s' a b, let n1 := pts1 p in let ns := Spec_Full.sub1 p in
  double_like u rnd -> p <= 9 -> cdescribes m N X -> cm_cells m = S ne -> corner_spacing N X ne d -> (0 < d <= 10 ^ 64)%R ->
  e < S ne -> D < 3 -> s < 2 -> e' < S ne -> D' < 3 -> s' < 2 -> a < n1 -> b < n1 ->
  (forall i j, i < 2 -> j < 2 -> N e (at3 2 D s i j) = N e' (at3 2 D' s' i j)) ->
  0 < e * n1 ^ 3 + at3 n1 D (s * ns) a b -> 0 < e' * n1 ^ 3 + at3 n1 D' (s' * ns) a b ->
  exists r v, refine_cellsf rnd p m = Ok r /\
    node_in_gauss (rf_merged r) (e * n1 ^ 3 + at3 n1 D (s * ns) a b) = Ok v /\ node_in_gauss (rf_merged r) (e' * n1 ^ 3 + at3 n1 D' (s' * ns) a b) = Ok v.
Proof.
  intros u rnd p m N X d ne e D s e' D' s' a b n1 ns HD Hp HM Ec HL Hd He HD3 Hs He' HD3' Hs' Ha Hb HN P P'.
  assert (L := at3_lt n1 D _ a b HD3 (end_lt p s Hp Hs) Ha Hb). assert (L' := at3_lt n1 D' _ a b HD3' (end_lt p s' Hp Hs') Ha Hb). fold ns in L, L'.
  apply (same_node u rnd HD p m N X d ne); try assumption; fold n1; [nia|nia|]. intros j. apply (faces_equal u rnd HD p N X Hp); assumption.
Qed.
Print Assumptions C77_faces.

(** C77, numbering: let h be the bin width.  If no scaled coordinate of an exact point, and no scaled extent of the mesh, is as close to a positive integer
    as the rounding errors allow, refinement in rounded arithmetic yields the same nodes, maps and cells as in exact
    arithmetic, and the coordinates of the nodes differ by at most E *)
Theorem C77_same_numbering : forall u rnd p m N X d ne lo hi M L, let h := node_bin p d in let E := (gamma u 15 * M + 3 / 2 * gamma u 3 * L)%R in
  double_like u rnd -> p <= 9 -> (INR 15 * u < 1)%R -> cdescribes m N X -> cm_cells m = S ne -> corner_spacing N X ne d -> (0 < d <= 10 ^ 64)%R ->
  is_box (cm_nodes m) X lo hi -> (forall i, i < 3 -> (hi i - lo i <= L)%R) -> (forall n i, n < cm_nodes m -> i < 3 -> (Rabs (X n i) <= M)%R) -> (M <= 10 ^ 15)%R ->
  (forall g i, g < S ne * pts1 p ^ 3 -> i < 3 -> clear ((E + gamma u 12 * (L + E + / 10 ^ 14)) / h) ((tri_pos p N X g i - lo i + / 10 ^ 14) / h)) ->
  (forall i, i < 2 -> clear (gamma u 12 * (L + 1 + / 10 ^ 14) / h) ((hi i - lo i + 1 + / 10 ^ 14) / h)) ->
  exists r r', refine_cells p m = Ok r /\ refine_cellsf rnd p m = Ok r' /\ rf_merged r' = rf_merged r /\ rf_maps r' = rf_maps r /\
    cm_nodes (rf_mesh r') = cm_nodes (rf_mesh r) /\ cm_cells (rf_mesh r') = cm_cells (rf_mesh r) /\ cm_conn (rf_mesh r') = cm_conn (rf_mesh r) /\
    forall v i, v < cm_nodes (rf_mesh r) -> i < 3 -> exists c c', cm_coord (rf_mesh r) v i = Ok c /\ cm_coord (rf_mesh r') v i = Ok c' /\ (Rabs (c' - c) <= E)%R.
Proof. intros u rnd p m N X d ne lo hi M L h E HD. exact (same_numbering u rnd p m N X d ne lo hi M L HD). Qed.
Print Assumptions C77_same_numbering.

(** C77 does not extend to faces whose corners the two elements list in different orders: doubles add the four terms
    in the order of the list.  In this mesh of two elements, with coordinates that are doubles, both have the
    face between them as the side 1 of direction 0 with the other two directions swapped; the middles of the face, points 14 and
    41, are one node in exact arithmetic and two different nodes in doubles, so the refined mesh has a slit there *)
Theorem C77_swapped_face : exists m N X d r r' ve v v', cdescribes m N X /\ cm_cells m = 2 /\ (forall n i, binary64 (X n i) = X n i) /\
  corner_spacing N X 1 d /\ (0 < d <= 10 ^ 64)%R /\
  (forall i j, i < 2 -> j < 2 -> N 0 (at3 2 0 1 i j) = N 1 (at3 2 0 1 j i)) /\
  14 = 0 * pts1 1 ^ 3 + at3 (pts1 1) 0 (Spec_Full.sub1 1) 1 1 /\ 41 = 1 * pts1 1 ^ 3 + at3 (pts1 1) 0 (Spec_Full.sub1 1) 1 1 /\
  refine_cells 1 m = Ok r /\ node_in_gauss (rf_merged r) 14 = Ok ve /\ node_in_gauss (rf_merged r) 41 = Ok ve /\
  refine_cellsf binary64 1 m = Ok r' /\ node_in_gauss (rf_merged r') 14 = Ok v /\ node_in_gauss (rf_merged r') 41 = Ok v' /\ v <> v'.
Proof.
  destruct transposed_face as (r & r' & ve & v & v' & H). exists tmesh, tN, tX, 112%R, r, r', ve, v, v'.
  split; [exact t_describes|]. split; [reflexivity|]. split; [exact t_doubles|]. split; [exact t_spacing|].
  split; [split; [lra|]; apply Rle_trans with (10 ^ 3)%R; [lra|]; apply Rle_pow; [lra|lia]|].
  split; [intros i j Hi Hj; assert (i = 0 \/ i = 1) as [-> | ->] by lia; assert (j = 0 \/ j = 1) as [-> | ->] by lia; reflexivity|].
  split; [reflexivity|]. split; [reflexivity|]. exact H.
Qed.
Print Assumptions C77_swapped_face.

(** ---- examples ---- *)

Lemma one64 : (0 < 1 <= 10 ^ 64)%R.
Proof. split; [lra|apply pow_R1_Rle; lra]. Qed.
Example C77_same_numbering_nonvacuous : exists r r', refine_cells 1 (csingle cube_x) = Ok r /\ refine_cellsf binary64 1 (csingle cube_x) = Ok r' /\ rf_merged r' = rf_merged r.
Proof. exact cube_same. Qed.
(** the distorted two-element mesh above, in doubles, at all orders *)
Example C77_refined_mesh_nonvacuous : forall p, p <= 9 -> exists r, refine_cellsf binary64 p tmesh = Ok r /\ cm_cells (rf_mesh r) = 2 * Spec_Full.sub1 p ^ 3.
Proof.
  intros p Hp. destruct (C77_refined_mesh u64 binary64 p tmesh tN tX 112%R 1 double_like_b64 Hp t_describes eq_refl t_spacing) as (r & nd & pos & E & H & _).
  - split; [lra|]; apply Rle_trans with (10 ^ 3)%R; [lra|]; apply Rle_pow; [lra|lia].
  - exists r. auto.
Qed.
Example C77_accuracy_nonvacuous : exists r c, refine_cellsf binary64 1 tmesh = Ok r /\ getu (rf_points r) (14 * 3 + 1) = Ok c /\
  (Rabs (c - tri_pos 1 tN tX 14 1) <= gamma u64 15 * 1024 + 3 / 2 * gamma u64 3 * 1024)%R.
Proof.
  destruct (C77_accuracy u64 binary64 1 tmesh tN tX 112%R 1 double_like_b64) as (r & E & H); try exact t_describes; try exact t_spacing; try lia; try reflexivity.
  - cbn [INR]. assert (B := u64_range). assert (S0 : (u64 <= / 1024)%R) by (unfold u64; apply Rinv_le_contravar; [lra|]; apply Rle_trans with (2 ^ 10)%R; [lra|]; apply Rle_pow; [lra|lia]). lra.
  - split; [lra|]; apply Rle_trans with (10 ^ 3)%R; [lra|]; apply Rle_pow; [lra|lia].
  - destruct (H 0 14 1 1024%R 1024%R) as (c & Ec & Bc); try lia; [cbn; lia| |exists r, c; split; [exact E|]; split; [exact Ec|exact Bc]].
    intros v w Hv Hw. assert (Q : forall l, l < 8 -> (0 <= tX (tN 0 l) 1 <= 1024)%R).
    { intros l Hl. destruct (t_box 1 ltac:(lia)) as (Q & _). apply Q. exact (proj2 (proj1 t_describes 0 l ltac:(cbn; lia) Hl)). }
    assert (Q1 := Q v Hv). assert (Q2 := Q w Hw). split; [apply Rabs_le; lra|lra].
Qed.
Example C77_faces_nonvacuous : forall p a b, p <= 9 -> a < pts1 p -> b < pts1 p -> exists r v, refine_cellsf binary64 p (cbrick 1 2 3) = Ok r /\
  node_in_gauss (rf_merged r) (0 * pts1 p ^ 3 + at3 (pts1 p) 0 (1 * Spec_Full.sub1 p) a b) = Ok v /\ node_in_gauss (rf_merged r) (1 * pts1 p ^ 3 + at3 (pts1 p) 0 (0 * Spec_Full.sub1 p) a b) = Ok v.
Proof.
  intros p a b Hp Ha Hb. assert (R := pts1_range p Hp). destruct (pts1_sub p) as (A1 & A2). apply (C77_faces u64 binary64 p (cbrick 1 2 3) brick_n (brick_x 1 2 3) 1%R 1); try lia; try exact double_like_b64; try apply cbrick_describes; try reflexivity; try exact one64; try exact Hp; try assumption.
  - split.
    + intros x y Hx Hy Ne. rewrite <- sqrt_1 at 1. apply sqrt_le_1_alt. do 8 (destruct x as [|x]; [do 8 (destruct y as [|y]; [try (exfalso; lia); cbn; lra|]); lia|]). lia.
    + exists 0, 1. repeat (split; [lia|]). rewrite <- sqrt_1 at 1. f_equal. cbn. lra.
  - intros i j Hi Hj. assert (i = 0 \/ i = 1) as [-> | ->] by lia; assert (j = 0 \/ j = 1) as [-> | ->] by lia; reflexivity.
  - unfold at3. lia.
  - assert (pts1 p ^ 3 <> 0) by (apply Nat.pow_nonzero; lia). lia.
Qed.
(** the same boxes, the second turned by half a turn about its z-axis: it runs through the edges of the common face in the opposite direction *)
Definition turn_n (e v : nat) : nat := match e with 0 => brick_n 0 v | _ => brick_n 1 (nth v [3; 2; 1; 0; 7; 6; 5; 4] 0) end.
Definition turned : cmesh := CMesh 12 2 (map (fun q => Some (brick_x 1 2 3 (q / 3) (q mod 3))) (seq 0 36)) (map (fun q => Some (turn_n (q / 8) (q mod 8))) (seq 0 16)).
Lemma turned_describes : cdescribes turned turn_n (brick_x 1 2 3).
Proof.
  split; [|exact (proj2 (cbrick_describes 1 2 3))]. intros e v He Hv. cbn [turned cm_cells] in He.
  assert (e = 0 \/ e = 1)%nat as [-> | ->] by lia; do 8 (destruct v as [|v]; [split; [reflexivity|vm_compute; repeat constructor]|]); lia.
Qed.
Lemma turned_spacing : corner_spacing turn_n (brick_x 1 2 3) 1 1.
Proof.
  split.
  - intros x y Hx Hy Ne. rewrite <- sqrt_1 at 1. apply sqrt_le_1_alt. do 8 (destruct x as [|x]; [do 8 (destruct y as [|y]; [try (exfalso; lia); cbn; lra|]); lia|]). lia.
  - exists 0, 1. repeat (split; [lia|]). rewrite <- sqrt_1 at 1. f_equal. cbn. lra.
Qed.
Example C77_edges_reversed_nonvacuous : forall p i, p <= 9 -> i <= Spec_Full.sub1 p -> exists r v, refine_cellsf binary64 p turned = Ok r /\
  node_in_gauss (rf_merged r) (0 * pts1 p ^ 3 + at3 (pts1 p) 1 i (1 * Spec_Full.sub1 p) (1 * Spec_Full.sub1 p)) = Ok v /\
  node_in_gauss (rf_merged r) (1 * pts1 p ^ 3 + at3 (pts1 p) 1 (Spec_Full.sub1 p - i) (1 * Spec_Full.sub1 p) (1 * Spec_Full.sub1 p)) = Ok v.
Proof.
  intros p i Hp Hi. assert (R := pts1_range p Hp). destruct (pts1_sub p) as (A1 & A2). assert (pts1 p ^ 3 <> 0) by (apply Nat.pow_nonzero; lia).
  apply (C77_edges_reversed u64 binary64 p turned turn_n (brick_x 1 2 3) 1%R 1); try exact double_like_b64; try exact turned_describes; try reflexivity; try exact one64; try exact Hp; try exact turned_spacing; try lia.
  - intros a Ha. assert (a = 0 \/ a = 1) as [-> | ->] by lia; reflexivity.
  - unfold at3. lia.
Qed.
(** the edges along z keep their direction *)
Example C77_edges_nonvacuous : forall p i, p <= 9 -> i <= Spec_Full.sub1 p -> exists r v, refine_cellsf binary64 p turned = Ok r /\
  node_in_gauss (rf_merged r) (0 * pts1 p ^ 3 + at3 (pts1 p) 2 i (1 * Spec_Full.sub1 p) (1 * Spec_Full.sub1 p)) = Ok v /\
  node_in_gauss (rf_merged r) (1 * pts1 p ^ 3 + at3 (pts1 p) 2 i (1 * Spec_Full.sub1 p) (0 * Spec_Full.sub1 p)) = Ok v.
Proof.
  intros p i Hp Hi. assert (R := pts1_range p Hp). destruct (pts1_sub p) as (A1 & A2). assert (pts1 p ^ 3 <> 0) by (apply Nat.pow_nonzero; lia).
  apply (C77_edges u64 binary64 p turned turn_n (brick_x 1 2 3) 1%R 1); try exact double_like_b64; try exact turned_describes; try reflexivity; try exact one64; try exact Hp; try exact turned_spacing; try lia.
  - intros a Ha. assert (a = 0 \/ a = 1) as [-> | ->] by lia; reflexivity.
  - unfold at3. lia.
Qed.
Example C77_corners_nonvacuous : exists r, refine_cellsf binary64 1 turned = Ok r /\ getu (rf_points r) ((1 * 27 + (2 + 2 * 3 + 0)) * 3 + 1) = Ok (binary64 0).
Proof.
  destruct (C77_corners u64 binary64 1 turned turn_n (brick_x 1 2 3) 1%R 1 double_like_b64 ltac:(lia) turned_describes eq_refl turned_spacing one64) as (r & E & H).
  exists r. split; [exact E|]. assert (Q := H 1 1 1 0 1 ltac:(lia) ltac:(lia) ltac:(lia) ltac:(lia) ltac:(lia)).
  replace (brick_x 1 2 3 (turn_n 1 (1 + 1 * 2 + 0 * 4)) 1) with 0%R in Q by (cbn; ring). exact Q.
Qed.
