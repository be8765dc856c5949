(** Property theorem C61 (swage/swage.cpp:2050-2502 refine_mesh with 1075-1093 build_connectivity): refinement
    of a linear hexahedral mesh and the connectivity of the refined mesh. *)
From Coq Require Import Reals List Arith ZArith Lra Lia Sorted Bool.
Import ListNotations.
Require Import Verif.Base Verif.NatSum Verif.RBase Verif.RSum Verif.Spec_Lagrange Verif.Lagrange_Math Verif.Spec_Quad Verif.Spec_High Verif.Proof_Lob Verif.Proof_High Verif.Proof_High3
  Verif.Spec_Patch Verif.Model_Geom Verif.Proof_Geom Verif.Proof_Tri Verif.Model_Ref Verif.Model_Refine Verif.Model_Quad Verif.Model_Conn Verif.Proof_Conn Verif.Spec_Conn Verif.Proof_Neigh
  Verif.Model_Full Verif.Spec_Full Verif.Proof_Full Verif.Proof_Full2 Verif.Proof_Full3 Verif.Proof_Full4 Verif.Model_Patch.
Local Open Scope nat_scope.

(** C61, any mesh: for orders 0 to 9, if the last element has no two corners at the same place, the refined
    mesh has one node per Gauss point up to merging; the first Gauss point has node 0 to itself; points at
    the same position (other than the first) have the same node; every node sits at one of its Gauss points;
    cell (i,j,k) of an element has the nodes of the eight Gauss points around it. *)
Theorem C61_refined_mesh : forall p m N X d ne, let n1 := pts1 p in let ns := Spec_Full.sub1 p in let ng := n1 ^ 3 in
  p <= 9 -> cdescribes m N X -> cm_cells m = S ne -> corner_spacing N X ne d -> (0 < d <= 10 ^ 64)%R ->
  exists r nd, refine_cells p m = Ok r /\ let M := rf_mesh r in
    cm_cells M = S ne * ns ^ 3 /\
    (forall g i, g < S ne * ng -> i < 3 -> getu (rf_points r) (g * 3 + i) = Ok (tri_pos p N X g i)) /\
    (forall g, g < S ne * ng -> node_in_gauss (rf_merged r) g = Ok (nd g) /\ nd g < cm_nodes M) /\
    (forall v, v < cm_nodes M -> exists g, g < S ne * ng /\ nd g = v /\ forall i, i < 3 -> cm_coord M v i = Ok (tri_pos p N X g i)) /\
    (forall g, g < S ne * ng -> (nd g = 0 <-> g = 0)) /\
    (forall g g', 0 < g < S ne * ng -> 0 < g' < S ne * ng -> (forall i, i < 3 -> tri_pos p N X g i = tri_pos p N X g' i) -> nd g = nd g') /\
    forall e i j k, e < S ne -> i < ns -> j < ns -> k < ns ->
      cells_in_elem (rf_maps r) ns e (i + j * ns + k * ns * ns) = Ok (cell_id p e i j k) /\
      elems_in_cell (rf_maps r) (cell_id p e i j k) = Ok e /\
      forall c, c < 8 -> gauss_in_cell (rf_maps r) (cell_id p e i j k) c = Ok (e * ng + corner_pt p i j k c) /\
        cm_node M (cell_id p e i j k) c = Ok (nd (e * ng + corner_pt p i j k c)).
Proof.
  intros p m N X d ne n1 ns ng Hp HM Ec HL Hd.
  destruct (refine_cells_ok p m N X d ne Hp HM Ec HL Hd) as (r & nd & own & mx & mn & Er & H). fold n1 ns ng in H. cbv zeta in H.
  destruct H as (H1 & H2 & Hb & _ & Hpt & Hnd & Hown & H0 & Hn0 & Hkey & Hcell).
  exists r, nd. split; [exact Er|]. cbv zeta. split; [rewrite H1; cbn [Nat.pow]; ring|]. split; [exact Hpt|]. split; [exact Hnd|].
  split. { intros v Hv. destruct (Hown v Hv) as (A & B & C). exists (own v). auto. }
  split. { intros g Hg. split; [|intros ->; exact H0]. intros Q. destruct (Nat.eq_dec g 0); [assumption|]. exfalso. apply (Hn0 g); [lia|exact Q]. }
  split. { intros g g' Hg Hg' Q. apply Hkey; [exact Hg|exact Hg'|]. apply refine_key_ext. exact Q. }
  intros e i j k He Hi Hj Hk. exact (Hcell e k j i He Hk Hj Hi).
Qed.
Print Assumptions C61_refined_mesh.

Lemma tri_in_range p m N X g : p <= 9 -> cdescribes m N X -> g < cm_cells m * pts1 p ^ 3 -> in_range (cm_nodes m) X (tri_pos p N X g).
Proof.
  intros Hp (HN & _) Hg d Hd. assert (R := pts1_range p Hp).
  destruct (gauss_split (pts1 p) (cm_cells m) g ltac:(lia) Hg) as (e & i & j & k & He & Hi & Hj & Hk & ->). rewrite tri_pos_at by assumption.
  destruct (exists_min 8 (fun v => X (N e v) d) ltac:(lia)) as (a & Ha & Qa). destruct (exists_max 8 (fun v => X (N e v) d) ltac:(lia)) as (b & Hb & Qb).
  exists (N e a), (N e b). destruct (HN e a He Ha) as (_ & Ba). destruct (HN e b He Hb) as (_ & Bb). split; [exact Ba|]. split; [exact Bb|].
  unfold geo. rewrite field3_nest. change (1 + 1) with 2.
  assert (Rg : forall i, i < pts1 p -> (-1 <= lob (pts1 p) i <= 1)%R) by (intros; apply lob_range; lia).
  apply interp2_between; [apply Rg; exact Hk|]. intros k' Hk'. apply interp2_between; [apply Rg; exact Hj|]. intros j' Hj'. apply interp2_between; [apply Rg; exact Hi|]. intros i' Hi'.
  split; [apply Qa|apply Qb]; nia.
Qed.

(** C61, accuracy: let h be the bin width, the least corner distance of the last element over 7 max(1,p).  If
    h <= 1, the node of a point is less than h away from it in each direction, and points at least h apart
    in some direction have different nodes. *)
Theorem C61_accuracy : forall p m N X d ne, let ng := pts1 p ^ 3 in let h := node_bin p d in
  p <= 9 -> cdescribes m N X -> cm_cells m = S ne -> corner_spacing N X ne d -> (0 < h <= 1)%R ->
  exists r nd, refine_cells p m = Ok r /\ let M := rf_mesh r in
    (forall g, g < S ne * ng -> node_in_gauss (rf_merged r) g = Ok (nd g)) /\
    (forall g, g < S ne * ng -> exists c : nat -> R, forall i, i < 3 -> cm_coord M (nd g) i = Ok (c i) /\ (Rabs (c i - tri_pos p N X g i) < h)%R) /\
    (forall g g', 0 < g < S ne * ng -> 0 < g' < S ne * ng -> (exists i, i < 3 /\ (h <= Rabs (tri_pos p N X g i - tri_pos p N X g' i))%R) -> nd g <> nd g').
Proof.
  intros p m N X d ne ng h Hp HM Ec HL Hh. assert (M1 := max1_pos p).
  assert (Ed : (d = h * (7 * INR (Nat.max 1 p)))%R) by (unfold h, node_bin; field; lra).
  assert (Hd : (0 < d <= 10 ^ 64)%R).
  { assert (INR (Nat.max 1 p) <= 9)%R by (replace 9%R with (INR 9) by (cbn; lra); apply le_INR; lia). split; [rewrite Ed; apply Rmult_lt_0_compat; lra|].
    apply Rle_trans with 63%R; [rewrite Ed; nra|]. apply Rle_trans with (10 ^ 2)%R; [lra|]. apply Rle_pow; [lra|lia]. }
  destruct (refine_cells_ok p m N X d ne Hp HM Ec HL Hd) as (r & nd & own & mx & mn & Er & H). fold ng h in H. cbv zeta in H.
  destruct H as (H1 & H2 & Hb & _ & Hpt & Hnd & Hown & H0 & Hn0 & Hkey & Hcell).
  assert (Hbox : forall g, g < S ne * ng -> in_box mn mx (tri_pos p N X g)).
  { intros g Hg i Hi. destruct (tri_in_range p m N X g Hp HM ltac:(rewrite Ec; exact Hg) i Hi) as (a & b & Ha & Hb' & Q). assert (B1 := Hb a i Ha Hi). assert (B2 := Hb b i Hb' Hi). lra. }
  assert (Close : forall g g', g < S ne * ng -> g' < S ne * ng -> nd g = nd g' -> forall i, i < 3 -> (Rabs (tri_pos p N X g i - tri_pos p N X g' i) < h)%R).
  { intros g g' Hg Hg' Q i Hi. destruct (Nat.eq_dec g 0) as [->|].
    - destruct (Nat.eq_dec g' 0) as [->|]; [rewrite Rminus_eq_0, Rabs_R0; lra|]. exfalso. apply (Hn0 g'); [lia|congruence].
    - destruct (Nat.eq_dec g' 0) as [->|]; [exfalso; apply (Hn0 g); [lia|congruence]|].
      apply Hkey in Q; try lia. assert (K := key_inj h mn mx ltac:(lra) _ _ (proj2 Hh) (Hbox g Hg) (Hbox g' Hg') Q i Hi).
      apply (bin_close h mn ltac:(lra) _ _ i); [apply (Hbox g Hg i Hi)|apply (Hbox g' Hg' i Hi)|exact K]. }
  exists r, nd. split; [exact Er|]. cbv zeta. split; [intros g Hg; apply Hnd; exact Hg|]. split.
  - intros g Hg. destruct (Hown (nd g) (proj2 (Hnd g Hg))) as (A & B & C). exists (tri_pos p N X (own (nd g))). intros i Hi. split; [apply C; exact Hi|]. apply Close; assumption.
  - intros g g' Hg Hg' (i & Hi & Q) Q'. specialize (Close g g' ltac:(lia) ltac:(lia) Q' i Hi). lra.
Qed.
Print Assumptions C61_accuracy.

(** C61, faces: two elements with the same corners on a common face get the same nodes on that face *)
Theorem C61_common_faces : forall p m N X d ne D e e' a b, let n1 := pts1 p in let ns := Spec_Full.sub1 p in
  p <= 9 -> cdescribes m N X -> cm_cells m = S ne -> corner_spacing N X ne d -> (0 < d <= 10 ^ 64)%R ->
  D < 3 -> e < S ne -> e' < S ne -> adjacent 1 N D e e' -> a < n1 -> b < n1 -> 0 < e' * n1 ^ 3 + at3 n1 D 0 a b ->
  exists r v, refine_cells p m = Ok r /\
    node_in_gauss (rf_merged r) (e * n1 ^ 3 + at3 n1 D ns a b) = Ok v /\ node_in_gauss (rf_merged r) (e' * n1 ^ 3 + at3 n1 D 0 a b) = Ok v.
Proof.
  intros p m N X d ne D e e' a b n1 ns Hp HM Ec HL Hd HD He He' HA Ha Hb Pos.
  destruct (C61_refined_mesh p m N X d ne Hp HM Ec HL Hd) as (r & nd & Er & H). fold n1 ns in H. cbv zeta in H. destruct H as (_ & _ & Hnd & _ & _ & Hsame & _).
  destruct (pts1_sub p) as (A1 & A2). fold n1 ns in A1, A2. destruct (gap_facts_ok p Hp) as (F0 & F1 & _). fold n1 ns in F0, F1.
  assert (L : forall t, t <= ns -> at3 n1 D t a b < n1 ^ 3) by (intros t Ht; destruct D as [|[|[|D]]]; [| | |lia]; unfold at3; apply grid3_lt; lia).
  assert (La := L ns (le_n _)). assert (Lb := L 0 ltac:(lia)).
  assert (P1 : e * n1 ^ 3 + at3 n1 D ns a b < S ne * n1 ^ 3) by nia. assert (P2 : e' * n1 ^ 3 + at3 n1 D 0 a b < S ne * n1 ^ 3) by nia.
  assert (P0 : 0 < at3 n1 D ns a b) by (destruct D as [|[|[|D]]]; [| | |lia]; unfold at3; nia).
  exists r, (nd (e * n1 ^ 3 + at3 n1 D ns a b)). split; [exact Er|]. split; [apply Hnd; exact P1|]. destruct (Hnd _ P2) as (-> & _). f_equal. symmetry. apply Hsame; [lia|lia|].
  intros i Hi. assert (V0 := vertex1_0 1). assert (V1 := vertex1_p 1 ltac:(lia)).
  destruct D as [|[|[|D]]]; [| | |lia]; unfold at3.
  - rewrite !(tri_pos_at p N X) by (fold n1; lia). fold n1. rewrite F0, F1, <- V0, <- V1, !geo_vertex_x by lia.
    apply interp_ext. intros k Hk. apply interp_ext. intros j Hj. rewrite HA by lia. reflexivity.
  - rewrite !(tri_pos_at p N X) by (fold n1; lia). fold n1. rewrite F0, F1, <- V0, <- V1, !geo_vertex_y by lia.
    apply interp_ext. intros k Hk. apply interp_ext. intros j Hj. rewrite HA by lia. reflexivity.
  - rewrite !(tri_pos_at p N X) by (fold n1; lia). fold n1. rewrite F0, F1, <- V0, <- V1, !geo_vertex_z by lia.
    apply interp_ext. intros k Hk. apply interp_ext. intros j Hj. rewrite HA by lia. reflexivity.
Qed.
Print Assumptions C61_common_faces.

(** [side_corner s] goes round the corners of side s: exactly those on the side, each once, and consecutive ones
    differ in one coordinate *)
Theorem C61_side_corners : forall s, s < 6 ->
  (forall l, on_side s l <-> exists k, k < 4 /\ l = side_corner s k) /\
  (forall k k', k < 4 -> k' < 4 -> side_corner s k = side_corner s k' -> k = k') /\
  (forall k, k < 4 -> exists d, d < 3 /\ d <> s / 2 /\ corner_coord (side_corner s k) d <> corner_coord (side_corner s ((k + 1) mod 4)) d /\
     forall d', d' < 3 -> d' <> d -> corner_coord (side_corner s k) d' = corner_coord (side_corner s ((k + 1) mod 4)) d').
Proof.
  intros s Hs. split; [|split].
  - intros l. split.
    + intros Ol. destruct (on_side_table s l Hs Ol) as (k & Hk & E). exists k. split; [exact Hk|]. rewrite table_corner in E by assumption. congruence.
    + intros (k & Hk & ->). destruct (side_on s k Hs Hk) as (l & E & O). rewrite table_corner in E by assumption. congruence.
  - intros k k' Hk Hk'. do 6 (destruct s as [|s]; [do 4 (destruct k as [|k]; [do 4 (destruct k' as [|k']; [cbn; (reflexivity || discriminate)|]); lia|]); lia|]). lia.
  - assert (D : forall a b d, (exists d0, d0 = d /\ d < 3 /\ d <> s / 2 /\ corner_coord a d <> corner_coord b d /\ forall d', d' < 3 -> d' <> d -> corner_coord a d' = corner_coord b d') ->
      exists d, d < 3 /\ d <> s / 2 /\ corner_coord a d <> corner_coord b d /\ forall d', d' < 3 -> d' <> d -> corner_coord a d' = corner_coord b d').
    { intros a b d (d0 & -> & H). exists d. exact H. }
    intros k Hk. assert (T : forall a b, (corner_coord a 0 =? corner_coord b 0) && (corner_coord a 1 =? corner_coord b 1) = true -> corner_coord a 2 <> corner_coord b 2 -> s / 2 <> 2 -> exists d, d < 3 /\ d <> s / 2 /\ corner_coord a d <> corner_coord b d /\ forall d', d' < 3 -> d' <> d -> corner_coord a d' = corner_coord b d').
    { intros a b E Ne Hn. apply andb_prop in E. destruct E as (E0 & E1). apply Nat.eqb_eq in E0, E1. exists 2. split; [lia|]. split; [lia|]. split; [exact Ne|]. intros d' Hd Nd. destruct d' as [|[|d']]; [assumption|assumption|lia]. }
    assert (T1 : forall a b, (corner_coord a 0 =? corner_coord b 0) && (corner_coord a 2 =? corner_coord b 2) = true -> corner_coord a 1 <> corner_coord b 1 -> s / 2 <> 1 -> exists d, d < 3 /\ d <> s / 2 /\ corner_coord a d <> corner_coord b d /\ forall d', d' < 3 -> d' <> d -> corner_coord a d' = corner_coord b d').
    { intros a b E Ne Hn. apply andb_prop in E. destruct E as (E0 & E1). apply Nat.eqb_eq in E0, E1. exists 1. split; [lia|]. split; [lia|]. split; [exact Ne|]. intros d' Hd Nd. destruct d' as [|[|[|d']]]; [assumption|lia|assumption|lia]. }
    assert (T2 : forall a b, (corner_coord a 1 =? corner_coord b 1) && (corner_coord a 2 =? corner_coord b 2) = true -> corner_coord a 0 <> corner_coord b 0 -> s / 2 <> 0 -> exists d, d < 3 /\ d <> s / 2 /\ corner_coord a d <> corner_coord b d /\ forall d', d' < 3 -> d' <> d -> corner_coord a d' = corner_coord b d').
    { intros a b E Ne Hn. apply andb_prop in E. destruct E as (E0 & E1). apply Nat.eqb_eq in E0, E1. exists 0. split; [lia|]. split; [lia|]. split; [exact Ne|]. intros d' Hd Nd. destruct d' as [|[|[|d']]]; [lia|assumption|assumption|lia]. }
    clear D. do 6 (destruct s as [|s]; [do 4 (destruct k as [|k]; [(apply T; [reflexivity|discriminate|discriminate]) || (apply T1; [reflexivity|discriminate|discriminate]) || (apply T2; [reflexivity|discriminate|discriminate])|]); lia|]). lia.
Qed.
Print Assumptions C61_side_corners.

(** C61, connectivity of any mesh whose last cell has no two corners at the same place and in which some two
    cells share a node: all incidence lists are right; side t of cell c lies on patch pt c t; sides with the
    same centre lie on the same patch. *)
Theorem C61_connectivity : forall G ne gauss m N X GN d nc, cdescribes m N X -> cm_cells m = S nc -> corner_spacing N X nc d -> (0 < d <= 10 ^ 64)%R ->
  (forall e l, e < ne -> l < G -> getu gauss (e * G + l) = Ok (GN e l) /\ GN e l < cm_nodes m) -> ne <= S nc ->
  (exists c c', c < S nc /\ c' < S nc /\ c <> c' /\ touch 8 N c c') ->
  exists C pt, build_connectivity G ne gauss m = Ok C /\
    around_nodes (cn_node_cells C) (cm_nodes m) (S nc) 8 N /\
    corners_right (cn_corners C) (cm_nodes m) (S nc) N /\
    neighbours_right (num_cells_in_cell (cn_cell_cells C)) (cells_in_cell (cn_cell_cells C)) (S nc) 8 N /\
    patches_right (cn_patches C) (S nc) N pt /\
    (forall c t c' t', c < S nc -> t < 6 -> c' < S nc -> t' < 6 ->
       (forall i, i < 3 -> face_centre N X c t i = face_centre N X c' t' i) -> pt c t = pt c' t') /\
    around_nodes (cn_node_elems C) (cm_nodes m) ne G GN /\
    (forall e l, e < ne -> l < G -> getu (cn_nodes_in_elem C) (e * G + l) = Ok (GN e l)) /\
    neighbours_right (num_elems_in_elem (cn_elem_elems C)) (elems_in_elem (cn_elem_elems C)) ne G GN.
Proof.
  intros G ne gauss m N X GN d nc HM Ec HL Hd HG Hne HS.
  destruct (build_connectivity_ok G ne gauss m N X GN d nc HM Ec HL Hd HG Hne HS) as (C & pt & mx & mn & EC & _ & A1 & A2 & A3 & A4 & A5 & A6 & A7 & A8).
  exists C, pt. split; [exact EC|]. repeat (split; [assumption|]). split; [|auto].
  intros c t c' t' Hc Ht Hc' Ht' Q. apply A5; try assumption. apply patch_key_ext. exact Q.
Qed.
Print Assumptions C61_connectivity.

(** C61, boxes: a grid of equal boxes (possibly with gaps) whose shortest edge s D is at most 7 max(1,p) long,
    refined at order 0 to 5.  For order 0 two elements must share a corner position other than that of the
    first point.  Then refine_mesh succeeds; nodes correspond to positions (but for the first point) and sit
    there; all incidence lists are right; two cell sides lie on the same patch iff they have the same centre,
    and then they face the same direction and their corners coincide; if no two elements occupy the same
    place, at most one left and one right side lie on a patch. *)
Theorem C61_boxes : forall p ne m N X o s E D, let n1 := pts1 p in let ns := Spec_Full.sub1 p in let ng := n1 ^ 3 in let nc := S ne * ns ^ 3 in
  p <= 5 -> cdescribes m N X -> cm_cells m = S ne -> box_elements 1 (S ne) N X o s E ->
  D < 3 -> (forall d, d < 3 -> (0 < s D <= s d)%R) -> (s D <= 7 * INR (Nat.max 1 p))%R ->
  (p = 0 -> exists e l e' l', e < S ne /\ l < 8 /\ e' < S ne /\ l' < 8 /\ e <> e' /\ 0 < e + l /\ 0 < e' + l' /\ forall d, d < 3 -> X (N e l) d = X (N e' l') d) ->
  exists r C nd CN CX pt, refine_mesh p m = Ok (r, C) /\ let M := rf_mesh r in
    cm_cells M = nc /\ cdescribes M CN CX /\
    (forall g, g < S ne * ng -> node_in_gauss (rf_merged r) g = Ok (nd g) /\ nd g < cm_nodes M /\ forall d, d < 3 -> CX (nd g) d = tri_pos p N X g d) /\
    (forall v, v < cm_nodes M -> exists g, g < S ne * ng /\ nd g = v) /\
    (forall g, g < S ne * ng -> (nd g = 0 <-> g = 0)) /\
    (forall g g', 0 < g < S ne * ng -> 0 < g' < S ne * ng -> (nd g = nd g' <-> forall d, d < 3 -> tri_pos p N X g d = tri_pos p N X g' d)) /\
    (forall e i j k c, e < S ne -> i < ns -> j < ns -> k < ns -> c < 8 -> CN (cell_id p e i j k) c = nd (e * ng + corner_pt p i j k c)) /\
    (forall e i j k, e < S ne -> i < ns -> j < ns -> k < ns -> cells_in_elem (rf_maps r) ns e (i + j * ns + k * ns * ns) = Ok (cell_id p e i j k)) /\
    (forall e l, e < S ne -> l < ng -> getu (cn_nodes_in_elem C) (e * ng + l) = Ok (nd (e * ng + l))) /\
    around_nodes (cn_node_cells C) (cm_nodes M) nc 8 CN /\
    corners_right (cn_corners C) (cm_nodes M) nc CN /\
    neighbours_right (num_cells_in_cell (cn_cell_cells C)) (cells_in_cell (cn_cell_cells C)) nc 8 CN /\
    around_nodes (cn_node_elems C) (cm_nodes M) (S ne) ng (fun e l => nd (e * ng + l)) /\
    neighbours_right (num_elems_in_elem (cn_elem_elems C)) (elems_in_elem (cn_elem_elems C)) (S ne) ng (fun e l => nd (e * ng + l)) /\
    patches_right (cn_patches C) nc CN pt /\
    (forall c t c' t', c < nc -> t < 6 -> c' < nc -> t' < 6 ->
       (pt c t = pt c' t' <-> forall d, d < 3 -> face_centre CN CX c t d = face_centre CN CX c' t' d)) /\
    (forall c t c' t', c < nc -> t < 6 -> c' < nc -> t' < 6 -> pt c t = pt c' t' ->
       t / 2 = t' / 2 /\
       (forall l l', on_side t l -> on_side t' l' -> (forall d, d < 3 -> d <> t / 2 -> corner_coord l d = corner_coord l' d) ->
          forall d, d < 3 -> CX (CN c l) d = CX (CN c' l') d)) /\
    ((forall e e', e < S ne -> e' < S ne -> (forall d, d < 3 -> E e d = E e' d) -> e = e') ->
     forall c t c' t', c < nc -> t < 6 -> c' < nc -> t' < 6 -> pt c t = pt c' t' -> t = t' -> c = c').
Proof.
  intros p ne m N X o s E D n1 ns ng nc Hp HM Ec HB HD Hs Hbig H0e.
  destruct (box_nodes p ne m N X o s E D Hp HM Ec HB HD Hs Hbig) as (r & nd & own & Er & Ecc & Hpts & Hnd & Hown & Hco & Hz & Hpos & Hcell). fold n1 ns ng in Ecc, Hpts, Hnd, Hown, Hco, Hz, Hpos, Hcell.
  set (M := rf_mesh r) in *.
  assert (Enc : nc = S ne * (ns * ns * ns)) by (unfold nc; cbn [Nat.pow]; ring).
  assert (A12 := pts1_sub p). fold n1 ns in A12. destruct A12 as (A1 & A2).
  set (CN := fun c l => match cm_node M c l with Ok n => n | Err _ => 0 end).
  set (CX := fun v d => tri_pos p N X (own v) d).
  assert (HCN : forall e i j k c, e < S ne -> i < ns -> j < ns -> k < ns -> c < 8 -> CN (cell_id p e i j k) c = nd (e * ng + corner_pt p i j k c)).
  { intros e i j k c He Hi Hj Hk Hc. destruct (Hcell e i j k He Hi Hj Hk) as (_ & _ & Q). destruct (Q c Hc) as (_ & Q'). unfold CN. rewrite Q'. reflexivity. }
  assert (Cpt : forall e i j k c, e < S ne -> i < ns -> j < ns -> k < ns -> c < 8 -> e * ng + corner_pt p i j k c < S ne * ng /\
      forall d, d < 3 -> tri_pos p N X (e * ng + corner_pt p i j k c) d = place p o s E e d (tri i j k d + corner_coord c d)).
  { intros e i j k c He Hi Hj Hk Hc. assert (c mod 2 < 2) by (apply Nat.mod_upper_bound; lia). assert (c / 2 mod 2 < 2) by (apply Nat.mod_upper_bound; lia). assert (c / 4 < 2) by (apply Nat.div_lt_upper_bound; lia).
    assert (L : corner_pt p i j k c < ng) by (unfold corner_pt, ng; cbv zeta; fold n1; apply grid3_lt; lia). split; [nia|].
    intros d Hd. unfold corner_pt. cbv zeta. fold n1. assert (T := tri_box p ne m N X o s E D Hp Ec HB HD e (i + c mod 2) (j + c / 2 mod 2) (k + c / 4) d He). fold n1 ng in T. rewrite T by lia. f_equal.
    assert (Q : c / 4 mod 2 = c / 4) by (apply Nat.mod_small; lia).
    unfold corner_coord. destruct d as [|[|[|d]]]; cbn [tri Nat.pow Nat.mul Nat.add]; rewrite ?Nat.div_1_r, ?Q; lia. }
  assert (Hown0 : forall g d, g < S ne * ng -> d < 3 -> CX (nd g) d = tri_pos p N X g d).
  { intros g d Hg Hd. unfold CX. destruct (Hown (nd g) (proj2 (Hnd g Hg))) as (B1 & B2). assert (Q := Hco _ d B1 Hd). rewrite B2, (Hco g d Hg Hd) in Q. congruence. }
  assert (HMr : cdescribes M CN CX).
  { split.
    - intros c l Hc Hl. rewrite Ecc in Hc. destruct (cell_split p (S ne) c Hc) as (e & i & j & k & He & Hi & Hj & Hk & ->). rewrite HCN by assumption.
      destruct (Hcell e i j k He Hi Hj Hk) as (_ & _ & Q). destruct (Q l Hl) as (_ & Q'). rewrite Q'. split; [reflexivity|]. apply Hnd. apply Cpt; assumption.
    - intros v d Hv Hd. destruct (Hown v Hv) as (B1 & B2). assert (Q := Hco _ d B1 Hd). rewrite B2 in Q. exact Q. }
  assert (HC : forall e i j k l d, e < S ne -> i < ns -> j < ns -> k < ns -> l < 8 -> d < 3 -> CX (CN (cell_id p e i j k) l) d = place p o s E e d (tri i j k d + corner_coord l d)).
  { intros e i j k l d He Hi Hj Hk Hl Hd. rewrite HCN by assumption. destruct (Cpt e i j k l He Hi Hj Hk Hl) as (B1 & B2). rewrite Hown0 by assumption. apply B2. exact Hd. }
  assert (LS := last_spacing p ne m o s E D Hp Ec HD Hs CN CX HC). fold ns n1 in LS. rewrite <- Enc in LS. set (g0 := (1 - lob n1 (ns - 1))%R) in *.
  assert (LL : (0 < s D * (g0 / 2) <= 10 ^ 64)%R) by (unfold g0, n1, ns; eapply last_small; eassumption).
  assert (Pnc : nc = S (nc - 1)) by (unfold nc; assert (0 < ns ^ 3) by (cbn [Nat.pow]; nia); nia).
  assert (Sh : exists c c', c < nc /\ c' < nc /\ c <> c' /\ touch 8 CN c c').
  { destruct p as [|p'].
    - destruct (H0e eq_refl) as (e & l & e' & l' & He & Hl & He' & Hl' & Ne & P1 & P2 & Q). change ns with 1 in *. change n1 with 2 in *. change ng with 8 in *.
      exists e, e'. unfold nc. cbn [Nat.pow]. split; [lia|]. split; [lia|]. split; [exact Ne|].
      assert (CI : forall e, e = cell_id 0 e 0 0 0) by (intros; unfold cell_id, Spec_Full.sub1; cbn; lia).
      assert (CP : forall l, l < 8 -> corner_pt 0 0 0 0 l = l) by (intros x Hx; do 8 (destruct x as [|x]; [reflexivity|]); lia).
      exists l, l'. split; [exact Hl|]. split; [exact Hl'|]. rewrite (CI e), (CI e'), !HCN by (assumption || lia). apply Hpos; [rewrite CP by lia; lia|rewrite CP by lia; lia|].
      intros d Hd. destruct (Cpt e 0 0 0 l He ltac:(lia) ltac:(lia) ltac:(lia) Hl) as (_ & T1). destruct (Cpt e' 0 0 0 l' He' ltac:(lia) ltac:(lia) ltac:(lia) Hl') as (_ & T2). rewrite T1, T2 by exact Hd.
      destruct (gap_facts_ok 0 ltac:(lia)) as (F0 & F1 & _). change (pts1 0) with 2 in F0, F1. change (Spec_Full.sub1 0) with 1 in F1.
      assert (PL : forall e x, e < S ne -> x < 8 -> place 0 o s E e d (tri 0 0 0 d + corner_coord x d) = X (N e x) d).
      { intros a x Ha Hx. rewrite (box_corner 0 ne m N X o s E D Hp Ec HB HD) by assumption. replace (tri 0 0 0 d) with 0 by (destruct d as [|[|?]]; reflexivity). cbn [Nat.add].
        assert (Bx := corner_bit x d). unfold place, shifted. change (pts1 0) with 2. destruct (corner_coord x d) as [|[|?]]; [rewrite F0|rewrite F1|lia]; cbn [INR]; field. }
      rewrite !PL by assumption. apply Q. exact Hd.
    - assert (N2 : 2 <= ns) by (unfold ns, Spec_Full.sub1, pts1; lia).
      exists (cell_id (S p') 0 0 0 0), (cell_id (S p') 0 1 0 0). rewrite Enc. split; [apply cell_id_lt; fold ns; lia|]. split; [apply cell_id_lt; fold ns; lia|].
      split; [unfold cell_id; cbv zeta; lia|]. exists 1, 0. split; [lia|]. split; [lia|]. rewrite !HCN by lia. reflexivity. }
  set (GN := fun e l => nd (e * ng + l)).
  assert (HG : forall e l, e < S ne -> l < ng -> getu (mg_node (rf_merged r)) (e * ng + l) = Ok (GN e l) /\ GN e l < cm_nodes M).
  { intros e l He Hl. apply (Hnd (e * ng + l)). nia. }
  assert (Nge : S ne <= nc) by (unfold nc; assert (0 < ns ^ 3) by (cbn [Nat.pow]; nia); nia).
  rewrite Pnc in Sh, Nge.
  destruct (build_connectivity_ok ng (S ne) (mg_node (rf_merged r)) M CN CX GN _ (nc - 1) HMr ltac:(rewrite Ecc; lia) LS LL HG Nge Sh) as (C & pt & mx & mn & EC & Hbox & B1 & B2 & B3 & B4 & B5 & B6 & B7 & B8).
  rewrite <- Pnc in B1, B2, B3, B4, B5, Sh.
  assert (Hbb : forall c l d, c < S ne * (ns * ns * ns) -> l < 8 -> d < 3 -> (mn d <= CX (CN c l) d <= mx d)%R).
  { intros c l d Hc Hl Hd. apply Hbox; [|exact Hd]. apply (proj1 HMr); [rewrite Ecc; exact Hc|exact Hl]. }
  assert (HP : forall c t c' t', c < nc -> t < 6 -> c' < nc -> t' < 6 -> (pt c t = pt c' t' <-> forall d, d < 3 -> face_centre CN CX c t d = face_centre CN CX c' t' d)).
  { intros c t c' t' Hc Ht Hc' Ht'. rewrite B5 by assumption. split; [|intros Q; apply patch_key_ext; exact Q].
    rewrite Enc in Hc, Hc'. destruct (cell_split p (S ne) c Hc) as (e & i & j & k & He & Hi & Hj & Hk & ->). destruct (cell_split p (S ne) c' Hc') as (e' & i' & j' & k' & He' & Hi' & Hj' & Hk' & ->).
    intros Q. apply (face_same p ne m o s E D Hp Ec HD Hs Hbig CN CX HC e i j k t e' i' j' k' t' mn mx); assumption. }
  exists r, C, nd, CN, CX, pt. split.
  { unfold refine_mesh. rewrite Er. cbn [bind]. rewrite Ec, pts1_model. fold n1 ng M. rewrite EC. reflexivity. }
  cbv zeta. fold M. split; [rewrite Ecc; symmetry; exact Enc|]. split; [exact HMr|].
  split. { intros g Hg. destruct (Hnd g Hg) as (Q1 & Q2). split; [exact Q1|]. split; [exact Q2|]. intros d Hd. apply Hown0; assumption. }
  split. { intros v Hv. exists (own v). apply Hown. exact Hv. }
  split; [exact Hz|]. split; [exact Hpos|]. split; [exact HCN|].
  split. { intros e i j k He Hi Hj Hk. apply (Hcell e i j k He Hi Hj Hk). }
  split; [exact B7|]. repeat (split; [assumption|]).
  assert (Geo : forall c t c' t', c < nc -> t < 6 -> c' < nc -> t' < 6 -> pt c t = pt c' t' -> exists e i j k e' i' j' k',
     e < S ne /\ i < ns /\ j < ns /\ k < ns /\ e' < S ne /\ i' < ns /\ j' < ns /\ k' < ns /\ c = cell_id p e i j k /\ c' = cell_id p e' i' j' k' /\ forall d, d < 3 -> face_centre CN CX c t d = face_centre CN CX c' t' d).
  { intros c t c' t' Hc Ht Hc' Ht' Q. assert (Q' := proj1 (HP c t c' t' Hc Ht Hc' Ht') Q). rewrite Enc in Hc, Hc'. destruct (cell_split p (S ne) c Hc) as (e & i & j & k & He & Hi & Hj & Hk & ->). destruct (cell_split p (S ne) c' Hc') as (e' & i' & j' & k' & He' & Hi' & Hj' & Hk' & ->).
    exists e, i, j, k, e', i', j', k'. repeat (split; [assumption || reflexivity|]). exact Q'. }
  split.
  - intros c t c' t' Hc Ht Hc' Ht' Q. destruct (Geo c t c' t' Hc Ht Hc' Ht' Q) as (e & i & j & k & e' & i' & j' & k' & He & Hi & Hj & Hk & He' & Hi' & Hj' & Hk' & -> & -> & Q').
    split.
    + eapply (centre_geometry p ne m o s E D Hp Ec HD Hs Hbig CN CX HC e i j k t e' i' j' k' t'); assumption.
    + intros l l' Ol Ol' Hl d Hd. apply (corners_meet p ne m o s E D Hp Ec HD Hs Hbig CN CX HC e i j k t e' i' j' k' t'); assumption.
  - intros Inj c t c' t' Hc Ht Hc' Ht' Q Et. destruct (Geo c t c' t' Hc Ht Hc' Ht' Q) as (e & i & j & k & e' & i' & j' & k' & He & Hi & Hj & Hk & He' & Hi' & Hj' & Hk' & -> & -> & Q').
    destruct (centre_geometry p ne m o s E D Hp Ec HD Hs Hbig CN CX HC e i j k t e' i' j' k' t' He Hi Hj Hk Ht He' Hi' Hj' Hk' Ht' Q') as (_ & _ & Same). specialize (Same Et).
    assert (Ee : e = e') by (apply Inj; [exact He|exact He'|]; intros d Hd; apply Same; exact Hd). subst e'.
    destruct (Same 0 ltac:(lia)) as (_ & Q0). destruct (Same 1 ltac:(lia)) as (_ & Q1). destruct (Same 2 ltac:(lia)) as (_ & Q2). cbn [tri] in Q0, Q1, Q2. subst. reflexivity.
Qed.
Print Assumptions C61_boxes.
