(** C75: mesh refinement with 32-bit ints. *)
From Coq Require Import Reals List Arith ZArith Lra Lia Bool.
Import ListNotations.
Require Import Verif.Base Verif.NatSum Verif.RBase Verif.RSum Verif.Model_Geom Verif.Proof_Geom Verif.Model_Vtk Verif.Model_Refine Verif.Model_Conn Verif.Spec_Lagrange Verif.Spec_Quad Verif.Spec_High Verif.Proof_Lob Verif.Proof_High Verif.Proof_High2 Verif.Proof_High3 Verif.Model_Ref Verif.Model_High Verif.Model_Quad
  Verif.Model_Full Verif.Model_Int Verif.Spec_Patch Verif.Spec_Full Verif.Spec_Int Verif.Proof_Full Verif.Proof_Full2 Verif.Proof_Full3 Verif.Proof_Full4 Verif.Prop_Full Verif.Prop_High Verif.Proof_Int Verif.Proof_Int2 Verif.Proof_Int3 Verif.Proof_Int4 Verif.Proof_Int5 Verif.Proof_Int6 Verif.Proof_Int7 Verif.Model_Patch.
Local Open Scope nat_scope.

(** With ints a call does exactly what the unbounded model does, or overflows: there is no third outcome.  So
    all the results about the unbounded model hold of every call that does not overflow. *)
Theorem C75_same_or_overflow : (forall p m, same_or_overflow (refine_mesh32 p m) (refine_mesh p m)) /\
  (forall G ne gauss m, same_or_overflow (build_connectivity32 G ne gauss m) (build_connectivity G ne gauss m)) /\
  (forall Z0 w0 m, same_or_overflow (refine_high_order_mesh32 Z0 w0 m) (refine_high_order_mesh Z0 w0 m)).
Proof. split; [exact so_refine_mesh|]. split; [exact so_build_connectivity|exact so_refine_high]. Qed.
Print Assumptions C75_same_or_overflow.

(** refine_mesh, merging of the points: a mesh in the box lo, L with bins of width h = (least corner distance of
    the last element)/(7 max(1,p)) is refined as with unbounded integers if the largest key fits. *)
Theorem C75_nodes_fit : forall p m N X d ne lo L, p <= 9 -> cdescribes m N X -> cm_cells m = S ne -> corner_spacing N X ne d ->
  let h := node_bin p d in (0 < h <= 1)%R ->
  spans (cm_nodes m) X lo L -> (forall i, i < 3 -> (lo i <= 10 ^ 16 /\ - 10 ^ 16 <= lo i + L i)%R) ->
  let l := fun i => ((L i + / 10 ^ 14) / h)%R in let B := fun i => ((L i + 1 + / 10 ^ 14) / h)%R in
  (INR (S ne * pts1 p ^ 3) <= IZR INT_MAX)%R -> (forall i, i < 3 -> (B i <= IZR INT_MAX)%R) ->
  (l 0%nat + l 1%nat * B 0%nat + l 2%nat * B 0%nat * B 1%nat + 10 <= IZR INT_MAX)%R ->
  refine_cells32 p m = refine_cells p m /\ exists r, refine_cells p m = Ok r.
Proof.
  intros p m N X d ne lo L Hp HM Ec HL h Hh Sp HR l B H1 H2 H3. split; [exact (cells32_small p m N X d ne Hp HM Ec HL Hh lo L Sp HR H1 H2 H3)|].
  destruct (refine_cells_ok p m N X d ne Hp HM Ec HL (corner_small p d Hp Hh)) as (r & _ & _ & _ & _ & Er & _). exists r. exact Er.
Qed.
Print Assumptions C75_nodes_fit.

(** ... and if some extents of the mesh, in bins, multiply to more than an int, refine_mesh overflows, although
    with unbounded integers the points are merged *)
Theorem C75_nodes_overflow : forall p m N X d ne e l a0 b0 a1 b1 a2 (k0 k1 k2 : Z), p <= 9 -> cdescribes m N X -> cm_cells m = S ne -> corner_spacing N X ne d ->
  let h := node_bin p d in (0 < h <= 1)%R -> e < S ne -> l < 8 ->
  a0 < cm_nodes m -> b0 < cm_nodes m -> a1 < cm_nodes m -> b1 < cm_nodes m -> a2 < cm_nodes m -> (0 <= k0)%Z -> (0 <= k1)%Z -> (0 <= k2)%Z ->
  (IZR k0 * h <= X b0 0%nat - X a0 0%nat + 1)%R -> (IZR k1 * h <= X b1 1%nat - X a1 1%nat + 1)%R -> (IZR k2 * h <= X (N e l) 2%nat - X a2 2%nat)%R ->
  (INT_MAX < k0 * k1 * k2 + 10)%Z ->
  refine_mesh32 p m = Err Overflow /\ exists r, refine_cells p m = Ok r.
Proof.
  intros p m N X d ne e l a0 b0 a1 b1 a2 k0 k1 k2 Hp HM Ec HL h Hh He Hl A0 B0 A1 B1 A2 P0 P1 P2 H0 H1 H2 HK. split.
  - unfold refine_mesh32. rewrite (cells32_large p m N X d ne Hp HM Ec HL Hh e l a0 b0 a1 b1 a2 k0 k1 k2 He Hl A0 B0 A1 B1 A2 P0 P1 P2 H0 H1 H2 HK). reflexivity.
  - destruct (refine_cells_ok p m N X d ne Hp HM Ec HL (corner_small p d Hp Hh)) as (r & _ & _ & _ & _ & Er & _). exists r. exact Er.
Qed.
Print Assumptions C75_nodes_overflow.

(** refine_high_order_mesh: h = (least planar distance along a row of an element)/(7 p) *)
Theorem C75_high_fit : forall Z0 w0 m N X d lo L, let p := m_order m in let ne := m_num_elems m in let ng := (2 * p + 1) ^ 3 in let h := (d / (7 * INR p))%R in
  1 <= p <= 9 -> 0 < ne -> describes m ((p + 1) ^ 3) N X -> least_planar p ne N X d -> (d <= NUM_MAX)%R -> (0 < h <= 1)%R ->
  spans (m_num_nodes m) X lo L -> (forall i, i < 3 -> (lo i <= NUM_MAX /\ NUM_MIN <= lo i + L i)%R) ->
  (forall g, g < ne * ng -> in_range (m_num_nodes m) X (gauss_pos p N X g)) ->
  let l := fun i => ((L i + / 10 ^ 14) / h)%R in let B := fun i => ((L i + 1 + / 10 ^ 14) / h)%R in
  (INR (ne * ng) <= IZR INT_MAX)%R -> (forall i, i < 3 -> (B i <= IZR INT_MAX)%R) ->
  (l 0%nat + l 1%nat * B 0%nat + l 2%nat * B 0%nat * B 1%nat + 10 <= IZR INT_MAX)%R ->
  refine_high_order_mesh32 Z0 w0 m = refine_high_order_mesh Z0 w0 m.
Proof.
  intros Z0 w0 m N X d lo L p ne ng h Hp Hne HM HL Hd Hh Sp HR HI l B H1 H2 H3. exact (high32_small Z0 w0 m N X d Hp Hne HM HL Hd Hh lo L Sp HR HI H1 H2 H3).
Qed.
Print Assumptions C75_high_fit.

Theorem C75_high_overflow : forall Z0 w0 m N X d e a b c a0 b0 a1 b1 a2 (k0 k1 k2 : Z), let p := m_order m in let ne := m_num_elems m in let h := (d / (7 * INR p))%R in
  1 <= p <= 9 -> 0 < ne -> describes m ((p + 1) ^ 3) N X -> least_planar p ne N X d -> (d <= NUM_MAX)%R -> (0 < h <= 1)%R ->
  e < ne -> a < 2 -> b < 2 -> c < 2 ->
  a0 < m_num_nodes m -> b0 < m_num_nodes m -> a1 < m_num_nodes m -> b1 < m_num_nodes m -> a2 < m_num_nodes m -> (0 <= k0)%Z -> (0 <= k1)%Z -> (0 <= k2)%Z ->
  (IZR k0 * h <= X b0 0%nat - X a0 0%nat + 1)%R -> (IZR k1 * h <= X b1 1%nat - X a1 1%nat + 1)%R ->
  (IZR k2 * h <= X (N e (a * p + b * p * (p + 1) + c * p * (p + 1) * (p + 1))%nat) 2%nat - X a2 2%nat)%R ->
  (INT_MAX < k0 * k1 * k2 + 10)%Z -> refine_high_order_mesh32 Z0 w0 m = Err Overflow.
Proof.
  intros Z0 w0 m N X d e a b c a0 b0 a1 b1 a2 k0 k1 k2 p ne h Hp Hne HM HL Hd Hh. exact (high32_large Z0 w0 m N X d Hp Hne HM HL Hd Hh e a b c a0 b0 a1 b1 a2 k0 k1 k2).
Qed.
Print Assumptions C75_high_overflow.

(** build_connectivity: faces are keyed with bins of a third of the least corner distance of the last cell; the
    other counters grow with the number of cells (elements) V, V' at a node *)
Theorem C75_connectivity_fit : forall G ne gauss m N GN X d nc lo L V V', cdescribes m N X -> cm_cells m = S nc -> corner_spacing N X nc d -> (0 < d <= 10 ^ 4)%R ->
  (forall e l, e < ne -> l < G -> getu gauss (e * G + l) = Ok (GN e l) /\ GN e l < cm_nodes m) ->
  spans (cm_nodes m) X lo L -> (forall i, i < 3 -> (lo i <= 10 ^ 64 /\ - 10 ^ 64 <= lo i + L i)%R) ->
  let n := fun i => ((L i + / 10 ^ 12) / (d / 3))%R in
  (n 0%nat + n 1%nat * n 0%nat + n 2%nat * n 0%nat * n 1%nat + 10 <= IZR INT_MAX)%R ->
  (forall v, v < cm_nodes m -> uses 8 (S nc) N v <= V) -> (forall v, v < cm_nodes m -> uses G ne GN v <= V') ->
  (Z.of_nat (S nc * 24) <= INT_MAX)%Z -> (Z.of_nat (S nc * (8 * V)) <= INT_MAX)%Z -> (Z.of_nat (ne * G) <= INT_MAX)%Z -> (Z.of_nat (ne * (G * V')) <= INT_MAX)%Z ->
  build_connectivity32 G ne gauss m = build_connectivity G ne gauss m.
Proof.
  intros G ne gauss m N GN X d nc lo L V V' HM Ec HL Hd HG. exact (conn32_fit m N X d nc HM Ec HL Hd G ne gauss GN HG lo L V V').
Qed.
Print Assumptions C75_connectivity_fit.

Theorem C75_connectivity_overflow : forall G ne gauss m N X d nc c s a0 b0 a1 b1 a2 (k0 k1 k2 : R), cdescribes m N X -> cm_cells m = S nc -> corner_spacing N X nc d -> (0 < d <= 10 ^ 4)%R ->
  c < S nc -> s < 6 -> a0 < cm_nodes m -> b0 < cm_nodes m -> a1 < cm_nodes m -> b1 < cm_nodes m -> a2 < cm_nodes m -> (0 <= k0)%R -> (0 <= k1)%R -> (0 <= k2)%R ->
  (k0 * (d / 3) <= X b0 0%nat - X a0 0%nat)%R -> (k1 * (d / 3) <= X b1 1%nat - X a1 1%nat)%R -> (k2 * (d / 3) <= face_centre N X c s 2%nat - X a2 2%nat)%R ->
  (2 ^ 31 <= k0 * k1 * k2 + 10)%R -> (exists C, build_connectivity G ne gauss m = Ok C) -> build_connectivity32 G ne gauss m = Err Overflow.
Proof.
  intros G ne gauss m N X d nc c s a0 b0 a1 b1 a2 k0 k1 k2 HM Ec HL Hd Hc Hs A0 B0 A1 B1 A2 P0 P1 P2 H0 H1 H2 HK HC.
  apply (conn32_large m N X d nc HM Ec HL Hd G ne gauss c s a0 b0 a1 b1 a2 k0 k1 k2 Hc Hs A0 B0 A1 B1 A2 P0 P1 P2 H0 H1 H2); [lra|exact HC].
Qed.
Print Assumptions C75_connectivity_overflow.

(** a run that returns kept all its sizes and counters in range: so meshes with more points, corners, pairs or
    faces than that overflow *)
Theorem C75_sizes :
  (forall p m r c, refine_mesh32 p m = Ok (r, c) -> (Z.of_nat (cm_cells m * pts1 p ^ 3) <= INT_MAX)%Z /\ cm_cells (rf_mesh r) = cm_cells m * Spec_Full.sub1 p ^ 3 /\
     build_connectivity32 (pts1 p ^ 3) (cm_cells m) (mg_node (rf_merged r)) (rf_mesh r) = Ok c) /\
  (forall m N X G ne gauss GN C, cdescribes m N X -> (forall e l, e < ne -> l < G -> getu gauss (e * G + l) = Ok (GN e l) /\ GN e l < cm_nodes m) ->
     build_connectivity32 G ne gauss m = Ok C ->
     (Z.of_nat (cm_cells m * 8) <= INT_MAX /\ Z.of_nat (pair_count 8 (cm_cells m) N) <= INT_MAX /\ Z.of_nat (pt_num (cn_patches C) * 4) <= INT_MAX /\
      Z.of_nat (ne * G) <= INT_MAX /\ Z.of_nat (pair_count G ne GN) <= INT_MAX)%Z) /\
  (forall Z0 w0 m hm, refine_high_order_mesh32 Z0 w0 m = Ok hm -> (Z.of_nat (m_num_elems m * (2 * m_order m + 1) ^ 3) <= INT_MAX)%Z).
Proof.
  split; [|split].
  - intros p m r c Q. unfold refine_mesh32 in Q. apply bind_ok in Q. destruct Q as (r' & Er & Q). apply bind_ok in Q. destruct Q as (c' & Eb & Q). injection Q as -> ->.
    rewrite pts1_model in Eb. destruct (cells32_sizes p m r Er) as (A & B). auto.
  - intros m N X G ne gauss GN C HM HG Q. exact (conn32_sizes m N X G ne gauss GN C HM HG Q).
  - intros Z0 w0 m hm Q. unfold refine_high_order_mesh32 in Q. cbv zeta in Q. apply bind_ok in Q. destruct Q as (z1 & _ & Q). apply bind_ok in Q. destruct Q as (z2 & F & _). apply fits_inv in F. exact F.
Qed.
Print Assumptions C75_sizes.

(** the whole refine_mesh on grids of equal boxes (C61_boxes) *)
Theorem C75_boxes_fit : forall p ne m N X o s E D lo L, let n1 := pts1 p in let ns := Spec_Full.sub1 p in
  p <= 5 -> cdescribes m N X -> cm_cells m = S ne -> box_elements 1 (S ne) N X o s E ->
  D < 3 -> (forall d, d < 3 -> (0 < s D <= s d)%R) -> (s D <= 7 * INR (Nat.max 1 p))%R ->
  (p = 0 -> exists e l e' l', e < S ne /\ l < 8 /\ e' < S ne /\ l' < 8 /\ e <> e' /\ 0 < e + l /\ 0 < e' + l' /\ forall d, d < 3 -> X (N e l) d = X (N e' l') d) ->
  (forall e e', e < S ne -> e' < S ne -> (forall d, d < 3 -> E e d = E e' d) -> e = e') ->
  spans (cm_nodes m) X lo L -> (forall i, i < 3 -> (lo i <= 10 ^ 16 /\ - 10 ^ 16 <= lo i + L i)%R) ->
  let h := node_bin p (s D) in let l := fun i => ((L i + / 10 ^ 14) / h)%R in let B := fun i => ((L i + 1 + / 10 ^ 14) / h)%R in
  let n := fun i => ((L i + / 10 ^ 12) / (s D * ((1 - lob n1 (ns - 1)) / 2) / 3))%R in
  (forall i, i < 3 -> (B i <= IZR INT_MAX)%R) -> (l 0%nat + l 1%nat * B 0%nat + l 2%nat * B 0%nat * B 1%nat + 10 <= IZR INT_MAX)%R ->
  (n 0%nat + n 1%nat * n 0%nat + n 2%nat * n 0%nat * n 1%nat + 10 <= IZR INT_MAX)%R ->
  (Z.of_nat (S ne * (64 * (ns * ns * ns))) <= INT_MAX)%Z -> (Z.of_nat (S ne * (8 * n1 ^ 3)) <= INT_MAX)%Z ->
  refine_mesh32 p m = refine_mesh p m /\ exists rc, refine_mesh p m = Ok rc.
Proof.
  intros p ne m N X o s E D lo L n1 ns Hp HM Ec HB HD Hs Hbig H0 Inj Sp HR h l B n H1 H2 H3 H4 H5. split.
  - exact (boxes32_fit p ne m N X o s E D Hp HM Ec HB HD Hs Hbig H0 Inj lo L Sp HR H1 H2 H3 H4 H5).
  - destruct (C61_boxes p ne m N X o s E D Hp HM Ec HB HD Hs Hbig H0) as (r & C & nd & CN & CX & pt & ER & _). exists (r, C). exact ER.
Qed.
Print Assumptions C75_boxes_fit.

(** The unit cube cut into n^3 elements: refine_mesh succeeds up to n = 116, 116, 58, 36, 21, 14 at orders 0 .. 5
    and overflows an int on every finer mesh. *)
Theorem C75_unit_cube : forall p n ne m N X E, p <= 5 -> (2 <= n \/ 1 <= p) -> cdescribes m N X -> cm_cells m = S ne -> unit_cube n (S ne) (cm_nodes m) 1 N X E ->
  exists rc, refine_mesh p m = Ok rc /\ refine_mesh32 p m = if Nat.leb n (cube_limit p) then Ok rc else Err Overflow.
Proof.
  intros p n ne m N X E Hp H2 HM Ec HU. destruct (cube_ok p n ne m N X E Hp HM Ec HU H2) as (rc & Er). exists rc. split; [exact Er|].
  destruct (Nat.leb_spec n (cube_limit p)).
  - rewrite <- Er. exact (cube32_fit p n ne m N X E Hp HM Ec HU H2 H).
  - exact (cube32_over p n ne m N X E Hp HM Ec HU H2 H).
Qed.
Print Assumptions C75_unit_cube.

(** refine_high_order_mesh on the unit cube of n^3 elements of order p: it succeeds exactly for p^2 n <= 116 *)
Theorem C75_high_unit_cube : forall Z0 w0 m n N X E, let p := m_order m in
  1 <= p <= 9 -> 1 <= n -> describes m ((p + 1) ^ 3) N X -> unit_cube n (m_num_elems m) (m_num_nodes m) p N X E ->
  exists hm, refine_high_order_mesh Z0 w0 m = Ok hm /\ refine_high_order_mesh32 Z0 w0 m = if Nat.leb (p * p * n) 116 then Ok hm else Err Overflow.
Proof.
  intros Z0 w0 m n N X E p Hp Hn HM HU.
  assert (Q : exists hm, refine_high_order_mesh Z0 w0 m = Ok hm).
  { assert (Rn : (1 <= INR n)%R) by (change 1%R with (INR 1); apply le_INR; lia). assert (Rp : (1 <= INR p)%R) by (change 1%R with (INR 1); apply le_INR; lia).
    assert (In : (0 < / INR n <= 1)%R) by (split; [apply Rinv_0_lt_compat; lra|rewrite <- Rinv_1; apply Rinv_le_contravar; lra]).
    assert (Hne : 0 < m_num_elems m) by (rewrite (proj1 HU); nia).
    assert (S7 : (0 < / INR n <= 7 * INR p * INR p)%R) by nra.
    destruct (C59_boxes Z0 w0 m N X (fun _ => 0%R) (fun _ => / INR n)%R E Hp Hne HM (proj1 (proj2 (proj2 HU))) S7 (Rle_refl _) (Rle_refl _)) as (hm & nd & Eh & _). exists hm. exact Eh. }
  destruct Q as (hm & Eh). exists hm. split; [exact Eh|]. destruct (Nat.leb_spec (p * p * n) 116) as [H|H].
  - rewrite <- Eh. exact (high_cube32_fit Z0 w0 m n N X E Hp Hn HM HU H).
  - exact (high_cube32_over Z0 w0 m n N X E Hp Hn HM HU H).
Qed.
Print Assumptions C75_high_unit_cube.

(** * such meshes exist: n^3 separate elements of order p *)
Lemma at_seq {A} (f : nat -> A) k q : q < k -> getu (map (fun i => Some (f i)) (seq 0 k)) q = Ok (f q).
Proof.
  intros H. unfold getu, get. rewrite nth_error_map. rewrite (nth_error_nth' (seq 0 k) 0) by (rewrite seq_length; exact H). rewrite seq_nth by exact H. reflexivity.
Qed.
Definition cubeE (n e d : nat) : Z := Z.of_nat (grid n e d).
Definition cubeN (p e l : nat) : nat := e * (p + 1) ^ 3 + l.
Definition cubeX (n p g d : nat) : R := (0 + / INR n * (IZR (cubeE n (g / (p + 1) ^ 3) d) + INR (grid (p + 1) (g mod (p + 1) ^ 3) d) / INR p))%R.

Lemma cube_is n p : 1 <= n -> 1 <= p -> unit_cube n (n * n * n) (n * n * n * (p + 1) ^ 3) p (cubeN p) (cubeX n p) (cubeE n).
Proof.
  intros Hn Hp. assert (Rn : (1 <= INR n)%R) by (change 1%R with (INR 1); apply le_INR; lia). assert (Rp : (1 <= INR p)%R) by (change 1%R with (INR 1); apply le_INR; lia).
  assert (P3 : 0 < (p + 1) ^ 3) by (cbn [Nat.pow]; nia).
  assert (G : forall e d, grid n e d < n) by (intros; unfold grid; apply Nat.mod_upper_bound; lia).
  assert (Sp : forall e, e < n * n * n -> e = grid n e 0 + grid n e 1 * n + grid n e 2 * n * n).
  { intros e He. destruct (gauss_split n 1 e ltac:(lia) ltac:(cbn [Nat.pow]; nia)) as (z & i & j & k & Hz & Hi & Hj & Hk & ->). replace z with 0 by lia. cbn [Nat.mul Nat.add]. destruct (grid_at n i j k Hi Hj Hk) as (-> & -> & ->). reflexivity. }
  split; [reflexivity|]. split.
  { intros g d Hg Hd. unfold cubeX. set (a := grid n (g / (p + 1) ^ 3) d). set (b := grid (p + 1) (g mod (p + 1) ^ 3) d).
    assert (Ha : a < n) by apply G. assert (Hb : b <= p) by (assert (b < p + 1) by (unfold b, grid; apply Nat.mod_upper_bound; lia); lia).
    unfold cubeE. rewrite <- INR_IZR_INZ. fold a. assert (A := pos_INR a). assert (B := pos_INR b). assert (A1 : (INR a + 1 <= INR n)%R) by (rewrite <- S_INR; apply le_INR; lia). assert (B1 : (INR b <= INR p)%R) by (apply le_INR; lia).
    assert (Q : (0 <= INR b / INR p <= 1)%R) by (split; [apply Rmult_le_pos; [lra|left; apply Rinv_0_lt_compat; lra]|apply Rmult_le_reg_r with (INR p); [lra|]; unfold Rdiv; rewrite Rmult_assoc, Rinv_l by lra; lra]).
    set (x := (INR b / INR p)%R) in *. clearbody x. assert (In : (0 < / INR n)%R) by (apply Rinv_0_lt_compat; lra). split; [nra|].
    rewrite !Rplus_0_l. apply Rmult_le_reg_l with (INR n); [lra|]. rewrite <- Rmult_assoc, Rinv_r by lra. lra. }
  split.
  { intros e i j k He Hi Hj Hk v. assert (L := grid3_lt (p + 1) i j k ltac:(lia) ltac:(lia) ltac:(lia)).
    assert (Ev : v / (p + 1) ^ 3 = e /\ v mod (p + 1) ^ 3 = i + j * (p + 1) + k * (p + 1) * (p + 1)).
    { unfold v, cubeN. split; [rewrite Nat.div_add_l by lia; rewrite (Nat.div_small _ _ L); lia|]. rewrite Nat.add_comm, Nat.mod_add by lia. apply Nat.mod_small. exact L. }
    destruct Ev as (E1 & E2). destruct (grid_at (p + 1) i j k ltac:(lia) ltac:(lia) ltac:(lia)) as (G0 & G1 & G2).
    unfold cubeX. rewrite E1, E2, G0, G1, G2. auto. }
  split. { intros e d He Hd. unfold cubeE. specialize (G e d). lia. }
  split. { intros q Hq. assert (Q0 := Hq 0 ltac:(lia)). assert (Q1 := Hq 1 ltac:(lia)). assert (Q2 := Hq 2 ltac:(lia)). exists (q 0 + q 1 * n + q 2 * n * n). split; [assert (L := grid3_lt n (q 0) (q 1) (q 2) Q0 Q1 Q2); cbn [Nat.pow] in L; nia|].
    destruct (grid_at n (q 0) (q 1) (q 2) Q0 Q1 Q2) as (G0 & G1 & G2). intros [|[|[|d]]] Hd; unfold cubeE; [rewrite G0|rewrite G1|rewrite G2|lia]; reflexivity. }
  intros e e' He He' H. rewrite (Sp e He), (Sp e' He'). assert (H0 := H 0 ltac:(lia)). assert (H1 := H 1 ltac:(lia)). assert (H2 := H 2 ltac:(lia)). unfold cubeE in *. nia.
Qed.

Definition cube_mesh (n : nat) : cmesh :=
  let ne := n * n * n in CMesh (ne * 8) ne (map (fun q => Some (cubeX n 1 (q / 3) (q mod 3))) (seq 0 (ne * 8 * 3))) (map (fun q => Some q) (seq 0 (ne * 8))).
Definition high_cube (n p : nat) : mesh R :=
  let ne := n * n * n in let K := (p + 1) ^ 3 in
  Mesh p (ne * K) ne (map (fun q => Some (cubeX n p (q / 3) (q mod 3))) (seq 0 (ne * K * 3))) K (map (fun q => Some q) (seq 0 (ne * K))).

Lemma cube_mesh_is n : cdescribes (cube_mesh n) (cubeN 1) (cubeX n 1).
Proof.
  split.
  - intros c l Hc Hl. change (c < n * n * n) in Hc. unfold cm_node. change (cm_nodes (cube_mesh n)) with (n * n * n * 8). unfold cubeN. change ((1 + 1) ^ 3) with 8. cbv delta [cube_mesh] beta zeta. cbn [cm_conn]. set (K := n * n * n) in *. clearbody K. rewrite (at_seq (fun q => q)) by lia. split; [reflexivity|lia].
  - intros g d Hg Hd. unfold cm_coord, cube_mesh in *. cbv zeta in *. cbn [cm_nodes cm_coords] in *. rewrite (at_seq (fun q => cubeX n 1 (q / 3) (q mod 3))) by lia.
    f_equal. f_equal; [rewrite Nat.div_add_l by lia; rewrite (Nat.div_small d 3) by lia; lia|rewrite Nat.add_comm, Nat.mod_add by lia; apply Nat.mod_small; lia].
Qed.
Lemma high_cube_is n p : describes (high_cube n p) ((p + 1) ^ 3) (cubeN p) (cubeX n p).
Proof.
  split.
  - intros e v He Hv. unfold nodes_in_elem, high_cube, cubeN in *. cbv zeta in *. cbn [m_num_elems m_num_nodes m_conn m_width] in *. assert (e * (p + 1) ^ 3 + v < n * n * n * (p + 1) ^ 3) by nia. split; [|assumption]. rewrite (at_seq (fun q => q)) by assumption. reflexivity.
  - intros g d Hg Hd. unfold node_coords, high_cube in *. cbv zeta in *. cbn [m_num_nodes m_coords] in *. rewrite (at_seq (fun q => cubeX n p (q / 3) (q mod 3))) by lia.
    f_equal. f_equal; [rewrite Nat.div_add_l by lia; rewrite (Nat.div_small d 3) by lia; lia|rewrite Nat.add_comm, Nat.mod_add by lia; apply Nat.mod_small; lia].
Qed.

(** at order 1: 116 layers in each direction, and not one more *)
Example C75_unit_cube_nonvacuous : forall n, 1 <= n -> exists rc, refine_mesh 1 (cube_mesh n) = Ok rc /\ refine_mesh32 1 (cube_mesh n) = if Nat.leb n 116 then Ok rc else Err Overflow.
Proof.
  intros n Hn. assert (E : n * n * n = S (n * n * n - 1)) by nia. apply (C75_unit_cube 1 n (n * n * n - 1) (cube_mesh n) (cubeN 1) (cubeX n 1) (cubeE n)); [lia|right; lia|apply cube_mesh_is|exact E|].
  rewrite <- E. exact (cube_is n 1 Hn (le_n 1)).
Qed.
Example C75_high_unit_cube_nonvacuous : forall Z0 w0 n, 1 <= n -> exists hm, refine_high_order_mesh Z0 w0 (high_cube n 3) = Ok hm /\ refine_high_order_mesh32 Z0 w0 (high_cube n 3) = if Nat.leb (9 * n) 116 then Ok hm else Err Overflow.
Proof. intros Z0 w0 n Hn. exact (C75_high_unit_cube Z0 w0 (high_cube n 3) n (cubeN 3) (cubeX n 3) (cubeE n) ltac:(cbn; lia) Hn (high_cube_is n 3) (cube_is n 3 Hn ltac:(lia))). Qed.
(** both outcomes occur *)
Example C75_same_or_overflow_nonvacuous : refine_mesh32 1 (cube_mesh 117) = Err Overflow /\ exists rc, refine_mesh32 1 (cube_mesh 116) = Ok rc.
Proof.
  split; [destruct (C75_unit_cube_nonvacuous 117 ltac:(lia)) as (rc & _ & Q)|destruct (C75_unit_cube_nonvacuous 116 ltac:(lia)) as (rc & _ & Q); exists rc]; exact Q.
Qed.
