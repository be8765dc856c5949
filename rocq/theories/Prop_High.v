(** Property theorems C59 (swage/refine_high_order_mesh.cpp). *)
From Coq Require Import Reals List Arith NArith ZArith Lra Lia.
Import ListNotations.
Require Import Verif.Base Verif.RBase Verif.RSum Verif.Spec_Lagrange Verif.Model_Common Verif.Model_Points Verif.Proof_Points Verif.Prop_Points Verif.Model_Lagrange
  Verif.Model_Quad Verif.Proof_Quad Verif.Proof_Quad3 Verif.Model_Geom Verif.Proof_Geom Verif.Model_Refine Verif.Model_Ref Verif.Model_Vtk Verif.Model_High Verif.Spec_Quad Verif.Spec_High
  Verif.Proof_Lob Verif.Proof_Box Verif.Proof_Blas Verif.Proof_High Verif.Proof_High2 Verif.Proof_High3.
Local Open Scope nat_scope.

Lemma small_max : (63 <= NUM_MAX)%R.
Proof. unfold NUM_MAX. assert (0 < / 2 ^ 52 <= 1)%R by (split; [apply Rinv_0_lt_compat, pow_lt; lra|rewrite <- Rinv_1; apply Rinv_le_contravar; [lra|apply pow_R1_Rle; lra]]).
  assert (2 ^ 6 <= 2 ^ 1023)%R by (apply Rle_pow; [lra|lia]). assert (2 ^ 6 = 64)%R by ring. nra. Qed.

(** C59, always: for order 1 to 9 refinement succeeds as soon as the first vertex row of every element has
    distinct x-y positions; the result has the same elements, each with (2p+1)^3 nodes; every node sits
    exactly at the image, under the order-p map of its element, of a Lobatto point it belongs to; points at
    the same position share their node, except that the very first point keeps node 0 for itself; and the
    cells of an element are the 8-point blocks of its grid. *)
Theorem C59_refined_mesh : forall Z0 w0 m N X d, let p := m_order m in let n1 := 2 * p + 1 in let ng := n1 ^ 3 in let ne := m_num_elems m in
  1 <= p <= 9 -> 0 < ne -> describes m ((p + 1) ^ 3) N X -> least_planar p ne N X d -> (0 < d <= NUM_MAX)%R ->
  exists hm nd, refine_high_order_mesh Z0 w0 m = Ok hm /\ let M := hm_mesh hm in
    m_order M = p /\ m_num_elems M = ne /\
    (forall g, g < ne * ng -> nodes_in_elem M (g / ng) (g mod ng) = Ok (nd g) /\ nd g < m_num_nodes M) /\
    (forall v, v < m_num_nodes M -> exists g, g < ne * ng /\ nd g = v /\ forall i, i < 3 -> node_coords M v i = Ok (gauss_pos p N X g i)) /\
    (forall g, g < ne * ng -> (nd g = 0 <-> g = 0)) /\
    (forall g g', 0 < g < ne * ng -> 0 < g' < ne * ng -> (forall i, i < 3 -> gauss_pos p N X g i = gauss_pos p N X g' i) -> nd g = nd g') /\
    forall e k j i, e < ne -> k < 2 * p -> j < 2 * p -> i < 2 * p ->
      let ns := 2 * p in let cell := i + j * ns + k * ns * ns + ns * ns * ns * e in
      cells_in_elem (hm_maps hm) ns e (i + j * ns + k * ns * ns) = Ok cell /\
      elems_in_cell (hm_maps hm) cell = Ok e /\
      forall c, c < 8 -> let l := (i + c mod 2) + (j + c / 2 mod 2) * n1 + (k + c / 4) * n1 * n1 in
        gauss_in_cell (hm_maps hm) cell c = Ok (e * ng + l) /\ getu (hm_cells hm) (cell * 8 + c) = Ok (nd (e * ng + l)).
Proof.
  intros Z0 w0 m N X d p n1 ng ne Hp Hne HM HL Hd.
  destruct (refine_high_ok Z0 w0 m N X d Hp Hne HM HL Hd) as (hm & nd & own & mx & mn & E & H). fold p n1 ng ne in H.
  destruct H as (E1 & E2 & E3 & E4 & Hb & Hba & Hpts & Hnie & Hlt & Hown & H0 & Hn0 & Hkey & Hcell).
  assert (Hng : 0 < ng) by (unfold ng, n1; cbn [Nat.pow]; nia).
  exists hm, nd. split; [exact E|]. cbv zeta. split; [exact E1|]. split; [exact E2|]. split.
  { intros g Hg. split; [|apply Hlt; exact Hg]. rewrite Hnie by (try (apply Nat.mod_upper_bound; lia); apply Nat.div_lt_upper_bound; lia).
    f_equal. f_equal. rewrite (Nat.div_mod g ng) at 3 by lia. ring. }
  split. { intros v Hv. destruct (Hown v Hv) as (A & B & C). exists (own v). auto. }
  split. { intros g Hg. split; [|intros ->; exact H0]. intros Q. destruct (Nat.eq_dec g 0); [assumption|]. exfalso. apply (Hn0 g); [lia|exact Q]. }
  split. { intros g g' Hg Hg' Q. apply Hkey; [exact Hg|exact Hg'|]. apply refine_key_ext. exact Q. }
  intros e k j i He Hk Hj Hi. destruct (Hcell e k j i He Hk Hj Hi) as (A & B & C). split; [exact A|]. split; [exact B|].
  intros c Hc. destruct (C c Hc) as (C1 & C2). split; [exact C1|]. cbv zeta in C2. rewrite C2. apply Hnie; [exact He|].
  assert (c mod 2 < 2) by (apply Nat.mod_upper_bound; lia). assert (c / 2 mod 2 < 2) by (apply Nat.mod_upper_bound; lia). assert (c / 4 < 2) by (apply Nat.div_lt_upper_bound; lia).
  apply grid3_lt; unfold n1; lia.
Qed.
Print Assumptions C59_refined_mesh.

(** C59, accuracy: h is the least x-y distance of two vertices in a first row, divided by 7 p.  If h <= 1 and
    all points lie in the coordinate range of the vertices, the node of a point is less than h away from it
    in each direction, and points at least h apart in some direction have different nodes. *)
Theorem C59_accuracy : forall Z0 w0 m N X d, let p := m_order m in let ng := (2 * p + 1) ^ 3 in let ne := m_num_elems m in let h := (d / (7 * INR p))%R in
  1 <= p <= 9 -> 0 < ne -> describes m ((p + 1) ^ 3) N X -> least_planar p ne N X d -> (0 < h <= 1)%R ->
  (forall g, g < ne * ng -> in_range (m_num_nodes m) X (gauss_pos p N X g)) ->
  exists hm nd, refine_high_order_mesh Z0 w0 m = Ok hm /\ let M := hm_mesh hm in
    (forall g, g < ne * ng -> nodes_in_elem M (g / ng) (g mod ng) = Ok (nd g)) /\
    (forall g, g < ne * ng -> exists c : nat -> R, forall i, i < 3 -> node_coords M (nd g) i = Ok (c i) /\ (Rabs (c i - gauss_pos p N X g i) < h)%R) /\
    (forall g g', 0 < g < ne * ng -> 0 < g' < ne * ng -> (exists i, i < 3 /\ (h <= Rabs (gauss_pos p N X g i - gauss_pos p N X g' i))%R) -> nd g <> nd g').
Proof.
  intros Z0 w0 m N X d p ng ne h Hp Hne HM HL Hh HR.
  assert (Pp : (1 <= INR p <= 9)%R) by (split; [replace 1%R with (INR 1) by reflexivity|replace 9%R with (INR 9) by (cbn; lra)]; apply le_INR; lia).
  assert (Ed : (d = h * (7 * INR p))%R) by (unfold h; field; lra).
  assert (Hd : (0 < d <= NUM_MAX)%R) by (assert (S := small_max); nra).
  destruct (refine_high_ok Z0 w0 m N X d Hp Hne HM HL Hd) as (hm & nd & own & mx & mn & E & H). fold p ng ne h in H.
  destruct H as (E1 & E2 & E3 & E4 & Hb & Hba & Hpts & Hnie & Hlt & Hown & H0 & Hn0 & Hkey & Hcell).
  assert (Hng : 0 < ng) by (unfold ng; cbn [Nat.pow]; nia).
  assert (Hbox : forall g, g < ne * ng -> in_box mn mx (gauss_pos p N X g)).
  { intros g Hg i Hi. destruct (HR g Hg i Hi) as (a & b & Ha & Hb' & Q). assert (B1 := Hb a i Ha Hi). assert (B2 := Hb b i Hb' Hi). lra. }
  assert (Close : forall g g', g < ne * ng -> g' < ne * ng -> nd g = nd g' -> forall i, i < 3 -> (Rabs (gauss_pos p N X g i - gauss_pos p N X g' i) < h)%R).
  { intros g g' Hg Hg' Q i Hi. destruct (Nat.eq_dec g 0) as [->|].
    - destruct (Nat.eq_dec g' 0) as [->|]; [rewrite Rminus_eq_0, Rabs_R0; lra|]. exfalso. apply (Hn0 g'); [lia|congruence].
    - destruct (Nat.eq_dec g' 0) as [->|]; [exfalso; apply (Hn0 g); [lia|congruence]|].
      apply Hkey in Q; try lia. assert (K := key_inj h mn mx ltac:(lra) _ _ (proj2 Hh) (Hbox g Hg) (Hbox g' Hg') Q i Hi).
      apply (bin_close h mn ltac:(lra) _ _ i); [apply (Hbox g Hg i Hi)|apply (Hbox g' Hg' i Hi)|exact K]. }
  exists hm, nd. split; [exact E|]. cbv zeta. split; [|split].
  - intros g Hg. rewrite Hnie by (try (apply Nat.mod_upper_bound; lia); apply Nat.div_lt_upper_bound; lia).
    f_equal. f_equal. rewrite (Nat.div_mod g ng) at 3 by lia. ring.
  - intros g Hg. destruct (Hown (nd g) (Hlt g Hg)) as (A & B & C). exists (gauss_pos p N X (own (nd g))). intros i Hi. split; [apply C; exact Hi|].
    apply Close; assumption.
  - intros g g' Hg Hg' (i & Hi & Q) Q'. specialize (Close g g' ltac:(lia) ltac:(lia) Q' i Hi). lra.
Qed.
Print Assumptions C59_accuracy.

(** C59, faces: two elements whose vertices agree on a common face get the same nodes on that face *)
Theorem C59_common_faces : forall Z0 w0 m N X d D e e' a b, let p := m_order m in let n1 := 2 * p + 1 in let ne := m_num_elems m in
  1 <= p <= 9 -> describes m ((p + 1) ^ 3) N X -> least_planar p ne N X d -> (0 < d <= NUM_MAX)%R ->
  D < 3 -> e < ne -> e' < ne -> adjacent p N D e e' -> a <= 2 * p -> b <= 2 * p -> 0 < e' * n1 ^ 3 + at3 n1 D 0 a b ->
  exists hm v, refine_high_order_mesh Z0 w0 m = Ok hm /\
    nodes_in_elem (hm_mesh hm) e (at3 n1 D (2 * p) a b) = Ok v /\ nodes_in_elem (hm_mesh hm) e' (at3 n1 D 0 a b) = Ok v.
Proof.
  intros Z0 w0 m N X d D e e' a b p n1 ne Hp HM HL Hd HD He He' HA Ha Hb Hpos.
  destruct (refine_high_ok Z0 w0 m N X d Hp ltac:(fold ne; lia) HM HL Hd) as (hm & nd & own & mx & mn & E & H). fold p n1 ne in H.
  destruct H as (E1 & E2 & E3 & E4 & Hbb & Hba & Hpts & Hnie & Hlt & Hown & H0 & Hn0 & Hkey & Hcell).
  assert (L : forall t, t <= 2 * p -> at3 n1 D t a b < n1 ^ 3) by (intros t Ht; destruct D as [|[|D]]; cbn [at3]; apply grid3_lt; unfold n1; lia).
  assert (Pos : 0 < at3 n1 D (2 * p) a b) by (destruct D as [|[|D]]; cbn [at3]; unfold n1; nia).
  exists hm, (nd (e * n1 ^ 3 + at3 n1 D (2 * p) a b)). split; [exact E|]. split; [apply Hnie; [exact He|apply L; lia]|].
  rewrite Hnie by (try exact He'; apply L; lia). f_equal. symmetry.
  assert (La := L (2 * p) ltac:(lia)). assert (Lb := L 0 ltac:(lia)).
  apply Hkey; [nia|nia|]. apply refine_key_ext. intros i Hi. apply face_points; assumption.
Qed.
Print Assumptions C59_common_faces.

(** C59, trilinear elements: for order 1 the points always lie in the range of the vertices *)
Theorem C59_trilinear_range : forall m N X g, m_order m = 1 -> describes m 8 N X -> g < m_num_elems m * 27 ->
  in_range (m_num_nodes m) X (gauss_pos 1 N X g).
Proof. exact trilinear_in_range. Qed.
Print Assumptions C59_trilinear_range.

(** C59, boxes: a grid of equal boxes with equispaced vertices, not longer in x than in y and z and at most
    7 p^2 long, is refined exactly: nodes correspond to positions (but for the first point), and the node
    of a point sits at the point. *)
Theorem C59_boxes : forall Z0 w0 m N X o s E, let p := m_order m in let ng := (2 * p + 1) ^ 3 in let ne := m_num_elems m in
  1 <= p <= 9 -> 0 < ne -> describes m ((p + 1) ^ 3) N X -> box_elements p ne N X o s E ->
  (0 < s 0%nat <= 7 * INR p * INR p)%R -> (s 0%nat <= s 1%nat)%R -> (s 0%nat <= s 2%nat)%R ->
  exists hm nd, refine_high_order_mesh Z0 w0 m = Ok hm /\ let M := hm_mesh hm in
    (forall g, g < ne * ng -> nodes_in_elem M (g / ng) (g mod ng) = Ok (nd g) /\ forall i, i < 3 -> node_coords M (nd g) i = Ok (gauss_pos p N X g i)) /\
    (forall g g', 0 < g < ne * ng -> 0 < g' < ne * ng -> (nd g = nd g' <-> forall i, i < 3 -> gauss_pos p N X g i = gauss_pos p N X g' i)) /\
    forall g, g < ne * ng -> exists e (q : nat -> nat), e < ne /\ (forall i, i < 3 -> q i < 2 * p + 1) /\
      forall i, i < 3 -> gauss_pos p N X g i = (o i + s i * (IZR (E e i) + (lob (2 * p + 1) (q i) + 1) / 2))%R.
Proof.
  intros Z0 w0 m N X o s E p ng ne Hp Hne HM HB Hs H1 H2.
  assert (Pp : (1 <= INR p <= 9)%R) by (split; [replace 1%R with (INR 1) by reflexivity|replace 9%R with (INR 9) by (cbn; lra)]; apply le_INR; lia).
  assert (Hss : forall d, d < 3 -> (s 0%nat <= s d)%R) by (intros [|[|[|d]]] Hd; [lra|exact H1|exact H2|lia]).
  assert (HL := box_least p ne N X o s E ltac:(lia) Hne HB (proj1 Hs)).
  set (h := (s 0%nat / INR p / (7 * INR p))%R).
  assert (Hh : (0 < h <= 1)%R).
  { unfold h. split; [apply Rdiv_lt_0_compat; [apply Rdiv_lt_0_compat|]; lra|]. apply (Rmult_le_reg_r (7 * INR p * INR p)); [nra|].
    replace (s 0%nat / INR p / (7 * INR p) * (7 * INR p * INR p))%R with (s 0%nat) by (field; lra). lra. }
  assert (HR : forall g, g < ne * ng -> in_range (m_num_nodes m) X (gauss_pos p N X g)).
  { intros g Hg. apply (box_in_range m N X o s E g Hp HM HB); [|exact Hg]. intros d Hd. specialize (Hss d Hd). lra. }
  assert (HdM : (0 < s 0%nat / INR p <= NUM_MAX)%R).
  { split; [apply Rdiv_lt_0_compat; lra|]. assert (S := small_max). assert (Q : (s 0%nat / INR p = h * (7 * INR p))%R) by (unfold h; field; lra). rewrite Q. nra. }
  destruct (C59_refined_mesh Z0 w0 m N X _ Hp Hne HM HL HdM) as (hm & nd & Ehm & H). fold p ng ne in H.
  destruct H as (_ & _ & Hnie & Hown & Hz & Hsame & _).
  destruct (C59_accuracy Z0 w0 m N X _ Hp Hne HM HL Hh HR) as (hm' & nd' & Ehm' & H'). fold p ng ne in H'.
  rewrite Ehm in Ehm'. injection Ehm' as <-. destruct H' as (Hnie' & Hc & Hdiff).
  assert (End : forall g, g < ne * ng -> nd' g = nd g) by (intros g Hg; destruct (Hnie g Hg) as (A & _); specialize (Hnie' g Hg); cbv zeta in *; congruence).
  exists hm, nd. split; [exact Ehm|]. cbv zeta. split; [|split].
  - intros g Hg. destruct (Hnie g Hg) as (A & B). split; [exact A|]. destruct (Hown (nd g) B) as (g0 & Hg0 & E0 & C0). intros i Hi. rewrite C0 by exact Hi. f_equal.
    destruct (Hc g Hg) as (c & Q). destruct (Q i Hi) as (Q1 & Q2). rewrite End in Q1 by exact Hg. rewrite C0 in Q1 by exact Hi. injection Q1 as Q1. rewrite <- Q1 in Q2.
    destruct (box_apart p ne N X o s E g0 g Hp HB (proj1 Hs) Hss Hg0 Hg i Hi) as [Q'|Q']; [exact Q'|]. fold h in Q2. unfold h in Q2. lra.
  - intros g g' Hg Hg'. split; [|apply Hsame; assumption]. intros Q i Hi.
    destruct (box_apart p ne N X o s E g g' Hp HB (proj1 Hs) Hss ltac:(lia) ltac:(lia) i Hi) as [Q'|Q']; [exact Q'|exfalso].
    apply (Hdiff g g' Hg Hg'); [exists i; split; [exact Hi|exact Q']|]. rewrite !End by lia. exact Q.
  - intros g Hg. apply (box_pos p ne N X o s E g ltac:(lia) HB Hg).
Qed.
Print Assumptions C59_boxes.

(** C59, failures: order 0 divides by zero; orders above 9 read unset Lobatto points; an element whose first
    row has two vertices with equal x and y (for instance a row along z) divides by zero *)
Theorem C59_order_0 : forall Z0 w0 m, m_order m = 0 -> refine_high_order_mesh Z0 w0 m = Err DivZero.
Proof. intros Z0 w0 m H. unfold refine_high_order_mesh, high_points. rewrite H. cbv zeta. change (0 + 1) with 1. rewrite C17_equispaced_single. reflexivity. Qed.
Print Assumptions C59_order_0.

Lemma no_table n1 a : 20 < n1 -> lobatto_nodes_1D_tmp (repeat None n1) (Z.of_nat n1) = Ok a -> a = repeat None n1.
Proof. intros H. unfold lobatto_nodes_1D_tmp. rewrite swage_same, lobatto_nodes_none by (right; lia). cbn. congruence. Qed.
Lemma ref_point_unset n1 lid : 0 < n1 -> ref_point (repeat None n1) n1 lid = Err Uninit.
Proof.
  intros Hn. unfold ref_point. cbv zeta. cbn [base_10_to_mixed_radix]. destruct (N.eqb_spec (N.of_nat n1) 0); [lia|]. cbn [bind get nth_error].
  rewrite !Nnat.N2Nat.inj_mod, !Nnat.Nat2N.id. unfold getu, get. rewrite nth_error_repeat by (apply Nat.mod_upper_bound; lia). reflexivity.
Qed.
Theorem C59_order_large : forall Z0 w0 m N X, 10 <= m_order m -> 0 < m_num_elems m -> describes m ((m_order m + 1) ^ 3) N X ->
  exists err, refine_high_order_mesh Z0 w0 m = Err err.
Proof.
  intros Z0 w0 m N X Hp Hne HM. unfold refine_high_order_mesh, high_points. cbv zeta. set (p := m_order m) in *.
  destruct (equi_vertices p Z0 ltac:(lia)) as (Z & -> & _). cbn [bind].
  destruct (new_lagrange_element p Z w0) as [el|er]; [|exists er; reflexivity]. cbn [bind].
  destruct (lobatto_nodes_1D_tmp (repeat None (2 * p + 1)) (Z.of_nat (2 * p + 1))) as [a|er] eqn:Ea; [|exists er; reflexivity]. cbn [bind].
  apply no_table in Ea; [|lia]. subst a.
  match goal with |- exists err, bind (bind (loop _ ?B ?S0) _) _ = _ => set (body := B); set (s0 := S0) end.
  assert (F : loop (m_num_elems m) body s0 = Err Uninit); [|rewrite F; exists Uninit; reflexivity].
  destruct (m_num_elems m) as [|ne'] eqn:Ene; [lia|]. unfold loop. cbn [loop_from]. unfold body at 1, s0. cbn beta iota.
  destruct (vert_arrays_ok m ((p + 1) ^ 3) N X ((p + 1) ^ 3) (fun v => Ok v) (fun v => v) 0 (repeat None ((p + 1) ^ 3)) (repeat None ((p + 1) ^ 3)) (repeat None ((p + 1) ^ 3)) HM ltac:(lia) ltac:(auto)) as (vx & vy & vz & Ev & _); try apply repeat_length.
  rewrite Ev. cbn [bind]. destruct ((2 * p + 1) ^ 3) as [|ng'] eqn:Eng; [cbn [Nat.pow] in Eng; nia|]. unfold loop. cbn [loop_from]. rewrite ref_point_unset by lia. reflexivity.
Qed.
Print Assumptions C59_order_large.

Theorem C59_zero_row : forall Z0 w0 m N X e i j, let p := m_order m in 1 <= p <= 9 -> describes m ((p + 1) ^ 3) N X ->
  e < m_num_elems m -> j < i <= p -> X (N e i) 0 = X (N e j) 0 -> X (N e i) 1 = X (N e j) 1 ->
  refine_high_order_mesh Z0 w0 m = Err DivZero.
Proof.
  intros Z0 w0 m N X e i j p Hp HM He Hij Ex Ey. unfold refine_high_order_mesh. cbv zeta.
  destruct (high_points_ok Z0 w0 m N X Hp HM) as (pts & -> & _). cbn [bind].
  unfold high_keys. destruct (high_box_ok m _ N X HM) as (mx & mn & -> & _). cbn [bind].
  destruct (high_min_dist_ok m _ N X HM) as (s & Es & (A & B & C)); [fold p; cbn [Nat.pow]; nia|].
  unfold high_spacing. rewrite Es. cbn [bind].
  assert (S0 : s = 0%R).
  { assert (B0 := B (e, j, i) ltac:(cbn; fold p; lia)). cbn in B0. unfold planar in B0. rewrite Ex, Ey in B0.
    replace ((X (N e j) 0%nat - X (N e j) 0%nat) ^ 2 + (X (N e j) 1%nat - X (N e j) 1%nat) ^ 2)%R with 0%R in B0 by ring. rewrite sqrt_0 in B0.
    destruct C as [->|([[e1 j1] i1] & _ & ->)]; [assert (S := small_max); lra|]. assert (P := sqrt_pos ((X (N e1 i1) 0%nat - X (N e1 j1) 0%nat) ^ 2 + (X (N e1 i1) 1%nat - X (N e1 j1) 1%nat) ^ 2)). unfold planar in *. lra. }
  subst s. assert (Pp : (0 < INR p)%R) by (apply lt_0_INR; lia). rewrite rdiv_ok by (fold p; lra). cbn [bind]. unfold Rdiv. rewrite Rmult_0_l.
  unfold high_bins, loop. cbn [loop_from bind]. rewrite rdiv_zero. reflexivity.
Qed.
Print Assumptions C59_zero_row.

(** ---- examples ---- *)

(** two trilinear boxes of size sx x sy x sz side by side in x: 12 nodes *)
Definition brick_x (sx sy sz : R) (n d : nat) : R :=
  match d with 0 => (sx * INR (n mod 3))%R | 1 => (sy * INR (n / 3 mod 2))%R | _ => (sz * INR (n / 6))%R end.
Definition brick_n (e v : nat) : nat := (v mod 2 + e) + 3 * (v / 2 mod 2) + 6 * (v / 4).
Definition brick (sx sy sz : R) : mesh R :=
  Mesh 1 12 2 (map (fun q => Some (brick_x sx sy sz (q / 3) (q mod 3))) (seq 0 36)) 8
    (map (fun q => Some (brick_n (q / 8) (q mod 8))) (seq 0 16)).

Lemma brick_describes sx sy sz : describes (brick sx sy sz) 8 brick_n (brick_x sx sy sz).
Proof.
  split.
  - intros e v He Hv. cbn [brick m_num_elems m_num_nodes] in *. unfold nodes_in_elem. cbn [brick m_conn m_width]. split.
    + unfold getu, get. rewrite nth_error_map, nth_error_nth' with (d := 0) by (rewrite seq_length; lia). rewrite seq_nth by lia. cbn [option_map Nat.add].
      rewrite Nat.div_add_l, Nat.div_small by lia. rewrite (Nat.add_comm (e * 8) v), Nat.mod_add, Nat.mod_small by lia. rewrite Nat.add_0_r. reflexivity.
    + unfold brick_n. assert (v mod 2 < 2) by (apply Nat.mod_upper_bound; lia). assert (v / 2 mod 2 < 2) by (apply Nat.mod_upper_bound; lia). assert (v / 4 < 2) by (apply Nat.div_lt_upper_bound; lia). lia.
  - intros n d Hn Hd. cbn [brick m_num_nodes] in *. unfold node_coords. cbn [brick m_coords]. unfold getu, get.
    rewrite nth_error_map, nth_error_nth' with (d := 0) by (rewrite seq_length; lia). rewrite seq_nth by lia. cbn [option_map Nat.add].
    rewrite Nat.div_add_l, Nat.div_small by lia. rewrite (Nat.add_comm (n * 3)), Nat.mod_add, Nat.mod_small by lia. rewrite Nat.add_0_r. reflexivity.
Qed.
Lemma brick_boxes sx sy sz : box_elements 1 2 brick_n (brick_x sx sy sz) (fun _ => 0%R) (fun d => match d with 0 => sx | 1 => sy | _ => sz end) (fun e d => match d with 0 => Z.of_nat e | _ => 0%Z end).
Proof.
  intros e i j k He Hi Hj Hk. assert (e = 0 \/ e = 1) as [-> | ->] by lia; assert (i = 0 \/ i = 1) as [-> | ->] by lia; assert (j = 0 \/ j = 1) as [-> | ->] by lia; assert (k = 0 \/ k = 1) as [-> | ->] by lia;
  cbn; repeat split; lra.
Qed.

(** unit boxes: the hypotheses of C59_boxes hold (hence those of C59_refined_mesh and C59_accuracy), and the
    two boxes are neighbours in x *)
Example C59_boxes_nonvacuous : exists hm (nd : nat -> nat), refine_high_order_mesh (fun _ => 0%R) (fun _ => 0%R) (brick 1 1 1) = Ok hm /\
  (forall g g', 0 < g < 54 -> 0 < g' < 54 -> (nd g = nd g' <-> forall i, i < 3 -> gauss_pos 1 brick_n (brick_x 1 1 1) g i = gauss_pos 1 brick_n (brick_x 1 1 1) g' i)) /\
  adjacent 1 brick_n 0 0 1 /\ least_planar 1 2 brick_n (brick_x 1 1 1) 1.
Proof.
  destruct (C59_boxes (fun _ => 0%R) (fun _ => 0%R) (brick 1 1 1) brick_n (brick_x 1 1 1) _ _ _ ltac:(cbn; lia) ltac:(cbn; lia) (brick_describes 1 1 1) (brick_boxes 1 1 1)) as (hm & nd & E & H); [cbn; lra|lra|lra|].
  exists hm, nd. split; [exact E|]. split; [apply H|]. split.
  - intros a b Ha Hb. assert (a = 0 \/ a = 1) as [-> | ->] by lia; assert (b = 0 \/ b = 1) as [-> | ->] by lia; reflexivity.
  - assert (L := box_least 1 2 brick_n (brick_x 1 1 1) _ _ _ ltac:(lia) ltac:(lia) (brick_boxes 1 1 1) ltac:(cbn; lra)). cbn beta iota in L. replace (1 / INR 1)%R with 1%R in L by (cbn; lra). exact L.
Qed.

(** C59 is not exact in general: boxes 7 x 1/2 x 7 have h = 1, and the points at y = 0 and y = 1/4 (and x = 7/2,
    z = 0) of the first box end up in one node. *)
Theorem C59_thin_elements_refuted : exists m N X hm v, m_order m = 1 /\ describes m 8 N X /\
  refine_high_order_mesh (fun _ => 0%R) (fun _ => 0%R) m = Ok hm /\
  gauss_pos 1 N X 1 1 = 0%R /\ gauss_pos 1 N X 4 1 = (1 / 4)%R /\
  nodes_in_elem (hm_mesh hm) 0 1 = Ok v /\ nodes_in_elem (hm_mesh hm) 0 4 = Ok v.
Proof.
  set (X := brick_x 7 (1 / 2) 7). exists (brick 7 (1 / 2) 7), brick_n, X.
  assert (HM := brick_describes 7 (1 / 2) 7). fold X in HM. assert (HB := brick_boxes 7 (1 / 2) 7). fold X in HB.
  assert (HL := box_least 1 2 brick_n X _ _ _ ltac:(lia) ltac:(lia) HB ltac:(cbn; lra)). cbn beta iota in HL. replace (7 / INR 1)%R with 7%R in HL by (cbn; lra).
  assert (SM := small_max).
  destruct (refine_high_ok (fun _ => 0%R) (fun _ => 0%R) (brick 7 (1 / 2) 7) brick_n X 7 ltac:(cbn; lia) ltac:(cbn; lia) HM HL ltac:(lra)) as (hm & nd & own & mx & mn & E & H).
  cbv zeta in H. cbn [brick m_order m_num_elems m_num_nodes] in H. change (2 * 1 + 1) with 3 in H. change (2 * 3 ^ 3) with 54 in H.
  destruct H as (E1 & E2 & E3 & E4 & Hb & Hba & Hpts & Hnie & Hlt & Hown & H0 & Hn0 & Hkey & Hcell).
  assert (LV : lob 3 0 = (-1)%R /\ lob 3 1 = 0%R).
  { destruct (lob_facts_ok 1 ltac:(lia)) as (_ & _ & L0 & _). split; [exact L0|]. unfold lob. cbn [Z.of_nat Pos.of_succ_nat Pos.succ lobatto_nodes_tab]. unfold decs, dec. cbn. lra. }
  destruct LV as (L0 & L1).
  assert (P : forall i j, i < 3 -> j < 3 -> forall d, d < 3 -> gauss_pos 1 brick_n X (i + j * 3) d = match d with 0 => (7 * ((lob 3 i + 1) / 2))%R | 1 => (1 / 2 * ((lob 3 j + 1) / 2))%R | _ => 0%R end).
  { intros i j Hi Hj d Hd. assert (G := gauss_pos_at 1 brick_n X 0 i j 0 d ltac:(lia) ltac:(lia) ltac:(lia)). cbv zeta in G. change (2 * 1 + 1) with 3 in G. rewrite !Nat.mul_0_l, Nat.add_0_l, Nat.add_0_r in G. rewrite G.
    destruct (box_geo 1 2 brick_n X _ _ _ 0 (lob 3 i) (lob 3 j) (lob 3 0) ltac:(lia) HB ltac:(lia)) as (Q0 & Q1 & Q2). cbn [Z.of_nat] in Q0, Q1, Q2.
    destruct d as [|[|[|d]]]; [rewrite Q0; lra|rewrite Q1; lra|rewrite Q2, L0; lra|lia]. }
  assert (P1 := P 1 0 ltac:(lia) ltac:(lia)). assert (P4 := P 1 1 ltac:(lia) ltac:(lia)). cbn [Nat.mul Nat.add] in P1, P4.
  assert (Mn : mn 1 = 0%R).
  { assert (A0 := Hb 0 1 ltac:(lia) ltac:(lia)). unfold X, brick_x in A0. cbn in A0. assert (N0 : (0 <= mn 1%nat)%R); [|lra].
    destruct (Hba 1 ltac:(lia)) as [Q|(n & Hn & Q)]; [rewrite Q; lra|]. rewrite Q. unfold X, brick_x. assert (0 <= INR (n / 3 mod 2))%R by apply pos_INR. lra. }
  exists hm, (nd 1). split; [reflexivity|]. split; [exact HM|]. split; [exact E|]. split; [rewrite P1, L0 by lia; lra|]. split; [rewrite P4, L1 by lia; lra|].
  split; [apply (Hnie 0 1); cbn; lia|]. assert (Q4 := Hnie 0 4 ltac:(lia) ltac:(cbn; lia)). cbn [Nat.mul Nat.add] in Q4. rewrite Q4. f_equal. apply Hkey; [lia|lia|].
  assert (H7 : (7 / (7 * INR 1) = 1)%R) by (cbn; field). rewrite H7. rewrite !refine_key_eq by lra.
  assert (Bx : forall d, d < 3 -> bin 1 mn (gauss_pos 1 brick_n X 4) d = bin 1 mn (gauss_pos 1 brick_n X 1) d).
  { intros d Hd. destruct (Nat.eq_dec d 1) as [->|Nd].
    - assert (I := inv_pow_pos 14). assert (I' : (/ 10 ^ 14 < 1 / 2)%R) by (replace (1 / 2)%R with (/ 2)%R by lra; apply Rinv_lt_contravar; [apply Rmult_lt_0_compat; [lra|apply pow_lt; lra]|]; replace 2%R with (2 * 1)%R by lra; apply Rlt_le_trans with (10 ^ 1)%R; [lra|apply Rle_pow; [lra|lia]]).
      set (t := (/ 10 ^ 14)%R) in *. rewrite !bin_spec by (try lra; rewrite ?P1, ?P4, ?Mn by lia; rewrite ?L0, ?L1; lra). fold t. rewrite P1, P4, Mn by lia. rewrite L0, L1.
      rewrite (trunc_unique _ 0), (trunc_unique _ 0); [reflexivity|lra|lra|lra|lra].
    - unfold bin. rewrite P1, P4 by exact Hd. destruct d as [|[|[|d]]]; [|lia| |lia]; reflexivity. }
  rewrite !Bx by lia. reflexivity.
Qed.
Print Assumptions C59_thin_elements_refuted.

(** one element of order p whose node v has coordinates f v *)
Definition single (p : nat) (f : nat -> nat -> R) : mesh R :=
  let nn := (p + 1) ^ 3 in Mesh p nn 1 (map (fun q => Some (f (q / 3) (q mod 3))) (seq 0 (nn * 3))) nn (map Some (seq 0 nn)).
Lemma single_describes p f : describes (single p f) ((p + 1) ^ 3) (fun _ v => v) f.
Proof.
  unfold single. cbv zeta. set (nn := (p + 1) ^ 3). split.
  - intros e v He Hv. cbn [m_num_elems m_num_nodes] in *. replace e with 0 by lia. split; [|exact Hv]. unfold nodes_in_elem. cbn [m_conn m_width]. unfold getu, get.
    rewrite nth_error_map, nth_error_nth' with (d := 0) by (rewrite seq_length; lia). rewrite seq_nth by lia. reflexivity.
  - intros n d Hn Hd. cbn [m_num_nodes] in *. unfold node_coords. cbn [m_coords]. unfold getu, get.
    rewrite nth_error_map, nth_error_nth' with (d := 0) by (rewrite seq_length; lia). rewrite seq_nth by lia. cbn [option_map Nat.add].
    rewrite Nat.div_add_l, Nat.div_small by lia. rewrite (Nat.add_comm (n * 3)), Nat.mod_add, Nat.mod_small by lia. rewrite Nat.add_0_r. reflexivity.
Qed.
(** a unit cube whose first vertex row runs along z is not refined *)
Example C59_zero_row_nonvacuous : forall Z0 w0, refine_high_order_mesh Z0 w0
  (single 1 (fun v d => INR (match d with 2 => v mod 2 | 1 => v / 2 mod 2 | _ => v / 4 end))) = Err DivZero.
Proof.
  intros Z0 w0. match goal with |- refine_high_order_mesh _ _ (single 1 ?F) = _ => set (f := F) end.
  apply (C59_zero_row Z0 w0 (single 1 f) (fun _ v => v) f 0 1 0); cbn [single m_order m_num_elems]; try lia; [apply (single_describes 1)|reflexivity|reflexivity].
Qed.
Example C59_order_large_nonvacuous : forall Z0 w0 f, exists err, refine_high_order_mesh Z0 w0 (single 10 f) = Err err.
Proof. intros. apply (C59_order_large Z0 w0 _ (fun _ v => v) f); [cbn [single m_order]; lia|cbn [single m_num_elems]; lia|apply (single_describes 10)]. Qed.
