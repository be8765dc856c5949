(** Property theorems C60 (swage/evaluate_jacobian_determinants.cpp). *)
From Coq Require Import Reals List Arith NArith ZArith Lra Lia.
Import ListNotations.
Require Import Verif.Base Verif.RBase Verif.RSum Verif.RDer Verif.Poly Verif.Spec_Mat Verif.Spec_Lagrange Verif.Model_Common Verif.Model_Points Verif.Model_Lagrange
  Verif.Proof_LagElem Verif.Model_Quad Verif.Proof_Quad Verif.Proof_Quad3 Verif.Model_Refine Verif.Model_Vtk Verif.Model_High Verif.Spec_Quad Verif.Spec_High
  Verif.Proof_Lob Verif.Proof_Box Verif.Proof_Blas Verif.Proof_High Verif.Proof_High2 Verif.Proof_High3 Verif.Proof_High4 Verif.Prop_High.
Local Open Scope nat_scope.

(** C60: for orders up to 9, if the array has room for all nodes, the entry of each node becomes the Jacobian
    determinant, at the last point (in element order) that has this node, of the order-p map through every
    other Lobatto node of that point's element; all other entries stay as they were. *)
Theorem C60_determinants : forall Z0 w0 m N X dj0, let p := m_order m in let n1 := 2 * p + 1 in let ng := n1 ^ 3 in let G := m_num_elems m * ng in
  p <= 9 -> describes m ng N X -> m_num_nodes m <= length dj0 ->
  exists dj, evaluate_jacobian_determinants Z0 w0 m dj0 = Ok dj /\ length dj = length dj0 /\
    (forall g, g < G -> (forall g', g < g' < G -> point_node p N g' <> point_node p N g) ->
       exists D, getu dj (point_node p N g) = Ok D /\
         jac_det (lobatto_geo p N X (g / ng)) (lob n1 (grid n1 g 0)) (lob n1 (grid n1 g 1)) (lob n1 (grid n1 g 2)) D) /\
    (forall v, v < length dj0 -> (forall g, g < G -> point_node p N g <> v) -> nth_error dj v = nth_error dj0 v).
Proof.
  intros Z0 w0 m N X dj0 p n1 ng G Hp HM HL. destruct (eval_dets_ok Z0 w0 m N X dj0 Hp HM HL) as (dj & E & L & H). fold p n1 ng G in H.
  exists dj. split; [exact E|]. split; [exact L|].
  assert (Hng : ng <> 0) by (apply Nat.pow_nonzero; unfold n1; lia). split.
  - intros g Hg Hlast. assert (Hv : point_node p N g < length dj0).
    { unfold point_node. fold n1. fold ng. destruct (proj1 HM (g / ng) (g mod ng)) as (_ & Q); [apply Nat.div_lt_upper_bound; [exact Hng|unfold G in Hg; lia]|apply Nat.mod_upper_bound; exact Hng|lia]. }
    destruct (H _ Hv) as [(g1 & D & A & B & C & F & J)|(A & _)]; [|exfalso; apply (A g Hg); reflexivity].
    assert (g1 = g); [|subst g1; exists D; split; [apply getu_some; exact F|exact J]].
    destruct (Nat.lt_trichotomy g1 g) as [Q|[Q|Q]]; [exfalso; apply (C g ltac:(lia)); reflexivity|exact Q|exfalso; apply (Hlast g1 ltac:(lia)); exact B].
  - intros v Hv Hno. destruct (H v Hv) as [(g1 & D & A & B & _)|(_ & B)]; [exfalso; apply (Hno g1 A); exact B|exact B].
Qed.
Print Assumptions C60_determinants.

(** F is a polynomial of degree at most p in each variable *)
Definition degree3 (p : nat) (F : R -> R -> R -> R) : Prop :=
  (forall y z, poly_lt (p + 1) (fun x => F x y z)) /\ (forall x z, poly_lt (p + 1) (fun y => F x y z)) /\ (forall x y, poly_lt (p + 1) (fun z => F x y z)).

(** C60, exactness: if the nodes of each element sample, at the Lobatto points, a map F e of degree at most p in
    each variable, the stored values are the Jacobian determinants of these maps *)
Theorem C60_polynomial_maps : forall Z0 w0 m N X dj0 F, let p := m_order m in let n1 := 2 * p + 1 in let ng := n1 ^ 3 in let G := m_num_elems m * ng in
  p <= 9 -> describes m ng N X -> m_num_nodes m <= length dj0 ->
  (forall e d, e < m_num_elems m -> d < 3 -> degree3 p (F e d) /\
     forall i j k, i < n1 -> j < n1 -> k < n1 -> X (N e (i + j * n1 + k * n1 * n1)) d = F e d (lob n1 i) (lob n1 j) (lob n1 k)) ->
  exists dj, evaluate_jacobian_determinants Z0 w0 m dj0 = Ok dj /\
    forall g, g < G -> (forall g', g < g' < G -> point_node p N g' <> point_node p N g) ->
       exists D, getu dj (point_node p N g) = Ok D /\ jac_det (F (g / ng)) (lob n1 (grid n1 g 0)) (lob n1 (grid n1 g 1)) (lob n1 (grid n1 g 2)) D.
Proof.
  intros Z0 w0 m N X dj0 F p n1 ng G Hp HM HL HF. destruct (C60_determinants Z0 w0 m N X dj0 Hp HM HL) as (dj & E & _ & H & _). fold p n1 ng G in H.
  exists dj. split; [exact E|]. intros g Hg Hlast. destruct (H g Hg Hlast) as (D & A & B). exists D. split; [exact A|].
  revert B. apply jac_det_ext. intros d a b c Hd. assert (Hng : ng <> 0) by (apply Nat.pow_nonzero; unfold n1; lia).
  destruct (HF (g / ng) d) as ((P1 & P2 & P3) & S); [apply Nat.div_lt_upper_bound; [exact Hng|unfold G in Hg; lia]|exact Hd|].
  apply lobatto_geo_repro; assumption.
Qed.
Print Assumptions C60_polynomial_maps.

(** the refined mesh as seen through its accessors *)
Lemma refined_describes Z0 w0 m N X hm (nd : nat -> nat) : let p := m_order m in let ng := (2 * p + 1) ^ 3 in let ne := m_num_elems m in
  1 <= p <= 9 -> m_num_elems (hm_mesh hm) = ne ->
  (forall g, g < ne * ng -> nodes_in_elem (hm_mesh hm) (g / ng) (g mod ng) = Ok (nd g) /\ nd g < m_num_nodes (hm_mesh hm)) ->
  (forall v, v < m_num_nodes (hm_mesh hm) -> exists g, g < ne * ng /\ nd g = v /\ forall i, i < 3 -> node_coords (hm_mesh hm) v i = Ok (gauss_pos p N X g i)) ->
  refine_high_order_mesh Z0 w0 m = Ok hm ->
  describes (hm_mesh hm) ng (fun e l => nd (e * ng + l)) (fun v d => match node_coords (hm_mesh hm) v d with Ok c => c | Err _ => 0%R end).
Proof.
  intros p ng ne Hp Hne Hnd Hown _. assert (Hng : ng <> 0) by (apply Nat.pow_nonzero; lia). split.
  - intros e l He Hl. rewrite Hne in He. destruct (Hnd (e * ng + l)) as (A & B); [nia|]. rewrite Nat.div_add_l, Nat.div_small, Nat.add_0_r in A by lia.
    rewrite Nat.add_comm, Nat.mod_add, Nat.mod_small in A by lia. split; [|exact B]. rewrite A. f_equal. f_equal. lia.
  - intros v d Hv Hd. destruct (Hown v Hv) as (g & _ & _ & E). rewrite E by exact Hd. reflexivity.
Qed.

(** C60 after C59: for a refined mesh whose nodes sit at their points, the stored values are the Jacobian
    determinants of the original order-p element maps *)
Theorem C60_after_refinement : forall Z0 w0 Z1 w1 m N X d dj0, let p := m_order m in let n1 := 2 * p + 1 in let ng := n1 ^ 3 in let ne := m_num_elems m in
  1 <= p <= 9 -> 0 < ne -> describes m ((p + 1) ^ 3) N X -> least_planar p ne N X d -> (0 < d <= NUM_MAX)%R ->
  exists hm nd, refine_high_order_mesh Z0 w0 m = Ok hm /\ let M := hm_mesh hm in
    (forall g, g < ne * ng -> nodes_in_elem M (g / ng) (g mod ng) = Ok (nd g)) /\
    ((forall g i, g < ne * ng -> i < 3 -> node_coords M (nd g) i = Ok (gauss_pos p N X g i)) -> m_num_nodes M <= length dj0 ->
     exists dj, evaluate_jacobian_determinants Z1 w1 M dj0 = Ok dj /\ length dj = length dj0 /\
       (forall v, v < m_num_nodes M -> exists g D, g < ne * ng /\ nd g = v /\ getu dj v = Ok D /\
          jac_det (geo p N X (g / ng)) (lob n1 (grid n1 g 0)) (lob n1 (grid n1 g 1)) (lob n1 (grid n1 g 2)) D) /\
       (forall v, m_num_nodes M <= v < length dj0 -> nth_error dj v = nth_error dj0 v)).
Proof.
  intros Z0 w0 Z1 w1 m N X d dj0 p n1 ng ne Hp Hne HM HL Hd.
  destruct (C59_refined_mesh Z0 w0 m N X d Hp Hne HM HL Hd) as (hm & nd & E & H). fold p n1 ng ne in H. cbv zeta in H. destruct H as (Eo & En & Hnd & Hown & _).
  exists hm, nd. split; [exact E|]. cbv zeta. split; [intros g Hg; apply Hnd; exact Hg|]. intros Hpos Hroom.
  assert (Hng : ng <> 0) by (apply Nat.pow_nonzero; unfold n1; lia).
  assert (Desc := refined_describes Z0 w0 m N X hm nd Hp En Hnd Hown E). fold p n1 ng ne in Desc.
  set (N' := fun e l => nd (e * ng + l)) in Desc. set (X' := fun v d => match node_coords (hm_mesh hm) v d with Ok c => c | Err _ => 0%R end) in Desc.
  assert (Npt : forall g, point_node p N' g = nd g).
  { intros g. unfold point_node, N'. fold n1. fold ng. f_equal. rewrite (Nat.div_mod g ng) at 3 by exact Hng. lia. }
  destruct (eval_dets_ok Z1 w1 (hm_mesh hm) N' X' dj0) as (dj & Edj & L & St); rewrite ?Eo; [lia|exact Desc|exact Hroom|]. rewrite Eo, En in St. fold n1 ng in St.
  exists dj. split; [exact Edj|]. split; [exact L|]. split.
  - intros v Hv. destruct (Hown v Hv) as (g0 & Hg0 & Eg0 & _). destruct (St v ltac:(lia)) as [(g & D & A & B & C & F & J)|(A & _)].
    + rewrite Npt in B. exists g, D. split; [exact A|]. split; [exact B|]. split; [apply getu_some; exact F|].
      revert J. unfold point_det. fold n1 ng. apply jac_det_ext. intros i a b c Hi. unfold geo.
      destruct (field3_poly (p + 1) (vertex1 p) (fun v => X (N (g / ng) v) i)) as (P1 & P2 & P3).
      apply lobatto_geo_repro; [lia|exact P1|exact P2|exact P3|]. fold n1. intros i' j' k' Hi' Hj' Hk'.
      assert (Hge : g / ng < ne) by (apply Nat.div_lt_upper_bound; [exact Hng|lia]).
      assert (Hl : i' + j' * n1 + k' * n1 * n1 < ng) by (apply grid3_lt; assumption).
      unfold X', N'. rewrite Hpos by (exact Hi || nia). apply (gauss_pos_at p N X (g / ng) i' j' k' i); assumption.
    + exfalso. apply (A g0 Hg0). rewrite Npt. exact Eg0.
  - intros v Hv. destruct (St v ltac:(lia)) as [(g & D & A & B & _)|(_ & B)]; [|exact B]. exfalso. rewrite Npt in B. destruct (Hnd g A) as (_ & Q). lia.
Qed.
Print Assumptions C60_after_refinement.

(** C60 for grids of boxes: every node gets the volume ratio s0 s1 s2 / 8 *)
Theorem C60_boxes : forall Z0 w0 Z1 w1 m N X o s E dj0, let p := m_order m in let ng := (2 * p + 1) ^ 3 in let ne := m_num_elems m in
  1 <= p <= 9 -> 0 < ne -> describes m ((p + 1) ^ 3) N X -> box_elements p ne N X o s E ->
  (0 < s 0%nat <= 7 * INR p * INR p)%R -> (s 0%nat <= s 1%nat)%R -> (s 0%nat <= s 2%nat)%R ->
  exists hm, refine_high_order_mesh Z0 w0 m = Ok hm /\ let M := hm_mesh hm in
    (m_num_nodes M <= length dj0 ->
     exists dj, evaluate_jacobian_determinants Z1 w1 M dj0 = Ok dj /\
       (forall v, v < m_num_nodes M -> getu dj v = Ok (s 0%nat * s 1%nat * s 2%nat / 8)%R) /\
       (forall v, m_num_nodes M <= v < length dj0 -> nth_error dj v = nth_error dj0 v)).
Proof.
  intros Z0 w0 Z1 w1 m N X o s E dj0 p ng ne Hp Hne HM HB Hs H1 H2.
  assert (Pp : (1 <= INR p <= 9)%R) by (split; [replace 1%R with (INR 1) by reflexivity|replace 9%R with (INR 9) by (cbn; lra)]; apply le_INR; lia).
  assert (HL := box_least p ne N X o s E ltac:(lia) Hne HB (proj1 Hs)).
  assert (HdM : (0 < s 0%nat / INR p <= NUM_MAX)%R).
  { split; [apply Rdiv_lt_0_compat; lra|]. apply Rle_trans with 63%R; [|exact small_max]. apply (Rmult_le_reg_r (INR p)); [lra|]. replace (s 0%nat / INR p * INR p)%R with (s 0%nat) by (field; lra). nra. }
  destruct (C59_boxes Z0 w0 m N X o s E Hp Hne HM HB Hs H1 H2) as (hm & nd & Ehm & A & _). fold p ng ne in A.
  destruct (C60_after_refinement Z0 w0 Z1 w1 m N X _ dj0 Hp Hne HM HL HdM) as (hm' & nd' & Ehm' & H). fold p ng ne in H. rewrite Ehm in Ehm'. injection Ehm' as <-. cbv zeta in H. destruct H as (Hnd' & H).
  exists hm. split; [exact Ehm|]. cbv zeta. intros Hroom. destruct H as (dj & Edj & L & St & Rest); [|exact Hroom|].
  { intros g i Hg Hi. destruct (A g Hg) as (B & C). specialize (Hnd' g Hg). assert (nd' g = nd g) as -> by congruence. apply C. exact Hi. }
  exists dj. split; [exact Edj|]. split; [|exact Rest]. intros v Hv. destruct (St v Hv) as (g & D & Hg & _ & G & J). rewrite G. f_equal.
  apply (jac_det_unique _ _ _ _ _ _ J). assert (Hng : ng <> 0) by (apply Nat.pow_nonzero; lia).
  assert (He : g / ng < ne) by (apply Nat.div_lt_upper_bound; [exact Hng|lia]).
  set (F := fun d (x y z : R) => (o d + s d * (IZR (E (g / ng)%nat d) + ((match d with 0%nat => x | 1%nat => y | _ => z end) + 1) / 2))%R).
  apply (jac_det_ext F).
  { intros d a b c Hd. destruct (box_geo p ne N X o s E (g / ng) a b c ltac:(lia) HB He) as (Q0 & Q1 & Q2). symmetry. destruct d as [|[|[|d]]]; [exact Q0|exact Q1|exact Q2|lia]. }
  exists (fun i j => if Nat.eqb i j then (s i / 2)%R else 0%R).
  assert (Lin : forall a b t x, derivable_pt_lim (fun x => (a + b * (t + (x + 1) / 2))%R) x (b / 2)%R).
  { intros a b t x. apply (der_ext (fun x => ((a + b * t + b / 2) + b / 2 * x)%R)); [intros; field|]. apply (der_value _ _ (0 + b / 2 * 1)%R); [ring|]. apply der_add; [apply der_const|apply der_scal, der_id]. }
  split; [|unfold det3; cbn [Nat.eqb]; field].
  intros d Hd. unfold F. assert (D3 : d = 0 \/ d = 1 \/ d = 2) by lia. destruct D3 as [-> | [-> | ->]]; cbn [Nat.eqb]; (split; [|split]); first [apply Lin|apply der_const].
Qed.
Print Assumptions C60_boxes.

(** C60, failure: above order 9 the Lobatto points are unset *)
Theorem C60_order_large : forall Z0 w0 m dj0, 10 <= m_order m -> exists err, evaluate_jacobian_determinants Z0 w0 m dj0 = Err err.
Proof.
  intros Z0 w0 m dj0 Hp. unfold evaluate_jacobian_determinants. cbv zeta. set (p := m_order m) in *.
  destruct (vert_node_map p) as [vm|er]; [|exists er; reflexivity]. cbn [bind].
  destruct (lobatto_nodes_1D_tmp (repeat None (2 * p + 1)) (Z.of_nat (2 * p + 1))) as [a|er] eqn:Ea; [|exists er; reflexivity]. cbn [bind].
  apply no_table in Ea; [|lia]. subst a. rewrite (Nat.add_1_r p). unfold loop at 1. cbn [loop_from].
  destruct (getu vm 0) as [q|er]; [|exists er; reflexivity]. cbn [bind].
  assert (Q : exists er, getu (@repeat (option R) None (2 * p + 1)) q = Err er).
  { unfold getu. destruct (nth_error (repeat None (2 * p + 1)) q) as [o|] eqn:Eq; [|eexists; reflexivity]. apply nth_error_In, repeat_spec in Eq. subst o. eexists; reflexivity. }
  destruct Q as (er & ->). exists er. reflexivity.
Qed.
Print Assumptions C60_order_large.

Lemma own_bound (nn G : nat) (nd own : nat -> nat) g g' : (forall v, v < nn -> own v < G /\ nd (own v) = v) -> g < G -> g' < G -> g <> g' -> nd g = nd g' -> nn < G.
Proof.
  intros H Hg Hg' Ne E. destruct (Nat.lt_ge_cases nn G) as [|Ge]; [assumption|exfalso].
  assert (ND : NoDup (map own (seq 0 G))).
  { assert (K : forall l, (forall v, In v l -> v < nn) -> NoDup l -> NoDup (map own l)).
    { induction l as [|v l IH]; intros Hl Nd; cbn; constructor.
      - intros Q. apply in_map_iff in Q. destruct Q as (u & Eu & Iu). assert (u = v).
        { destruct (H u (Hl u (or_intror Iu))) as (_ & A). destruct (H v (Hl v (or_introl eq_refl))) as (_ & B). congruence. }
        subst u. inversion Nd. contradiction.
      - apply IH; [intros; apply Hl; right; assumption|]. inversion Nd; assumption. }
    apply K; [intros v Hv; apply in_seq in Hv; lia|apply seq_NoDup]. }
  assert (Inc : incl (map own (seq 0 G)) (seq 0 G)).
  { intros x Hx. apply in_map_iff in Hx. destruct Hx as (v & <- & Hv). apply in_seq in Hv. apply in_seq. assert (Hv' : v < nn) by lia. destruct (H v Hv') as (A & _). lia. }
  assert (Len : length (seq 0 G) <= length (map own (seq 0 G))) by (rewrite map_length; lia).
  assert (Rev := NoDup_length_incl ND Len Inc).
  assert (S : forall x, x < G -> exists v, v < nn /\ own v = x).
  { intros x Hx. assert (I := Rev x ltac:(apply in_seq; lia)). apply in_map_iff in I. destruct I as (v & Ev & Hv). apply in_seq in Hv. exists v. split; [lia|exact Ev]. }
  destruct (S g Hg) as (v & Hv & Ev). destruct (S g' Hg') as (v' & Hv' & Ev').
  destruct (H v Hv) as (_ & A). destruct (H v' Hv') as (_ & A'). rewrite Ev in A. rewrite Ev' in A'. congruence.
Qed.

(** C60 does not fill the array per Gauss point: after refining two unit boxes (54 Gauss points) and evaluating,
    the entry of the last Gauss point is unset. *)
Theorem C60_per_gauss_point_refuted : exists m hm dj, m_order m = 1 /\ m_num_elems m = 2 /\
  refine_high_order_mesh (fun _ => 0%R) (fun _ => 0%R) m = Ok hm /\
  evaluate_jacobian_determinants (fun _ => 0%R) (fun _ => 0%R) (hm_mesh hm) (repeat None (2 * 27)) = Ok dj /\
  getu dj 0 = Ok (1 / 8)%R /\ getu dj 53 = Err Uninit.
Proof.
  assert (HB := brick_boxes 1 1 1). assert (HM := brick_describes 1 1 1).
  assert (HL := box_least 1 2 brick_n (brick_x 1 1 1) _ _ _ ltac:(lia) ltac:(lia) HB ltac:(cbn; lra)). cbn beta iota in HL. replace (1 / INR 1)%R with 1%R in HL by (cbn; lra).
  assert (SM := small_max).
  destruct (refine_high_ok (fun _ => 0%R) (fun _ => 0%R) (brick 1 1 1) brick_n (brick_x 1 1 1) 1 ltac:(cbn; lia) ltac:(cbn; lia) HM HL ltac:(lra)) as (hm & nd & own & mx & mn & E & H).
  cbv zeta in H. cbn [brick m_order m_num_elems m_num_nodes] in H. change (2 * 1 + 1) with 3 in H. change (2 * 3 ^ 3) with 54 in H.
  destruct H as (E1 & E2 & E3 & E4 & Hb & Hba & Hpts & Hnie & Hlt & Hown & H0 & Hn0 & Hkey & Hcell).
  assert (Same : nd 2 = nd 27).
  { apply Hkey; [lia|lia|]. apply Proof_Geom.refine_key_ext. intros i Hi.
    assert (Adj : adjacent 1 brick_n 0 0 1) by (intros a b Ha Hb'; assert (a = 0 \/ a = 1) as [-> | ->] by lia; assert (b = 0 \/ b = 1) as [-> | ->] by lia; reflexivity).
    exact (face_points 1 brick_n (brick_x 1 1 1) 0 0 1 0 0 i ltac:(lia) ltac:(lia) Adj ltac:(lia) ltac:(lia)). }
  assert (Lt : m_num_nodes (hm_mesh hm) < 54).
  { apply (own_bound _ 54 nd own 2 27); try lia. intros v Hv. destruct (Hown v Hv) as (A & B & _). auto. }
  destruct (C60_boxes (fun _ => 0%R) (fun _ => 0%R) (fun _ => 0%R) (fun _ => 0%R) (brick 1 1 1) brick_n (brick_x 1 1 1) _ _ _ (repeat None (2 * 27)) ltac:(cbn; lia) ltac:(cbn; lia) HM HB) as (hm' & E' & Q); [cbn; lra|lra|lra|].
  rewrite E in E'. injection E' as <-. cbv zeta in Q. destruct Q as (dj & Edj & Q1 & Q2); [rewrite repeat_length; lia|].
  exists (brick 1 1 1), hm, dj. split; [reflexivity|]. split; [reflexivity|]. split; [exact E|]. split; [exact Edj|]. split.
  - rewrite Q1; [f_equal; lra|]. assert (Z := Hlt 0 ltac:(lia)). lia.
  - specialize (Q2 53). rewrite repeat_length in Q2. unfold getu. rewrite Q2 by lia. reflexivity.
Qed.
Print Assumptions C60_per_gauss_point_refuted.

(** one element with (2p+1)^3 nodes, node v at f v *)
Definition single_pts (p : nat) (f : nat -> nat -> R) : mesh R :=
  let nn := (2 * p + 1) ^ 3 in Mesh p nn 1 (map (fun q => Some (f (q / 3) (q mod 3))) (seq 0 (nn * 3))) nn (map Some (seq 0 nn)).
Lemma single_pts_describes p f : describes (single_pts p f) ((2 * p + 1) ^ 3) (fun _ v => v) f.
Proof.
  unfold single_pts. cbv zeta. set (nn := (2 * p + 1) ^ 3). split.
  - intros e v He Hv. cbn [m_num_elems m_num_nodes] in *. replace e with 0 by lia. split; [|exact Hv]. unfold nodes_in_elem. cbn [m_conn m_width]. unfold getu, get.
    rewrite nth_error_map, nth_error_nth' with (d := 0) by (rewrite seq_length; lia). rewrite seq_nth by lia. reflexivity.
  - intros n d Hn Hd. cbn [m_num_nodes] in *. unfold node_coords. cbn [m_coords]. unfold getu, get.
    rewrite nth_error_map, nth_error_nth' with (d := 0) by (rewrite seq_length; lia). rewrite seq_nth by lia. cbn [option_map Nat.add].
    rewrite Nat.div_add_l, Nat.div_small by lia. rewrite (Nat.add_comm (n * 3)), Nat.mod_add, Nat.mod_small by lia. rewrite Nat.add_0_r. reflexivity.
Qed.
Lemma degree3_xy u : degree3 1 (fun x y _ => (x * y + u * x)%R).
Proof.
  split; [|split]; intros a b; cbn [Nat.add].
  - apply (poly_ext 2 (fun x => ((a + u) * x + 0)%R)); [intros; ring|apply poly_affine; lia].
  - apply (poly_ext 2 (fun y => (a * y + u * a)%R)); [intros; ring|apply poly_affine; lia].
  - apply poly_const. lia.
Qed.
(** the trilinear map (xy + 2x, y, z): at the point with grid position (i, j, k) the value is lob 3 j + 2 *)
Example C60_polynomial_maps_nonvacuous : forall Z0 w0,
  let F := fun d (x y z : R) => match d with 0 => (x * y + 2 * x)%R | 1 => y | _ => z end in
  let m := single_pts 1 (fun v d => F d (lob 3 (grid 3 v 0)) (lob 3 (grid 3 v 1)) (lob 3 (grid 3 v 2))) in
  exists dj, evaluate_jacobian_determinants Z0 w0 m (repeat None 27) = Ok dj /\ forall v, v < 27 -> getu dj v = Ok (lob 3 (grid 3 v 1) + 2)%R.
Proof.
  intros Z0 w0 F m.
  destruct (C60_polynomial_maps Z0 w0 m (fun _ v => v) _ (repeat None 27) (fun _ => F) ltac:(cbn [m single_pts m_order]; lia) (single_pts_describes 1 _)) as (dj & E & H).
  - rewrite repeat_length. cbn. lia.
  - intros e d He Hd. cbn [m single_pts m_order]. split.
    + assert (D3 : d = 0 \/ d = 1 \/ d = 2) by lia. destruct D3 as [-> | [-> | ->]]; unfold F; [apply degree3_xy| |]; (split; [|split]); intros a b;
        first [apply poly_const; lia | apply (poly_ext _ (fun x => (1 * x + 0)%R)); [intros; ring|apply poly_affine; lia]].
    + intros i j k Hi Hj Hk. destruct (grid_at 3 i j k Hi Hj Hk) as (A & B & C). cbn [Nat.mul Nat.add] in *. rewrite A, B, C. reflexivity.
  - exists dj. split; [exact E|]. intros v Hv. cbn [m single_pts m_order m_num_elems] in H. change (2 * 1 + 1) with 3 in H. change (1 * 3 ^ 3) with 27 in H.
    assert (P : forall g, g < 27 -> point_node 1 (fun _ v => v) g = g) by (intros g Hg; unfold point_node; apply Nat.mod_small; exact Hg).
    destruct (H v Hv) as (D & A & J); [intros g' Hg'; rewrite !P by lia; lia|]. rewrite P in A by exact Hv. rewrite A. f_equal.
    apply (jac_det_unique _ _ _ _ _ _ J). set (x := lob 3 (grid 3 v 0)). set (y := lob 3 (grid 3 v 1)). set (z := lob 3 (grid 3 v 2)).
    exists (fun i j => match i, j with 0, 0 => (y + 2)%R | 0, 1 => x | 1, 1 => 1%R | 2, 2 => 1%R | _, _ => 0%R end). split; [|unfold det3; ring].
    intros d Hd. assert (D3 : d = 0 \/ d = 1 \/ d = 2) by lia. destruct D3 as [-> | [-> | ->]]; unfold F; (split; [|split]); try apply der_const; try apply der_id.
    + apply (der_ext (fun t => ((y + 2) * t)%R)); [intros; ring|]. apply (der_value _ _ ((y + 2) * 1)%R); [ring|]. apply der_scal, der_id.
    + apply (der_ext (fun t => (2 * x + x * t)%R)); [intros; ring|]. apply (der_value _ _ (0 + x * 1)%R); [ring|]. apply der_add; [apply der_const|apply der_scal, der_id].
Qed.
