(** Property theorems C68 (examples/vtk/plotting_jacobian_determinants.cpp). *)
From Coq Require Import Reals List Arith NArith ZArith Lra Lia.
Import ListNotations.
Require Import Verif.Base Verif.RBase Verif.RSum Verif.Spec_Lagrange Verif.Model_Lagrange Verif.Model_Vtk Verif.Model_High Verif.Model_Annulus
  Verif.Spec_Vtk Verif.Spec_High Verif.Spec_Annulus Verif.Prop_Vtk Verif.Proof_Blas Verif.Proof_Box Verif.Proof_Vtk Verif.Proof_Annulus Verif.Proof_Annulus2 Verif.Proof_Annulus3.
Local Open Scope nat_scope.

Lemma nodes_ok mpi p m0 m : 1 <= p -> create_annular_mesh mpi p m0 = Ok m ->
  (forall e v, e < 2 -> v < num_verts p -> nodes_in_elem m e v = Ok (match e with 0 => v | _ => node1 p v end)) /\
  (forall e v, e < 2 -> num_verts p <= v < m_width m -> nodes_in_elem m e v = Err Uninit) /\
  (forall n d, n < an_count p -> d < 3 -> node_coords m n d = Ok (cpos mpi p n d)) /\ mesh_ok m /\ m_order m = p /\ m_num_elems m = 2 /\ m_num_nodes m = an_count p.
Proof.
  intros Hp E. destruct (create_ok mpi p m0 Hp) as (m' & E' & Eo & Ee & En & W & (L1 & C) & (L2 & K)). rewrite E in E'. injection E' as <-.
  assert (Get : forall e v, e < 2 -> v < num_verts p -> nth_error (m_conn m) (e * m_width m + v) = Some (Some (match e with 0 => v | _ => node1 p v end))).
  { intros e v He Hv. rewrite K by lia. rewrite want2_full by assumption. reflexivity. }
  split; [|split; [|split; [|split; [|auto]]]].
  - intros e v He Hv. apply getu_some, Get; assumption.
  - intros e v He Hv. unfold nodes_in_elem, getu, get. rewrite K by lia. unfold want2. cbv zeta. destruct (Nat.ltb_spec v ((p + 1) * (p + 1) * (p + 1))); [unfold num_verts in Hv; lia|reflexivity].
  - intros n d Hn Hd. apply getu_some. rewrite C by assumption. destruct (Nat.ltb_spec n (an_count p)); [reflexivity|lia].
  - split; [rewrite En; exact L1|]. split; [rewrite Ee; exact L2|]. rewrite Eo. split; [exact W|]. rewrite Ee, En. intros e s He Hs.
    eexists. split; [|apply Get; assumption]. destruct e; [|apply node1_lt; assumption]. rewrite an_count_eq. unfold num_verts in Hs. nia.
Qed.

(** C68, mesh: two elements of order p with (p+1)^3 vertices each and 2 (p+1)^3 - (p+1)^2 nodes in all; vertex
    (i,j,k) of element e sits at its place in the half annulus; exactly the vertices of the common face are
    shared, and every node is a vertex; the unused columns of nodes_in_elem stay unset. *)
Theorem C68_mesh : forall mpi p m0, 1 <= p ->
  exists m node, create_annular_mesh mpi p m0 = Ok m /\ m_order m = p /\ m_num_elems m = 2 /\ m_num_nodes m = 2 * num_verts p - (p + 1) * (p + 1) /\
    (forall e i j k, e < 2 -> i <= p -> j <= p -> k <= p ->
       nodes_in_elem m e (vert p i j k) = Ok (node e i j k) /\ node e i j k < m_num_nodes m /\
       forall d, d < 3 -> node_coords m (node e i j k) d = Ok (ann_pos mpi p e i j k d)) /\
    (forall n, n < m_num_nodes m -> exists e i j k, e < 2 /\ i <= p /\ j <= p /\ k <= p /\ node e i j k = n) /\
    (forall e i j k e' i' j' k', e < 2 -> i <= p -> j <= p -> k <= p -> e' < 2 -> i' <= p -> j' <= p -> k' <= p ->
       (node e i j k = node e' i' j' k' <-> same_vertex p e i j k e' i' j' k')) /\
    (forall e v, e < 2 -> num_verts p <= v < m_width m -> nodes_in_elem m e v = Err Uninit).
Proof.
  intros mpi p m0 Hp. destruct (create_ok mpi p m0 Hp) as (m & E & _). destruct (nodes_ok mpi p m0 m Hp E) as (G1 & G2 & G3 & G4 & Eo & Ee & En).
  exists m, (anode p). split; [exact E|]. split; [exact Eo|]. split; [exact Ee|]. split; [exact En|].
  assert (Lt : forall e i j k, e < 2 -> i <= p -> j <= p -> k <= p -> anode p e i j k < an_count p).
  { intros e i j k He Hi Hj Hk. unfold anode. cbv zeta. assert (L := vform_lt p i j k Hi Hj Hk). destruct e; [rewrite an_count_eq; nia|]. apply node1_lt; assumption. }
  split; [|split; [|split]].
  - intros e i j k He Hi Hj Hk. split; [|split].
    + rewrite G1 by (assumption || (rewrite vert_form; apply vform_lt; assumption)). rewrite vert_form. reflexivity.
    + rewrite En. apply Lt; assumption.
    + intros d Hd. rewrite G3 by (try apply Lt; assumption). rewrite cpos_anode by assumption. reflexivity.
  - rewrite En. intros n Hn. apply anode_onto; assumption.
  - intros. apply anode_inj; assumption.
  - exact G2.
Qed.
Print Assumptions C68_mesh.

(** C68, positions: for an angle up to pi, vertices at the same position are the same vertex: nodes and
    positions correspond *)
Theorem C68_positions : forall mpi p e i j k e' i' j' k', 1 <= p -> (0 < mpi <= PI)%R -> e < 2 -> i <= p -> j <= p -> k <= p -> e' < 2 -> i' <= p -> j' <= p -> k' <= p ->
  ((forall d, d < 3 -> ann_pos mpi p e i j k d = ann_pos mpi p e' i' j' k' d) <-> same_vertex p e i j k e' i' j' k').
Proof.
  intros mpi p e i j k e' i' j' k' Hp Hm He Hi Hj Hk He' Hi' Hj' Hk'. assert (Pp : (0 < INR p)%R) by (apply lt_0_INR; lia). split.
  - intros H. assert (X := H 0 ltac:(lia)). assert (Y := H 1 ltac:(lia)). assert (Z := H 2 ltac:(lia)). cbn [ann_pos] in X, Y, Z.
    assert (Kk : k = k').
    { destruct (Nat.lt_trichotomy k k') as [L|[L|L]]; [exfalso|exact L|exfalso]; [assert (W := vertex1_inc p k k' Hp L)|assert (W := vertex1_inc p k' k Hp L)];
        assert (0 < 2 / INR p)%R by (apply Rdiv_lt_0_compat; lra); lra. }
    set (r := ann_r p j) in *. set (r' := ann_r p j') in *. set (a := ann_theta mpi p e i) in *. set (a' := ann_theta mpi p e' i') in *.
    assert (Rp : forall q, (1 / 2 <= ann_r p q)%R) by (intros q; unfold ann_r; assert (0 <= 2 * INR q / INR p)%R by (apply Rmult_le_pos; [assert (W := pos_INR q); lra|left; apply Rinv_0_lt_compat; lra]); lra).
    assert (R1 := Rp j). assert (R2 := Rp j'). fold r in R1. fold r' in R2.
    assert (S1 := sin2_cos2 a). assert (S2 := sin2_cos2 a'). unfold Rsqr in S1, S2.
    assert (RR : (r * r = r' * r')%R).
    { transitivity ((- r * cos a) * (- r * cos a) + (r * sin a) * (r * sin a))%R; [|rewrite X, Y].
      - transitivity (r * r * (sin a * sin a + cos a * cos a))%R; [rewrite S1; ring|ring].
      - transitivity (r' * r' * (sin a' * sin a' + cos a' * cos a'))%R; [ring|rewrite S2; ring]. }
    assert (Rq : r = r') by nra.
    assert (Jj : j = j').
    { unfold r, r', ann_r in Rq. apply INR_eq. apply (Rmult_eq_reg_r (2 / INR p)); [|apply Rgt_not_eq, Rdiv_lt_0_compat; lra].
      replace (INR j * (2 / INR p))%R with (2 * INR j / INR p)%R by (field; lra). replace (INR j' * (2 / INR p))%R with (2 * INR j' / INR p)%R by (field; lra). lra. }
    assert (Cq : cos a = cos a') by (rewrite <- Rq in X; apply (Rmult_eq_reg_l (- r)%R); lra).
    assert (Rg : forall f q, f < 2 -> q <= p -> (0 <= ann_theta mpi p f q <= PI)%R).
    { intros f q Hf Hq. unfold ann_theta. assert (0 <= INR q / INR p <= 1)%R.
      { split; [apply Rmult_le_pos; [apply pos_INR|left; apply Rinv_0_lt_compat; lra]|]. apply (Rmult_le_reg_r (INR p)); [lra|]. unfold Rdiv. rewrite Rmult_assoc, Rinv_l by lra. assert (INR q <= INR p)%R by (apply le_INR; lia). lra. }
      assert (F : (0 <= INR f <= 1)%R) by (split; [apply pos_INR|replace 1%R with (INR 1) by reflexivity; apply le_INR; lia]). nra. }
    assert (Aq : a = a').
    { assert (B1 := Rg e i He Hi). assert (B2 := Rg e' i' He' Hi'). fold a in B1. fold a' in B2.
      destruct (Rtotal_order a a') as [L|[L|L]]; [exfalso|exact L|exfalso].
      - assert (T := cos_decreasing_1 a a' ltac:(lra) ltac:(lra) ltac:(lra) ltac:(lra) L). lra.
      - assert (T := cos_decreasing_1 a' a ltac:(lra) ltac:(lra) ltac:(lra) ltac:(lra) L). lra. }
    assert (Iq : e * p + i = e' * p + i').
    { apply INR_eq. rewrite !plus_INR, !mult_INR. unfold a, a', ann_theta in Aq. apply Rmult_eq_reg_r in Aq; [|lra].
      apply (f_equal (fun x => x * INR p)%R) in Aq. replace ((INR e + INR i / INR p) * INR p)%R with (INR e * INR p + INR i)%R in Aq by (field; lra).
      replace ((INR e' + INR i' / INR p) * INR p)%R with (INR e' * INR p + INR i')%R in Aq by (field; lra). exact Aq. }
    split; [exact Jj|]. split; [exact Kk|]. destruct e as [|[|e]], e' as [|[|e']]; lia.
  - intros S d Hd. rewrite <- (cpos_anode mpi p e i j k d), <- (cpos_anode mpi p e' i' j' k' d) by assumption. f_equal. apply anode_inj; assumption.
Qed.
Print Assumptions C68_positions.

(** C68, order 0: the angles are divided by zero *)
Theorem C68_order_0 : forall mpi m0, create_annular_mesh mpi 0 m0 = Err DivZero.
Proof.
  intros mpi m0. unfold create_annular_mesh. cbv zeta. change (0 + 1) with 1. unfold first_element, loop. cbn [loop_from]. unfold first_vertex at 1, annular_point. change (1 - 1) with 0.
  rewrite rdiv_zero. reflexivity.
Qed.
Print Assumptions C68_order_0.

(** C68, determinants on any mesh of order p >= 1: entry (e, vertex (i,j,k)) is the Jacobian determinant of the
    order-p map of element e at that vertex *)
Theorem C68_determinants : forall Z0 w0 m N X, let p := m_order m in 1 <= p -> (N.of_nat (num_verts p) <= 2 ^ 64)%N -> describes m (num_verts p) N X ->
  exists dets, compute_jacobian_determinants Z0 w0 m = Ok dets /\ length dets = m_num_elems m * num_verts p /\
    forall e i j k, e < m_num_elems m -> i <= p -> j <= p -> k <= p ->
      exists D, holds dets (e * num_verts p + vert p i j k) D /\ jac_det (geo p N X e) (vertex1 p i) (vertex1 p j) (vertex1 p k) D.
Proof.
  intros Z0 w0 m N X p Hp B HM. destruct (compute_ok Z0 w0 m N X Hp B HM) as (dets & E & L & H). exists dets. split; [exact E|]. split; [exact L|].
  intros e i j k He Hi Hj Hk. cbv zeta in H. fold p in H. assert (Lv := vform_lt p i j k Hi Hj Hk). rewrite vert_form. unfold num_verts.
  destruct (H (e * ((p + 1) * (p + 1) * (p + 1)) + (i + (j + k * (p + 1)) * (p + 1)))) as (D & A & C).
  - set (nv := (p + 1) * (p + 1) * (p + 1)) in *. nia.
  - exists D. split; [exact A|]. cbv zeta in C. rewrite (Nat.add_comm (e * _)) in C. rewrite (mod_add_l _ e), (div_add_l _ e) in C by exact Lv.
    rewrite mod_add_l, div_add_l, mod_add_l, div_add_l in C by lia. exact C.
Qed.
Print Assumptions C68_determinants.

(** C68, determinants of the half annulus: at every vertex the determinant is the radius times the slope of the
    chord polynomial; it depends neither on the element nor on the height, and agrees on the common face; it is
    the determinant radius * angle/4 of the true half annulus up to the relative error
    (angle / 2p)^p / (p+1); in particular it is positive for angles up to pi. *)
Theorem C68_annulus : forall mpi Z0 w0 p m0, 1 <= p -> (N.of_nat (num_verts p) <= 2 ^ 64)%N ->
  exists m dets, create_annular_mesh mpi p m0 = Ok m /\ compute_jacobian_determinants Z0 w0 m = Ok dets /\
    forall e i j k, e < 2 -> i <= p -> j <= p -> k <= p ->
      exists s, chord_slope mpi p i s /\ holds dets (e * num_verts p + vert p i j k) (ann_r p j * s)%R /\
        (i = 0 \/ i = p -> forall i', i' = 0 \/ i' = p -> forall s', chord_slope mpi p i' s' -> s' = s) /\
        jac_det (ann_map mpi e) (vertex1 p i) (vertex1 p j) (vertex1 p k) (ann_r p j * (mpi / 4)) /\
        ((0 <= mpi)%R -> (Rabs (ann_r p j * s - ann_r p j * (mpi / 4)) <= ann_r p j * (mpi / 4) * ((mpi / (2 * INR p)) ^ p / INR (p + 1)))%R) /\
        ((0 < mpi <= PI)%R -> (0 < ann_r p j * s)%R).
Proof.
  intros mpi Z0 w0 p m0 Hp B. destruct (create_ok mpi p m0 Hp) as (m & E & _). destruct (nodes_ok mpi p m0 m Hp E) as (G1 & G2 & G3 & G4 & Eo & Ee & En).
  set (Nn := fun e v => match e with 0 => v | _ => node1 p v end). set (X := cpos mpi p).
  assert (HM : describes m (num_verts (m_order m)) Nn X).
  { rewrite Eo. split.
    - rewrite Ee, En. intros e v He Hv. split; [apply G1; assumption|]. unfold Nn. destruct e; [rewrite an_count_eq; unfold num_verts in Hv; nia|apply node1_lt; assumption].
    - rewrite En. intros n d Hn Hd. apply G3; assumption. }
  destruct (C68_determinants Z0 w0 m Nn X) as (dets & Ed & L & H); [rewrite Eo; exact Hp|rewrite Eo; exact B|exact HM|].
  exists m, dets. split; [exact E|]. split; [exact Ed|]. rewrite Eo, Ee in H. intros e i j k He Hi Hj Hk.
  destruct (H e i j k He Hi Hj Hk) as (D & A & C).
  assert (ED : D = (ann_r p j * chord mpi p i)%R).
  { apply (det_formula mpi p e i j k (geo p Nn X e) (fun d v => X (Nn e v) d)); try assumption.
    - reflexivity.
    - intros d a b g Hd Ha Hb Hg. unfold X. rewrite <- (cpos_anode mpi p e a b g d) by assumption. f_equal. unfold Nn, anode. cbv zeta.
      replace (a + (b + g * (p + 1)) * (p + 1)) with (a + b * (p + 1) + g * (p + 1) * (p + 1)) by ring. reflexivity. }
  subst D. assert (Rp : (1 / 2 <= ann_r p j)%R).
  { unfold ann_r. assert (0 <= 2 * INR j / INR p)%R; [|lra]. apply Rmult_le_pos; [assert (W := pos_INR j); lra|left; apply Rinv_0_lt_compat, lt_0_INR; lia]. }
  exists (chord mpi p i). split; [apply chord_ok|]. split; [exact A|]. split.
  { intros Hi0 i' Hi' s' Hs'. rewrite (chord_unique _ _ _ _ Hs'). assert (Q := chord_ends mpi p Hp). destruct Hi0 as [-> | ->], Hi' as [-> | ->]; congruence. }
  split; [apply ann_map_det; exact Hp|]. split.
  - intros Hm. rewrite <- Rmult_minus_distr_l, Rabs_mult, (Rabs_pos_eq (ann_r p j)) by lra. rewrite Rmult_assoc. apply Rmult_le_compat_l; [lra|].
    eapply Rle_trans; [apply chord_accuracy; assumption|]. apply Req_le. unfold Rdiv. ring.
  - intros Hm. apply Rmult_lt_0_compat; [lra|apply chord_positive; assumption].
Qed.
Print Assumptions C68_annulus.

(** C68, order 2 (the example as shipped), angle pi: all determinants are positive; the slope is
    2 sin (pi/4) - 1/2 at the ends of an element and sin (pi/4) in the middle *)
Theorem C68_order_2 : forall mpi s0 s1 s2, chord_slope mpi 2 0 s0 -> chord_slope mpi 2 1 s1 -> chord_slope mpi 2 2 s2 ->
  s0 = (2 * sin (mpi / 4) - sin (mpi / 2) / 2)%R /\ s1 = sin (mpi / 4) /\ s2 = s0.
Proof.
  intros mpi s0 s1 s2 H0 H1 H2. rewrite (chord_unique _ _ _ _ H0), (chord_unique _ _ _ _ H1), (chord_unique _ _ _ _ H2).
  destruct (chord_2 mpi) as (A & B & C). rewrite A, B, C. auto.
Qed.
Print Assumptions C68_order_2.

(** C68, output: the program writes a grid of two Lagrange cells whose points are the mesh's nodes (in VTK's
    precision) and whose scalar at a node is the determinant there *)
Theorem C68_output : forall pif rnd mpi Z0 w0 p m0, 1 <= p -> (N.of_nat (num_verts p) <= 2 ^ 64)%N -> numbers_vertices p (pif p) ->
  exists m dets g node, plot_main pif rnd mpi Z0 w0 p m0 = Ok (m, dets, g) /\ g_num_points g = 2 * num_verts p - (p + 1) * (p + 1) /\ length (g_cells g) = 2 /\
    create_annular_mesh mpi p m0 = Ok m /\ (forall e i j k, e < 2 -> i <= p -> j <= p -> k <= p -> nodes_in_elem m e (vert p i j k) = Ok (node e i j k)) /\
    (forall e, e < 2 -> exists ids, nth_error (g_cells g) e = Some (LagrangeHex, ids) /\ length ids = num_verts p /\
       forall i j k, i <= p -> j <= p -> k <= p -> holds ids (pif p i j k) (node e i j k)) /\
    (forall e i j k, e < 2 -> i <= p -> j <= p -> k <= p ->
       (forall d, d < 3 -> holds (g_points g) (node e i j k * 3 + d) (rnd (ann_pos mpi p e i j k d))) /\
       exists s, chord_slope mpi p i s /\ holds (g_scalars g) (node e i j k) (ann_r p j * s)%R).
Proof.
  intros pif rnd mpi Z0 w0 p m0 Hp B Hn. destruct (C68_annulus mpi Z0 w0 p m0 Hp B) as (m & dets & Em & Ed & H).
  destruct (nodes_ok mpi p m0 m Hp Em) as (G1 & G2 & G3 & G4 & Eo & Ee & En).
  assert (Ld : length dets = m_num_elems m * num_verts p).
  { set (Nn := fun e v => match e with 0 => v | _ => node1 p v end).
    assert (HM : describes m (num_verts (m_order m)) Nn (cpos mpi p)).
    { rewrite Eo. split.
      - rewrite Ee, En. intros e v He Hv. split; [apply G1; assumption|]. unfold Nn. destruct e; [rewrite an_count_eq; unfold num_verts in Hv; nia|apply node1_lt; assumption].
      - rewrite En. intros n d Hn' Hd. apply G3; assumption. }
    destruct (C68_determinants Z0 w0 m Nn (cpos mpi p)) as (dets' & Ed' & L & _); [rewrite Eo; exact Hp|rewrite Eo; exact B|exact HM|]. rewrite Ed in Ed'. injection Ed' as <-. rewrite Eo in L. exact L. }
  destruct (C40_write R pif rnd m (num_verts p) dets) as (g & Eg & Np & Lp & Lc & Hc & Hpt & _ & Hs); [rewrite Eo; exact Hn|rewrite Eo; exact B|exact G4|rewrite Eo; lia|exact Ld|].
  rewrite Eo, Ee in *. exists m, dets, g, (anode p). split.
  { unfold plot_main. rewrite Em. cbn [bind]. rewrite Ed. cbn [bind]. replace (Nat.pow (p + 1) 3) with (num_verts p) by (unfold num_verts; cbn [Nat.pow]; lia). rewrite Eg. reflexivity. }
  split; [rewrite Np, En; reflexivity|]. split; [exact Lc|].
  assert (Hold : forall e v, e < 2 -> v < num_verts p -> holds (m_conn m) (e * m_width m + v) (match e with 0 => v | _ => node1 p v end)).
  { intros e v He Hv. assert (Q := G1 e v He Hv). unfold nodes_in_elem, getu, get in Q. unfold holds. destruct (nth_error (m_conn m) (e * m_width m + v)) as [[x|]|]; cbn in Q; congruence. }
  assert (HoldA : forall e i j k, e < 2 -> i <= p -> j <= p -> k <= p -> holds (m_conn m) (e * m_width m + vert p i j k) (anode p e i j k)).
  { intros e i j k He Hi Hj Hk. assert (Q := Hold e (vert p i j k) He ltac:(rewrite vert_form; apply vform_lt; assumption)). unfold anode. cbv zeta. rewrite <- vert_form. exact Q. }
  split; [exact Em|]. split; [intros e i j k He Hi Hj Hk; apply getu_some, HoldA; assumption|]. split.
  - intros e He. destruct (Hc e He) as (ids & A & L & K). exists ids. split; [exact A|]. split; [exact L|]. intros i j k Hi Hj Hk. apply K; try assumption. apply HoldA; assumption.
  - intros e i j k He Hi Hj Hk.
    assert (Us : used m (anode p e i j k)) by (exists e, (vert p i j k); rewrite Ee, Eo; split; [exact He|]; split; [rewrite vert_form; apply vform_lt; assumption|apply HoldA; assumption]).
    assert (Ln : anode p e i j k < an_count p) by (unfold anode; cbv zeta; assert (L := vform_lt p i j k Hi Hj Hk); destruct e; [rewrite an_count_eq; nia|apply node1_lt; assumption]).
    split.
    + intros d Hd. unfold holds. rewrite Hpt by assumption. assert (Q := G3 (anode p e i j k) d Ln Hd). rewrite cpos_anode in Q by assumption. unfold node_coords, getu, get in Q.
      destruct (nth_error (m_coords m) (anode p e i j k * 3 + d)) as [[x|]|]; cbn in Q |- *; congruence.
    + (* the last vertex there: in element 1 if the vertex is shared *)
      destruct (H e i j k He Hi Hj Hk) as (s & Cs & Hd & Hend & _). exists s. split; [exact Cs|].
      set (sh := andb (e =? 0) (i =? p)).
      set (e1 := if sh then 1 else e). set (i1 := if sh then 0 else i).
      assert (He1 : e1 < 2) by (unfold e1; destruct sh; lia). assert (Hi1 : i1 <= p) by (unfold i1; destruct sh; lia).
      assert (Same : anode p e1 i1 j k = anode p e i j k).
      { apply anode_inj; try assumption. unfold e1, i1, sh, same_vertex. destruct (Nat.eqb_spec e 0), (Nat.eqb_spec i p); cbn [andb]; split; auto; split; auto. subst. right. right. auto. }
      assert (V1 : vert p i1 j k < num_verts p) by (rewrite vert_form; apply vform_lt; assumption).
      assert (S1 := Hs (anode p e i j k) e1 (vert p i1 j k) He1 V1).
      destruct (H e1 i1 j k He1 Hi1 Hj Hk) as (s1 & Cs1 & Hd1 & Hend1 & _).
      assert (Es : s1 = s).
      { unfold e1, i1, sh in *. destruct (Nat.eqb_spec e 0) as [Z1|Z1], (Nat.eqb_spec i p) as [Z2|Z2]; cbn [andb] in *; try (rewrite (chord_unique _ _ _ _ Cs1), (chord_unique _ _ _ _ Cs); reflexivity).
        apply (Hend (or_intror Z2) 0 (or_introl eq_refl) s1 Cs1). }
      unfold holds. rewrite S1.
      * rewrite <- Es. exact Hd1.
      * rewrite <- Same. apply HoldA; assumption.
      * intros e' s' He' Hs' Hh. assert (Hv := vert_surj p s' Hs'). destruct Hv as (I & J & K & HI & HJ & HK & ->).
        assert (Hh' := HoldA e' I J K He' HI HJ HK). unfold holds in Hh, Hh'. rewrite Hh in Hh'. injection Hh' as Hh'. rewrite <- Same in Hh'. symmetry in Hh'.
        apply anode_inj in Hh'; try assumption. destruct Hh' as (-> & -> & [(-> & ->)|[(A & A' & A'' & A''')|(A & A' & A'' & A''')]]); [right; lia|left; lia|].
        exfalso. clear - A'' A''' Hp. unfold e1, i1, sh in A'', A'''. destruct (Nat.eqb_spec e 0), (Nat.eqb_spec i p); cbn [andb] in *; lia.
Qed.
Print Assumptions C68_output.

(** the example as shipped: order 2, pi, VTK's own numbering: 45 nodes; the elements share the middle vertex of
    the common face; a determinant on the inner radius is sin (pi/4) / 2 > 0 *)
Example C68_nonvacuous : exists m dets g n n', plot_main vtk_index (fun x => x) PI (fun _ => 0%R) (fun _ => 0%R) 2 (Mesh 0 0 0 [] 0 []) = Ok (m, dets, g) /\
  g_num_points g = 45 /\ length (g_cells g) = 2 /\ nodes_in_elem m 0 (2 + 1 * 3 + 1 * 9) = Ok n /\ nodes_in_elem m 1 (0 + 1 * 3 + 1 * 9) = Ok n /\
  nodes_in_elem m 0 1 = Ok n' /\ holds (g_scalars g) n' (1 / 2 * sin (PI / 4))%R /\ (0 < 1 / 2 * sin (PI / 4))%R.
Proof.
  destruct (C68_output vtk_index (fun x => x) PI (fun _ => 0%R) (fun _ => 0%R) 2 (Mesh 0 0 0 [] 0 []) ltac:(lia) ltac:(vm_compute; discriminate) (C40_vtk_numbering 2)) as (m & dets & g & node & E & Np & Lc & E' & Hn & Hc & Hs).
  exists m, dets, g, (node 0 2 1 1), (node 0 1 0 0). split; [exact E|]. split; [rewrite Np; reflexivity|]. split; [exact Lc|].
  split; [exact (Hn 0 2 1 1 ltac:(lia) ltac:(lia) ltac:(lia) ltac:(lia))|]. split.
  { change (0 + 1 * 3 + 1 * 9) with (vert 2 0 1 1). rewrite (Hn 1 0 1 1) by lia. f_equal.
    destruct (C68_mesh PI 2 (Mesh 0 0 0 [] 0 []) ltac:(lia)) as (m' & node' & E'' & _ & _ & _ & A & _ & B & _). rewrite E' in E''. injection E'' as <-.
    assert (Q : forall e i j k, e < 2 -> i <= 2 -> j <= 2 -> k <= 2 -> node e i j k = node' e i j k).
    { intros e i j k He Hi Hj Hk. destruct (A e i j k He Hi Hj Hk) as (A' & _). rewrite (Hn e i j k He Hi Hj Hk) in A'. congruence. }
    rewrite !Q by lia. apply B; try lia. unfold same_vertex. auto 10. }
  split; [exact (Hn 0 1 0 0 ltac:(lia) ltac:(lia) ltac:(lia) ltac:(lia))|]. split.
  - destruct (Hs 0 1 0 0 ltac:(lia) ltac:(lia) ltac:(lia) ltac:(lia)) as (_ & s & Cs & Hh).
    destruct (C68_order_2 PI _ s _ (chord_ok PI 2 0) Cs (chord_ok PI 2 2)) as (_ & Es & _). rewrite Es in Hh.
    replace (1 / 2)%R with (ann_r 2 0) by (unfold ann_r; cbn [INR]; field). exact Hh.
  - assert (P := PI_RGT_0). assert (0 < sin (PI / 4))%R by (apply sin_gt_0; lra). lra.
Qed.
(** ... and the order-2 mesh meets the hypotheses of C68_determinants; two different vertices of the face *)
Example C68_nonvacuous_2 : (exists m N X, m_order m = 2 /\ m_num_elems m = 2 /\ describes m (num_verts 2) N X) /\ same_vertex 2 0 2 1 1 1 0 1 1 /\ ~ same_vertex 2 0 2 1 1 1 0 1 2 /\
  (exists s, chord_slope PI 2 0 s) /\ (N.of_nat (num_verts 2) <= 2 ^ 64)%N.
Proof.
  split; [|split; [|split; [|split]]].
  - destruct (create_ok PI 2 (Mesh 0 0 0 [] 0 []) ltac:(lia)) as (m & E & _). destruct (nodes_ok PI 2 _ m ltac:(lia) E) as (G1 & _ & G3 & _ & Eo & Ee & En).
    exists m, (fun e v => match e with 0 => v | _ => node1 2 v end), (cpos PI 2). split; [exact Eo|]. split; [exact Ee|]. split.
    + rewrite Ee, En. intros e v He Hv. split; [apply G1; assumption|]. destruct e; [|apply node1_lt; [lia|exact Hv]]. unfold num_verts in Hv. cbn in *. lia.
    + rewrite En. intros n d Hn Hd. apply G3; assumption.
  - unfold same_vertex. auto 10.
  - unfold same_vertex. lia.
  - exists (chord PI 2 0). apply chord_ok.
  - vm_compute. discriminate.
Qed.
