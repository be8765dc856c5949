(** C67: the two geometry checks of examples/average.  Exact real arithmetic. *)
From Coq Require Import List Arith ZArith Reals Lia Lra.
From Coquelicot Require Import Coquelicot.
Import ListNotations.
Require Import Verif.Base Verif.RBase Verif.RSum Verif.RDer Verif.Spec_Mat Verif.Spec_Lagrange Verif.Lagrange_Math Verif.Spec_Poly Verif.Spec_Quad Verif.Model_Quad Verif.Spec_Ref Verif.Model_Ref
  Verif.Proof_Ref Verif.Model_Jac Verif.Spec_HexN Verif.Model_HexN Verif.Model_Gcl Verif.Spec_Gcl
  Verif.Proof_Quad Verif.Proof_Quad2 Verif.Proof_Quad3 Verif.Proof_Quad6 Verif.Proof_Quad7 Verif.Proof_Gcl Verif.Proof_Gcl2 Verif.Proof_Gcl3 Verif.Proof_Gcl4 Verif.Proof_Gcl5 Verif.Proof_Gcl6 Verif.Proof_Gcl7.
Require Verif.Prop_Ref.
Open Scope R_scope.

Lemma nodes_pos p : (1 <= nodes_1d p - 1)%nat.
Proof. unfold nodes_1d. destruct (Nat.eqb_spec p 0); lia. Qed.
Lemma is_det_unique F x y z D D' : is_det F x y z D -> is_det F x y z D' -> D = D'.
Proof.
  intros (J & H & ->) (K & H' & ->). assert (E : forall a b, (a < 3)%nat -> (b < 3)%nat -> J a b = K a b).
  { intros a b Ha Hb. destruct (H a Ha) as (A1 & A2 & A3). destruct (H' a Ha) as (B1 & B2 & B3).
    destruct b as [|[|[|b]]]; [eapply der_unique; eassumption..|lia]. }
  unfold det3. rewrite !E by lia. reflexivity.
Qed.

(** Area: on every element whose map is not degenerate at a patch point the outward area vectors of all
    cell sides of the element add up to zero, up to the accuracy of the 1D rule; an element degenerate
    at a patch point makes the check divide by zero. *)
Theorem C67_area : forall p lob leg legw tol L, check_tables p lob leg legw tol L ->
  let nc := (nodes_1d p - 1)%nat in let n := verts_1d p in let nb := (n * n * n)%nat in let np := ((nc + 1) * (nc * nc) * 3)%nat in
  exists P h tg, build_patches nc lob leg legw = Ok P /\ setup_hexn p lob = Ok h /\
    gradient_table h np nb (nodes_1d p * nodes_1d p * nodes_1d p) (pt_pos P) = Ok tg /\
  forall grad, (forall r v d, (r < np)%nat -> (v < nb)%nat -> (d < 3)%nat -> ref_gradient nb tg r v d = Ok (grad r v d)) ->
  forall ne vmap N X T1 e, (e < ne)%nat ->
    let T := get_pt_jacobian ne np nb (pt_in_elem np) vmap N X grad T1 in
    let Y := fun v => X (N e (vmap v)) in
    (forall r, (r < np)%nat -> exists x y z, ref_patch_positions P r 0 = Ok x /\ ref_patch_positions P r 1 = Ok y /\ ref_patch_positions P r 2 = Ok z /\
       is_det (elem_map n (vert_coord p lob) Y) x y z (t_det T (pt_in_elem np e r))) /\
    ((forall r, (r < np)%nat -> t_det T (pt_in_elem np e r) <> 0) ->
       exists t, surf_tally P (nc * nc * nc) np T e = Ok t /\
       forall i, (i < 3)%nat -> Rabs (t i) <= area_limit n L tol (total nb Y ((i + 1) mod 3)) (total nb Y ((i + 2) mod 3))) /\
    ((exists r, (r < np)%nat /\ t_det T (pt_in_elem np e r) = 0) -> surf_tally P (nc * nc * nc) np T e = Err DivZero).
Proof.
  intros p lob leg legw tol L H nc n nb np. destruct H as [H1 H2 H3' H4 H5 H6 H7 H8 H9].
  assert (Np := nodes_pos p).
  destruct (area_main p lob leg legw L tol ltac:(lia) H2 H3' H4 H5 H6 H7 H8 H9) as (P & h & tg & E1 & E2 & E3 & G).
  exists P, h, tg. split; [exact E1|]. split; [exact E2|]. split; [exact E3|].
  intros grad Hg ne vmap N X T1 e He T Y. destruct (G grad Hg ne vmap N X T1 e He) as (G0 & G1 & G2). fold T in G0, G1, G2. split; [|split; [|exact G2]].
  - intros r Hr. destruct (G0 r Hr) as (Q & HQ & ED & EJ). exists (Q 0%nat), (Q 1%nat), (Q 2%nat). split; [apply HQ; lia|]. split; [apply HQ; lia|]. split; [apply HQ; lia|].
    replace (t_det T (pt_in_elem np e r)) with (detf n (vert_coord p lob) Y (Q 0%nat) (Q 1%nat) (Q 2%nat)); [apply map_det|].
    transitivity (det3 (t_jac T (pt_in_elem np e r))); [symmetry; apply detf_val|symmetry; exact ED]. intros a b Ha Hb. rewrite EJ by assumption. apply rsum_ext. intros v Hv. f_equal.
  - intros Hd. destruct (G1 Hd) as (t & Et & Bt). exists t. split; [exact Et|]. intros i Hi. eapply Rle_trans; [apply Bt; exact Hi|].
    unfold area_bound, area_limit. right.
    assert (I : nx i = ((i + 1) mod 3)%nat /\ nx (nx i) = ((i + 2) mod 3)%nat) by (destruct i as [|[|[|i]]]; [| | |lia]; split; reflexivity).
    destruct I as (-> & ->). fold n nb Y. ring.
Qed.
Print Assumptions C67_area.

(** with an exact rule the sum is exactly zero *)
Theorem C67_area_exact : forall p lob leg legw L, check_tables p lob leg legw 0 L ->
  let nc := (nodes_1d p - 1)%nat in let n := verts_1d p in let nb := (n * n * n)%nat in let np := ((nc + 1) * (nc * nc) * 3)%nat in
  exists P h tg, build_patches nc lob leg legw = Ok P /\ setup_hexn p lob = Ok h /\
    gradient_table h np nb (nodes_1d p * nodes_1d p * nodes_1d p) (pt_pos P) = Ok tg /\
  forall grad, (forall r v d, (r < np)%nat -> (v < nb)%nat -> (d < 3)%nat -> ref_gradient nb tg r v d = Ok (grad r v d)) ->
  forall ne vmap N X T1 e, (e < ne)%nat ->
    let T := get_pt_jacobian ne np nb (pt_in_elem np) vmap N X grad T1 in
    (forall r, (r < np)%nat -> t_det T (pt_in_elem np e r) <> 0) ->
    exists t, surf_tally P (nc * nc * nc) np T e = Ok t /\ forall i, (i < 3)%nat -> t i = 0.
Proof.
  intros p lob leg legw L H nc n nb np. destruct (C67_area p lob leg legw 0 L H) as (P & h & tg & E1 & E2 & E3 & G).
  exists P, h, tg. split; [exact E1|]. split; [exact E2|]. split; [exact E3|]. intros grad Hg ne vmap N X T1 e He T Hd.
  destruct (G grad Hg ne vmap N X T1 e He) as (_ & G1 & _). destruct (G1 Hd) as (t & Et & Bt). exists t. split; [exact Et|]. intros i Hi.
  assert (B := Bt i Hi). unfold area_limit in B. rewrite Rmult_0_l, Rmult_0_r, !Rmult_0_l in B.
  destruct (Req_dec (t i) 0) as [|NZ]; [assumption|apply Rabs_pos_lt in NZ; lra].
Qed.
Print Assumptions C67_area_exact.

(** Volume: the sum is the tensor rule applied to the determinant of the element map; for order 1 and
    higher it is the volume of the element (the integral of that determinant over the reference element)
    up to the accuracy of the 1D rule. *)
Theorem C67_volume : forall p lob leg legw tol L, check_tables p lob leg legw tol L ->
  let nc := (nodes_1d p - 1)%nat in let n := verts_1d p in let nb := (n * n * n)%nat in let np := (nc * nc * nc)%nat in
  exists pos wts h tg, build_cell_pos nc leg = Ok pos /\ build_cell_weights nc legw = Ok wts /\ setup_hexn p lob = Ok h /\
    gradient_table h np nb (nodes_1d p * nodes_1d p * nodes_1d p) pos = Ok tg /\
  forall grad, (forall r v d, (r < np)%nat -> (v < nb)%nat -> (d < 3)%nat -> ref_gradient nb tg r v d = Ok (grad r v d)) ->
  forall ne cie vmap N X T1 e, (e < ne)%nat ->
    (forall e c e' c', (e < ne)%nat -> (e' < ne)%nat -> (c < np)%nat -> (c' < np)%nat -> cie e c = cie e' c' -> e = e' /\ c = c') ->
    let T := get_pt_jacobian ne np nb cie vmap N X grad T1 in
    let Y := fun v => X (N e (vmap v)) in
    exists D vol, elem_volume wts np cie T e = Ok vol /\
      (forall x y z, is_det (elem_map n (vert_coord p lob) Y) x y z (D x y z)) /\
      vol = sum3 nc (fun i j k => nth i legw 0 * nth j legw 0 * nth k legw 0 * D (nth i leg 0) (nth j leg 0) (nth k leg 0)) /\
      ((1 <= p)%nat -> exists V, integral3 D V /\
        Rabs (vol - V) <= volume_limit n L tol (total nb Y 0) (total nb Y 1) (total nb Y 2)).
Proof.
  intros p lob leg legw tol L H nc n nb np. destruct H as [H1 H2 H3' H4 H5 H6 H7 H8 H9]. assert (Np := nodes_pos p).
  destruct (volume_main p lob leg legw ltac:(lia) H2 H3' H4) as (pos & wts & h & tg & E1 & E2 & E3 & E4 & G).
  exists pos, wts, h, tg. split; [exact E1|]. split; [exact E2|]. split; [exact E3|]. split; [exact E4|].
  intros grad Hg ne cie vmap N X T1 e He Inj T Y. assert (EV := G grad Hg ne cie vmap N X T1 e He Inj). fold nc nb np T Y in EV.
  exists (detf n (vert_coord p lob) Y). eexists. split; [exact EV|]. split; [intros; apply map_det|]. split; [reflexivity|].
  intros Hp. destruct (detf_quad n nc (2 * nc - 1) (vert_coord p lob) L tol _ _ H4 H9 H7 H8) with (Y := Y) as (V & IV & BV).
  { unfold n, nc, verts_1d, nodes_1d. destruct (Nat.eqb_spec p 0); lia. }
  exists V. split; [exact IV|]. eapply Rle_trans; [exact BV|]. unfold vol_bound, volume_limit. right. fold nb. ring.
Qed.
Print Assumptions C67_volume.

(** ** the tables of the code *)
Lemma rsum_term m f i : (forall j, (j < m)%nat -> 0 <= f j) -> (i < m)%nat -> f i <= rsum m f.
Proof.
  intros H Hi. induction m as [|m IH]; [lia|]. cbn [rsum]. destruct (Nat.eq_dec i m) as [->|N].
  - assert (P : rsum m (fun _ => 0) <= rsum m f) by (apply rsum_le; intros; apply H; lia). rewrite rsum_zero in P by reflexivity. lra.
  - assert (A := IH ltac:(intros; apply H; lia) ltac:(lia)). assert (B := H m ltac:(lia)). lra.
Qed.
Lemma nth_error_inj (l l' : list (option R)) : (forall i, nth_error l i = nth_error l' i) -> l = l'.
Proof.
  revert l'. induction l as [|a l IH]; intros [|b l'] H; [reflexivity|discriminate (H 0%nat)|discriminate (H 0%nat)|].
  assert (E := H 0%nat). cbn in E. injection E as ->. f_equal. apply IH. intros i. exact (H (S i)).
Qed.
Lemma stores_all a vs : length vs = length a -> stores a 0 vs = Ok (map Some vs).
Proof.
  intros E. destruct (stores_wrote (length a) a vs E (le_n _)) as (a' & Ea & La & N). rewrite Ea. f_equal. apply nth_error_inj.
  intros i. rewrite N. destruct (Nat.ltb_spec i (length a)) as [Hi|Hi].
  - rewrite nth_error_map. rewrite (nth_error_nth' vs 0) by lia. reflexivity.
  - rewrite (proj2 (nth_error_None _ _)) by exact Hi. symmetry. apply nth_error_None. rewrite map_length. lia.
Qed.
Lemma lob_ends n : (2 <= n <= 20)%nat -> nth 0 (lobatto_nodes_tab (Z.of_nat n)) 0 = -1 /\ nth (n - 1) (lobatto_nodes_tab (Z.of_nat n)) 0 = 1.
Proof.
  intros Hn. destruct (lobatto_rule n ltac:(lia)) as (Lx & Lw' & Inc & Q).
  assert (X0 : nth 0 (lobatto_nodes_tab (Z.of_nat n)) 0%R = (-1)%R).
  { destruct n as [|[|[|[|[|[|[|[|[|[|[|[|[|[|[|[|[|[|[|[|[|n]]]]]]]]]]]]]]]]]]]]]; try lia; cbn [Z.of_nat Pos.of_succ_nat Pos.succ lobatto_nodes_tab decs map nth fst snd]; rewrite ?d0; lra. }
  split; [exact X0|]. destruct (q_symmetric _ _ _ _ _ Q 0 ltac:(lia)) as [Y _]. rewrite Nat.sub_0_r in Y. cbv beta in Y. rewrite Y, X0. lra.
Qed.
Lemma vert_at_lt p a : (a < verts_1d p)%nat -> (vert_at p a < nodes_1d p)%nat.
Proof. unfold verts_1d, vert_at, nodes_1d. destruct (Nat.eqb_spec p 0); lia. Qed.

(** for orders 0 to 9 the arrays filled by the Lobatto and Legendre routines are such tables (for order
    0 with an exact rule; growth limit 1 for orders 0 and 1) *)
Theorem C67_shipped_tables : forall p a b c, (p <= 9)%nat ->
  length a = nodes_1d p -> length b = (nodes_1d p - 1)%nat -> length c = (nodes_1d p - 1)%nat ->
  exists lob leg legw L,
    lobatto_nodes_1D a (Z.of_nat (nodes_1d p)) = Ok (map Some lob) /\
    legendre_nodes_1D b (Z.of_nat (nodes_1d p - 1)) = Ok (map Some leg) /\
    legendre_weights_1D c (Z.of_nat (nodes_1d p - 1)) = Ok (map Some legw) /\
    check_tables p lob leg legw (if (p =? 0)%nat then 0 else 3 / 10 ^ 30) L /\ ((p <= 1)%nat -> L = 1).
Proof.
  intros p a b c Hp La Lb Lc. set (n1 := nodes_1d p) in *. set (nc := (n1 - 1)%nat) in *.
  assert (B : (2 <= n1 <= 19)%nat) by (unfold n1, nodes_1d; destruct (Nat.eqb_spec p 0); lia).
  destruct (lobatto_rule n1 ltac:(lia)) as (Lx & _ & Inc & _). destruct (legendre_rule nc ltac:(lia)) as (Lg & Lgw & _ & Q).
  destruct (lob_ends n1 ltac:(lia)) as (E0 & E1).
  set (lob := lobatto_nodes_tab (Z.of_nat n1)) in *.
  set (L := if (p <=? 1)%nat then 1 else rsum (verts_1d p) (growth (verts_1d p) (vert_coord p lob))).
  assert (D : distinct (verts_1d p) (vert_coord p lob)).
  { intros i j Hi Hj Ne. unfold vert_coord. apply vert_at_lt in Hi as Hi', Hj as Hj'. fold n1 in Hi', Hj'.
    assert (NE : vert_at p i <> vert_at p j) by (unfold vert_at; destruct (Nat.eqb_spec p 0); lia).
    destruct (Nat.lt_ge_cases (vert_at p i) (vert_at p j)) as [l|l].
    - assert (I := Inc (vert_at p i) (vert_at p j) ltac:(lia)). cbv beta in I. lra.
    - assert (I := Inc (vert_at p j) (vert_at p i) ltac:(lia)). cbv beta in I. lra. }
  exists lob, (legendre_nodes_tab (Z.of_nat nc)), (legendre_weights_tab (Z.of_nat nc)), L.
  split; [apply stores_all; lia|]. split; [apply stores_all; lia|]. split; [apply stores_all; lia|]. split.
  - constructor; try assumption.
    + destruct (p =? 0)%nat; lra.
    + replace (if (p =? 0)%nat then 0 else 3 / 10 ^ 30) with (legendre_tol nc); [exact Q|].
      unfold legendre_tol, nc, n1, nodes_1d. destruct (Nat.eqb_spec p 0) as [->|N]; [reflexivity|].
      destruct (Nat.eqb_spec (2 * p + 1 - 1) 1); [lia|reflexivity].
    + intros i Hi. unfold L. destruct (Nat.leb_spec p 1) as [P1|P1].
      * assert (V : verts_1d p = 2%nat) by (unfold verts_1d; destruct (Nat.eqb_spec p 0); lia). rewrite V in *.
        assert (V0 : vert_coord p lob 0 = -1) by (unfold vert_coord, vert_at; destruct (Nat.eqb_spec p 0); exact E0).
        assert (V1 : vert_coord p lob 1 = 1).
        { unfold vert_coord. replace (vert_at p 1) with (n1 - 1)%nat; [exact E1|]. unfold n1, vert_at, nodes_1d. destruct (Nat.eqb_spec p 0); lia. }
        assert (A2 : Rabs (-1 - 1) = 2) by (rewrite Rabs_left; lra). assert (A3 : Rabs (1 - -1) = 2) by (rewrite Rabs_right; lra).
        assert (A0 : Rabs (-1) = 1) by (rewrite Rabs_left; lra).
        unfold growth. cbn [rprod]. destruct i as [|[|i]]; [| |lia]; cbn [Nat.eqb]; rewrite V0, V1, ?A0, ?A2, ?A3, ?Rabs_R1; lra.
      * apply rsum_term; [intros; apply growth_nonneg|exact Hi].
  - intros P1. unfold L. destruct (Nat.leb_spec p 1); [reflexivity|lia].
Qed.
Print Assumptions C67_shipped_tables.

(** ** order 0: the volume check is not the volume *)
(** a frustum: the square cross-section grows from 1/2 to 3/2 between the bottom and the top *)
Definition frustum (v d : nat) : R :=
  let s i := if (i =? 0)%nat then -1 else 1 in
  let a := s (v mod 2)%nat in let b := s (v / 2 mod 2)%nat in let c := s (v / 4)%nat in
  match d with 0%nat => a * (1 + c / 2) | 1%nat => b * (1 + c / 2) | _ => c end.
Lemma frustum_map d x y z : (d < 3)%nat -> elem_map 2 (vert_coord 0 [-1; 1]) frustum d x y z =
  match d with 0%nat => x * (1 + z / 2) | 1%nat => y * (1 + z / 2) | _ => z end.
Proof.
  intros Hd. unfold elem_map, sum3, phi3, ell, vert_coord, vert_at. cbn [Nat.eqb rsum rprod nth].
  unfold gid. cbn [Nat.add Nat.mul]. unfold frustum.
  change (0 mod 2)%nat with 0%nat. change (1 mod 2)%nat with 1%nat. change (2 mod 2)%nat with 0%nat. change (3 mod 2)%nat with 1%nat.
  change (4 mod 2)%nat with 0%nat. change (5 mod 2)%nat with 1%nat. change (6 mod 2)%nat with 0%nat. change (7 mod 2)%nat with 1%nat.
  change (0 / 2)%nat with 0%nat. change (1 / 2)%nat with 0%nat. change (2 / 2)%nat with 1%nat. change (3 / 2)%nat with 1%nat.
  change (4 / 2)%nat with 2%nat. change (5 / 2)%nat with 2%nat. change (6 / 2)%nat with 3%nat. change (7 / 2)%nat with 3%nat.
  change (0 mod 2)%nat with 0%nat. change (1 mod 2)%nat with 1%nat. change (2 mod 2)%nat with 0%nat. change (3 mod 2)%nat with 1%nat.
  change (0 / 4)%nat with 0%nat. change (1 / 4)%nat with 0%nat. change (2 / 4)%nat with 0%nat. change (3 / 4)%nat with 0%nat.
  change (4 / 4)%nat with 1%nat. change (5 / 4)%nat with 1%nat. change (6 / 4)%nat with 1%nat. change (7 / 4)%nat with 1%nat.
  cbn [Nat.eqb]. destruct d as [|[|[|d]]]; [| | |lia]; field.
Qed.
Lemma frustum_det x y z : is_det (elem_map 2 (vert_coord 0 [-1; 1]) frustum) x y z ((1 + z / 2) ^ 2).
Proof.
  exists (fun a b => match a, b with 0%nat, 0%nat => 1 + z / 2 | 0%nat, 2%nat => x / 2 | 1%nat, 1%nat => 1 + z / 2 | 1%nat, 2%nat => y / 2 | 2%nat, 2%nat => 1 | _, _ => 0 end).
  split; [|unfold det3; ring].
  assert (L : forall a b t, derivable_pt_lim (fun u => a + b * u) t b) by (intros; eapply der_value; [|apply der_add; [apply der_const|apply der_scal; apply der_id]]; ring).
  intros d Hd. unfold is_grad. destruct d as [|[|[|d]]]; [| | |lia]; (split; [|split]).
  all: eapply der_ext; [intros t; symmetry; apply frustum_map; lia|cbv beta iota].
  - apply (der_ext (fun t => 0 + (1 + z / 2) * t)); [intros; ring|apply L].
  - apply der_const.
  - apply (der_ext (fun t => x + (x / 2) * t)); [intros; field|apply L].
  - apply der_const.
  - apply (der_ext (fun t => 0 + (1 + z / 2) * t)); [intros; ring|apply L].
  - apply (der_ext (fun t => y + (y / 2) * t)); [intros; field|apply L].
  - apply der_const.
  - apply der_const.
  - apply der_id.
Qed.
Lemma const_int c : integral (fun _ => c) (2 * c).
Proof. unfold integral. generalize (is_RInt_const (V := R_NormedModule) (-1) 1 c). unfold scal; cbn. unfold mult; cbn. replace ((1 - -1) * c) with (2 * c) by ring. auto. Qed.
Lemma square_int : integral (fun z => (1 + z / 2) ^ 2) (13 / 6).
Proof.
  assert (K : is_RInt (fun z => (1 + z / 2) ^ 2) (-1) 1 (minus ((fun z => 2 / 3 * (1 + z / 2) ^ 3) 1) ((fun z => 2 / 3 * (1 + z / 2) ^ 3) (-1)))).
  { apply (is_RInt_derive (V := R_CompleteNormedModule) (fun z => 2 / 3 * (1 + z / 2) ^ 3) (fun z => (1 + z / 2) ^ 2)).
    - intros z _. auto_derive; [exact I|field].
    - intros z _. apply (ex_derive_continuous (fun z => (1 + z / 2) ^ 2)). auto_derive. exact I. }
  unfold integral. replace (13 / 6) with (minus ((fun z => 2 / 3 * (1 + z / 2) ^ 3) 1) ((fun z => 2 / 3 * (1 + z / 2) ^ 3) (-1))); [exact K|].
  unfold minus, plus, opp; cbn; field.
Qed.

(** with the order-0 tables of the code and the frustum as the only element the check reports 8, the
    volume is 26/3 *)
Theorem C67_volume_order0_refuted : forall a b c, length a = 2%nat -> length b = 1%nat -> length c = 1%nat ->
  exists lob leg legw pos wts h tg,
    lobatto_nodes_1D a 2 = Ok (map Some lob) /\ legendre_nodes_1D b 1 = Ok (map Some leg) /\ legendre_weights_1D c 1 = Ok (map Some legw) /\
    build_cell_pos 1 leg = Ok pos /\ build_cell_weights 1 legw = Ok wts /\ setup_hexn 0 lob = Ok h /\ gradient_table h 1 8 8 pos = Ok tg /\
  forall grad, (forall r v d, (r < 1)%nat -> (v < 8)%nat -> (d < 3)%nat -> ref_gradient 8 tg r v d = Ok (grad r v d)) -> forall T1,
    let T := get_pt_jacobian 1 1 8 (fun _ c => c) (fun v => v) (fun _ v => v) frustum grad T1 in
    elem_volume wts 1 (fun _ c => c) T 0 = Ok 8 /\
    exists D, (forall x y z, is_det (elem_map 2 (vert_coord 0 lob) frustum) x y z (D x y z)) /\ integral3 D (26 / 3).
Proof.
  intros a b c La Lb Lc. exists (lobatto_nodes_tab 2), (legendre_nodes_tab 1), (legendre_weights_tab 1).
  assert (E : lobatto_nodes_tab 2 = [-1; 1] /\ legendre_nodes_tab 1 = [0] /\ legendre_weights_tab 1 = [2]).
  { cbn [lobatto_nodes_tab legendre_nodes_tab legendre_weights_tab decs map fst snd]. rewrite !d0. repeat split. }
  destruct E as (E1 & E2 & E3).
  assert (D : distinct (verts_1d 0) (vert_coord 0 (lobatto_nodes_tab 2))).
  { rewrite E1. intros i j Hi Hj N. unfold verts_1d in *. cbn [Nat.eqb] in *. unfold vert_coord, vert_at. cbn [Nat.eqb].
    destruct i as [|[|i]]; [| |lia]; (destruct j as [|[|j]]; [| |lia]); try lia; cbn [nth]; lra. }
  destruct (volume_main 0 (lobatto_nodes_tab 2) (legendre_nodes_tab 1) (legendre_weights_tab 1)) as (pos & wts & h & tg & F1 & F2 & F3 & F4 & G);
    [rewrite E1; reflexivity|rewrite E2; reflexivity|rewrite E3; reflexivity|exact D|].
  exists pos, wts, h, tg. split; [apply stores_all; rewrite E1, La; reflexivity|]. split; [apply stores_all; rewrite E2, Lb; reflexivity|].
  split; [apply stores_all; rewrite E3, Lc; reflexivity|]. split; [exact F1|]. split; [exact F2|]. split; [exact F3|]. split; [exact F4|].
  intros grad Hg T1 T. split.
  - assert (V := G grad Hg 1%nat (fun _ c => c) (fun v => v) (fun _ v => v) frustum T1 0%nat ltac:(lia) ltac:(unfold nodes_1d; cbn [Nat.eqb]; intros; lia)).
    change (elem_volume wts 1 (fun _ c => c) T 0 = Ok (Q3 1 (fun i => nth i (legendre_nodes_tab 1) 0) (fun i => nth i (legendre_weights_tab 1) 0) (detf 2 (vert_coord 0 (lobatto_nodes_tab 2)) frustum))) in V.
    rewrite V. f_equal. unfold Q3. cbn [rsum]. rewrite E2, E3, E1. cbn [nth].
    rewrite (is_det_unique _ _ _ _ _ _ (map_det 2 (vert_coord 0 [-1; 1]) frustum 0 0 0) (frustum_det 0 0 0)). field.
  - exists (fun _ _ z => (1 + z / 2) ^ 2). split; [intros; rewrite E1; apply frustum_det|].
    exists (fun z => 4 * (1 + z / 2) ^ 2). split.
    + intros z. exists (fun _ => 2 * (1 + z / 2) ^ 2). split; [intros; apply const_int|]. replace (4 * (1 + z / 2) ^ 2) with (2 * (2 * (1 + z / 2) ^ 2)) by ring. apply const_int.
    + replace (26 / 3) with (4 * (13 / 6)) by field. apply (int_scal 4). exact square_int.
Qed.
Print Assumptions C67_volume_order0_refuted.

(** the hypotheses are met: the frustum with the order-0 tables is an element on which the area check
    ends without division by zero, with the sum exactly zero *)
Example C67_nonvacuous : exists lob leg legw P h tg, check_tables 0 lob leg legw 0 1 /\
  build_patches 1 lob leg legw = Ok P /\ setup_hexn 0 lob = Ok h /\ gradient_table h 6 8 8 (pt_pos P) = Ok tg /\
  forall grad, (forall r v d, (r < 6)%nat -> (v < 8)%nat -> (d < 3)%nat -> ref_gradient 8 tg r v d = Ok (grad r v d)) -> forall T1,
  let T := get_pt_jacobian 1 6 8 (pt_in_elem 6) (fun v => v) (fun _ v => v) frustum grad T1 in
  (forall r, (r < 6)%nat -> t_det T (pt_in_elem 6 0 r) <> 0) /\
  exists t, surf_tally P 1 6 T 0 = Ok t /\ forall i, (i < 3)%nat -> t i = 0.
Proof.
  destruct (C67_shipped_tables 0 [None; None] [None] [None] ltac:(lia) eq_refl eq_refl eq_refl) as (lob & leg & legw & L & _ & _ & _ & H & HL).
  cbn [Nat.eqb] in H. rewrite (HL ltac:(lia)) in H. clear HL.
  destruct (C67_area_exact 0 lob leg legw 1 H) as (P & h & tg & E1 & E2 & E3 & G).
  exists lob, leg, legw, P, h, tg. split; [exact H|]. split; [exact E1|]. split; [exact E2|]. split; [exact E3|].
  destruct (C67_area 0 lob leg legw 0 1 H) as (P' & h' & tg' & E1' & E2' & E3' & G').
  rewrite E1 in E1'. injection E1' as <-. rewrite E2 in E2'. injection E2' as <-. rewrite E3 in E3'. injection E3' as <-.
  intros grad Hg T1 T.
  assert (N : forall r, (r < 6)%nat -> t_det T (pt_in_elem 6 0 r) <> 0).
  { intros r Hr. destruct (G' grad Hg 1%nat (fun v => v) (fun _ v => v) frustum T1 0%nat ltac:(lia)) as (A & _).
    destruct (A r Hr) as (x & y & z & Ex & Ey & Ez & Dt). change (is_det (elem_map 2 (vert_coord 0 lob) frustum) x y z (t_det T (pt_in_elem 6 0 r))) in Dt.
    assert (El : lob = [-1; 1]).
    { destruct H as [K _ _ _ K0 K1 _ _ _]. cbn in K, K0, K1. destruct lob as [|u [|v [|w l]]]; try discriminate K. cbn in K0, K1. subst. reflexivity. }
    rewrite El in Dt. rewrite (is_det_unique _ _ _ _ _ _ Dt (frustum_det x y z)).
    assert (Bz : -1 <= z <= 1).
    { destruct (Prop_Ref.C37_patch_numbering 1 lob leg legw (ct_lob _ _ _ _ _ _ H) (ct_leg _ _ _ _ _ _ H) (ct_legw _ _ _ _ _ _ H)) as (P2 & EP & _ & id & HP & _ & Hsur).
      change (build_patches 1 lob leg legw = Ok P) in E1. rewrite EP in E1. injection E1 as <-. destruct (Hsur r Hr) as (i & j & k & s & Hi & Hj & Hk & Hs & <-). destruct (HP i j k s Hi Hj Hk Hs) as (_ & _ & Pz & _).
      rewrite (Pz 2%nat ltac:(lia)) in Ez. injection Ez as <-. unfold patch_coord.
      assert (i = 0%nat) by lia. assert (j = 0%nat) by lia. assert (k = 0%nat) by lia. subst i j k. rewrite El.
      assert (Bl := q_inside _ _ _ _ _ (ct_rule _ _ _ _ _ _ H) 0%nat ltac:(cbn; lia)). cbv beta in Bl.
      destruct s as [|[|[|[|[|[|s]]]]]]; [..|lia]; cbn [Nat.div Nat.divmod fst snd Nat.sub Nat.eqb coord Nat.add Nat.modulo nth]; lra. }
    nra. }
  split; [exact N|]. exact (G grad Hg 1%nat (fun v => v) (fun _ v => v) frustum T1 0%nat ltac:(lia) N).
Qed.
