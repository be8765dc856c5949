(** LagrangeElement<Complex>: values, gradients, Jacobians (complex counterpart of Proof_LagElem.v). *)
From Coq Require Import List Reals NArith Arith Lia Lra.
From Coquelicot Require Import Complex.
Import ListNotations.
Require Import Verif.Base Verif.RBase Verif.RSum Verif.RDer Verif.CSum Verif.CPoly Verif.Spec_Lagrange Verif.Spec_Complex
  Verif.CLagrange_Math Verif.CStep Verif.Model_Common Verif.Spec_Common Verif.Proof_Common
  Verif.Model_Lagrange Verif.Proof_Lagrange Verif.Model_Poly Verif.Model_Complex Verif.Proof_Complex.
Local Close Scope N_scope.
Open Scope R_scope.
Open Scope C_scope.
Open Scope res_scope.

(** an element as produced by the constructor on cseparated vertices, of representable size *)
Record celem_ok (e : t_element Cnum) : Prop := {
  ceo_pos : (0 < te_N Cnum e)%nat;
  ceo_size : (N.of_nat (te_N Cnum e * te_N Cnum e * te_N Cnum e) <= 2 ^ 64)%N;
  ceo_small : (N.of_nat (te_N Cnum e) < 2 ^ 64)%N;
  ceo_sep : cseparated (te_N Cnum e) (te_Z Cnum e);
  ceo_w : cweights_of (te_N Cnum e) (te_Z Cnum e) (te_w Cnum e) }.

Lemma cnew_element_ok order Z w0 :
  (N.of_nat ((order + 1) * (order + 1) * (order + 1)) <= 2 ^ 64)%N ->
  cseparated (order + 1) Z ->
  exists e, t_new_element Cnum order Z w0 = Ok e /\ celem_ok e /\
            te_N Cnum e = (order + 1)%nat /\ te_Z Cnum e = Z.
Proof.
  intros Hs Hz. unfold t_new_element.
  destruct (c_weights_ok_spec (order + 1) Z w0 (cseparated_distinct _ _ Hz)) as (w & E & W & _).
  rewrite E. cbn [bind]. eexists. split; [reflexivity|]. split; [|split; reflexivity].
  constructor; cbn [te_N te_Z te_w]; auto; try lia.
Qed.

Lemma c_ijk_ok e i j k : celem_ok e -> let n := te_N Cnum e in
  (i < n)%nat -> (j < n)%nat -> (k < n)%nat ->
  t_ijk (te_N Cnum e) (N.of_nat (i + j * n + k * n * n)) = Ok (i, j, k).
Proof.
  intros He n Hi Hj Hk. unfold t_ijk. fold n.
  destruct (round_trip_digits [N.of_nat n; N.of_nat n; N.of_nat n] [N.of_nat i; N.of_nat j; N.of_nat k])
    as (v & _ & Ev & _ & Eb).
  - repeat constructor; lia.
  - generalize (ceo_size e He). fold n. cbn. lia.
  - replace (N.of_nat (i + j * n + k * n * n)) with v.
    + rewrite Eb. cbn [bind get nth_error]. rewrite !Nnat.Nat2N.id. reflexivity.
    + rewrite Ev. cbn. lia.
Qed.

Lemma ceval_basis_ok e i j k x y z : celem_ok e -> let n := te_N Cnum e in let Z := te_Z Cnum e in
  (i < n)%nat -> (j < n)%nat -> (k < n)%nat -> cclean n Z x -> cclean n Z y -> cclean n Z z ->
  t_eval_basis Cnum e (N.of_nat (i + j * n + k * n * n)) x y z = Ok (cphi3 n Z i j k x y z).
Proof.
  intros He n Z Hi Hj Hk Hx Hy Hz. unfold t_eval_basis.
  rewrite (c_ijk_ok e i j k He Hi Hj Hk : t_ijk (te_N Cnum e) (N.of_nat (i + j * n + k * n * n)) = _). cbn [bind]. fold n Z.
  assert (D := cseparated_distinct _ _ (ceo_sep e He)).
  rewrite !c_eval_correct; auto; try (apply ceo_w; exact He);
    try (apply cfind_point_ok; [apply ceo_small; exact He|apply ceo_sep; exact He|assumption]).
Qed.

(** ---- eval_approx ---- *)
Lemma ceval_approx_ok e c x y z C : celem_ok e -> let n := te_N Cnum e in let Z := te_Z Cnum e in
  cclean n Z x -> cclean n Z y -> cclean n Z z ->
  exists C', t_eval_approx Cnum e c x y z C = Ok (cfield3 n Z c x y z, C').
Proof.
  intros He n Z Hx Hy Hz.
  assert (D := cseparated_distinct _ _ (ceo_sep e He)).
  assert (W := ceo_w e He).
  assert (Px : cpoint_ok n Z x (t_find Cnum n Z x))
    by (apply cfind_point_ok; [apply ceo_small; exact He|apply ceo_sep; exact He|assumption]).
  assert (Py : cpoint_ok n Z y (t_find Cnum n Z y))
    by (apply cfind_point_ok; [apply ceo_small; exact He|apply ceo_sep; exact He|assumption]).
  assert (Pz : cpoint_ok n Z z (t_find Cnum n Z z))
    by (apply cfind_point_ok; [apply ceo_small; exact He|apply ceo_sep; exact He|assumption]).
  unfold t_eval_approx. fold n Z.
  set (ax := fun k j => cinterp n Z (fun i => c (j * n + k * n * n + i)%nat) x).
  set (ay := fun k => cinterp n Z (ax k) y).
  edestruct (loop_inv (fun m (C : nat -> res Complex.C) => forall k, (k < m)%nat -> C (n + k)%nat = Ok (ay k)) n)
    as (C1 & E & H).
  3: { rewrite E. cbn [bind].
       rewrite (c_eval_interp_correct n Z (te_w Cnum e) z _ (@shift (res Cnum) n C1) ay D W Pz).
       - cbn [bind]. eexists. f_equal. f_equal. unfold cinterp at 1, cfield3. apply csum_ext. intros k Hk.
         unfold ay, cinterp at 1. rewrite <- csum_scal_r. apply csum_ext. intros j Hj.
         unfold ax, cinterp. rewrite <- !csum_scal_r. apply csum_ext. intros i Hi. unfold cphi3.
         replace (i + j * n + k * n * n)%nat with (j * n + k * n * n + i)%nat by lia. ring.
       - intros k Hk. unfold shift. apply H. exact Hk. }
  - intros; lia.
  - intros k C0 Hk H0.
    edestruct (loop_inv (fun m (C : nat -> res Complex.C) => (forall j, (j < m)%nat -> C j = Ok (ax k j)) /\
         (forall i, (n <= i)%nat -> C i = C0 i)) n) as (C2 & E & H1 & H2).
    3: { rewrite E. cbn [bind].
         rewrite (c_eval_interp_correct n Z (te_w Cnum e) y _ C2 (ax k) D W Py H1). cbn [bind].
         eexists. split; [reflexivity|]. intros k' Hk'.
         destruct (Nat.eq_dec k' k) as [->|Ne].
         - rewrite fset_eq. reflexivity.
         - rewrite fset_neq by lia. rewrite H2 by lia. apply H0. lia. }
    + split; [intros; lia|auto].
    + intros j C2 Hj (H1 & H2).
      rewrite (c_eval_interp_correct n Z (te_w Cnum e) x _ _ (fun i => c (j * n + k * n * n + i)%nat) D W Px)
        by (intros; reflexivity).
      cbn [bind]. eexists. split; [reflexivity|]. split.
      * intros j' Hj'. destruct (Nat.eq_dec j' j) as [->|Ne]; [apply fset_eq|].
        rewrite fset_neq by exact Ne. apply H1. lia.
      * intros i Hi. rewrite fset_neq by lia. apply H2. exact Hi.
Qed.

(** value or derivative in one direction, as a linear functional of the coefficients *)
Definition cop (d : bool) (n : nat) (Z : nat -> C) (dl : nat -> C) (i : nat) (x : C) : C :=
  if d then dl i else cell n Z i x.
Definition copsum (d : bool) (n : nat) (Z : nat -> C) (dl c : nat -> C) (x : C) : C :=
  csum n (fun i => c i * cop d n Z dl i x).
(** ---- gradients ---- *)
Lemma ccollapse_ok d n Z w X ic (C : nat -> res C) c' (dl : nat -> Complex.C) : cdistinct n Z -> cweights_of n Z w -> (0 < n)%nat ->
  cpoint_ok n Z X ic -> (forall i, (i < n)%nat -> is_cder (cell n Z i) X (dl i)) ->
  (forall i, (i < n)%nat -> C i = Ok (c' i)) ->
  exists C', t_collapse Cnum d n ic Z w X C = Ok (copsum d n Z dl c' X, C') /\ (forall i, (n <= i)%nat -> C' i = C i).
Proof.
  intros D W Hn P Hdl Hc. unfold t_collapse. destruct d.
  - destruct (c_order1 n Z w X C c' D W Hc ic Hn P) as (v & C' & E & Hd & H).
    exists C'. rewrite E. split; [|exact H]. f_equal. f_equal.
    apply (cder_unique _ _ _ _ Hd). apply cinterp_der. exact Hdl.
  - rewrite (c_eval_interp_correct n Z w X ic C c' D W P Hc). cbn [bind]. exists C. split; [reflexivity|auto].
Qed.

Lemma cgrad_comp_ok e l c x y z C dx dy dz : celem_ok e -> let n := te_N Cnum e in let Z := te_Z Cnum e in
  cclean n Z x -> cclean n Z y -> cclean n Z z ->
  (forall i, (i < n)%nat -> is_cder (cell n Z i) x (dx i)) ->
  (forall i, (i < n)%nat -> is_cder (cell n Z i) y (dy i)) ->
  (forall i, (i < n)%nat -> is_cder (cell n Z i) z (dz i)) ->
  exists C', t_grad_comp Cnum e l c x y z C =
    Ok (csum n (fun k => csum n (fun j => csum n (fun i => c (i + j * n + k * n * n)%nat *
          (cop (Nat.eqb l 0) n Z dx i x * cop (Nat.eqb l 1) n Z dy j y * cop (Nat.eqb l 2) n Z dz k z)))), C').
Proof.
  intros He n Z Hx Hy Hz Dx Dy Dz.
  assert (D := cseparated_distinct _ _ (ceo_sep e He)).
  assert (W := ceo_w e He). assert (Hn := ceo_pos e He).
  assert (Px : cpoint_ok n Z x (t_find Cnum n Z x))
    by (apply cfind_point_ok; [apply ceo_small; exact He|apply ceo_sep; exact He|assumption]).
  assert (Py : cpoint_ok n Z y (t_find Cnum n Z y))
    by (apply cfind_point_ok; [apply ceo_small; exact He|apply ceo_sep; exact He|assumption]).
  assert (Pz : cpoint_ok n Z z (t_find Cnum n Z z))
    by (apply cfind_point_ok; [apply ceo_small; exact He|apply ceo_sep; exact He|assumption]).
  unfold t_grad_comp. fold n Z.
  set (ax := fun k j => copsum (Nat.eqb l 0) n Z dx (fun i => c (j * n + k * n * n + i)%nat) x).
  set (ay := fun k => copsum (Nat.eqb l 1) n Z dy (ax k) y).
  edestruct (loop_inv (fun m (C : nat -> res Complex.C) => forall k, (k < m)%nat -> C (2 * n + k)%nat = Ok (ay k)) n)
    as (C1 & E & H).
  3: { rewrite E. cbn [bind].
       destruct (ccollapse_ok (Nat.eqb l 2) n Z (te_w Cnum e) z _ (t_copy_front Cnum n (2 * n) C1) ay dz D W Hn Pz Dz) as (C' & E' & _).
       - intros k Hk. unfold t_copy_front. rewrite (proj2 (Nat.ltb_lt _ _)) by exact Hk. apply H. exact Hk.
       - exists C'. rewrite E'. f_equal. f_equal. unfold copsum at 1. apply csum_ext. intros k Hk.
         unfold ay, copsum at 1. rewrite <- csum_scal_r. apply csum_ext. intros j Hj.
         unfold ax, copsum. rewrite <- !csum_scal_r. apply csum_ext. intros i Hi.
         replace (i + j * n + k * n * n)%nat with (j * n + k * n * n + i)%nat by lia. ring. }
  - intros; lia.
  - intros k C0 Hk H0.
    edestruct (loop_inv (fun m (C : nat -> res Complex.C) => (forall j, (j < m)%nat -> C (n + j)%nat = Ok (ax k j)) /\
         (forall i, (2 * n <= i)%nat -> C i = C0 i)) n) as (C2 & E & H1 & H2).
    3: { rewrite E. cbn [bind].
         destruct (ccollapse_ok (Nat.eqb l 1) n Z (te_w Cnum e) y _ (t_copy_front Cnum n n C2) (ax k) dy D W Hn Py Dy) as (C' & E' & H3).
         - intros j Hj. unfold t_copy_front. rewrite (proj2 (Nat.ltb_lt _ _)) by exact Hj. apply H1. exact Hj.
         - rewrite E'. cbn [bind]. eexists. split; [reflexivity|]. intros k' Hk'.
           destruct (Nat.eq_dec k' k) as [->|Ne].
           + rewrite fset_eq. reflexivity.
           + rewrite fset_neq by lia. rewrite H3 by lia. unfold t_copy_front.
             rewrite (proj2 (Nat.ltb_ge _ _)) by lia. rewrite H2 by lia. apply H0. lia. }
    + split; [intros; lia|auto].
    + intros j C2 Hj (H1 & H2).
      set (C0' := fun i => if Nat.ltb i n then Ok (c (j * n + k * n * n + i)%nat) else C2 i).
      destruct (ccollapse_ok (Nat.eqb l 0) n Z (te_w Cnum e) x (t_find Cnum n Z x) C0'
                 (fun i => c (j * n + k * n * n + i)%nat) dx D W Hn Px Dx) as (C' & E' & H3).
      { intros i Hi. unfold C0'. rewrite (proj2 (Nat.ltb_lt _ _)) by exact Hi. reflexivity. }
      rewrite E'. cbn [bind]. eexists. split; [reflexivity|]. split.
      * intros j' Hj'. destruct (Nat.eq_dec j' j) as [->|Ne]; [apply fset_eq|].
        rewrite fset_neq by lia. rewrite H3 by lia. unfold C0'. rewrite (proj2 (Nat.ltb_ge _ _)) by lia.
        apply H1. lia.
      * intros i Hi. rewrite fset_neq by lia. rewrite H3 by lia. unfold C0'.
        rewrite (proj2 (Nat.ltb_ge _ _)) by lia. apply H2. exact Hi.
Qed.

Lemma cder_scal_r a f x d : is_cder f x d -> is_cder (fun t => f t * a) x (d * a).
Proof.
  intros H. replace (d * a) with (a * d) by ring.
  apply (cder_ext (fun t => a * f t)); [intros; ring|]. apply cder_scal. exact H.
Qed.

Lemma cfield3_grad n Z c x y z dx dy dz :
  (forall i, (i < n)%nat -> is_cder (cell n Z i) x (dx i)) ->
  (forall i, (i < n)%nat -> is_cder (cell n Z i) y (dy i)) ->
  (forall i, (i < n)%nat -> is_cder (cell n Z i) z (dz i)) ->
  is_cgrad (cfield3 n Z c) x y z
   (csum n (fun k => csum n (fun j => csum n (fun i => c (i + j * n + k * n * n)%nat *
          (dx i * cell n Z j y * cell n Z k z)))),
    csum n (fun k => csum n (fun j => csum n (fun i => c (i + j * n + k * n * n)%nat *
          (cell n Z i x * dy j * cell n Z k z)))),
    csum n (fun k => csum n (fun j => csum n (fun i => c (i + j * n + k * n * n)%nat *
          (cell n Z i x * cell n Z j y * dz k))))).
Proof.
  intros Dx Dy Dz. unfold is_cgrad, cfield3, cphi3. repeat split.
  - apply (cder_sum n (fun k t => csum n (fun j => csum n (fun i => c (i + j * n + k * n * n)%nat *
       (cell n Z i t * cell n Z j y * cell n Z k z))))). intros k Hk.
    apply (cder_sum n (fun j t => csum n (fun i => c (i + j * n + k * n * n)%nat *
       (cell n Z i t * cell n Z j y * cell n Z k z)))). intros j Hj.
    apply (cder_sum n (fun i t => c (i + j * n + k * n * n)%nat *
       (cell n Z i t * cell n Z j y * cell n Z k z))). intros i Hi.
    apply cder_scal. apply (cder_scal_r (cell n Z k z)). apply (cder_scal_r (cell n Z j y)). auto.
  - apply (cder_sum n (fun k t => csum n (fun j => csum n (fun i => c (i + j * n + k * n * n)%nat *
       (cell n Z i x * cell n Z j t * cell n Z k z))))). intros k Hk.
    apply (cder_sum n (fun j t => csum n (fun i => c (i + j * n + k * n * n)%nat *
       (cell n Z i x * cell n Z j t * cell n Z k z)))). intros j Hj.
    apply (cder_sum n (fun i t => c (i + j * n + k * n * n)%nat *
       (cell n Z i x * cell n Z j t * cell n Z k z))). intros i Hi.
    apply cder_scal. apply (cder_scal_r (cell n Z k z)). apply (cder_scal (cell n Z i x)). auto.
  - apply (cder_sum n (fun k t => csum n (fun j => csum n (fun i => c (i + j * n + k * n * n)%nat *
       (cell n Z i x * cell n Z j y * cell n Z k t))))). intros k Hk.
    apply (cder_sum n (fun j t => csum n (fun i => c (i + j * n + k * n * n)%nat *
       (cell n Z i x * cell n Z j y * cell n Z k t)))). intros j Hj.
    apply (cder_sum n (fun i t => c (i + j * n + k * n * n)%nat *
       (cell n Z i x * cell n Z j y * cell n Z k t))). intros i Hi.
    apply cder_scal. apply (cder_scal (cell n Z i x * cell n Z j y)). auto.
Qed.

Lemma cgrad_approx_ok e c x y z C : celem_ok e -> let n := te_N Cnum e in let Z := te_Z Cnum e in
  cclean n Z x -> cclean n Z y -> cclean n Z z ->
  exists g C', t_eval_grad_approx Cnum e c x y z C = Ok (g, C') /\ is_cgrad (cfield3 n Z c) x y z g.
Proof.
  intros He n Z Hx Hy Hz. unfold t_eval_grad_approx.
  destruct (cell_ders n Z x) as (dx & Dx). destruct (cell_ders n Z y) as (dy & Dy). destruct (cell_ders n Z z) as (dz & Dz).
  destruct (cgrad_comp_ok e 0 c x y z C dx dy dz He Hx Hy Hz Dx Dy Dz) as (C0 & E0). rewrite E0. cbn [bind].
  destruct (cgrad_comp_ok e 1 c x y z C0 dx dy dz He Hx Hy Hz Dx Dy Dz) as (C1 & E1). rewrite E1. cbn [bind].
  destruct (cgrad_comp_ok e 2 c x y z C1 dx dy dz He Hx Hy Hz Dx Dy Dz) as (C2 & E2). rewrite E2. cbn [bind].
  eexists. exists C2. split; [reflexivity|]. apply cfield3_grad; assumption.
Qed.

Lemma cgrad_basis_ok e i j k x y z C : celem_ok e -> let n := te_N Cnum e in let Z := te_Z Cnum e in
  (i < n)%nat -> (j < n)%nat -> (k < n)%nat -> cclean n Z x -> cclean n Z y -> cclean n Z z ->
  exists g C', t_eval_grad_basis Cnum e (N.of_nat (i + j * n + k * n * n)) x y z C = Ok (g, C') /\
    is_cgrad (cphi3 n Z i j k) x y z g.
Proof.
  intros He n Z Hi Hj Hk Hx Hy Hz.
  assert (D := cseparated_distinct _ _ (ceo_sep e He)).
  assert (W := ceo_w e He).
  assert (Px : cpoint_ok n Z x (t_find Cnum n Z x))
    by (apply cfind_point_ok; [apply ceo_small; exact He|apply ceo_sep; exact He|assumption]).
  assert (Py : cpoint_ok n Z y (t_find Cnum n Z y))
    by (apply cfind_point_ok; [apply ceo_small; exact He|apply ceo_sep; exact He|assumption]).
  assert (Pz : cpoint_ok n Z z (t_find Cnum n Z z))
    by (apply cfind_point_ok; [apply ceo_small; exact He|apply ceo_sep; exact He|assumption]).
  unfold t_eval_grad_basis.
  rewrite (c_ijk_ok e i j k He Hi Hj Hk : t_ijk (te_N Cnum e) (N.of_nat (i + j * n + k * n * n)) = _). cbn [bind]. fold n Z.
  rewrite !c_eval_correct by assumption. cbn [bind].
  destruct (c_eval_der1_correct n Z (te_w Cnum e) x _ i C D W Hi Px) as (dx & C1 & E1 & Dx & _). uci E1. uc. rewrite E1. cbn [bind].
  destruct (c_eval_der1_correct n Z (te_w Cnum e) y _ j C1 D W Hj Py) as (dy & C2 & E2 & Dy & _). uci E2. uc. rewrite E2. cbn [bind].
  destruct (c_eval_der1_correct n Z (te_w Cnum e) z _ k C2 D W Hk Pz) as (dz & C3 & E3 & Dz & _). uci E3. uc. rewrite E3. cbn [bind].
  eexists. exists C3. split; [reflexivity|]. unfold is_cgrad, cphi3. repeat split.
  - apply (cder_scal_r (cell n Z k z)). apply (cder_scal_r (cell n Z j y)). exact Dx.
  - apply (cder_scal_r (cell n Z k z)). apply (cder_scal (cell n Z i x)). exact Dy.
  - apply (cder_scal (cell n Z i x * cell n Z j y)). exact Dz.
Qed.

(** ---- Jacobian ---- *)
Lemma cgrad_unique F x y z g g' : is_cgrad F x y z g -> is_cgrad F x y z g' -> g = g'.
Proof.
  destruct g as [[a b] c], g' as [[a' b'] c']. intros (A1 & A2 & A3) (B1 & B2 & B3).
  rewrite (cder_unique _ _ _ _ A1 B1), (cder_unique _ _ _ _ A2 B2), (cder_unique _ _ _ _ A3 B3). reflexivity.
Qed.

Definition crow9 (J : nat -> C) (r : nat) : C * C * C := (J (3 * r)%nat, J (3 * r + 1)%nat, J (3 * r + 2)%nat).

Lemma cmk9_row r0 r1 r2 : crow9 (t_mk9 Cnum r0 r1 r2) 0 = r0 /\ crow9 (t_mk9 Cnum r0 r1 r2) 1 = r1 /\ crow9 (t_mk9 Cnum r0 r1 r2) 2 = r2.
Proof. destruct r0 as [[? ?] ?], r1 as [[? ?] ?], r2 as [[? ?] ?]. repeat split; reflexivity. Qed.

Lemma cjac_ok e px py pz x y z C : celem_ok e -> let n := te_N Cnum e in let Z := te_Z Cnum e in
  cclean n Z x -> cclean n Z y -> cclean n Z z ->
  exists gx gy gz C', t_eval_jac Cnum e px py pz x y z C = Ok (t_mk9 Cnum gx gy gz, C') /\
    is_cgrad (cfield3 n Z px) x y z gx /\ is_cgrad (cfield3 n Z py) x y z gy /\ is_cgrad (cfield3 n Z pz) x y z gz.
Proof.
  intros He n Z Hx Hy Hz. unfold t_eval_jac.
  destruct (cgrad_approx_ok e px x y z C He Hx Hy Hz) as (gx & C0 & E0 & G0). rewrite E0. cbn [bind].
  destruct (cgrad_approx_ok e py x y z C0 He Hx Hy Hz) as (gy & C1 & E1 & G1). rewrite E1. cbn [bind].
  destruct (cgrad_approx_ok e pz x y z C1 He Hx Hy Hz) as (gz & C2 & E2 & G2). rewrite E2. cbn [bind].
  exists gx, gy, gz, C2. auto.
Qed.


Lemma cdet_expr_det3 (J : nat -> C) : t_det_expr Cnum J = cdet3 J.
Proof. unfold t_det_expr, cdet3. uc. ring. Qed.

Lemma cinv_expr_inverse (J : nat -> C) : cdet3 J <> 0 -> cinverse3 J (t_inv_expr Cnum (RtoC 1 / cdet3 J) J).
Proof.
  intros Hd i j Hi Hj. unfold t_inv_expr. uc. cbn [csum].
  assert (I : i = 0%nat \/ i = 1%nat \/ i = 2%nat) by lia. assert (I' : j = 0%nat \/ j = 1%nat \/ j = 2%nat) by lia.
  assert (Q := Hd). unfold cdet3 in *.
  destruct I as [-> | [-> | ->]]; destruct I' as [-> | [-> | ->]];
    cbn [Nat.mul Nat.add Nat.eqb t_mk9]; (split; field; exact Q).
Qed.

Lemma cdet_jac_ok e px py pz x y z C : celem_ok e -> let n := te_N Cnum e in let Z := te_Z Cnum e in
  cclean n Z x -> cclean n Z y -> cclean n Z z ->
  forall J C1, t_eval_jac Cnum e px py pz x y z C = Ok (J, C1) ->
  forall C', exists C2, t_eval_det_jac Cnum e px py pz x y z C' = Ok (cdet3 J, C2).
Proof.
  intros He n Z Hx Hy Hz J C1 E C'. unfold t_eval_det_jac.
  destruct (cjac_ok e px py pz x y z C He Hx Hy Hz) as (gx & gy & gz & C2 & E2 & Gx & Gy & Gz).
  destruct (cjac_ok e px py pz x y z C' He Hx Hy Hz) as (hx & hy & hz & C3 & E3 & Kx & Ky & Kz).
  rewrite E in E2. inversion E2; subst. rewrite E3. cbn [bind].
  rewrite (cgrad_unique _ _ _ _ _ _ Gx Kx), (cgrad_unique _ _ _ _ _ _ Gy Ky), (cgrad_unique _ _ _ _ _ _ Gz Kz).
  exists C3. rewrite cdet_expr_det3. reflexivity.
Qed.

Lemma cinv_jac_ok e px py pz x y z C : celem_ok e -> let n := te_N Cnum e in let Z := te_Z Cnum e in
  cclean n Z x -> cclean n Z y -> cclean n Z z ->
  forall J C1, t_eval_jac Cnum e px py pz x y z C = Ok (J, C1) ->
  (cdet3 J <> 0 ->
   exists K C2, t_eval_inv_jac Cnum e px py pz x y z C = Ok (K, C2) /\ cinverse3 J K) /\
  (cdet3 J = 0 -> t_eval_inv_jac Cnum e px py pz x y z C = Err DivZero).
Proof.
  intros He n Z Hx Hy Hz J C1 E. unfold t_eval_inv_jac. rewrite E. cbn [bind].
  destruct (cdet_jac_ok e px py pz x y z C He Hx Hy Hz J C1 E C1) as (C2 & E2). uci E2. uc. rewrite E2. cbn [bind].
  split; intros Hd.
  - rewrite cdiv_ok by exact Hd. cbn [bind]. eexists. exists C2. split; [reflexivity|].
    apply cinv_expr_inverse. exact Hd.
  - rewrite Hd. unfold cdiv. destruct (Ceq_dec (RtoC 0) (RtoC 0)); [reflexivity|contradiction].
Qed.

(** ---- elements returned by the constructor ---- *)
Definition cconstructed (order : nat) (Z w0 : nat -> C) (e : t_element Cnum) : Prop :=
  t_new_element Cnum order Z w0 = Ok e /\ cseparated (order + 1) Z /\
  (N.of_nat ((order + 1) * (order + 1) * (order + 1)) <= 2 ^ 64)%N.

Lemma cconstructed_ok order Z w0 e : cconstructed order Z w0 e ->
  celem_ok e /\ te_N Cnum e = (order + 1)%nat /\ te_Z Cnum e = Z.
Proof.
  intros (E & Hs & Hn). destruct (cnew_element_ok order Z w0 Hn Hs) as (e' & E' & Ho & H1 & H2).
  rewrite E in E'. inversion E'; subst. auto.
Qed.
