From Coq Require Import List Reals NArith Arith Lia Lra.
Import ListNotations.
Require Import Verif.Base Verif.RBase Verif.RSum Verif.Poly Verif.RDer Verif.Spec_Lagrange
  Verif.Lagrange_Math Verif.Model_Common Verif.Spec_Common Verif.Proof_Common Verif.Model_Lagrange
  Verif.Proof_Lagrange Verif.Spec_Mat.
Open Scope R_scope.

(** an element as produced by the constructor on separated vertices, of representable size *)
Record elem_ok (e : lagrange_element) : Prop := {
  eo_pos : (0 < le_N e)%nat;
  eo_size : (N.of_nat (le_N e * le_N e * le_N e) <= 2 ^ 64)%N;
  eo_small : (N.of_nat (le_N e) < 2 ^ 64)%N;
  eo_sep : separated (le_N e) (le_Z e);
  eo_w : weights_of (le_N e) (le_Z e) (le_w e) }.

Lemma new_element_ok order Z w0 :
  (N.of_nat ((order + 1) * (order + 1) * (order + 1)) <= 2 ^ 64)%N ->
  separated (order + 1) Z ->
  exists e, new_lagrange_element order Z w0 = Ok e /\ elem_ok e /\
            le_N e = (order + 1)%nat /\ le_Z e = Z.
Proof.
  intros Hs Hz. unfold new_lagrange_element.
  destruct (weights_ok_spec (order + 1) Z w0 (separated_distinct _ _ Hz)) as (w & E & W & _).
  rewrite E. cbn [bind]. eexists. split; [reflexivity|]. split; [|split; reflexivity].
  constructor; cbn [le_N le_Z le_w]; auto; try lia.
Qed.

Lemma le_ijk_ok e i j k : elem_ok e -> let n := le_N e in
  (i < n)%nat -> (j < n)%nat -> (k < n)%nat ->
  le_ijk e (N.of_nat (i + j * n + k * n * n)) = Ok (i, j, k).
Proof.
  intros He n Hi Hj Hk. unfold le_ijk. fold n.
  destruct (round_trip_digits [N.of_nat n; N.of_nat n; N.of_nat n] [N.of_nat i; N.of_nat j; N.of_nat k])
    as (v & _ & Ev & _ & Eb).
  - repeat constructor; lia.
  - generalize (eo_size e He). fold n. cbn. lia.
  - replace (N.of_nat (i + j * n + k * n * n)) with v.
    + rewrite Eb. cbn [bind get nth_error]. rewrite !Nnat.Nat2N.id. reflexivity.
    + rewrite Ev. cbn. lia.
Qed.

Lemma eval_basis_ok e i j k x y z : elem_ok e -> let n := le_N e in let Z := le_Z e in
  (i < n)%nat -> (j < n)%nat -> (k < n)%nat -> clean n Z x -> clean n Z y -> clean n Z z ->
  le_eval_basis e (N.of_nat (i + j * n + k * n * n)) x y z = Ok (phi3 n Z i j k x y z).
Proof.
  intros He n Z Hi Hj Hk Hx Hy Hz. unfold le_eval_basis.
  rewrite (le_ijk_ok e i j k He Hi Hj Hk : le_ijk e (N.of_nat (i + j * n + k * n * n)) = _). cbn [bind]. fold n Z.
  assert (D := separated_distinct _ _ (eo_sep e He)).
  rewrite !eval_correct; auto; try (apply eo_w; exact He);
    try (apply find_point_ok; [apply eo_small; exact He|apply eo_sep; exact He|assumption]).
Qed.

(** ---- eval_approx ---- *)
Lemma eval_approx_ok e c x y z C : elem_ok e -> let n := le_N e in let Z := le_Z e in
  clean n Z x -> clean n Z y -> clean n Z z ->
  exists C', le_eval_approx e c x y z C = Ok (field3 n Z c x y z, C').
Proof.
  intros He n Z Hx Hy Hz.
  assert (D := separated_distinct _ _ (eo_sep e He)).
  assert (W := eo_w e He).
  assert (Px : point_ok n Z x (find_coincident_vertex n Z x))
    by (apply find_point_ok; [apply eo_small; exact He|apply eo_sep; exact He|assumption]).
  assert (Py : point_ok n Z y (find_coincident_vertex n Z y))
    by (apply find_point_ok; [apply eo_small; exact He|apply eo_sep; exact He|assumption]).
  assert (Pz : point_ok n Z z (find_coincident_vertex n Z z))
    by (apply find_point_ok; [apply eo_small; exact He|apply eo_sep; exact He|assumption]).
  unfold le_eval_approx. fold n Z.
  set (ax := fun k j => interp n Z (fun i => c (j * n + k * n * n + i)%nat) x).
  set (ay := fun k => interp n Z (ax k) y).
  edestruct (loop_inv (fun m (C : nat -> res R) => forall k, (k < m)%nat -> C (n + k)%nat = Ok (ay k)) n)
    as (C1 & E & H).
  3: { rewrite E. cbn [bind].
       rewrite (eval_interp_correct n Z (le_w e) z _ (shift n C1) ay D W Pz).
       - cbn [bind]. eexists. f_equal. f_equal. unfold interp at 1, field3. apply rsum_ext. intros k Hk.
         unfold ay, interp at 1. rewrite <- rsum_scal_r. apply rsum_ext. intros j Hj.
         unfold ax, interp. rewrite <- !rsum_scal_r. apply rsum_ext. intros i Hi. unfold phi3.
         replace (i + j * n + k * n * n)%nat with (j * n + k * n * n + i)%nat by lia. ring.
       - intros k Hk. unfold shift. apply H. exact Hk. }
  - intros; lia.
  - intros k C0 Hk H0.
    edestruct (loop_inv (fun m (C : nat -> res R) => (forall j, (j < m)%nat -> C j = Ok (ax k j)) /\
         (forall i, (n <= i)%nat -> C i = C0 i)) n) as (C2 & E & H1 & H2).
    3: { rewrite E. cbn [bind].
         rewrite (eval_interp_correct n Z (le_w e) y _ C2 (ax k) D W Py H1). cbn [bind].
         eexists. split; [reflexivity|]. intros k' Hk'.
         destruct (Nat.eq_dec k' k) as [->|Ne].
         - rewrite fset_eq. reflexivity.
         - rewrite fset_neq by lia. rewrite H2 by lia. apply H0. lia. }
    + split; [intros; lia|auto].
    + intros j C2 Hj (H1 & H2).
      rewrite (eval_interp_correct n Z (le_w e) x _ _ (fun i => c (j * n + k * n * n + i)%nat) D W Px)
        by (intros; reflexivity).
      cbn [bind]. eexists. split; [reflexivity|]. split.
      * intros j' Hj'. destruct (Nat.eq_dec j' j) as [->|Ne]; [apply fset_eq|].
        rewrite fset_neq by exact Ne. apply H1. lia.
      * intros i Hi. rewrite fset_neq by lia. apply H2. exact Hi.
Qed.

(** ---- gradients ---- *)
(** value or derivative in one direction, as a linear functional of the coefficients *)
Definition op (d : bool) (n : nat) (Z : nat -> R) (i : nat) (x : R) : R :=
  if d then dell n Z i x else ell n Z i x.
Definition opsum (d : bool) (n : nat) (Z c : nat -> R) (x : R) : R := rsum n (fun i => c i * op d n Z i x).

Lemma collapse_ok d n Z w X ic C c' : distinct n Z -> weights_of n Z w -> (0 < n)%nat ->
  point_ok n Z X ic -> (forall i, (i < n)%nat -> C i = Ok (c' i)) ->
  exists C', collapse d n ic Z w X C = Ok (opsum d n Z c' X, C') /\ (forall i, (n <= i)%nat -> C' i = C i).
Proof.
  intros D W Hn P Hc. unfold collapse. destruct d.
  - destruct (order1 n Z w X C c' D W Hc ic Hn P) as (v & C' & E & Hd & H).
    exists C'. rewrite E. split; [|exact H]. f_equal. f_equal.
    apply (interp_eq_iff_der _ _ _ _ _ Hd).
  - rewrite (eval_interp_correct n Z w X ic C c' D W P Hc). cbn [bind]. exists C. split; [reflexivity|auto].
Qed.

Lemma grad_comp_ok e l c x y z C : elem_ok e -> let n := le_N e in let Z := le_Z e in
  clean n Z x -> clean n Z y -> clean n Z z ->
  exists C', le_eval_grad_comp e l c x y z C =
    Ok (rsum n (fun k => rsum n (fun j => rsum n (fun i => c (i + j * n + k * n * n)%nat *
          (op (Nat.eqb l 0) n Z i x * op (Nat.eqb l 1) n Z j y * op (Nat.eqb l 2) n Z k z)))), C').
Proof.
  intros He n Z Hx Hy Hz.
  assert (D := separated_distinct _ _ (eo_sep e He)).
  assert (W := eo_w e He). assert (Hn := eo_pos e He).
  assert (Px : point_ok n Z x (find_coincident_vertex n Z x))
    by (apply find_point_ok; [apply eo_small; exact He|apply eo_sep; exact He|assumption]).
  assert (Py : point_ok n Z y (find_coincident_vertex n Z y))
    by (apply find_point_ok; [apply eo_small; exact He|apply eo_sep; exact He|assumption]).
  assert (Pz : point_ok n Z z (find_coincident_vertex n Z z))
    by (apply find_point_ok; [apply eo_small; exact He|apply eo_sep; exact He|assumption]).
  unfold le_eval_grad_comp. fold n Z.
  set (ax := fun k j => opsum (Nat.eqb l 0) n Z (fun i => c (j * n + k * n * n + i)%nat) x).
  set (ay := fun k => opsum (Nat.eqb l 1) n Z (ax k) y).
  edestruct (loop_inv (fun m (C : nat -> res R) => forall k, (k < m)%nat -> C (2 * n + k)%nat = Ok (ay k)) n)
    as (C1 & E & H).
  3: { rewrite E. cbn [bind].
       destruct (collapse_ok (Nat.eqb l 2) n Z (le_w e) z _ (copy_front n (2 * n) C1) ay D W Hn Pz) as (C' & E' & _).
       - intros k Hk. unfold copy_front. rewrite (proj2 (Nat.ltb_lt _ _)) by exact Hk. apply H. exact Hk.
       - exists C'. rewrite E'. f_equal. f_equal. unfold opsum at 1. apply rsum_ext. intros k Hk.
         unfold ay, opsum at 1. rewrite <- rsum_scal_r. apply rsum_ext. intros j Hj.
         unfold ax, opsum. rewrite <- !rsum_scal_r. apply rsum_ext. intros i Hi.
         replace (i + j * n + k * n * n)%nat with (j * n + k * n * n + i)%nat by lia. ring. }
  - intros; lia.
  - intros k C0 Hk H0.
    edestruct (loop_inv (fun m (C : nat -> res R) => (forall j, (j < m)%nat -> C (n + j)%nat = Ok (ax k j)) /\
         (forall i, (2 * n <= i)%nat -> C i = C0 i)) n) as (C2 & E & H1 & H2).
    3: { rewrite E. cbn [bind].
         destruct (collapse_ok (Nat.eqb l 1) n Z (le_w e) y _ (copy_front n n C2) (ax k) D W Hn Py) as (C' & E' & H3).
         - intros j Hj. unfold copy_front. rewrite (proj2 (Nat.ltb_lt _ _)) by exact Hj. apply H1. exact Hj.
         - rewrite E'. cbn [bind]. eexists. split; [reflexivity|]. intros k' Hk'.
           destruct (Nat.eq_dec k' k) as [->|Ne].
           + rewrite fset_eq. reflexivity.
           + rewrite fset_neq by lia. rewrite H3 by lia. unfold copy_front.
             rewrite (proj2 (Nat.ltb_ge _ _)) by lia. rewrite H2 by lia. apply H0. lia. }
    + split; [intros; lia|auto].
    + intros j C2 Hj (H1 & H2).
      set (C0' := fun i => if Nat.ltb i n then Ok (c (j * n + k * n * n + i)%nat) else C2 i).
      destruct (collapse_ok (Nat.eqb l 0) n Z (le_w e) x (find_coincident_vertex n Z x) C0'
                 (fun i => c (j * n + k * n * n + i)%nat) D W Hn Px) as (C' & E' & H3).
      { intros i Hi. unfold C0'. rewrite (proj2 (Nat.ltb_lt _ _)) by exact Hi. reflexivity. }
      rewrite E'. cbn [bind]. eexists. split; [reflexivity|]. split.
      * intros j' Hj'. destruct (Nat.eq_dec j' j) as [->|Ne]; [apply fset_eq|].
        rewrite fset_neq by lia. rewrite H3 by lia. unfold C0'. rewrite (proj2 (Nat.ltb_ge _ _)) by lia.
        apply H1. lia.
      * intros i Hi. rewrite fset_neq by lia. rewrite H3 by lia. unfold C0'.
        rewrite (proj2 (Nat.ltb_ge _ _)) by lia. apply H2. exact Hi.
Qed.

Lemma field3_grad n Z c x y z :
  is_grad (field3 n Z c) x y z
   (rsum n (fun k => rsum n (fun j => rsum n (fun i => c (i + j * n + k * n * n)%nat *
          (dell n Z i x * ell n Z j y * ell n Z k z)))),
    rsum n (fun k => rsum n (fun j => rsum n (fun i => c (i + j * n + k * n * n)%nat *
          (ell n Z i x * dell n Z j y * ell n Z k z)))),
    rsum n (fun k => rsum n (fun j => rsum n (fun i => c (i + j * n + k * n * n)%nat *
          (ell n Z i x * ell n Z j y * dell n Z k z))))).
Proof.
  unfold is_grad, field3, phi3. repeat split.
  - apply (der_rsum n (fun k t => rsum n (fun j => rsum n (fun i => c (i + j * n + k * n * n)%nat *
       (ell n Z i t * ell n Z j y * ell n Z k z))))). intros k Hk.
    apply (der_rsum n (fun j t => rsum n (fun i => c (i + j * n + k * n * n)%nat *
       (ell n Z i t * ell n Z j y * ell n Z k z)))). intros j Hj.
    apply (der_rsum n (fun i t => c (i + j * n + k * n * n)%nat *
       (ell n Z i t * ell n Z j y * ell n Z k z))). intros i Hi.
    apply der_scal. apply (der_scal_r (ell n Z k z)). apply (der_scal_r (ell n Z j y)). apply ell_der.
  - apply (der_rsum n (fun k t => rsum n (fun j => rsum n (fun i => c (i + j * n + k * n * n)%nat *
       (ell n Z i x * ell n Z j t * ell n Z k z))))). intros k Hk.
    apply (der_rsum n (fun j t => rsum n (fun i => c (i + j * n + k * n * n)%nat *
       (ell n Z i x * ell n Z j t * ell n Z k z)))). intros j Hj.
    apply (der_rsum n (fun i t => c (i + j * n + k * n * n)%nat *
       (ell n Z i x * ell n Z j t * ell n Z k z))). intros i Hi.
    apply der_scal. apply (der_scal_r (ell n Z k z)). apply (der_scal (ell n Z i x)). apply ell_der.
  - apply (der_rsum n (fun k t => rsum n (fun j => rsum n (fun i => c (i + j * n + k * n * n)%nat *
       (ell n Z i x * ell n Z j y * ell n Z k t))))). intros k Hk.
    apply (der_rsum n (fun j t => rsum n (fun i => c (i + j * n + k * n * n)%nat *
       (ell n Z i x * ell n Z j y * ell n Z k t)))). intros j Hj.
    apply (der_rsum n (fun i t => c (i + j * n + k * n * n)%nat *
       (ell n Z i x * ell n Z j y * ell n Z k t))). intros i Hi.
    apply der_scal. apply (der_scal (ell n Z i x * ell n Z j y)). apply ell_der.
Qed.

Lemma grad_approx_ok e c x y z C : elem_ok e -> let n := le_N e in let Z := le_Z e in
  clean n Z x -> clean n Z y -> clean n Z z ->
  exists g C', le_eval_grad_approx e c x y z C = Ok (g, C') /\ is_grad (field3 n Z c) x y z g.
Proof.
  intros He n Z Hx Hy Hz. unfold le_eval_grad_approx.
  destruct (grad_comp_ok e 0 c x y z C He Hx Hy Hz) as (C0 & E0). rewrite E0. cbn [bind].
  destruct (grad_comp_ok e 1 c x y z C0 He Hx Hy Hz) as (C1 & E1). rewrite E1. cbn [bind].
  destruct (grad_comp_ok e 2 c x y z C1 He Hx Hy Hz) as (C2 & E2). rewrite E2. cbn [bind].
  eexists. exists C2. split; [reflexivity|]. apply field3_grad.
Qed.

Lemma grad_basis_ok e i j k x y z C : elem_ok e -> let n := le_N e in let Z := le_Z e in
  (i < n)%nat -> (j < n)%nat -> (k < n)%nat -> clean n Z x -> clean n Z y -> clean n Z z ->
  exists g C', le_eval_grad_basis e (N.of_nat (i + j * n + k * n * n)) x y z C = Ok (g, C') /\
    is_grad (phi3 n Z i j k) x y z g.
Proof.
  intros He n Z Hi Hj Hk Hx Hy Hz.
  assert (D := separated_distinct _ _ (eo_sep e He)).
  assert (W := eo_w e He).
  assert (Px : point_ok n Z x (find_coincident_vertex n Z x))
    by (apply find_point_ok; [apply eo_small; exact He|apply eo_sep; exact He|assumption]).
  assert (Py : point_ok n Z y (find_coincident_vertex n Z y))
    by (apply find_point_ok; [apply eo_small; exact He|apply eo_sep; exact He|assumption]).
  assert (Pz : point_ok n Z z (find_coincident_vertex n Z z))
    by (apply find_point_ok; [apply eo_small; exact He|apply eo_sep; exact He|assumption]).
  unfold le_eval_grad_basis.
  rewrite (le_ijk_ok e i j k He Hi Hj Hk : le_ijk e (N.of_nat (i + j * n + k * n * n)) = _). cbn [bind]. fold n Z.
  rewrite !eval_correct by assumption. cbn [bind].
  destruct (eval_der1_correct n Z (le_w e) x _ i C D W Hi Px) as (dx & C1 & E1 & Dx & _). rewrite E1. cbn [bind].
  destruct (eval_der1_correct n Z (le_w e) y _ j C1 D W Hj Py) as (dy & C2 & E2 & Dy & _). rewrite E2. cbn [bind].
  destruct (eval_der1_correct n Z (le_w e) z _ k C2 D W Hk Pz) as (dz & C3 & E3 & Dz & _). rewrite E3. cbn [bind].
  eexists. exists C3. split; [reflexivity|]. unfold is_grad, phi3. repeat split.
  - apply (der_scal_r (ell n Z k z)). apply (der_scal_r (ell n Z j y)). exact Dx.
  - apply (der_scal_r (ell n Z k z)). apply (der_scal (ell n Z i x)). exact Dy.
  - apply (der_scal (ell n Z i x * ell n Z j y)). exact Dz.
Qed.

(** ---- Jacobian ---- *)
Lemma is_grad_unique F x y z g g' : is_grad F x y z g -> is_grad F x y z g' -> g = g'.
Proof.
  destruct g as [[a b] c], g' as [[a' b'] c']. intros (A1 & A2 & A3) (B1 & B2 & B3).
  rewrite (der_unique _ _ _ _ A1 B1), (der_unique _ _ _ _ A2 B2), (der_unique _ _ _ _ A3 B3). reflexivity.
Qed.

Definition row9 (J : mat9) (r : nat) : R * R * R := (J (3 * r)%nat, J (3 * r + 1)%nat, J (3 * r + 2)%nat).

Lemma mk9_row r0 r1 r2 : row9 (mk9 r0 r1 r2) 0 = r0 /\ row9 (mk9 r0 r1 r2) 1 = r1 /\ row9 (mk9 r0 r1 r2) 2 = r2.
Proof. destruct r0 as [[? ?] ?], r1 as [[? ?] ?], r2 as [[? ?] ?]. repeat split; reflexivity. Qed.

Lemma jac_ok e px py pz x y z C : elem_ok e -> let n := le_N e in let Z := le_Z e in
  clean n Z x -> clean n Z y -> clean n Z z ->
  exists gx gy gz C', le_eval_jac e px py pz x y z C = Ok (mk9 gx gy gz, C') /\
    is_grad (field3 n Z px) x y z gx /\ is_grad (field3 n Z py) x y z gy /\ is_grad (field3 n Z pz) x y z gz.
Proof.
  intros He n Z Hx Hy Hz. unfold le_eval_jac.
  destruct (grad_approx_ok e px x y z C He Hx Hy Hz) as (gx & C0 & E0 & G0). rewrite E0. cbn [bind].
  destruct (grad_approx_ok e py x y z C0 He Hx Hy Hz) as (gy & C1 & E1 & G1). rewrite E1. cbn [bind].
  destruct (grad_approx_ok e pz x y z C1 He Hx Hy Hz) as (gz & C2 & E2 & G2). rewrite E2. cbn [bind].
  exists gx, gy, gz, C2. auto.
Qed.

Lemma det_expr_det3 J : det_expr J = det3 (of_row_major 3 J).
Proof. unfold det_expr, det3, of_row_major, ent. simpl. ring. Qed.

Lemma lt3 i : (i < 3)%nat -> i = 0%nat \/ i = 1%nat \/ i = 2%nat.
Proof. lia. Qed.

Lemma inv_expr_inverse J : det3 (of_row_major 3 J) <> 0 ->
  is_inverse 3 (of_row_major 3 J) (of_row_major 3 (inv_expr (1 / det_expr J) J)).
Proof.
  intros Hd. rewrite det_expr_det3.
  assert (Q := Hd). unfold det3, of_row_major in Q. simpl in Q.
  unfold is_inverse, mat_eq, mmul, ident, det3, of_row_major, inv_expr, ent.
  split; intros i j Hi Hj;
  destruct (lt3 i Hi) as [-> | [-> | ->]]; destruct (lt3 j Hj) as [-> | [-> | ->]]; simpl; field; exact Q.
Qed.

Lemma det_jac_ok e px py pz x y z C : elem_ok e -> let n := le_N e in let Z := le_Z e in
  clean n Z x -> clean n Z y -> clean n Z z ->
  forall J C1, le_eval_jac e px py pz x y z C = Ok (J, C1) ->
  forall C', exists C2, le_eval_det_jac e px py pz x y z C' = Ok (det3 (of_row_major 3 J), C2).
Proof.
  intros He n Z Hx Hy Hz J C1 E C'. unfold le_eval_det_jac.
  destruct (jac_ok e px py pz x y z C He Hx Hy Hz) as (gx & gy & gz & C2 & E2 & Gx & Gy & Gz).
  destruct (jac_ok e px py pz x y z C' He Hx Hy Hz) as (hx & hy & hz & C3 & E3 & Kx & Ky & Kz).
  rewrite E in E2. inversion E2; subst. rewrite E3. cbn [bind].
  rewrite (is_grad_unique _ _ _ _ _ _ Gx Kx), (is_grad_unique _ _ _ _ _ _ Gy Ky), (is_grad_unique _ _ _ _ _ _ Gz Kz).
  exists C3. rewrite det_expr_det3. reflexivity.
Qed.

Lemma inv_jac_ok e px py pz x y z C : elem_ok e -> let n := le_N e in let Z := le_Z e in
  clean n Z x -> clean n Z y -> clean n Z z ->
  forall J C1, le_eval_jac e px py pz x y z C = Ok (J, C1) ->
  (det3 (of_row_major 3 J) <> 0 ->
   exists K C2, le_eval_inv_jac e px py pz x y z C = Ok (K, C2) /\
                is_inverse 3 (of_row_major 3 J) (of_row_major 3 K)) /\
  (det3 (of_row_major 3 J) = 0 -> le_eval_inv_jac e px py pz x y z C = Err DivZero).
Proof.
  intros He n Z Hx Hy Hz J C1 E. unfold le_eval_inv_jac. rewrite E. cbn [bind].
  destruct (det_jac_ok e px py pz x y z C He Hx Hy Hz J C1 E C1) as (C2 & E2). rewrite E2. cbn [bind].
  split; intros Hd.
  - rewrite rdiv_ok by exact Hd. cbn [bind]. eexists. exists C2. split; [reflexivity|].
    rewrite <- det_expr_det3. apply inv_expr_inverse. exact Hd.
  - rewrite Hd, rdiv_zero. reflexivity.
Qed.

(** sums over all basis functions *)
Lemma phi3_nodal n Z i j k a b c : distinct n Z -> (i < n)%nat -> (j < n)%nat -> (k < n)%nat ->
  (a < n)%nat -> (b < n)%nat -> (c < n)%nat ->
  phi3 n Z i j k (Z a) (Z b) (Z c) =
  if (Nat.eqb a i && Nat.eqb b j && Nat.eqb c k)%bool then 1 else 0.
Proof.
  intros D Hi Hj Hk Ha Hb Hc. unfold phi3. rewrite !ell_delta by assumption.
  destruct (Nat.eqb a i), (Nat.eqb b j), (Nat.eqb c k); simpl; ring.
Qed.

Lemma phi3_sum n Z x y z : distinct n Z -> (0 < n)%nat ->
  rsum n (fun k => rsum n (fun j => rsum n (fun i => phi3 n Z i j k x y z))) = 1.
Proof.
  intros D Hn. unfold phi3.
  rewrite (rsum_ext n _ (fun k => ell n Z k z)).
  - apply ell_sum; assumption.
  - intros k Hk. rewrite (rsum_ext n _ (fun j => ell n Z j y * ell n Z k z)).
    + rewrite rsum_scal_r, ell_sum by assumption. ring.
    + intros j Hj. rewrite (rsum_ext n _ (fun i => ell n Z i x * (ell n Z j y * ell n Z k z))) by (intros; ring).
      rewrite rsum_scal_r, ell_sum by assumption. ring.
Qed.

Lemma field3_node n Z c i j k : distinct n Z -> (i < n)%nat -> (j < n)%nat -> (k < n)%nat ->
  field3 n Z c (Z i) (Z j) (Z k) = c (i + j * n + k * n * n)%nat.
Proof.
  intros D Hi Hj Hk. unfold field3.
  rewrite (rsum_single n k); [|exact Hk|].
  - rewrite (rsum_single n j); [|exact Hj|].
    + rewrite (rsum_single n i); [|exact Hi|].
      * rewrite phi3_nodal, !Nat.eqb_refl by assumption. simpl. ring.
      * intros i' Hi' E. rewrite phi3_nodal by assumption.
        destruct (Nat.eqb_spec i i'); [congruence|]. simpl. ring.
    + intros j' Hj' E. apply rsum_zero. intros i' Hi'. rewrite phi3_nodal by assumption.
      destruct (Nat.eqb_spec j j'); [congruence|]. rewrite Bool.andb_false_r. simpl. ring.
  - intros k' Hk' E. apply rsum_zero. intros j' Hj'. apply rsum_zero. intros i' Hi'. rewrite phi3_nodal by assumption.
    destruct (Nat.eqb_spec k k'); [congruence|]. rewrite Bool.andb_false_r. ring.
Qed.

(** ---- the same facts for elements returned by the constructor ---- *)
Definition constructed (order : nat) (Z w0 : nat -> R) (e : lagrange_element) : Prop :=
  new_lagrange_element order Z w0 = Ok e /\ separated (order + 1) Z /\
  (N.of_nat ((order + 1) * (order + 1) * (order + 1)) <= 2 ^ 64)%N.

Lemma constructed_ok order Z w0 e : constructed order Z w0 e ->
  elem_ok e /\ le_N e = (order + 1)%nat /\ le_Z e = Z.
Proof.
  intros (E & Hs & Hn). destruct (new_element_ok order Z w0 Hn Hs) as (e' & E' & Ho & H1 & H2).
  rewrite E in E'. inversion E'; subst. auto.
Qed.

Section Constructed.
  Variables (order : nat) (Z w0 : nat -> R) (e : lagrange_element).
  Let n := (order + 1)%nat.
  Hypothesis K : constructed order Z w0 e.

  Lemma c_basis i j k x y z :
    (i < n)%nat -> (j < n)%nat -> (k < n)%nat -> clean n Z x -> clean n Z y -> clean n Z z ->
    le_eval_basis e (N.of_nat (i + j * n + k * n * n)) x y z = Ok (phi3 n Z i j k x y z).
  Proof.
    destruct (constructed_ok _ _ _ _ K) as (Ho & H1 & H2). unfold n. intros. rewrite <- H2, <- H1.
    apply eval_basis_ok; rewrite ?H1, ?H2; auto.
  Qed.
  Lemma c_approx c x y z C : clean n Z x -> clean n Z y -> clean n Z z ->
    exists C', le_eval_approx e c x y z C = Ok (field3 n Z c x y z, C').
  Proof.
    destruct (constructed_ok _ _ _ _ K) as (Ho & H1 & H2). unfold n. intros. rewrite <- H2, <- H1.
    apply eval_approx_ok; rewrite ?H1, ?H2; auto.
  Qed.
  Lemma c_grad_approx c x y z C : clean n Z x -> clean n Z y -> clean n Z z ->
    exists g C', le_eval_grad_approx e c x y z C = Ok (g, C') /\ is_grad (field3 n Z c) x y z g.
  Proof.
    destruct (constructed_ok _ _ _ _ K) as (Ho & H1 & H2). unfold n. intros. rewrite <- H2, <- H1.
    apply grad_approx_ok; rewrite ?H1, ?H2; auto.
  Qed.
  Lemma c_grad_basis i j k x y z C :
    (i < n)%nat -> (j < n)%nat -> (k < n)%nat -> clean n Z x -> clean n Z y -> clean n Z z ->
    exists g C', le_eval_grad_basis e (N.of_nat (i + j * n + k * n * n)) x y z C = Ok (g, C') /\
      is_grad (phi3 n Z i j k) x y z g.
  Proof.
    destruct (constructed_ok _ _ _ _ K) as (Ho & H1 & H2). unfold n. intros. rewrite <- H2, <- H1.
    apply grad_basis_ok; rewrite ?H1, ?H2; auto.
  Qed.
  Lemma c_jac px py pz x y z C : clean n Z x -> clean n Z y -> clean n Z z ->
    exists J C', le_eval_jac e px py pz x y z C = Ok (J, C') /\
      is_grad (field3 n Z px) x y z (J 0%nat, J 1%nat, J 2%nat) /\
      is_grad (field3 n Z py) x y z (J 3%nat, J 4%nat, J 5%nat) /\
      is_grad (field3 n Z pz) x y z (J 6%nat, J 7%nat, J 8%nat) /\
      (forall C1, exists C2, le_eval_det_jac e px py pz x y z C1 = Ok (det3 (of_row_major 3 J), C2)) /\
      (det3 (of_row_major 3 J) <> 0 -> exists Ji C2, le_eval_inv_jac e px py pz x y z C = Ok (Ji, C2) /\
                is_inverse 3 (of_row_major 3 J) (of_row_major 3 Ji)) /\
      (det3 (of_row_major 3 J) = 0 -> le_eval_inv_jac e px py pz x y z C = Err DivZero).
  Proof.
    destruct (constructed_ok _ _ _ _ K) as (Ho & H1 & H2). unfold n. intros Hx Hy Hz.
    rewrite <- H2, <- H1 in Hx, Hy, Hz.
    destruct (jac_ok e px py pz x y z C Ho Hx Hy Hz) as (gx & gy & gz & C' & E & Gx & Gy & Gz).
    destruct (mk9_row gx gy gz) as (R0 & R1 & R2). rewrite H1, H2 in *.
    exists (mk9 gx gy gz), C'. split; [exact E|].
    rewrite <- R0 in Gx. rewrite <- R1 in Gy. rewrite <- R2 in Gz.
    split; [exact Gx|]. split; [exact Gy|]. split; [exact Gz|].
    rewrite <- H1, <- H2 in Hx, Hy, Hz. split.
    - intros C1. exact (det_jac_ok e px py pz x y z C Ho Hx Hy Hz _ _ E C1).
    - exact (inv_jac_ok e px py pz x y z C Ho Hx Hy Hz _ _ E).
  Qed.
End Constructed.
