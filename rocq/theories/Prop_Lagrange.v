(** Property theorems C04-C12 (elements/lagrange_polynomials.cpp, elements/lagrange_element.cpp).
    [tol], [distinct], [separated], [clean], [ell], [interp], [weights_of], [phi3], [field3],
    [is_grad], [is_der2], [is_der3] are in Spec_Lagrange; [det3], [is_inverse] in Spec_Mat. *)
From Coq Require Import List Reals NArith Arith Lia Lra.
Import ListNotations.
Require Import Verif.Base Verif.RBase Verif.RSum Verif.Poly Verif.Spec_Lagrange Verif.Spec_Mat
  Verif.Model_Common Verif.Model_Lagrange Verif.Lagrange_Math Verif.Proof_Lagrange Verif.Proof_LagElem
  Verif.Ex_Lagrange.
Open Scope R_scope.

(** ---- C04 ---- *)
Theorem C04_unique_hit : forall n z x i, (N.of_nat n < 2 ^ 64)%N -> (i < n)%nat ->
  Rabs (z i - x) < tol -> (forall j, (j < n)%nat -> j <> i -> tol <= Rabs (z j - x)) ->
  find_coincident_vertex n z x = N.of_nat i.
Proof. exact find_one. Qed.
Print Assumptions C04_unique_hit.

Theorem C04_no_hit : forall n z x, (forall j, (j < n)%nat -> tol <= Rabs (z j - x)) ->
  find_coincident_vertex n z x = (2 ^ 64 - 1)%N.
Proof. exact find_none. Qed.
Print Assumptions C04_no_hit.

(** two vertices within the tolerance: the result is the index sum plus one, here a third vertex
    that is 1 away from x *)
Theorem C04_two_hits : forall n z x i j, (i < n)%nat -> (j < n)%nat -> i <> j ->
  Rabs (z i - x) < tol -> Rabs (z j - x) < tol ->
  (forall k, (k < n)%nat -> k <> i -> k <> j -> tol <= Rabs (z k - x)) ->
  find_coincident_vertex n z x = ((N.of_nat i + N.of_nat j + 1) mod 2 ^ 64)%N.
Proof. exact find_two. Qed.
Print Assumptions C04_two_hits.

Theorem C04_wrong_vertex_refuted : exists n z x,
  distinct n z /\ x = z 0%nat /\ find_coincident_vertex n z x = 2%N /\ Rabs (z 2%nat - x) = 1.
Proof. exact find_wrong. Qed.
Print Assumptions C04_wrong_vertex_refuted.

(** ---- C05 ---- *)
Theorem C05_weights : forall N Z w0, distinct N Z ->
  exists w, compute_barycentric_weights N Z w0 = Ok w /\ weights_of N Z w /\
            (forall i, (N <= i)%nat -> w i = w0 i).
Proof. exact weights_ok_spec. Qed.
Print Assumptions C05_weights.

Theorem C05_repeated_vertex_divides_by_zero : forall N Z w0 i j,
  (i < N)%nat -> (j < N)%nat -> i <> j -> Z i = Z j ->
  compute_barycentric_weights N Z w0 = Err DivZero.
Proof. exact weights_coincident. Qed.
Print Assumptions C05_repeated_vertex_divides_by_zero.

Theorem C05_eval_is_lagrange : forall Nv Z w0 w X i, (N.of_nat Nv < 2 ^ 64)%N ->
  separated Nv Z -> compute_barycentric_weights Nv Z w0 = Ok w -> (i < Nv)%nat -> clean Nv Z X ->
  eval Nv i (find_coincident_vertex Nv Z X) Z w X = Ok (ell Nv Z i X).
Proof. intros. eapply eval_found; eassumption. Qed.
Print Assumptions C05_eval_is_lagrange.

(** [ell] is the polynomial of degree < N that is 1 at its own vertex and 0 at the others, and the
    family sums to one everywhere *)
Theorem C05_lagrange_polynomial : forall N Z i, distinct N Z -> (i < N)%nat ->
  poly_lt N (ell N Z i) /\
  (forall k, (k < N)%nat -> ell N Z i (Z k) = if Nat.eqb k i then 1 else 0) /\
  (forall x, rsum N (fun j => ell N Z j x) = 1).
Proof. exact ell_facts. Qed.
Print Assumptions C05_lagrange_polynomial.

(** ---- C06 ---- *)
Theorem C06_interpolant : forall Nv Z w0 w X c, (N.of_nat Nv < 2 ^ 64)%N ->
  separated Nv Z -> compute_barycentric_weights Nv Z w0 = Ok w -> clean Nv Z X ->
  eval_interp Nv (find_coincident_vertex Nv Z X) Z w X (fun i => Ok (c i)) = Ok (interp Nv Z c X).
Proof. intros. eapply eval_interp_found; eassumption. Qed.
Print Assumptions C06_interpolant.

Theorem C06_vertex_value : forall Nv Z w0 w c i, (N.of_nat Nv < 2 ^ 64)%N ->
  separated Nv Z -> compute_barycentric_weights Nv Z w0 = Ok w -> (i < Nv)%nat ->
  eval_interp Nv (find_coincident_vertex Nv Z (Z i)) Z w (Z i) (fun k => Ok (c k)) = Ok (c i).
Proof. exact eval_interp_vertex. Qed.
Print Assumptions C06_vertex_value.

Theorem C06_reproduces_polynomials : forall Nv Z w0 w X f, (N.of_nat Nv < 2 ^ 64)%N ->
  separated Nv Z -> compute_barycentric_weights Nv Z w0 = Ok w -> clean Nv Z X -> poly_lt Nv f ->
  eval_interp Nv (find_coincident_vertex Nv Z X) Z w X (fun i => Ok (f (Z i))) = Ok (f X).
Proof. intros. eapply eval_interp_repro; eassumption. Qed.
Print Assumptions C06_reproduces_polynomials.

(** ---- C07 ---- *)
Theorem C07_first_derivative : forall Nv Z w0 w X c, (N.of_nat Nv < 2 ^ 64)%N -> (0 < Nv)%nat ->
  separated Nv Z -> compute_barycentric_weights Nv Z w0 = Ok w -> clean Nv Z X ->
  exists d c2, eval_der_interp Nv 1 (find_coincident_vertex Nv Z X) Z w X (fun i => Ok (c i)) = Ok (d, c2) /\
    derivable_pt_lim (interp Nv Z c) X d.
Proof. intros. eapply der1_found; eassumption. Qed.
Print Assumptions C07_first_derivative.

Theorem C07_basis_derivative : forall Nv Z w0 w X i C, (N.of_nat Nv < 2 ^ 64)%N -> (i < Nv)%nat ->
  separated Nv Z -> compute_barycentric_weights Nv Z w0 = Ok w -> clean Nv Z X ->
  exists d c2, eval_der Nv 1 i (find_coincident_vertex Nv Z X) Z w X C = Ok (d, c2) /\
    derivable_pt_lim (ell Nv Z i) X d.
Proof. intros. eapply der1_basis_found; eassumption. Qed.
Print Assumptions C07_basis_derivative.

(** ---- C08 ---- *)
Theorem C08_second_derivative : forall Nv Z w0 w X c, (N.of_nat Nv < 2 ^ 64)%N -> (0 < Nv)%nat ->
  separated Nv Z -> compute_barycentric_weights Nv Z w0 = Ok w -> clean Nv Z X ->
  exists d c2, eval_der_interp Nv 2 (find_coincident_vertex Nv Z X) Z w X (fun i => Ok (c i)) = Ok (d, c2) /\
    is_der2 (interp Nv Z c) X d.
Proof. intros. eapply der2_found; eassumption. Qed.
Print Assumptions C08_second_derivative.

(** order 0 always returns 0, whatever the interpolant is *)
Theorem C08_order_zero_returns_zero : forall Nv Z w0 w X c, (N.of_nat Nv < 2 ^ 64)%N ->
  separated Nv Z -> compute_barycentric_weights Nv Z w0 = Ok w -> clean Nv Z X ->
  exists c2, eval_der_interp Nv 0 (find_coincident_vertex Nv Z X) Z w X (fun i => Ok (c i)) = Ok (0, c2).
Proof. intros. eapply der0_found; eassumption. Qed.
Print Assumptions C08_order_zero_returns_zero.

(** order 3 away from all vertices: third derivative plus 3 p''(X) sum_k 1/(X - Z_k) *)
Theorem C08_third_order_exact : forall Nv Z w0 w X c, (N.of_nat Nv < 2 ^ 64)%N -> (0 < Nv)%nat ->
  separated Nv Z -> compute_barycentric_weights Nv Z w0 = Ok w ->
  (forall i, (i < Nv)%nat -> tol <= Rabs (Z i - X)) ->
  exists d2 d3 c2, is_der2 (interp Nv Z c) X d2 /\ is_der3 (interp Nv Z c) X d3 /\
    eval_der_interp Nv 3 (find_coincident_vertex Nv Z X) Z w X (fun i => Ok (c i)) =
    Ok (d3 + 3 * d2 * rsum Nv (fun k => / (X - Z k)), c2).
Proof. intros. eapply der3_found; eassumption. Qed.
Print Assumptions C08_third_order_exact.

Theorem C08_third_derivative_refuted : exists Nv Z w X c r c2,
  separated Nv Z /\ compute_barycentric_weights Nv Z (fun _ => 0) = Ok w /\ clean Nv Z X /\
  eval_der_interp Nv 3 (find_coincident_vertex Nv Z X) Z w X (fun i => Ok (c i)) = Ok (r, c2) /\
  ~ is_der3 (interp Nv Z c) X r.
Proof. exact der3_wrong. Qed.
Print Assumptions C08_third_derivative_refuted.

(** ---- C09 ---- *)
Theorem C09_element_basis : forall order Z w0 e,
  new_lagrange_element order Z w0 = Ok e /\ separated (order + 1) Z /\
  (N.of_nat ((order + 1) * (order + 1) * (order + 1)) <= 2 ^ 64)%N ->
  let n := (order + 1)%nat in
  forall i j k x y z, (i < n)%nat -> (j < n)%nat -> (k < n)%nat ->
  clean n Z x -> clean n Z y -> clean n Z z ->
  le_eval_basis e (N.of_nat (i + j * n + k * n * n)) x y z =
  Ok (ell n Z i x * ell n Z j y * ell n Z k z).
Proof. exact c_basis. Qed.
Print Assumptions C09_element_basis.

Theorem C09_constructor : forall order Z w0,
  (N.of_nat ((order + 1) * (order + 1) * (order + 1)) <= 2 ^ 64)%N -> separated (order + 1) Z ->
  exists e, new_lagrange_element order Z w0 = Ok e.
Proof. exact constructor_ok. Qed.
Print Assumptions C09_constructor.

Theorem C09_nodal_and_unity : forall n Z, distinct n Z -> (0 < n)%nat ->
  (forall i j k a b c, (i < n)%nat -> (j < n)%nat -> (k < n)%nat -> (a < n)%nat -> (b < n)%nat -> (c < n)%nat ->
     phi3 n Z i j k (Z a) (Z b) (Z c) =
     if (Nat.eqb a i && Nat.eqb b j && Nat.eqb c k)%bool then 1 else 0) /\
  (forall x y z, rsum n (fun k => rsum n (fun j => rsum n (fun i => phi3 n Z i j k x y z))) = 1).
Proof. exact phi3_facts. Qed.
Print Assumptions C09_nodal_and_unity.

(** ---- C10 ---- *)
Theorem C10_field_value : forall order Z w0 e,
  new_lagrange_element order Z w0 = Ok e /\ separated (order + 1) Z /\
  (N.of_nat ((order + 1) * (order + 1) * (order + 1)) <= 2 ^ 64)%N ->
  let n := (order + 1)%nat in
  forall c x y z C, clean n Z x -> clean n Z y -> clean n Z z ->
  exists C', le_eval_approx e c x y z C = Ok (field3 n Z c x y z, C').
Proof. exact c_approx. Qed.
Print Assumptions C10_field_value.

Theorem C10_nodal_values : forall order Z w0 e,
  new_lagrange_element order Z w0 = Ok e /\ separated (order + 1) Z /\
  (N.of_nat ((order + 1) * (order + 1) * (order + 1)) <= 2 ^ 64)%N ->
  let n := (order + 1)%nat in
  forall c C i j k, (i < n)%nat -> (j < n)%nat -> (k < n)%nat ->
  exists C', le_eval_approx e c (Z i) (Z j) (Z k) C = Ok (c (i + j * n + k * n * n)%nat, C').
Proof. exact c_approx_node. Qed.
Print Assumptions C10_nodal_values.

(** ---- C11 ---- *)
Theorem C11_basis_gradient : forall order Z w0 e,
  new_lagrange_element order Z w0 = Ok e /\ separated (order + 1) Z /\
  (N.of_nat ((order + 1) * (order + 1) * (order + 1)) <= 2 ^ 64)%N ->
  let n := (order + 1)%nat in
  forall i j k x y z C, (i < n)%nat -> (j < n)%nat -> (k < n)%nat ->
  clean n Z x -> clean n Z y -> clean n Z z ->
  exists g C', le_eval_grad_basis e (N.of_nat (i + j * n + k * n * n)) x y z C = Ok (g, C') /\
    is_grad (phi3 n Z i j k) x y z g.
Proof. exact c_grad_basis. Qed.
Print Assumptions C11_basis_gradient.

Theorem C11_field_gradient : forall order Z w0 e,
  new_lagrange_element order Z w0 = Ok e /\ separated (order + 1) Z /\
  (N.of_nat ((order + 1) * (order + 1) * (order + 1)) <= 2 ^ 64)%N ->
  let n := (order + 1)%nat in
  forall c x y z C, clean n Z x -> clean n Z y -> clean n Z z ->
  exists g C', le_eval_grad_approx e c x y z C = Ok (g, C') /\ is_grad (field3 n Z c) x y z g.
Proof. exact c_grad_approx. Qed.
Print Assumptions C11_field_gradient.

(** ---- C12 ---- *)
Theorem C12_jacobian : forall order Z w0 e,
  new_lagrange_element order Z w0 = Ok e /\ separated (order + 1) Z /\
  (N.of_nat ((order + 1) * (order + 1) * (order + 1)) <= 2 ^ 64)%N ->
  let n := (order + 1)%nat in
  forall px py pz x y z C, clean n Z x -> clean n Z y -> clean n Z z ->
  exists J C', le_eval_jac e px py pz x y z C = Ok (J, C') /\
    is_grad (field3 n Z px) x y z (J 0%nat, J 1%nat, J 2%nat) /\
    is_grad (field3 n Z py) x y z (J 3%nat, J 4%nat, J 5%nat) /\
    is_grad (field3 n Z pz) x y z (J 6%nat, J 7%nat, J 8%nat) /\
    (forall C1, exists C2, le_eval_det_jac e px py pz x y z C1 = Ok (det3 (of_row_major 3 J), C2)) /\
    (det3 (of_row_major 3 J) <> 0 -> exists Ji C2, le_eval_inv_jac e px py pz x y z C = Ok (Ji, C2) /\
       is_inverse 3 (of_row_major 3 J) (of_row_major 3 Ji)) /\
    (det3 (of_row_major 3 J) = 0 -> le_eval_inv_jac e px py pz x y z C = Err DivZero).
Proof. exact c_jac. Qed.
Print Assumptions C12_jacobian.

(** Non-vacuity: vertices 0,1,2 are separated and distinct, 1 and 3 are clean points (a vertex and a
    free point), the weights exist, and an order-2 element is constructed. *)
Example lagrange_nonvacuous :
  separated 3 INR /\ distinct 3 INR /\ clean 3 INR 1 /\ clean 3 INR 3 /\
  (exists w, compute_barycentric_weights 3 INR (fun _ => 0) = Ok w) /\
  (exists e, new_lagrange_element 2 INR (fun _ => 0) = Ok e) /\
  (N.of_nat ((2 + 1) * (2 + 1) * (2 + 1)) <= 2 ^ 64)%N /\ poly_lt 3 (fun x => x * (1 * x + 0)).
Proof. exact ex_nonvacuous. Qed.
