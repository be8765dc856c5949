(** Model of elements/gauss_jacobi_quadrature.cpp and of matar2lapack::eig_sym_tri
    (common/matar_blas_lapack_interface.cpp).  LAPACK's dstev and std::tgamma are function arguments.
    Simplifications: exact reals; the assert on n > 0 is the outcome Exited; a square root of a negative
    number (NaN) is the outcome DivZero; the shape asserts of eig_sym_tri hold by construction of the
    arrays at its only call and are left out; [junk] is the contents of freshly allocated arrays. *)
From Coq Require Import Reals ZArith Arith.
Require Import Verif.Base Verif.RBase Verif.Spec_Mat Verif.Model_Poly.
Open Scope R_scope.

(** std::sqrt *)
Definition rsqrt (x : R) : res R := if Rlt_dec x 0 then Err DivZero else Ok (sqrt x).

(** dstev('V', &n, d, e, z, &n, work, &info): from the diagonal d and subdiagonal e to (info, d', z), z flat *)
Definition stev_fun := nat -> (nat -> R) -> (nat -> R) -> Z * (nat -> R) * (nat -> R).

(** common/matar_blas_lapack_interface.cpp:289-309 eig_sym_tri: a non-zero info only prints a message; the
    eigenvalues are copied from the overwritten diagonal, z is the memory of eigvecs (row-major n x n) *)
Definition eig_sym_tri (stev : stev_fun) (n : nat) (diag subdiag : nat -> R) : (nat -> R) * mat :=
  let '(info, d, z) := stev n diag subdiag in (d, fun i j => z (i * n + j)%nat).

(** elements/gauss_jacobi_quadrature.cpp:20-26 *)
Definition gj_diag (n : nat) (al be : R) (junk : nat -> R) : res (nat -> R) :=
  loop n (fun k d =>
    do a <- jac_a al be (k + 1); do b <- jac_b al be (k + 1);
    do q <- rdiv (- b) a;
    Ok (fset d k q)) junk.

(** elements/gauss_jacobi_quadrature.cpp:28-35 *)
Definition gj_subdiag (n : nat) (al be : R) (junk : nat -> R) : res (nat -> R) :=
  loop (n - 1) (fun k e =>
    do a <- jac_a al be (k + 1); do a1 <- jac_a al be (k + 2); do c1 <- jac_c al be (k + 2);
    do q <- rdiv c1 (a * a1); do r <- rsqrt q;
    Ok (fset e k r)) junk.

(** elements/gauss_jacobi_quadrature.cpp:47-50 mu0 *)
Definition gj_mu0 (G : R -> R) (al be : R) : res R :=
  rdiv (Rpower 2 (al + be + 1) * G (al + 1) * G (be + 1)) (G (al + be + 2)).

(** elements/gauss_jacobi_quadrature.cpp:9-65 compute_gauss_jacobi_quadrature_rule; (points, weights) are
    the caller's arrays *)
Definition gauss_jacobi (G : R -> R) (stev : stev_fun) (junk : nat -> R) (n : nat) (al be : R)
  (points weights : nat -> R) : res ((nat -> R) * (nat -> R)) :=
  if Nat.eqb n 0 then Err Exited
  else if Nat.ltb 1 n then
    do diag <- gj_diag n al be junk;
    do subdiag <- gj_subdiag n al be junk;
    let '(eigvals, eigvecs) := eig_sym_tri stev n diag subdiag in
    do mu0 <- gj_mu0 G al be;
    Ok (fold_up n (fun j st =>
          let '(p, w) := st in
          let q := eigvecs j 0%nat in
          (fset p j (eigvals j), fset w j (q * q * mu0))) (points, weights))
  else Ok (fset points 0 0, fset weights 0 2).
