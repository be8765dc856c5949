(** Specification of the BLAS/LAPACK wrappers: what it means for an array to hold a matrix or a vector, and
    the contracts assumed of LAPACK. *)
From Coq Require Import Reals ZArith List Arith.
Import ListNotations.
Require Import Verif.RSum Verif.Spec_Mat Verif.Det Verif.Spec_Gauss Verif.Model_Blas.
Local Open Scope nat_scope.

(** a 2D array of m rows and n columns, contents unknown *)
Definition array2 (A : carr) (m n : nat) : Prop := dims A = [m; n] /\ length (cells A) = m * n.
Definition array1 (x : carr) (n : nat) : Prop := dims x = [n] /\ length (cells x) = n.
(** entry (i,j) of a row-major array of n columns is v *)
Definition entry (A : carr) (n i j : nat) (v : R) : Prop := nth_error (cells A) (i * n + j) = Some (Some v).
(** the array holds the m by n matrix M *)
Definition is_mat (A : carr) (m n : nat) (M : mat) : Prop :=
  array2 A m n /\ forall i j, i < m -> j < n -> entry A n i j (M i j).
(** the array holds the vector v of n numbers *)
Definition is_vec (x : carr) (n : nat) (v : nat -> R) : Prop :=
  array1 x n /\ forall i, i < n -> nth_error (cells x) i = Some (Some (v i)).

(** n*n numbers in column-major order *)
Definition col_major (n : nat) (a : list (option R)) (M : mat) : Prop :=
  length a = n * n /\ forall i j, i < n -> j < n -> nth_error a (i + n * j) = Some (Some (M i j)).

(** LAPACK's promise: a matrix that is not singular is factorised with info = 0, and the factors then solve
    M X = Y with info = 0; a singular one is reported;
    the sizes of the arrays never change and b holds numbers afterwards (after a reported failure the real
    dgetrs divides by zero: the numbers then stand for infinities and NaNs) *)
Definition lapack_solves (getrf : getrf_fun) (getrs : getrs_fun) : Prop :=
  (forall n a M, col_major n a M -> det n M <> 0%R ->
     exists lu ipiv, getrf n a = (lu, ipiv, 0%Z) /\
       forall b Y, col_major n b Y -> exists b' X, getrs n lu ipiv b = (b', 0%Z) /\ col_major n b' X /\
         mat_eq n (mmul n M X) Y) /\
  (forall n a M, col_major n a M -> det n M = 0%R -> exists lu ipiv info, getrf n a = (lu, ipiv, info) /\ info <> 0%Z) /\
  (forall n lu ipiv b Y, col_major n b Y -> exists b' info X, getrs n lu ipiv b = (b', info) /\ col_major n b' X).

(** LAPACK's promise for dstev when it succeeds: info = 0 and, column-major, z holds an orthonormal set of
    eigenvectors of the tridiagonal matrix, d the eigenvalues *)
Definition stev_ok (stev : dstev_fun) (n : nat) (d e : nat -> R) : Prop :=
  forall dl el zl, length dl = n -> length el = n - 1 -> length zl = n * n ->
    (forall i, i < n -> nth_error dl i = Some (Some (d i))) ->
    (forall i, i < n - 1 -> nth_error el i = Some (Some (e i))) ->
    exists d' e' z' w V, stev n dl el zl = (d', e', z', 0%Z) /\
      length d' = n /\ (forall i, i < n -> nth_error d' i = Some (Some (w i))) /\
      length e' = n - 1 /\
      col_major n z' V /\
      (forall j i, j < n -> i < n -> rsum n (fun k => tridiag d e i k * V k j)%R = (w j * V i j)%R) /\
      (forall j l, j < n -> l < n -> rsum n (fun i => V i j * V i l)%R = if Nat.eqb j l then 1%R else 0%R).
