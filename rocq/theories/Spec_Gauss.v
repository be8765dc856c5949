(** Specification of Gauss-Jacobi quadrature, and the contract assumed of LAPACK's dstev. *)
From Coq Require Import Reals ZArith Arith.
From Coquelicot Require Import Coquelicot.
Require Import Verif.RSum Verif.Poly Verif.Spec_Mat.
Open Scope R_scope.

(** the symmetric tridiagonal matrix with diagonal d and subdiagonal e *)
Definition tridiag (d e : nat -> R) : mat :=
  fun i j => if Nat.eqb i j then d i else if Nat.eqb j (S i) then e i else if Nat.eqb i (S j) then e j else 0.

(** contract of dstev for one call: info = 0, d' holds eigenvalues, and column j of the column-major array
    z (entries z[i + j*n]) is a unit eigenvector of d' j, different columns being orthogonal *)
Definition stev_contract (n : nat) (d e : nat -> R) (out : Z * (nat -> R) * (nat -> R)) : Prop :=
  let '(info, w, z) := out in
  info = 0%Z /\
  (forall j, (j < n)%nat -> forall i, (i < n)%nat ->
     rsum n (fun k => tridiag d e i k * z (k + j * n)%nat) = w j * z (i + j * n)%nat) /\
  (forall j l, (j < n)%nat -> (l < n)%nat ->
     rsum n (fun i => z (i + j * n)%nat * z (i + l * n)%nat) = if Nat.eqb j l then 1 else 0).

(** the n-point rule (x_j, w_j) integrates f against the weight (1-x)^a (1+x)^b exactly *)
Definition exact_on (a b n : nat) (x w : nat -> R) (f : R -> R) : Prop :=
  is_RInt (fun t => (1 - t) ^ a * (1 + t) ^ b * f t) (-1) 1 (rsum n (fun j => w j * f (x j))).
