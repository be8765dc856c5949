(** Model of elements/point_distributions.cpp (Real instantiation).  Simplifications: exact reals; M_PI is
    PI; a division 0/0 is the outcome DivZero; for N = 0 the Chebyshev factor 0.5*M_PI/0 (infinity, never
    used) is skipped.  [Z] is the caller's array. *)
From Coq Require Import Reals ZArith Arith.
Require Import Verif.Base Verif.RBase.
Open Scope R_scope.

(** elements/point_distributions.cpp:16-20 equispaced_points *)
Definition equispaced_points (N : nat) (Zl Zr : R) (Z : nat -> R) : res (nat -> R) :=
  loop N (fun i Z => do q <- rdiv (INR i) (INR (N - 1)); Ok (fset Z i (Zl + q * (Zr - Zl)))) Z.

(** elements/point_distributions.cpp:37-49 chebyshev_points *)
Definition chebyshev_points (N : nat) (Zl Zr : R) (Z0 : nat -> R) : res (nat -> R) :=
  if Nat.eqb N 0 then Ok Z0 else
  do f <- rdiv (1 / 2 * PI) (INR N);
  let Z1 := fold_up N (fun i Z =>
              let j := ((-1 * Z.of_nat N + 1) + 2 * Z.of_nat i)%Z in
              fset Z i (sin (f * IZR j))) Z0 in
  Ok (fold_up N (fun i Z => fset Z i (1 / 2 * (1 - Z i) * Zl + 1 / 2 * (1 + Z i) * Zr)) Z1).
