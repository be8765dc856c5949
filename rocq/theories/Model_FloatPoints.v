(** Model of elements/point_distributions.cpp (Real instantiation) in rounded arithmetic: the functions of Model_Points.v
    with [rnd] applied to the result of every operation, in the order written in the code.  M_PI is [rnd PI]; [sine] is
    the library function sin; the conversions double(N), double(i), double(j) are exact (counts below 2^53).  No
    multiply-add is contracted, overflow and underflow are not modelled. *)
From Coq Require Import Reals ZArith Arith.
Require Import Verif.Base Verif.RBase Verif.Model_FloatLagrange.
Open Scope R_scope.

Section FloatPoints.
Context (rnd : R -> R).

(** elements/point_distributions.cpp:16-20 equispaced_points *)
Definition equispaced_pointsf (N : nat) (Zl Zr : R) (Z : nat -> R) : res (nat -> R) :=
  loop N (fun i Z => do q <- rdivf rnd (INR i) (INR (N - 1)); Ok (fset Z i (rnd (Zl + rnd (q * rnd (Zr - Zl)))))) Z.

(** elements/point_distributions.cpp:37-49 chebyshev_points *)
Definition chebyshev_pointsf (sine : R -> R) (N : nat) (Zl Zr : R) (Z0 : nat -> R) : res (nat -> R) :=
  if Nat.eqb N 0 then Ok Z0 else
  do f <- rdivf rnd (rnd (1 / 2 * rnd PI)) (INR N);
  let Z1 := fold_up N (fun i Z =>
              let j := ((-1 * Z.of_nat N + 1) + 2 * Z.of_nat i)%Z in
              fset Z i (sine (rnd (f * IZR j)))) Z0 in
  Ok (fold_up N (fun i Z => fset Z i (rnd (rnd (rnd (1 / 2 * rnd (1 - Z i)) * Zl) + rnd (rnd (1 / 2 * rnd (1 + Z i)) * Zr)))) Z1).
End FloatPoints.
