(** elements/jacobi_polynomials.{h,cpp}, elements/legendre_polynomials.cpp and elements/legendre_element.cpp in rounded
    arithmetic: the definitions of Model_Poly.v with the result of every +, -, *, / rounded by [rnd] (conversions of
    orders to double, copies and std::pow(0.5, k) are exact; std::tgamma is the function [G], whatever it returns).
    Simplifications: as in Model_Poly.v, and no overflow, no underflow (the exponent is unbounded), no fused
    multiply-add.  A division by zero is an error, not an infinity. *)
From Coq Require Import List Reals NArith Arith.
Import ListNotations.
Require Import Verif.Base Verif.RBase Verif.Model_Common Verif.Model_Lagrange Verif.Model_FloatLagrange Verif.Model_Poly.
Open Scope R_scope.

Section Rounded.
Variable rnd : R -> R.

(** elements/jacobi_polynomials.h:7-11 a *)
Definition jac_af (al be : R) (n : nat) : res R :=
  if Nat.eqb n 1 then Ok (rnd (rnd (1 / 2 * rnd (al + be)) + 1))
  else rdivf rnd (rnd (rnd (rnd (rnd (rnd (2 * INR n) + al) + be) - 1) * rnd (rnd (rnd (2 * INR n) + al) + be)))
            (rnd (rnd (2 * INR n) * rnd (rnd (INR n + al) + be))).

(** elements/jacobi_polynomials.h:13-18 b *)
Definition jac_bf (al be : R) (n : nat) : res R :=
  if Nat.eqb n 1 then Ok (rnd (1 / 2 * rnd (al - be)))
  else rdivf rnd (rnd (rnd (rnd (al * al) - rnd (be * be)) * rnd (rnd (rnd (rnd (2 * INR n) + al) + be) - 1)))
            (rnd (rnd (rnd (2 * INR n) * rnd (rnd (INR n + al) + be)) * rnd (rnd (rnd (rnd (2 * INR n) + al) + be) - 2))).

(** elements/jacobi_polynomials.h:20-26 c *)
Definition jac_cf (al be : R) (n : nat) : res R :=
  if Nat.eqb n 1 then Ok 0
  else rdivf rnd (rnd (rnd (rnd (rnd (INR n + al) - 1) * rnd (rnd (INR n + be) - 1)) * rnd (rnd (rnd (2 * INR n) + al) + be)))
            (rnd (rnd (INR n * rnd (rnd (INR n + al) + be)) * rnd (rnd (rnd (rnd (2 * INR n) + al) + be) - 2))).

(** elements/jacobi_polynomials.cpp:4-12 eval, at n = m - 1 *)
Fixpoint jac_recf (m : nat) (al be X : R) : res R :=
  match m with
  | O => Ok 0
  | S m1 =>
      match m1 with
      | O => Ok 1
      | S m2 =>
          do a <- jac_af al be m1; do b <- jac_bf al be m1;
          do p1 <- jac_recf m1 al be X;
          do c <- jac_cf al be m1;
          do p2 <- jac_recf m2 al be X;
          Ok (rnd (rnd (rnd (rnd (a * X) + b) * p1) - rnd (c * p2)))
      end
  end.
Definition jacobi_evalf (n : nat) (al be X : R) : res R := jac_recf (S n) al be X.

(** elements/jacobi_polynomials.cpp:14-21 eval_der; the sum alpha + alpha is the code's *)
Definition jacobi_eval_derf (G : R -> R) (n k : nat) (al be X : R) : res R :=
  if (Nat.eqb n 0 || Nat.ltb n k)%bool then Ok 0
  else
    let theta := rnd (rnd (INR n + rnd (al + al)) + 1) in
    do p <- jacobi_evalf (n - k) (rnd (al + INR k)) (rnd (be + INR k)) X;
    rdivf rnd (rnd (rnd ((1 / 2) ^ k * G (rnd (theta + INR k))) * p)) (G theta).

(** elements/legendre_polynomials.cpp:14-20 eval, at n = m - 1 *)
Fixpoint leg_recf (m : nat) (X : R) : res R :=
  match m with
  | O => Ok 0
  | S m1 =>
      match m1 with
      | O => Ok 1
      | S m2 =>
          do i <- rdivf rnd 1 (INR m1);
          do p1 <- leg_recf m1 X;
          do p2 <- leg_recf m2 X;
          Ok (rnd (i * rnd (rnd (rnd (rnd (rnd (2 * INR m1) - 1) * X) * p1) - rnd (rnd (INR m1 - 1) * p2))))
      end
  end.
Definition legendre_evalf (n : nat) (X : R) : res R := leg_recf (S n) X.

(** elements/legendre_polynomials.cpp:32-35 eval_der *)
Definition legendre_eval_derf (G : R -> R) (n k : nat) (X : R) : res R := jacobi_eval_derf G n k 0 0 X.

(** elements/legendre_polynomials.cpp:48-56 eval_approx; [c] is the coefficient array *)
Definition legendre_eval_approxf (N : nat) (c : nat -> res R) (X : R) : res R :=
  loop N (fun j s => do cj <- c j; do p <- legendre_evalf j X; Ok (rnd (s + rnd (cj * p)))) 0.

(** elements/legendre_polynomials.cpp:69-78 eval_der_approx *)
Definition legendre_eval_der_approxf (G : R -> R) (N k : nat) (c : nat -> res R) (X : R) : res R :=
  loop N (fun j s => do cj <- c j; do p <- legendre_eval_derf G j k X; Ok (rnd (s + rnd (cj * p)))) 0.

(** elements/legendre_element.cpp:30-42 eval_basis *)
Definition lg_eval_basisf (order : nat) (I : N) (x y z : R) : res R :=
  do (i, j, k) <- lg_ijk (lg_size order) I;
  do pi <- legendre_evalf i x; do pj <- legendre_evalf j y; do pk <- legendre_evalf k z;
  Ok (rnd (rnd (pi * pj) * pk)).

(** elements/legendre_element.cpp:56-77 eval_grad_basis *)
Definition lg_eval_grad_basisf (G : R -> R) (order : nat) (I : N) (x y z : R) : res (R * R * R) :=
  do (i, j, k) <- lg_ijk (lg_size order) I;
  do pi <- legendre_evalf i x; do pj <- legendre_evalf j y; do pk <- legendre_evalf k z;
  do di <- legendre_eval_derf G i 1 x; do dj <- legendre_eval_derf G j 1 y; do dk <- legendre_eval_derf G k 1 z;
  Ok (rnd (rnd (di * pj) * pk), rnd (rnd (pi * dj) * pk), rnd (rnd (pi * pj) * dk)).

(** the choice between eval_der_approx (order 1) and eval_approx made at legendre_element.cpp:139, :147, :155 *)
Definition lg_collapsef (G : R -> R) (d : bool) (N : nat) (c : nat -> res R) (X : R) : res R :=
  if d then legendre_eval_der_approxf G N 1 c X else legendre_eval_approxf N c X.

(** elements/legendre_element.cpp:101-115 eval_approx; [C] is the work array of 2N entries, whose final
    contents are returned *)
Definition lg_eval_approxf (order : nat) (c : nat -> res R) (x y z : R) (C : nat -> res R)
  : res (R * (nat -> res R)) :=
  let N := lg_size order in
  do C1 <- loop N (fun k C =>
      do C' <- loop N (fun j C =>
          do v <- legendre_eval_approxf N (shift (j * N + k * N * N) c) x;
          Ok (fset C j (Ok v))) C;
      do v <- legendre_eval_approxf N C' y;
      Ok (fset C' (N + k)%nat (Ok v))) C;
  do r <- legendre_eval_approxf N (shift N C1) z;
  Ok (r, C1).

(** elements/legendre_element.cpp:132-161 eval_grad_approx: pass [l] of the outer loop *)
Definition lg_grad_compf (G : R -> R) (order l : nat) (c : nat -> res R) (x y z : R) (C : nat -> res R)
  : res (R * (nat -> res R)) :=
  let N := lg_size order in
  do C1 <- loop N (fun k C =>
      do C' <- loop N (fun j C =>
          do v <- lg_collapsef G (Nat.eqb l 0) N (shift (j * N + k * N * N) c) x;
          Ok (fset C j (Ok v))) C;
      do v <- lg_collapsef G (Nat.eqb l 1) N C' y;
      Ok (fset C' (N + k)%nat (Ok v))) C;
  do r <- lg_collapsef G (Nat.eqb l 2) N (shift N C1) z;
  Ok (r, C1).
Definition lg_eval_grad_approxf (G : R -> R) (order : nat) (c : nat -> res R) (x y z : R) (C : nat -> res R)
  : res ((R * R * R) * (nat -> res R)) :=
  do (g0, C0) <- lg_grad_compf G order 0 c x y z C;
  do (g1, C1) <- lg_grad_compf G order 1 c x y z C0;
  do (g2, C2) <- lg_grad_compf G order 2 c x y z C1;
  Ok ((g0, g1, g2), C2).
End Rounded.
