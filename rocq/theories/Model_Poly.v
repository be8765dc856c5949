(** Model of elements/jacobi_polynomials.{h,cpp}, elements/legendre_polynomials.cpp,
    elements/legendre_element.cpp, for the Real instantiation.
    Simplifications: doubles are exact reals; division by zero is the outcome DivZero; the order is the
    recursion index m = n + 1 (so that the C++ base case n == -1 is m = 0; orders below -1, on which the
    C++ recursion never ends, are not representable); std::tgamma is a function argument [G]. *)
From Coq Require Import List Reals NArith Arith.
Import ListNotations.
Require Import Verif.Base Verif.RBase Verif.Model_Common Verif.Model_Lagrange.
Open Scope R_scope.

(** elements/jacobi_polynomials.h:7-11 a *)
Definition jac_a (al be : R) (n : nat) : res R :=
  if Nat.eqb n 1 then Ok (1 / 2 * (al + be) + 1)
  else rdiv ((2 * INR n + al + be - 1) * (2 * INR n + al + be)) (2 * INR n * (INR n + al + be)).

(** elements/jacobi_polynomials.h:13-18 b *)
Definition jac_b (al be : R) (n : nat) : res R :=
  if Nat.eqb n 1 then Ok (1 / 2 * (al - be))
  else rdiv ((al * al - be * be) * (2 * INR n + al + be - 1))
            (2 * INR n * (INR n + al + be) * (2 * INR n + al + be - 2)).

(** elements/jacobi_polynomials.h:20-26 c *)
Definition jac_c (al be : R) (n : nat) : res R :=
  if Nat.eqb n 1 then Ok 0
  else rdiv ((INR n + al - 1) * (INR n + be - 1) * (2 * INR n + al + be))
            (INR n * (INR n + al + be) * (2 * INR n + al + be - 2)).

(** elements/jacobi_polynomials.cpp:4-12 eval, at n = m - 1 *)
Fixpoint jac_rec (m : nat) (al be X : R) : res R :=
  match m with
  | O => Ok 0
  | S m1 =>
      match m1 with
      | O => Ok 1
      | S m2 =>
          do a <- jac_a al be m1; do b <- jac_b al be m1;
          do p1 <- jac_rec m1 al be X;
          do c <- jac_c al be m1;
          do p2 <- jac_rec m2 al be X;
          Ok ((a * X + b) * p1 - c * p2)
      end
  end.
Definition jacobi_eval (n : nat) (al be X : R) : res R := jac_rec (S n) al be X.

(** elements/jacobi_polynomials.cpp:14-21 eval_der; the sum alpha + alpha is the code's *)
Definition jacobi_eval_der (G : R -> R) (n k : nat) (al be X : R) : res R :=
  if (Nat.eqb n 0 || Nat.ltb n k)%bool then Ok 0
  else
    let theta := INR n + (al + al) + 1 in
    do p <- jacobi_eval (n - k) (al + INR k) (be + INR k) X;
    rdiv ((1 / 2) ^ k * G (theta + INR k) * p) (G theta).

(** elements/legendre_polynomials.cpp:14-20 eval, at n = m - 1 *)
Fixpoint leg_rec (m : nat) (X : R) : res R :=
  match m with
  | O => Ok 0
  | S m1 =>
      match m1 with
      | O => Ok 1
      | S m2 =>
          do i <- rdiv 1 (INR m1);
          do p1 <- leg_rec m1 X;
          do p2 <- leg_rec m2 X;
          Ok (i * ((2 * INR m1 - 1) * X * p1 - (INR m1 - 1) * p2))
      end
  end.
Definition legendre_eval (n : nat) (X : R) : res R := leg_rec (S n) X.

(** elements/legendre_polynomials.cpp:32-35 eval_der *)
Definition legendre_eval_der (G : R -> R) (n k : nat) (X : R) : res R := jacobi_eval_der G n k 0 0 X.

(** elements/legendre_polynomials.cpp:48-56 eval_approx; [c] is the coefficient array *)
Definition legendre_eval_approx (N : nat) (c : nat -> res R) (X : R) : res R :=
  loop N (fun j s => do cj <- c j; do p <- legendre_eval j X; Ok (s + cj * p)) 0.

(** elements/legendre_polynomials.cpp:69-78 eval_der_approx *)
Definition legendre_eval_der_approx (G : R -> R) (N k : nat) (c : nat -> res R) (X : R) : res R :=
  loop N (fun j s => do cj <- c j; do p <- legendre_eval_der G j k X; Ok (s + cj * p)) 0.

(** elements/legendre_element.cpp:5-16 constructor: N = order + 1, rad = (N, N, N) *)
Definition lg_size (order : nat) : nat := (order + 1)%nat.

(** base_10_to_mixed_radix(Nd, rad, I, ijk) as called at legendre_element.cpp:33, :60 *)
Definition lg_ijk (n : nat) (I : N) : res (nat * nat * nat) :=
  let r := N.of_nat n in
  do ijk <- base_10_to_mixed_radix [r; r; r] I;
  do i <- get ijk 0; do j <- get ijk 1; do k <- get ijk 2;
  Ok (N.to_nat i, N.to_nat j, N.to_nat k).

(** elements/legendre_element.cpp:30-42 eval_basis *)
Definition lg_eval_basis (order : nat) (I : N) (x y z : R) : res R :=
  do (i, j, k) <- lg_ijk (lg_size order) I;
  do pi <- legendre_eval i x; do pj <- legendre_eval j y; do pk <- legendre_eval k z;
  Ok (pi * pj * pk).

(** elements/legendre_element.cpp:56-77 eval_grad_basis *)
Definition lg_eval_grad_basis (G : R -> R) (order : nat) (I : N) (x y z : R) : res (R * R * R) :=
  do (i, j, k) <- lg_ijk (lg_size order) I;
  do pi <- legendre_eval i x; do pj <- legendre_eval j y; do pk <- legendre_eval k z;
  do di <- legendre_eval_der G i 1 x; do dj <- legendre_eval_der G j 1 y; do dk <- legendre_eval_der G k 1 z;
  Ok (di * pj * pk, pi * dj * pk, pi * pj * dk).

(** elements/legendre_element.cpp:101-115 eval_approx; [C] is the work array of 2N entries, whose final
    contents are returned *)
Definition lg_eval_approx (order : nat) (c : nat -> res R) (x y z : R) (C : nat -> res R)
  : res (R * (nat -> res R)) :=
  let N := lg_size order in
  do C1 <- loop N (fun k C =>
      do C' <- loop N (fun j C =>
          do v <- legendre_eval_approx N (shift (j * N + k * N * N) c) x;
          Ok (fset C j (Ok v))) C;
      do v <- legendre_eval_approx N C' y;
      Ok (fset C' (N + k)%nat (Ok v))) C;
  do r <- legendre_eval_approx N (shift N C1) z;
  Ok (r, C1).

(** the choice between eval_der_approx (order 1) and eval_approx made at legendre_element.cpp:139, :147, :155 *)
Definition lg_collapse (G : R -> R) (d : bool) (N : nat) (c : nat -> res R) (X : R) : res R :=
  if d then legendre_eval_der_approx G N 1 c X else legendre_eval_approx N c X.

(** elements/legendre_element.cpp:132-161 eval_grad_approx: pass [l] of the outer loop *)
Definition lg_grad_comp (G : R -> R) (order l : nat) (c : nat -> res R) (x y z : R) (C : nat -> res R)
  : res (R * (nat -> res R)) :=
  let N := lg_size order in
  do C1 <- loop N (fun k C =>
      do C' <- loop N (fun j C =>
          do v <- lg_collapse G (Nat.eqb l 0) N (shift (j * N + k * N * N) c) x;
          Ok (fset C j (Ok v))) C;
      do v <- lg_collapse G (Nat.eqb l 1) N C' y;
      Ok (fset C' (N + k)%nat (Ok v))) C;
  do r <- lg_collapse G (Nat.eqb l 2) N (shift N C1) z;
  Ok (r, C1).
Definition lg_eval_grad_approx (G : R -> R) (order : nat) (c : nat -> res R) (x y z : R) (C : nat -> res R)
  : res ((R * R * R) * (nat -> res R)) :=
  do (g0, C0) <- lg_grad_comp G order 0 c x y z C;
  do (g1, C1) <- lg_grad_comp G order 1 c x y z C0;
  do (g2, C2) <- lg_grad_comp G order 2 c x y z C1;
  Ok ((g0, g1, g2), C2).
