(** Vocabulary for determinants, inverses and volumes in rounded arithmetic (independent of the model). *)
From Coq Require Import Reals Arith ZArith.
From Flocq Require Import Core.
Require Import Verif.RSum Verif.Spec_Mat Verif.Spec_Float Verif.Det.
Open Scope R_scope.

(** the expansion of the determinant along the first column with absolute values instead of signs *)
Fixpoint perm (n : nat) (A : mat) : R :=
  match n with O => 1 | S m => rsum n (fun i => Rabs (A i 0%nat) * perm m (minor0 A i)) end.
(** A without row i and column j *)
Definition without (A : mat) (i j : nat) : mat := fun r c => A (skip i r) (skip j c).
(** the matrix of the sums of absolute values behind a Jacobian J_ij = sum_v P v j * X v i *)
Definition jac_abs (n : nat) (P X : mat) : mat := fun i j => rsum n (fun v => Rabs (P v j) * Rabs (X v i)).
(** the rounding keeps the order *)
Definition monotone (rnd : R -> R) : Prop := forall x y, x <= y -> rnd x <= rnd y.
(** x is a multiple of 2^e and at most M grid steps away from 0 *)
Definition on_grid (e : Z) (M : Z) (x : R) : Prop := exists n : Z, (Z.abs n <= M)%Z /\ x = IZR n * bpow radix2 e.
