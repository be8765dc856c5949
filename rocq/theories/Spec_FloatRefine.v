(** Vocabulary for mesh refinement in rounded arithmetic (independent of the model). *)
From Coq Require Import Reals ZArith.
Require Import Verif.Spec_Float.
Open Scope R_scope.

(** rounding as done by doubles without overflow and underflow: relative error at most u, rounded numbers are not
    changed, and rounding commutes with changing the sign and with doubling, and keeps the order *)
Definition double_like (u : R) (rnd : R -> R) : Prop :=
  0 <= u <= / 16 /\ rounds u rnd /\ (forall x, rnd (rnd x) = rnd x) /\ (forall x, rnd (- x) = - rnd x) /\
  (forall x, rnd (2 * x) = 2 * rnd x) /\ (forall x y, x <= y -> rnd x <= rnd y) /\ rnd 1 = 1.

(** t is more than eta away from every positive integer *)
Definition clear (eta t : R) : Prop := forall n : Z, (1 <= n)%Z -> eta < Rabs (t - IZR n).

(** lo and hi are the least and the greatest coordinates of the nodes, in each direction *)
Definition is_box (nn : nat) (X : nat -> nat -> R) (lo hi : nat -> R) : Prop :=
  forall i, (i < 3)%nat -> (forall n, (n < nn)%nat -> lo i <= X n i <= hi i) /\ (exists n, (n < nn)%nat /\ lo i = X n i) /\ (exists n, (n < nn)%nat /\ hi i = X n i).
