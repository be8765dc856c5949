(** Small matrices over the reals: specification vocabulary. *)
From Coq Require Import Reals Arith.
Require Import Verif.RSum.
Open Scope R_scope.

Definition mat := nat -> nat -> R.
Definition mmul (n : nat) (A B : mat) : mat := fun i j => rsum n (fun k => A i k * B k j).
Definition ident : mat := fun i j => if Nat.eqb i j then 1 else 0.
Definition mat_eq (n : nat) (A B : mat) : Prop :=
  forall i j, (i < n)%nat -> (j < n)%nat -> A i j = B i j.
(** B is the two-sided inverse of A *)
Definition is_inverse (n : nat) (A B : mat) : Prop :=
  mat_eq n (mmul n A B) ident /\ mat_eq n (mmul n B A) ident.

(** determinants by the sum over permutations *)
Definition det2 (A : mat) : R := A 0%nat 0%nat * A 1%nat 1%nat - A 0%nat 1%nat * A 1%nat 0%nat.
Definition det3 (A : mat) : R :=
    A 0%nat 0%nat * A 1%nat 1%nat * A 2%nat 2%nat
  + A 0%nat 1%nat * A 1%nat 2%nat * A 2%nat 0%nat
  + A 0%nat 2%nat * A 1%nat 0%nat * A 2%nat 1%nat
  - A 0%nat 2%nat * A 1%nat 1%nat * A 2%nat 0%nat
  - A 0%nat 1%nat * A 1%nat 0%nat * A 2%nat 2%nat
  - A 0%nat 0%nat * A 1%nat 2%nat * A 2%nat 1%nat.

(** row-major 3x3 storage *)
Definition of_row_major (n : nat) (a : nat -> R) : mat := fun i j => a (i * n + j)%nat.
