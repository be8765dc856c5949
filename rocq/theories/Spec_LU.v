(** Specification vocabulary for slam.cpp: row interchanges, triangular factors, linear systems. *)
From Coq Require Import Reals Arith.
Require Import Verif.RSum Verif.Spec_Mat.
Open Scope R_scope.

(** interchange rows p and q of A *)
Definition row_swap (p q : nat) (A : mat) : mat :=
  fun i => if Nat.eqb i p then A q else if Nat.eqb i q then A p else A i.
(** interchange rows 0 and indx 0, then 1 and indx 1, ..., then m-1 and indx (m-1) *)
Fixpoint apply_swaps (indx : nat -> nat) (m : nat) (A : mat) : mat :=
  match m with O => A | S k => row_swap k (indx k) (apply_swaps indx k A) end.
(** every recorded interchange is between rows below n, and never with an earlier row *)
Definition swaps_ok (n : nat) (indx : nat -> nat) : Prop := forall k, (k < n)%nat -> (k <= indx k < n)%nat.
(** sign of that row permutation: -1 for every proper interchange *)
Definition swap_sign (indx : nat -> nat) (m : nat) : R := rprod m (fun k => if Nat.eqb (indx k) k then 1 else -1).
(** unit lower and upper triangular factors packed in one matrix *)
Definition unit_lower (a : mat) : mat := fun i k => if Nat.ltb k i then a i k else if Nat.eqb k i then 1 else 0.
Definition upper (a : mat) : mat := fun i k => if Nat.leb i k then a i k else 0.
Definition row_zero (n : nat) (A : mat) (i : nat) : Prop := forall j, (j < n)%nat -> A i j = 0.
(** matrix-vector product *)
Definition mvec (n : nat) (A : mat) (x : nat -> R) : nat -> R := fun i => rsum n (fun k => A i k * x k).
Definition invertible (n : nat) (A : mat) : Prop := exists B, is_inverse n A B.
(** A with [t i] added to the i-th diagonal entry *)
Definition add_diag (A : mat) (t : nat -> R) : mat := fun i j => A i j + if Nat.eqb i j then t i else 0.
