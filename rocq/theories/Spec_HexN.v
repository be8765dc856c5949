(** Specification vocabulary for the arbitrary-order elements (independent of the model). *)
From Coq Require Import List Arith Reals.
Require Import Verif.Base Verif.RSum Verif.Spec_Lagrange Verif.Model_HexN.
Local Open Scope nat_scope.

(** nodes and vertices per direction of an order-p element, and the node index of the a-th vertex *)
Definition nodes_1d (p : nat) : nat := if p =? 0 then 2 else 2 * p + 1.
Definition verts_1d (p : nat) : nat := if p =? 0 then 2 else p + 1.
Definition vert_at (p a : nat) : nat := if p =? 0 then a else 2 * a.
(** 1D coordinate of the a-th vertex when the 1D nodes are [lob] *)
Definition vert_coord (p : nat) (lob : list R) (a : nat) : R := nth (vert_at p a) lob 0%R.
(** position of grid point (i,j,k) in an n x n x n array, i fastest *)
Definition gid (n i j k : nat) : nat := i + j * n + k * n * n.
(** triple sum over a grid *)
Definition sum3 (n : nat) (f : nat -> nat -> nat -> R) : R := rsum n (fun k => rsum n (fun j => rsum n (fun i => f i j k))).

(** 2D tensor basis function and its gradient *)
Definition phi2 (n : nat) (Z : nat -> R) (i j : nat) (x y : R) : R := (ell n Z i x * ell n Z j y)%R.
Definition is_grad2 (F : R -> R -> R) (x y : R) (gx gy : R) : Prop :=
  derivable_pt_lim (fun t => F t y) x gx /\ derivable_pt_lim (fun t => F x t) y gy.

(** the first [n] entries of an array hold the values Z *)
Definition holds (n : nat) (vs : list (option R)) (Z : nat -> R) : Prop := forall i, i < n -> getu vs i = Ok (Z i).

(** the caller's QuadN arrays are large enough for N x N nodes *)
Definition quad_room (N : nat) (w : quad_work) : Prop :=
  N * N * 2 <= length (qw_nodes w) /\ N <= length (qw_val1 w) /\ N <= length (qw_dval1 w) /\
  N * N * 2 <= length (qw_val2 w) /\ N * N * 2 <= length (qw_dval2 w) /\ N * N <= length (qw_basis w) /\ N * N * 2 <= length (qw_part w).
