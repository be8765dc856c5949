(** Vocabulary for the statements about 32-bit ints. *)
From Coq Require Import Reals List Arith ZArith.
Require Import Verif.NatSum Verif.Base Verif.Spec_High Verif.Spec_Full Verif.Model_Full Verif.Model_Vtk.
Import ListNotations.
Local Open Scope nat_scope.

(** the largest int *)
Definition INT_MAX : Z := (2 ^ 31 - 1)%Z.

(** the run with ints does what the run with unbounded integers does, or overflows *)
Definition same_or_overflow {A} (r32 r : res A) : Prop := r32 = r \/ r32 = Err Overflow.

(** all coordinates lie in the box with corner lo and edges L *)
Definition spans (nn : nat) (X : nat -> nat -> R) (lo L : nat -> R) : Prop :=
  forall n d, n < nn -> d < 3 -> (lo d <= X n d <= lo d + L d)%R.

(** n^3 equal cubes filling the unit cube: coordinates between 0 and 1, one element at every position *)
Definition unit_cube (n ne nn p : nat) (N : nat -> nat -> nat) (X : nat -> nat -> R) (E : nat -> nat -> Z) : Prop :=
  ne = n * n * n /\ spans nn X (fun _ => 0%R) (fun _ => 1%R) /\
  box_elements p ne N X (fun _ => 0%R) (fun _ => / INR n)%R E /\
  (forall e d, e < ne -> d < 3 -> (0 <= E e d < Z.of_nat n)%Z) /\
  (forall q : nat -> nat, (forall d, d < 3 -> q d < n) -> exists e, e < ne /\ forall d, d < 3 -> E e d = Z.of_nat (q d)) /\
  (forall e e', e < ne -> e' < ne -> (forall d, d < 3 -> E e d = E e' d) -> e = e').

(** the finest such mesh that refine_mesh can refine at order p *)
Definition cube_limit (p : nat) : nat := List.nth p [116; 116; 58; 36; 21; 14] 0.

(** how many of the K*ni (item, position) pairs have node v *)
Definition uses (K ni : nat) (N : nat -> nat -> nat) (v : nat) : nat :=
  length (filter (fun q => Nat.eqb (N (q / K) (q mod K)) v) (seq 0 (ni * K))).

(** number of (item, position, item at the same node, position there) with two different items *)
Definition pair_count (K ni : nat) (N : nat -> nat -> nat) : nat :=
  NatSum.nsum ni (fun c => NatSum.nsum K (fun l =>
    length (filter (fun q => andb (Nat.eqb (N (q / K) (q mod K)) (N c l)) (negb (Nat.eqb (q / K) c))) (seq 0 (ni * K))))).
