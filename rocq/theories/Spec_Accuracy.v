(** Specification vocabulary for approximation errors (independent of the model). *)
From Coq Require Import List Reals Arith.
Require Import Verif.RSum Verif.Spec_Lagrange.
Open Scope R_scope.

(** F 1, ..., F n are the successive derivatives of F 0 on [a,b] *)
Definition derivatives_on (a b : R) (n : nat) (F : nat -> R -> R) : Prop :=
  forall k t, (k < n)%nat -> a <= t <= b -> derivable_pt_lim (F k) t (F (S k) t).
(** f has n derivatives on [a,b], the n-th at most M in absolute value *)
Definition smooth (a b : R) (n : nat) (M : R) (f : R -> R) : Prop :=
  exists F, (forall t, F 0%nat t = f t) /\ derivatives_on a b n F /\ (forall t, a <= t <= b -> Rabs (F n t) <= M).
(** f has, on the cube [a,b]^3, n derivatives along each axis, the n-th at most Mx, My, Mz *)
Definition smooth3 (a b : R) (n : nat) (Mx My Mz : R) (f : R -> R -> R -> R) : Prop :=
  (forall y z, a <= y <= b -> a <= z <= b -> smooth a b n Mx (fun t => f t y z)) /\
  (forall x z, a <= x <= b -> a <= z <= b -> smooth a b n My (fun t => f x t z)) /\
  (forall x y, a <= x <= b -> a <= y <= b -> smooth a b n Mz (fun t => f x y t)).
(** Lebesgue functions of the vertices: how much the interpolant (its slope) can amplify the data at x *)
Definition lebesgue (N : nat) (Z : nat -> R) (x : R) : R := rsum N (fun i => Rabs (ell N Z i x)).
Definition is_lebesgue_slope (N : nat) (Z : nat -> R) (x L : R) : Prop :=
  exists d, (forall i, (i < N)%nat -> derivable_pt_lim (ell N Z i) x (d i)) /\ L = rsum N (fun i => Rabs (d i)).
(** c holds the values of f at the vertices of the element, first coordinate fastest *)
Definition samples (N : nat) (Z : nat -> R) (f : R -> R -> R -> R) (c : nat -> R) : Prop :=
  forall i j k, (i < N)%nat -> (j < N)%nat -> (k < N)%nat -> c (i + j * N + k * N * N)%nat = f (Z i) (Z j) (Z k).
(** vertex i, and no other, is within the coincidence tolerance of X *)
Definition nearest_only (Nv : nat) (Z : nat -> R) (X : R) (i : nat) : Prop :=
  (i < Nv)%nat /\ Rabs (Z i - X) < tol /\ forall j, (j < Nv)%nat -> j <> i -> tol <= Rabs (Z j - X).
(** f has n derivatives on [-1,1], the n-th at most M; A bounds the sum of its first n Taylor coefficients at 0 *)
Definition smooth_line (n : nat) (M A : R) (f : R -> R) : Prop :=
  exists F, (forall t, F 0%nat t = f t) /\ derivatives_on (-1) 1 n F /\ (forall t, -1 <= t <= 1 -> Rabs (F n t) <= M) /\
    rsum n (fun k => Rabs (F k 0) / INR (fact k)) <= A.
(** the same along every line of the cube [-1,1]^3 that is parallel to an axis *)
Definition smooth_cube (n : nat) (M A : R) (f : R -> R -> R -> R) : Prop :=
  (forall y z, -1 <= y <= 1 -> -1 <= z <= 1 -> smooth_line n M A (fun t => f t y z)) /\
  (forall x z, -1 <= x <= 1 -> -1 <= z <= 1 -> smooth_line n M A (fun t => f x t z)) /\
  (forall x y, -1 <= x <= 1 -> -1 <= y <= 1 -> smooth_line n M A (fun t => f x y t)).
(** error of a rule of degree deg and accuracy tol for such functions *)
Definition rule_error_bound (deg : nat) (tol M A : R) : R := (4 + tol) * (M / INR (fact (S deg))) + tol * A.
(** a filled array holds the points one after the other, nd coordinates each: coordinate d of point m *)
Definition coordinate (nd : nat) (a : list (option R)) (m d : nat) : R := match nth_error a (m * nd + d) with Some (Some v) => v | _ => 0 end.
