(** Vocabulary for the quadrature statements; independent of the model. *)
From Coq Require Import List Reals Arith.
Require Import Verif.RSum Verif.Spec_Poly.
Open Scope R_scope.

(** the polynomial with coefficients c 0, ..., c deg *)
Definition poly (deg : nat) (c : nat -> R) (t : R) : R := rsum (S deg) (fun k => c k * t ^ k).

(** the points x 0, ..., x (n-1) and weights w 0, ..., w (n-1) form a rule on [-1,1]: distinct points
    of the interval, symmetric about 0, positive weights, and every polynomial of degree <= deg is
    integrated with an error of at most tol times the sum of its absolute coefficients *)
Record quad_rule (n deg : nat) (tol : R) (x w : nat -> R) : Prop := {
  q_distinct : forall i j, (i < n)%nat -> (j < n)%nat -> i <> j -> x i <> x j;
  q_inside : forall i, (i < n)%nat -> -1 <= x i <= 1;
  q_symmetric : forall i, (i < n)%nat -> x (n - 1 - i)%nat = - x i /\ w (n - 1 - i)%nat = w i;
  q_positive : forall i, (i < n)%nat -> 0 < w i;
  q_exact : forall (c : nat -> R) I, integral (poly deg c) I ->
    Rabs (rsum n (fun i => w i * poly deg c (x i)) - I) <= tol * rsum (S deg) (fun k => Rabs (c k)) }.

Definition increasing (n : nat) (x : nat -> R) : Prop := forall i j, (i < j < n)%nat -> x i < x j.

(** a' is the array a after its first n entries have been set to v 0, ..., v (n-1) *)
Definition wrote (n : nat) (v : nat -> R) (a a' : list (option R)) : Prop :=
  length a' = length a /\ forall i, nth_error a' i = if (i <? n)%nat then Some (Some (v i)) else nth_error a i.

(** the m-th of the points of a d-dimensional array of points or weights, d columns, is v m *)
Definition entry (nd : nat) (a : list (option R)) (m d : nat) (v : R) : Prop := nth_error a (m * nd + d) = Some (Some v).

(** the accuracy of the tables: exact where they are written with square roots, otherwise limited by
    the number of digits (two Lobatto tables, 8 and 12 points, have wrong digits) *)
Definition lobatto_degree (n : nat) : nat := if (n =? 1)%nat then 1 else (2 * n - 3)%nat.
Definition lobatto_tol (n : nat) : R :=
  if (n <=? 6)%nat then 0 else if (n =? 8)%nat then 2 / 10 ^ 24 else if (n =? 12)%nat then 5 / 10 ^ 15 else 3 / 10 ^ 30.
Definition legendre_degree (n : nat) : nat := (2 * n - 1)%nat.
Definition legendre_tol (n : nat) : R := if (n =? 1)%nat then 0 else 3 / 10 ^ 30.
(** the same for the 1D rules inside the tensor rules *)
Definition line_gauss_tol (n : nat) : R := if (n <=? 5)%nat then 0 else 3 / 10 ^ 16.
Definition line_lobatto_tol (n : nat) : R := if (n <=? 3)%nat then 0 else 2 / 10 ^ 21.

(** a' is the array a (rows of nd entries) after rows 0, ..., n-1 have been set to v m 0, ..., v m (nd-1) *)
Definition wrote_rows (nd n : nat) (v : nat -> nat -> R) (a a' : list (option R)) : Prop :=
  length a' = length a /\
  forall i, nth_error a' i = if (i <? n * nd)%nat then Some (Some (v (i / nd) (i mod nd))%nat) else nth_error a i.

(** polynomials in two and three variables of degree <= deg in each *)
Definition poly2 (deg : nat) (c : nat -> nat -> R) (x y : R) : R :=
  rsum (S deg) (fun a => rsum (S deg) (fun b => c a b * (x ^ a * y ^ b))).
Definition poly3 (deg : nat) (c : nat -> nat -> nat -> R) (x y z : R) : R :=
  rsum (S deg) (fun a => rsum (S deg) (fun b => rsum (S deg) (fun e => c a b e * (x ^ a * y ^ b * z ^ e)))).
Definition norm2 (deg : nat) (c : nat -> nat -> R) : R := rsum (S deg) (fun a => rsum (S deg) (fun b => Rabs (c a b))).
Definition norm3 (deg : nat) (c : nat -> nat -> nat -> R) : R :=
  rsum (S deg) (fun a => rsum (S deg) (fun b => rsum (S deg) (fun e => Rabs (c a b e)))).
(** iterated integrals over the square and the cube *)
Definition integral2 (f : R -> R -> R) (v : R) : Prop :=
  exists g, (forall y, integral (fun x => f x y) (g y)) /\ integral g v.
Definition integral3 (f : R -> R -> R -> R) (v : R) : Prop :=
  exists g, (forall z, integral2 (fun x y => f x y z) (g z)) /\ integral g v.
(** the integer coordinate d of the m-th point of a grid with q points per direction, the first
    direction running fastest *)
Definition grid (q m d : nat) : nat := (m / q ^ d) mod q.

(** the arrays hold the symmetric 1D rule x, w with n points *)
Definition holds_rule (n : nat) (x w : nat -> R) (nodes wts : list (option R)) : Prop :=
  (forall i, (i < n)%nat -> nth_error nodes i = Some (Some (x i)) /\ nth_error wts i = Some (Some (w i))) /\
  (forall i, (i < n)%nat -> x (n - 1 - i)%nat = - x i /\ w (n - 1 - i)%nat = w i) /\
  (forall i, (i < n)%nat -> w i <> 0).
(** by how much the weights fail to add up to the length of the interval [x 0, x (n-1)] *)
Definition defect (n : nat) (x w : nat -> R) : R := Rabs (rsum n w - (x (n - 1)%nat - x 0%nat)).

(** s 0, ..., s (4p-1) split the weights of the 2p+1 points among the 4p corners: the first and last
    corner get the weight of the end points, the two corners next to an inner point share its weight,
    the total is conserved, and the two corners of every edge make up its length to within tol *)
Definition splits (p : nat) (tol : R) (x w s : nat -> R) : Prop :=
  s 0%nat = w 0%nat /\ s (4 * p - 1)%nat = w (2 * p)%nat /\
  (forall i, (0 < i < 2 * p)%nat -> s (2 * i - 1)%nat + s (2 * i)%nat = w i) /\
  (forall i, (i < 2 * p)%nat -> Rabs (s (2 * i)%nat + s (2 * i + 1)%nat - (x (S i) - x i)) <= tol) /\
  rsum (4 * p) s = rsum (2 * p + 1) w.
