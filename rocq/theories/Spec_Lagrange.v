(** Specification of Lagrange interpolation, independent of the model. *)
From Coq Require Import Reals Arith.
Require Import Verif.RSum.
Open Scope R_scope.

(** vertices are pairwise distinct *)
Definition distinct (N : nat) (Z : nat -> R) : Prop :=
  forall i j, (i < N)%nat -> (j < N)%nat -> i <> j -> Z i <> Z j.

(** i-th Lagrange basis polynomial on vertices Z_0..Z_{N-1} *)
Definition ell (N : nat) (Z : nat -> R) (i : nat) (x : R) : R :=
  rprod N (fun j => if Nat.eqb j i then 1 else (x - Z j) / (Z i - Z j)).

(** interpolating polynomial with coefficients c *)
Definition interp (N : nat) (Z c : nat -> R) (x : R) : R :=
  rsum N (fun i => c i * ell N Z i x).

(** barycentric weights: w are the weights of vertices Z *)
Definition weights_of (N : nat) (Z w : nat -> R) : Prop :=
  forall i, (i < N)%nat ->
    w i * rprod N (fun k => if Nat.eqb k i then 1 else Z i - Z k) = 1.

(** the tolerance of almost_equal: 2 * DBL_EPSILON *)
Definition tol : R := 2 / 2 ^ 52.

(** vertices pairwise at least [tol] apart; a coordinate that is a vertex or at least [tol]
    away from every vertex *)
Definition separated (N : nat) (Z : nat -> R) : Prop :=
  forall i j, (i < N)%nat -> (j < N)%nat -> i <> j -> tol <= Rabs (Z i - Z j).
Definition clean (N : nat) (Z : nat -> R) (x : R) : Prop :=
  (exists i, (i < N)%nat /\ x = Z i) \/ (forall i, (i < N)%nat -> tol <= Rabs (Z i - x)).

(** tensor-product basis function (i,j,k) and the field with coefficients c, i fastest *)
Definition phi3 (N : nat) (Z : nat -> R) (i j k : nat) (x y z : R) : R :=
  ell N Z i x * ell N Z j y * ell N Z k z.
Definition field3 (N : nat) (Z c : nat -> R) (x y z : R) : R :=
  rsum N (fun k => rsum N (fun j => rsum N (fun i =>
    c (i + j * N + k * N * N)%nat * phi3 N Z i j k x y z))).

(** (gx,gy,gz) is the gradient of F at (x,y,z): the three partial derivatives *)
Definition is_grad (F : R -> R -> R -> R) (x y z : R) (g : R * R * R) : Prop :=
  let '(gx, gy, gz) := g in
  derivable_pt_lim (fun t => F t y z) x gx /\
  derivable_pt_lim (fun t => F x t z) y gy /\
  derivable_pt_lim (fun t => F x y t) z gz.

(** n-th derivative (n = 1, 2, 3): iterated limits of difference quotients *)
Definition is_der1 (f : R -> R) (x d : R) : Prop := derivable_pt_lim f x d.
Definition is_der2 (f : R -> R) (x d : R) : Prop :=
  exists f', (forall t, derivable_pt_lim f t (f' t)) /\ derivable_pt_lim f' x d.
Definition is_der3 (f : R -> R) (x d : R) : Prop :=
  exists f' f'', (forall t, derivable_pt_lim f t (f' t)) /\
                 (forall t, derivable_pt_lim f' t (f'' t)) /\ derivable_pt_lim f'' x d.
