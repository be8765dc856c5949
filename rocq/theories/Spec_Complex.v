(** Specification vocabulary for the Complex instantiation: complex counterparts of Spec_Lagrange.v and
    what the complex-step method promises; independent of the model. *)
From Coq Require Import Reals Arith.
From Coquelicot Require Import Complex.
Require Import Verif.Base Verif.RSum Verif.CSum Verif.Spec_Lagrange.
Open Scope R_scope.
Open Scope C_scope.

(** complex derivative: limit of the difference quotients *)
Definition is_cder (f : C -> C) (x d : C) : Prop :=
  forall eps, (0 < eps)%R -> exists delta, (0 < delta)%R /\
    forall h : C, h <> RtoC 0 -> (Cmod h < delta)%R -> (Cmod ((f (x + h) - f x) / h - d)%C < eps)%R.

(** k-th complex derivative *)
Fixpoint nth_cder (k : nat) (F : C -> C) (X D : C) : Prop :=
  match k with
  | O => F X = D
  | S k' => exists G, (forall T, is_cder F T (G T)) /\ nth_cder k' G X D
  end.

(** vertices are pairwise distinct *)
Definition cdistinct (N : nat) (Z : nat -> C) : Prop :=
  forall i j, (i < N)%nat -> (j < N)%nat -> i <> j -> Z i <> Z j.

(** i-th Lagrange basis polynomial and interpolating polynomial over C *)
Definition cell (N : nat) (Z : nat -> C) (i : nat) (x : C) : C :=
  cprod N (fun j => if Nat.eqb j i then RtoC 1 else (x - Z j) / (Z i - Z j)).
Definition cinterp (N : nat) (Z c : nat -> C) (x : C) : C :=
  csum N (fun i => c i * cell N Z i x).

(** barycentric weights *)
Definition cweights_of (N : nat) (Z w : nat -> C) : Prop :=
  forall i, (i < N)%nat ->
    w i * cprod N (fun k => if Nat.eqb k i then RtoC 1 else Z i - Z k) = RtoC 1.

(** a coordinate is recognised as vertex when their real parts differ by less than [tol]; vertices whose
    real parts are [tol] apart; a coordinate that is exactly a vertex or that is not recognised as one *)
Definition cseparated (N : nat) (Z : nat -> C) : Prop :=
  forall i j, (i < N)%nat -> (j < N)%nat -> i <> j -> (tol <= Rabs (Re (Z i) - Re (Z j)))%R.
Definition cclean (N : nat) (Z : nat -> C) (x : C) : Prop :=
  (exists i, (i < N)%nat /\ x = Z i) \/ (forall i, (i < N)%nat -> (tol <= Rabs (Re (Z i) - Re x))%R).

(** tensor-product basis function (i,j,k) and the field with coefficients c, i fastest *)
Definition cphi3 (N : nat) (Z : nat -> C) (i j k : nat) (x y z : C) : C :=
  cell N Z i x * cell N Z j y * cell N Z k z.
Definition cfield3 (N : nat) (Z c : nat -> C) (x y z : C) : C :=
  csum N (fun k => csum N (fun j => csum N (fun i =>
    c (i + j * N + k * N * N)%nat * cphi3 N Z i j k x y z))).

(** the three complex partial derivatives *)
Definition is_cgrad (F : C -> C -> C -> C) (x y z : C) (g : C * C * C) : Prop :=
  let '(gx, gy, gz) := g in
  is_cder (fun t => F t y z) x gx /\ is_cder (fun t => F x t z) y gy /\ is_cder (fun t => F x y t) z gz.

(** 3 x 3 matrices stored row by row: determinant, and being inverse to each other *)
Definition cdet3 (J : nat -> C) : C :=
  J 0%nat * J 4%nat * J 8%nat + J 1%nat * J 5%nat * J 6%nat + J 2%nat * J 3%nat * J 7%nat
  - J 2%nat * J 4%nat * J 6%nat - J 1%nat * J 3%nat * J 8%nat - J 0%nat * J 5%nat * J 7%nat.
Definition cinverse3 (J Ji : nat -> C) : Prop := forall i j, (i < 3)%nat -> (j < 3)%nat ->
  csum 3 (fun k => J (3 * i + k)%nat * Ji (3 * k + j)%nat) = (if Nat.eqb i j then RtoC 1 else RtoC 0) /\
  csum 3 (fun k => Ji (3 * i + k)%nat * J (3 * k + j)%nat) = (if Nat.eqb i j then RtoC 1 else RtoC 0).

(** sum over a tensor product of n functions per direction, i fastest *)
Definition ctensor_sum (n : nat) (c fx fy fz : nat -> C) : C :=
  csum n (fun k => csum n (fun j => csum n (fun i => c (i + j * n + k * n * n)%nat * (fx i * fy j * fz k)))).

(** real data seen as complex data *)
Definition cv (f : nat -> R) : nat -> C := fun i => RtoC (f i).

(** f and F are the same polynomial with real coefficients, of degree < n, on R and on C *)
Definition same_poly (n : nat) (f : R -> R) (F : C -> C) : Prop :=
  exists a : nat -> R, (forall x, f x = rsum n (fun k => (a k * x ^ k)%R)) /\
                       (forall X, F X = csum n (fun k => RtoC (a k) * cpow X k)).

(** the complex-step method: [v h] is what the program returns for the coordinate [x + ih]; the imaginary
    part over the step is the derivative [d] up to an error of second order, the real part is the value *)
Definition complex_step (v : R -> C) (x0 d : R) : Prop :=
  exists K, forall h, h <> 0%R -> (Rabs h <= 1)%R ->
    (Rabs (Im (v h) / h - d) <= K * h ^ 2)%R /\ (Rabs (Re (v h) - x0) <= K * h ^ 2)%R.

(** outcomes: the first component; the same outcome with its value converted *)
Definition value {A B} (r : res (A * B)) : res A := match r with Ok (a, _) => Ok a | Err e => Err e end.
Definition rmap {A B} (f : A -> B) (r : res A) : res B := match r with Ok a => Ok (f a) | Err e => Err e end.
Definition RtoC3 (g : R * R * R) : C * C * C := let '(a, b, c) := g in (RtoC a, RtoC b, RtoC c).

(** complex step with the program [prog] at [x]: it succeeds for every step, and its values behave as
    [complex_step] says for the value [v] and the derivative [d]; and where the imaginary part over the step
    is the derivative exactly, whatever the step *)
Definition step_of (prog : C -> res C) (x v d : R) : Prop :=
  exists w : R -> C, (forall h, h <> 0%R -> prog (x, h) = Ok (w h)) /\ complex_step w v d.
Definition exact_step_of (prog : C -> res C) (x d : R) : Prop :=
  forall h, h <> 0%R -> exists w, prog (x, h) = Ok w /\ (Im w / h)%R = d.

(** work arrays and results with them, with real contents seen as complex contents *)
Definition cvr (c : nat -> res R) : nat -> res C := fun i => rmap RtoC (c i).
Definition with_work {A B} (f : A -> B) (p : A * (nat -> res R)) : B * (nat -> res C) := (f (fst p), cvr (snd p)).
