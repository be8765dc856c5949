(** Vocabulary for statements about polynomial families; independent of the model. *)
From Coq Require Import Reals Arith.
From Coquelicot Require Import Coquelicot.
Require Import Verif.RSum.
Open Scope R_scope.

(** d is the k-th derivative of f at x (all derivatives below k existing everywhere) *)
Fixpoint nth_der (k : nat) (f : R -> R) (x d : R) : Prop :=
  match k with
  | O => f x = d
  | S k' => exists g, (forall t, derivable_pt_lim f t (g t)) /\ nth_der k' g x d
  end.

(** f is a polynomial of degree exactly n *)
Definition degree_exactly (n : nat) (f : R -> R) : Prop :=
  exists c : nat -> R, c n <> 0 /\ forall x, f x = rsum (S n) (fun i => c i * x ^ i).

(** the properties of the gamma function that are used: std::tgamma on positive arguments *)
Definition gamma_like (G : R -> R) : Prop :=
  G 1 = 1 /\ forall x, 0 < x -> G x <> 0 /\ G (x + 1) = x * G x.

(** f integrates to v over [-1,1] *)
Definition integral (f : R -> R) (v : R) : Prop := is_RInt f (-1) 1 v.

(** triple tensor product sum with 1D functions fx, fy, fz and coefficients c, n per direction *)
Definition tensor_sum (n : nat) (c : nat -> R) (fx fy fz : nat -> R) : R :=
  rsum n (fun k => rsum n (fun j => rsum n (fun i => c (i + j * n + k * n * n)%nat * (fx i * fy j * fz k)))).
