(** Rounded arithmetic: specification vocabulary (independent of the model). *)
From Coq Require Import Reals ZArith.
From Flocq Require Import Core.
Open Scope R_scope.

(** [rnd] rounds every real with relative error at most [u] *)
Definition rounds (u : R) (rnd : R -> R) : Prop := forall x, exists d, Rabs d <= u /\ rnd x = x * (1 + d).
(** 53-bit binary numbers, round to nearest even, unbounded exponent *)
Definition binary64 (x : R) : R := round radix2 (FLX_exp 53) ZnearestE x.
(** the same with the exponent range of IEEE doubles at the small end (gradual underflow) *)
Definition ieee_double (x : R) : R := round radix2 (FLT_exp (-1074) 53) ZnearestE x.
(** unit roundoff of doubles *)
Definition u64 : R := / 2 ^ 53.
(** the usual constant for m accumulated roundings *)
Definition gamma (u : R) (m : nat) : R := INR m * u / (1 - INR m * u).
(** entrywise absolute value of a matrix *)
Definition mabs (A : nat -> nat -> R) : nat -> nat -> R := fun i j => Rabs (A i j).
