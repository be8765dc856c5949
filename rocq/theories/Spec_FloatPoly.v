(** Vocabulary for rounded polynomial evaluation (independent of the model). *)
From Coq Require Import Reals ZArith.
Open Scope R_scope.

(** integers of at most 53 bits are not changed by rounding *)
Definition exact_ints (rnd : R -> R) : Prop := forall z : Z, (Z.abs z < 2 ^ 53)%Z -> rnd (IZR z) = IZR z.
(** G returns factorials up to g relative roundings: the accuracy asked of std::tgamma at the positive integers *)
Definition gamma_accurate (u : R) (g : nat) (G : R -> R) : Prop :=
  forall n, exists t, (1 - u) ^ g <= t <= / (1 - u) ^ g /\ G (INR n + 1) = INR (fact n) * t.
