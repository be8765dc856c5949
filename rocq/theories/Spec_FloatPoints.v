(** Vocabulary for the point distributions in rounded arithmetic (independent of the model). *)
From Coq Require Import Reals.
Open Scope R_scope.

(** a sine routine for arguments up to B: odd, increasing, in [-1,1], error at most v *)
Definition close_sine (v B : R) (sine : R -> R) : Prop :=
  (forall x, Rabs x <= B -> sine (- x) = - sine x /\ Rabs (sine x) <= 1 /\ Rabs (sine x - sin x) <= v) /\
  (forall x y, - B <= x -> x <= y -> y <= B -> sine x <= sine y).
