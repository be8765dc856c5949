(** Vocabulary for the statements about runs of examples/average in rounded arithmetic (independent of the model). *)
From Coq Require Import Reals List Arith.
Import ListNotations.
Local Open Scope nat_scope.

(** time after k cycles: the rounded step added again and again, every sum rounded *)
Fixpoint clock (rnd : R -> R) (k : nat) : R := match k with 0 => 0%R | S k => rnd (clock rnd k + rnd (1 / 1000))%R end.

Section Clock.
  Variable T : nat -> R.
  (** K is the number of cycles of a run whose clock shows T k after k cycles: it stops at the cycle limit or with
      the first cycle that reaches the final time *)
  Definition run_length_at (tfinal : R) (stop K : nat) : Prop :=
    K <= stop /\ (forall k, 1 <= k < K -> (T k < tfinal)%R) /\ (K = stop \/ (1 <= K /\ (tfinal <= T K)%R)).
  (** the cycles among 1 to K after which a dump is due: the multiples of v before the final time *)
  Definition due_at (tfinal : R) (v K : nat) : list nat := filter (fun k => (k mod v =? 0) && (if Rlt_dec (T k) tfinal then true else false))%bool (seq 1 K).
  (** the numbers of cycles done when the dumps are written: one at the start, the ones due, one at the end *)
  Definition marks_at (tfinal : R) (v K : nat) : list nat := 0 :: due_at tfinal v K ++ [K].
End Clock.
