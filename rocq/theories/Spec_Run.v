(** Vocabulary for the statements about runs of examples/average. *)
From Coq Require Import Reals List Arith.
Import ListNotations.
Local Open Scope nat_scope.

(** time after k cycles *)
Definition time_after (k : nat) : R := (INR k / 1000)%R.
(** K is the number of cycles of a run: it stops at the cycle limit or with the first cycle that reaches the final time *)
Definition run_length (tfinal : R) (stop K : nat) : Prop :=
  K <= stop /\ (forall k, 1 <= k < K -> (time_after k < tfinal)%R) /\ (K = stop \/ (1 <= K /\ (tfinal <= time_after K)%R)).
(** the cycles among 1 to K after which a dump is due: the multiples of v before the final time *)
Definition due (tfinal : R) (v K : nat) : list nat := filter (fun k => (k mod v =? 0) && (if Rlt_dec (time_after k) tfinal then true else false))%bool (seq 1 K).
(** the numbers of cycles done when the dumps are written: one at the start, the ones due, one at the end *)
Definition marks (tfinal : R) (v K : nat) : list nat := 0 :: due tfinal v K ++ [K].
