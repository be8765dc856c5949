(** Independent specifications for common/common.cpp. *)
From Coq Require Import List NArith.
Import ListNotations.
Open Scope N_scope.

(** product of a radix list *)
Fixpoint prodN (b : list N) : N := match b with [] => 1 | x :: t => x * prodN t end.

(** positional (little-endian) value of digits [d] over radices [b] *)
Fixpoint positional (b d : list N) : N :=
  match b, d with
  | b0 :: bs, d0 :: ds => d0 + b0 * positional bs ds
  | _, _ => 0
  end.

(** every digit is below its radix, one digit per radix *)
Definition digits_ok (b d : list N) : Prop := Forall2 (fun r x => x < r) b d.
