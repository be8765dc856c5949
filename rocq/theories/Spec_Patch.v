(** Specification vocabulary for patches and boundary patches. *)
From Coq Require Import List Arith Bool.
Import ListNotations.

(** side [q] (= 6*cell + local side) is the first one carrying its key *)
Definition first_with_key (keys : list nat) (q : nat) : bool :=
  forallb (fun q' => negb (Nat.eqb (nth q' keys 0) (nth q keys 0))) (seq 0 q).

(** number of sides before [q] that are first with their key *)
Definition firsts_before (keys : list nat) (q : nat) : nat :=
  length (filter (first_with_key keys) (seq 0 q)).

(** the sides carrying key [k], in increasing order *)
Definition sides_with_key (keys : list nat) (k : nat) : list nat :=
  filter (fun q => Nat.eqb (nth q keys 0) k) (seq 0 (length keys)).

(** local corners of the six sides of a cell whose corner l sits at ((l/1) mod 2, (l/2) mod 2, (l/4) mod 2):
    side 2d lies at coordinate d = 0, side 2d+1 at coordinate d = 1 *)
Definition corner_coord (l d : nat) : nat := (l / 2 ^ d) mod 2.
Definition on_side (s l : nat) : Prop := l < 8 /\ corner_coord l (s / 2) = s mod 2.

(** the four corners of side s in order around the side (C61_side_corners: exactly the corners on the side, each
    next one along an edge) *)
Definition side_corner (s k : nat) : nat :=
  nth k (nth s [[0; 2; 6; 4]; [1; 3; 7; 5]; [0; 4; 5; 1]; [2; 6; 7; 3]; [0; 1; 3; 2]; [4; 5; 7; 6]] []) 0.
