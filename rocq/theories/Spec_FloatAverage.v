(** Vocabulary for examples/average in rounded arithmetic (independent of the model). *)
From Coq Require Import Reals List Arith ZArith.
Import ListNotations.
Require Import Verif.Base Verif.Spec_Patch Verif.Spec_Full Verif.Model_Conn Verif.Model_Full Verif.Model_Average Verif.Spec_Average.
Local Open Scope nat_scope.

(** g 0 + ... + g (K-1), added one after the other from 0, every sum rounded *)
Fixpoint sumf (rnd : R -> R) (K : nat) (g : nat -> R) : R := match K with 0 => 0%R | S k => rnd (sumf rnd k g + g k)%R end.
(** the mean of K numbers as the sum of rounded K-th parts *)
Definition meanf (rnd : R -> R) (K : nat) (g : nat -> R) : R := sumf rnd K (fun j => rnd (g j / INR K)%R).
(** mean over the corners of cell c *)
Definition cell_meanf (rnd : R -> R) (N : nat -> nat -> nat) (f : nat -> R) (c : nat) : R := meanf rnd 8 (fun l => f (N c l)).
(** mean of a cell field over the cells A n around node n, in this order; 0 if there are none *)
Definition node_meanf (rnd : R -> R) (A : nat -> list nat) (g : nat -> R) (n : nat) : R := meanf rnd (length (A n)) (fun j => g (nth j (A n) 0)).
Definition smoothedf (rnd : R -> R) (N : nat -> nat -> nat) (A : nat -> list nat) (f : nat -> R) (n : nat) : R := node_meanf rnd A (cell_meanf rnd N f) n.
(** the mesh lists the cells around node n in the order A n *)
Definition lists_around (sv : solver) (A : nat -> list nat) : Prop :=
  forall n, n < cm_nodes (sv_mesh sv) -> presents (num_cells_in_node (cn_node_cells (sv_conn sv)) n) (cells_in_node (cn_node_cells (sv_conn sv)) n) (A n).
(** one cycle: 10 on set 0, else 0 on set 3, else the computed mean *)
Definition cycle_resultf (rnd : R -> R) (N : nat -> nat -> nat) (A : nat -> list nat) (L : nat -> list nat) (Q : nat -> nat -> nat) (f f' : nat -> R) (n : nat) : Prop :=
  (on_patches (L 0) Q n -> f' n = 10%R) /\
  (~ on_patches (L 0) Q n -> on_patches (L 3) Q n -> f' n = 0%R) /\
  (~ on_patches (L 0) Q n -> ~ on_patches (L 3) Q n -> f' n = smoothedf rnd N A f n).
(** the computed mean of the means of equal numbers x is at most x (at least x): eight corners, then k cells *)
Definition keeps_above (rnd : R -> R) (k : nat) (x : R) : Prop := (meanf rnd k (fun _ => meanf rnd 8 (fun _ => x)) <= x)%R.
Definition keeps_below (rnd : R -> R) (k : nat) (x : R) : Prop := (x <= meanf rnd k (fun _ => meanf rnd 8 (fun _ => x)))%R.
(** w >= 1 falls by at least 1 when smoothed, at every node that is on neither boundary set *)
Definition drops (N : nat -> nat -> nat) (nn nc : nat) (L : nat -> list nat) (Q : nat -> nat -> nat) (w : nat -> R) (C : R) : Prop :=
  forall n, n < nn -> (1 <= w n <= C)%R /\ (~ on_patches (L 0) Q n -> ~ on_patches (L 3) Q n -> (smoothed N nc w n + 1 <= w n)%R).
