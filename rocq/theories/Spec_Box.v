(** Vocabulary for the statements about the box mesh; independent of the model. *)
From Coq Require Import List Arith ZArith.
Import ListNotations.

(** the number of the item at position (i, j, k) of a grid with a items in the first direction and b in
    the second, the first direction running fastest *)
Definition number (a b i j k : nat) : nat := i + j * a + k * (a * b).
(** points and cells of a box of ni x nj x nk cells *)
Definition point_of (ni nj : nat) : nat -> nat -> nat -> nat := number (ni + 1) (nj + 1).
Definition cell_of (ni nj : nat) : nat -> nat -> nat -> nat := number ni nj.

(** position of vertex v of a hexahedron in the finite element convention, relative to vertex 0 *)
Definition fe_corner (v : nat) : nat * nat * nat :=
  match v with 0 => (0, 0, 0) | 1 => (1, 0, 0) | 2 => (1, 1, 0) | 3 => (0, 1, 0)
             | 4 => (0, 0, 1) | 5 => (1, 0, 1) | 6 => (1, 1, 1) | _ => (0, 1, 1) end.

(** a face: its direction (0, 1, 2: normal to the first, second, third axis) and its lowest point *)
Record face : Type := Face { f_dir : nat; f_i : nat; f_j : nat; f_k : nat }.
Definition is_face (ni nj nk : nat) (f : face) : Prop :=
  match f_dir f with
  | 0 => f_i f <= ni /\ f_j f < nj /\ f_k f < nk
  | 1 => f_i f < ni /\ f_j f <= nj /\ f_k f < nk
  | 2 => f_i f < ni /\ f_j f < nj /\ f_k f <= nk
  | _ => False
  end.
(** the four points of a face, counter-clockwise seen from the positive side *)
Definition face_corner (d v : nat) : nat * nat * nat :=
  match d, v with
  | _, 0 => (0, 0, 0)
  | 0, 1 => (0, 1, 0) | 0, 2 => (0, 1, 1) | 0, _ => (0, 0, 1)
  | 1, 1 => (0, 0, 1) | 1, 2 => (1, 0, 1) | 1, _ => (1, 0, 0)
  | _, 1 => (1, 0, 0) | _, 2 => (1, 1, 0) | _, _ => (0, 1, 0)
  end.
(** the unit step in direction d *)
Definition step_i (d : nat) : nat := if d =? 0 then 1 else 0.
Definition step_j (d : nat) : nat := if d =? 1 then 1 else 0.
Definition step_k (d : nat) : nat := if d =? 2 then 1 else 0.

(** entry (r, c) of a table with w columns *)
Definition at_ {A} (w : nat) (t : list (option A)) (r c : nat) (v : A) : Prop := nth_error t (r * w + c) = Some (Some v).
(** every entry has been written *)
Definition all_set {A} (t : list (option A)) : Prop := forall i, i < length t -> exists v, nth_error t i = Some (Some v).
(** the points of face f are listed, in order, in row n of the table t *)
Definition shows (ni nj : nat) (t : list (option Z)) (n : nat) (f : face) : Prop :=
  forall v, v < 4 -> let '(a, b, c) := face_corner (f_dir f) v in at_ 4 t n v (Z.of_nat (point_of ni nj (f_i f + a) (f_j f + b) (f_k f + c))).
(** the cell on the positive side of a face, the cell on its negative side *)
Definition ahead (f : face) (c : nat * nat * nat) : Prop := c = (f_i f, f_j f, f_k f).
Definition behind (f : face) (c : nat * nat * nat) : Prop :=
  let '(i, j, k) := c in f_i f = i + step_i (f_dir f) /\ f_j f = j + step_j (f_dir f) /\ f_k f = k + step_k (f_dir f).
Definition is_cell (ni nj nk : nat) (c : nat * nat * nat) : Prop := let '(i, j, k) := c in i < ni /\ j < nj /\ k < nk.
Definition cell_number (ni nj : nat) (c : nat * nat * nat) : nat := let '(i, j, k) := c in cell_of ni nj i j k.
(** a point on the boundary of the box *)
Definition on_boundary (ni nj nk : nat) (p : nat * nat * nat) : Prop :=
  let '(i, j, k) := p in (i <= ni /\ j <= nj /\ k <= nk) /\ (i = 0 \/ i = ni \/ j = 0 \/ j = nj \/ k = 0 \/ k = nk).
