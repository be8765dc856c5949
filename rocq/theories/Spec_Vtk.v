(** Vocabulary for the statements about the exchange with VTK; independent of the model. *)
From Coq Require Import List Arith Ascii Bool.
Import ListNotations.

(** number of vertex (I, J, K) of an element of order p: first direction fastest *)
Definition vert (p I J K : nat) : nat := I + J * (p + 1) + K * ((p + 1) * (p + 1)).
Definition num_verts (p : nat) : nat := (p + 1) * (p + 1) * (p + 1).

(** pif numbers the vertices of an element of order p one to one from 0 *)
Definition numbers_vertices (p : nat) (pif : nat -> nat -> nat -> nat) : Prop :=
  (forall I J K, I <= p -> J <= p -> K <= p -> pif I J K < num_verts p) /\
  (forall I J K I' J' K', I <= p -> J <= p -> K <= p -> I' <= p -> J' <= p -> K' <= p -> pif I J K = pif I' J' K' -> I = I' /\ J = J' /\ K = K').

(** entry i of an array *)
Definition holds {A} (t : list (option A)) (i : nat) (v : A) : Prop := nth_error t i = Some (Some v).

(** The numbering of vtkLagrangeHexahedron (VTK's documentation: corners, edges, faces, interior), same
    order in all directions: an instance of [numbers_vertices], see Prop_Vtk. *)
Definition vtk_index (p i j k : nat) : nat :=
  let bi := (i =? 0) || (i =? p) in let bj := (j =? 0) || (j =? p) in let bk := (k =? 0) || (k =? p) in
  let q := p - 1 in
  let x (b y : nat) : nat := if b =? 0 then 0 else y in
  match bi, bj, bk with
  | true, true, true => (if i =? 0 then (if j =? 0 then 0 else 3) else (if j =? 0 then 1 else 2)) + x k 4
  | false, true, true => 8 + (i - 1) + x j (q + q) + x k (2 * (q + q))
  | true, false, true => 8 + (j - 1) + (if i =? 0 then 2 * q + q else q) + x k (2 * (q + q))
  | true, true, false => 8 + 4 * q + 4 * q + (k - 1) + q * (if i =? 0 then (if j =? 0 then 0 else 3) else (if j =? 0 then 1 else 2))
  | true, false, false => 8 + 12 * q + (j - 1) + q * (k - 1) + x i (q * q)
  | false, true, false => 8 + 12 * q + 2 * (q * q) + (i - 1) + q * (k - 1) + x j (q * q)
  | false, false, true => 8 + 12 * q + 4 * (q * q) + (i - 1) + q * (j - 1) + x k (q * q)
  | false, false, false => 8 + 12 * q + 6 * (q * q) + (i - 1) + q * ((j - 1) + q * (k - 1))
  end%bool.

(** equal up to upper/lower case of letters: c is d, or the capital of d *)
Definition same_letter (c d : ascii) : Prop := c = d \/ (65 <= nat_of_ascii c <= 90 /\ nat_of_ascii d = nat_of_ascii c + 32).
