(** Vocabulary for the statements about the half-annulus example. *)
From Coq Require Import Reals Arith.
Require Import Verif.Spec_Lagrange Verif.Spec_High.
Local Open Scope R_scope.

(** inner radius 1/2, outer radius 5/2; angle from 0 to mpi, half of it in each of the two elements *)
Definition ann_r (p j : nat) : R := 1 / 2 + 2 * INR j / INR p.
Definition ann_theta (mpi : R) (p e i : nat) : R := (INR e + INR i / INR p) * (mpi / 2).

(** position of vertex (i,j,k) of element e: angle, radius and height equispaced *)
Definition ann_pos (mpi : R) (p e i j k d : nat) : R :=
  match d with
  | O => - ann_r p j * cos (ann_theta mpi p e i)
  | S O => ann_r p j * sin (ann_theta mpi p e i)
  | _ => vertex1 p k
  end.

(** vertices (e,i,j,k) and (e',i',j',k') are the same point of the half annulus: the same vertex, or
    opposite vertices of the face between the elements *)
Definition same_vertex (p e i j k e' i' j' k' : nat) : Prop :=
  j = j' /\ k = k' /\ ((e = e' /\ i = i') \/ (e = 0 /\ i = p /\ e' = 1 /\ i' = 0) \/ (e = 1 /\ i = 0 /\ e' = 0 /\ i' = p))%nat.

(** the half annulus itself, element e: reference coordinates x (angle), y (radius), z (height) *)
Definition ann_map (mpi : R) (e d : nat) (x y z : R) : R :=
  match d with
  | O => - (3 / 2 + y) * cos ((INR e + (x + 1) / 2) * (mpi / 2))
  | S O => (3 / 2 + y) * sin ((INR e + (x + 1) / 2) * (mpi / 2))
  | _ => z
  end.

(** s is the slope, at vertex i, of the polynomial of degree p through the points (vertex m, sin (angle from
    vertex i to vertex m)) *)
Definition chord_slope (mpi : R) (p i : nat) (s : R) : Prop :=
  derivable_pt_lim (interp (p + 1) (vertex1 p) (fun m => sin ((INR m - INR i) / INR p * (mpi / 2)))) (vertex1 p i) s.
