(** Vocabulary for the statements about reading mesh files. *)
From Coq Require Import Reals List Arith ZArith.
Import ListNotations.
Require Import Verif.Spec_Quad Verif.Spec_High Verif.Spec_Box Verif.Spec_Full Verif.Model_Average Verif.Model_Full.
Local Open Scope nat_scope.

(** a file (after its eight header lines) that lists the nodes with coordinates X n d, and the hexahedra with
    vertices V c v in the finite element order; numbers count from 1; anything may follow *)
Definition lists_mesh (t : list token) (nn ne : nat) (X : nat -> nat -> R) (V : nat -> nat -> nat) : Prop :=
  exists rest, t = TInt (Z.of_nat nn) :: flat_map (fun d => map (fun n => TNum (X n d)) (seq 0 nn)) (seq 0 3) ++
    TWord :: TInt (Z.of_nat ne) :: flat_map (fun c => map (fun v => TInt (Z.of_nat (V c v) + 1)%Z) (seq 0 8)) (seq 0 ne) ++ rest.

(** corner a + 2b + 4c of cell e is the vertex at position (a,b,c) *)
Definition same_corners (ne : nat) (V N : nat -> nat -> nat) : Prop :=
  forall e v, e < ne -> v < 8 -> let '(a, b, c) := fe_corner v in N e (a + 2 * b + 4 * c) = V e v.

(** the one of three values that belongs to direction d *)
Definition tri3 {A} (a b c : A) (d : nat) : A := match d with 0 => a | 1 => b | _ => c end.

(** the coordinates of n+1 equispaced points from s over the length l survive being printed and read back *)
Definition exact_coords (fmt : R -> R) (s l : R) (n : nat) : Prop := forall i, i <= n -> (fmt (s + INR i * l / INR n) = s + INR i * l / INR n)%R.

(** an element of order p has sub1 p cells per direction, between its Lobatto points; coordinate of line q
    (counting from 0) of a direction with elements of width s starting at o *)
Definition line_at (p : nat) (o s : R) (q : nat) : R := (o + s * (INR (q / Spec_Full.sub1 p) + (lob (pts1 p) (q mod Spec_Full.sub1 p) + 1) / 2))%R.
