(** Volume of a trilinear hexahedron, defined by calculus (independent of the model):
    the iterated integral over [-1,1]^3 of the determinant of the matrix of partial derivatives of the
    trilinear map.  Vertex l of the cell sits at reference coordinate -1 or +1 in direction d according
    to bit d of l (i-fastest order). *)
From Coq Require Import Reals Arith.
From Coquelicot Require Import Coquelicot.
Require Import Verif.RSum Verif.Spec_Patch.
Open Scope R_scope.

Definition hat (bit : nat) (t : R) : R := if Nat.eqb bit 0 then (1 - t) / 2 else (1 + t) / 2.
(** coordinate d of the image of (x,y,z); V l d is coordinate d of vertex l *)
Definition hexmap (V : nat -> nat -> R) (d : nat) (x y z : R) : R :=
  rsum 8 (fun l => hat (corner_coord l 0) x * hat (corner_coord l 1) y * hat (corner_coord l 2) z * V l d).
Definition dx V d x y z := Derive (fun t => hexmap V d t y z) x.
Definition dy V d x y z := Derive (fun t => hexmap V d x t z) y.
Definition dz V d x y z := Derive (fun t => hexmap V d x y t) z.
(** determinant of the matrix whose rows are the gradients of the three coordinates *)
Definition hexdet (V : nat -> nat -> R) (x y z : R) : R :=
    dx V 0 x y z * (dy V 1 x y z * dz V 2 x y z - dz V 1 x y z * dy V 2 x y z)
  - dy V 0 x y z * (dx V 1 x y z * dz V 2 x y z - dz V 1 x y z * dx V 2 x y z)
  + dz V 0 x y z * (dx V 1 x y z * dy V 2 x y z - dy V 1 x y z * dx V 2 x y z).
Definition hex_volume (V : nat -> nat -> R) : R :=
  RInt (fun x => RInt (fun y => RInt (fun z => hexdet V x y z) (-1) 1) (-1) 1) (-1) 1.
