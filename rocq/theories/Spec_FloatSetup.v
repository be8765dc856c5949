(** Vocabulary for the setup of examples/average in rounded arithmetic (independent of the model functions). *)
From Coq Require Import Reals List Arith.
Import ListNotations.
Require Import Verif.Spec_Patch Verif.Spec_Full Verif.Spec_Average Verif.Model_Average Verif.Spec_Float.
Local Open Scope nat_scope.

(** node n is a corner of a boundary side with its exact centre within tol of the surface *)
Definition near_within (N : nat -> nat -> nat) (X : nat -> nat -> R) (nc : nat) (pt : nat -> nat -> nat) (tag : nat) (v tol : R) (n : nat) : Prop :=
  exists c t l, boundary_side nc pt c t /\ tag <= 4 /\ (surface_distance tag v (face_centre N X c t) <= tol)%R /\ on_side t l /\ N c l = n.

(** error bound of the distance of a point from the origin or the z-axis: the point has coordinates of at most M in
    absolute value, known up to E *)
Definition radius_err (u M E : R) : R := (2 * E + 2 * gamma u 4 * (M + E))%R.

(** region f covers a point with these coordinates, this distance rc from the z-axis and rs from the origin *)
Definition covers_at (f : fill) (x y z rc rs : R) : Prop :=
  let box := (fl_x1 f <= x <= fl_x2 f /\ fl_y1 f <= y <= fl_y2 f /\ fl_z1 f <= z <= fl_z2 f)%R in
  let cylinder := (fl_r1 f <= rc <= fl_r2 f)%R in let sphere := (fl_r1 f <= rs <= fl_r2 f)%R in
  match fl_volume f with 0 => True | 1 => box \/ cylinder \/ sphere | 2 => cylinder \/ sphere | 3 => sphere | _ => False end.
