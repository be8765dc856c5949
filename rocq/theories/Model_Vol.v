(** Model of geometry/geometry.cpp get_vol_hex (get_vol_jacobi is in Model_Jac).
    Simplifications: double is R; connectivity and coordinates are total functions; the scratch arrays
    start with arbitrary content [x0 y0 z0] (they are uninitialised in the code). *)
From Coq Require Import Reals List Arith.
Import ListNotations.
Require Import Verif.Base Verif.RBase Verif.Model_Geom.
Open Scope R_scope.

(** geometry/geometry.cpp:216-223 *)
Definition c_con (l : nat) : nat := nth l [0; 1; 3; 2; 4; 5; 7; 6]%nat 0%nat.

(** geometry/geometry.cpp:240-253: fill one scratch array and accumulate the sum (which reads entry
    [l], not entry [c_con l]) *)
Definition gather (X : nat -> nat -> R) (N : nat -> nat -> nat) (cell dim : nat) (x0 : nat -> R) : (nat -> R) * R :=
  fold_up 8 (fun l '(x, s) => let x' := fset x (c_con l) (X (N cell l) dim) in (x', s + x' l)) (x0, 0).

(** geometry/geometry.cpp:262-270 *)
Definition vol_formula (x y z : nat -> R) : R :=
  let twelth := 1 / 12 in
  ( x 1%nat*(y 3%nat*(-z 0%nat + z 2%nat) + y 4%nat*( z 0%nat - z 5%nat) + y 0%nat*(z 2%nat + z 3%nat - z 4%nat - z 5%nat) + y 6%nat*(-z 2%nat + z 5%nat) + y 5%nat*(z 0%nat - z 2%nat + z 4%nat - z 6%nat) + y 2%nat*(-z 0%nat - z 3%nat + z 5%nat + z 6%nat)) +
     x 7%nat*(y 0%nat*(-z 3%nat + z 4%nat) + y 6%nat*( z 2%nat + z 3%nat  - z 4%nat - z 5%nat) + y 2%nat*(z 3%nat - z 6%nat) + y 3%nat*(z 0%nat - z 2%nat + z 4%nat - z 6%nat) + y 5%nat*(-z 4%nat + z 6%nat) + y 4%nat*(-z 0%nat - z 3%nat + z 5%nat + z 6%nat)) +
     x 3%nat*(y 1%nat*( z 0%nat - z 2%nat) + y 7%nat*(-z 0%nat + z 2%nat  - z 4%nat + z 6%nat) + y 6%nat*(z 2%nat - z 7%nat) + y 2%nat*(z 0%nat + z 1%nat - z 6%nat - z 7%nat) + y 4%nat*(-z 0%nat + z 7%nat) + y 0%nat*(-z 1%nat - z 2%nat + z 4%nat + z 7%nat)) +
     x 5%nat*(y 0%nat*( z 1%nat - z 4%nat) + y 7%nat*( z 4%nat - z 6%nat) + y 2%nat*(-z 1%nat + z 6%nat) + y 1%nat*(-z 0%nat + z 2%nat - z 4%nat + z 6%nat) + y 4%nat*(z 0%nat + z 1%nat - z 6%nat - z 7%nat) + y 6%nat*(-z 1%nat - z 2%nat + z 4%nat + z 7%nat)) +
     x 6%nat*(y 1%nat*( z 2%nat - z 5%nat) + y 7%nat*(-z 2%nat - z 3%nat  + z 4%nat + z 5%nat) + y 5%nat*(z 1%nat + z 2%nat - z 4%nat - z 7%nat) + y 4%nat*(z 5%nat - z 7%nat) + y 3%nat*(-z 2%nat + z 7%nat) + y 2%nat*(-z 1%nat + z 3%nat - z 5%nat + z 7%nat)) +
     x 0%nat*(y 2%nat*( z 1%nat - z 3%nat) + y 7%nat*( z 3%nat - z 4%nat) + y 5%nat*(-z 1%nat + z 4%nat) + y 1%nat*(-z 2%nat - z 3%nat + z 4%nat + z 5%nat) + y 3%nat*(z 1%nat + z 2%nat - z 4%nat - z 7%nat) + y 4%nat*(-z 1%nat + z 3%nat - z 5%nat + z 7%nat)) +
     x 2%nat*(y 0%nat*(-z 1%nat + z 3%nat) + y 5%nat*( z 1%nat - z 6%nat) + y 1%nat*(z 0%nat + z 3%nat - z 5%nat - z 6%nat) + y 7%nat*(-z 3%nat + z 6%nat) + y 6%nat*(z 1%nat - z 3%nat + z 5%nat - z 7%nat) + y 3%nat*(-z 0%nat - z 1%nat + z 6%nat + z 7%nat)) +
     x 4%nat*(y 1%nat*(-z 0%nat + z 5%nat) + y 7%nat*( z 0%nat + z 3%nat  - z 5%nat - z 6%nat) + y 3%nat*(z 0%nat - z 7%nat) + y 0%nat*(z 1%nat - z 3%nat + z 5%nat - z 7%nat) + y 6%nat*(-z 5%nat + z 7%nat) + y 5%nat*(-z 0%nat - z 1%nat + z 6%nat + z 7%nat))) * twelth.

(** geometry/geometry.cpp:233-272, one cell: (volume, stored centre).  mesh.cell_coords(cell, d) first
    recomputes the mean and returns a reference, which is then assigned. *)
Definition vol_hex_cell X N cell (x0 y0 z0 : nat -> R) : R * (nat -> R) :=
  let '(x, sx) := gather X N cell 0 x0 in
  let '(y, sy) := gather X N cell 1 y0 in
  let '(z, sz) := gather X N cell 2 z0 in
  (vol_formula x y z, fun d => match d with 0%nat => sx * (1 / 8) | 1%nat => sy * (1 / 8) | _ => sz * (1 / 8) end).
