(** Specification vocabulary for the reference element: grid positions of cells, corners and faces. *)
From Coq Require Import Arith List Sorted Reals.
Import ListNotations.

(** Bit [d] of a local corner/node number 0..7: its offset (0 or 1) in direction [d]. *)
Definition off (d l : nat) : nat := (l / 2 ^ d) mod 2.

(** The face of a cell at grid position (i,j,k) on its side [s] (0,1: xi minus/plus; 2,3: eta; 4,5: mu):
    the direction the face is normal to, and its position, counted in faces along that direction and
    in cells along the two others. *)
Definition side_face (s i j k : nat) : nat * (nat * nat * nat) :=
  (s / 2, (i + (if s =? 1 then 1 else 0), j + (if s =? 3 then 1 else 0), k + (if s =? 5 then 1 else 0))).

(** Coordinate [d] of a grid position. *)
Definition coord (d i j k : nat) : nat := match d with 0 => i | 1 => j | _ => k end.

(** A list is strictly increasing. *)
Definition increasing (l : list nat) : Prop := StronglySorted lt l.

(** Coordinate [d] of the quadrature point of side [s] of cell (i,j,k): the Lobatto point in the
    direction normal to the side, Legendre points in the two others. *)
Definition patch_coord (lob leg : list R) (s i j k d : nat) : R :=
  if d =? s / 2 then nth (coord d i j k + s mod 2) lob 0%R else nth (coord d i j k) leg 0%R.
(** Its weight: the product of the Legendre weights in the two tangential directions. *)
Definition patch_weight (legw : list R) (s i j k : nat) : R :=
  match (s / 2)%nat with
  | 0 => nth j legw 0 * nth k legw 0
  | 1 => nth i legw 0 * nth k legw 0
  | _ => nth i legw 0 * nth j legw 0
  end%R.

(** Share of the 1D node weights given to 1D corner [c] (two corners per interior node, one at each end). *)
Definition corner_share (n1 : nat) (w : list R) (c : nat) : R :=
  if c =? 0 then nth 0 w 0%R
  else if c =? 2 * (n1 - 1) - 1 then nth (n1 - 1) w 0%R
  else (nth ((c + 1) / 2) w 0 / 2)%R.
(** Sign of a unit normal pointing to the minus (0) or plus (1) side. *)
Definition sgn (b : nat) : R := if b =? 0 then (-1)%R else 1%R.
