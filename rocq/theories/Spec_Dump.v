(** Vocabulary for the statements about graphics dumps and the initial state of examples/average. *)
From Coq Require Import Reals List Arith ZArith.
Import ListNotations.
Require Import Verif.Spec_Box Verif.Spec_Average Verif.Model_Average.
Local Open Scope nat_scope.

(** all first components, then all second ones, then all third ones *)
Definition by_component (nn : nat) (X : nat -> nat -> R) : list R := flat_map (fun d => map (fun n => X n d) (seq 0 nn)) (seq 0 3).
(** the vertex a dump lists at place v of cell c: the corner at the place of the finite element order, mirrored in the first direction *)
Definition mirrored (N : nat -> nat -> nat) (c v : nat) : nat := let '(i, j, k) := fe_corner v in N c ((1 - i) + 2 * j + 4 * k).
Definition cell_rows (nc : nat) (V : nat -> nat -> nat) : list nat := flat_map (fun c => map (fun v => V c v + 1) (seq 0 8)) (seq 0 nc).
(** one value per cell *)
Definition per_cell (nc : nat) (g : nat -> R) : list R := map g (seq 0 nc).

(** a dump of the mesh with nodes X and cells N, the cell field g, cells of element e numbered K*e to K*e+K-1, and the times ts *)
Definition dumps (fmt : R -> R) (nn nc K : nat) (N : nat -> nat -> nat) (X : nat -> nat -> R) (g : nat -> R) (id : nat) (ts : list R) : dump :=
  Dump id (by_component nn (fun n d => fmt (X n d))) (cell_rows nc (mirrored N))
    [per_cell nc (fun c => fmt (g c)); per_cell nc (fun c => fmt ((-1) ^ (c / K))%R); per_cell nc (fun c => fmt (INR (c / K))); per_cell nc (fun c => fmt (g c))]
    (by_component nn (fun n d => fmt (X n d))) (map fmt ts).

(** det (u, v, w) *)
Definition triple (u v w : nat -> R) : R :=
  (u 0%nat * (v 1%nat * w 2%nat - v 2%nat * w 1%nat) - u 1%nat * (v 0%nat * w 2%nat - v 2%nat * w 0%nat) + u 2%nat * (v 0%nat * w 1%nat - v 1%nat * w 0%nat))%R.
(** six times the signed volume spanned at the first vertex of a hexahedron listed in the finite element order: positive if right-handed *)
Definition orientation (X : nat -> nat -> R) (V : nat -> nat) : R :=
  triple (fun d => Rminus (X (V 1) d) (X (V 0) d)) (fun d => Rminus (X (V 3) d) (X (V 0) d)) (fun d => Rminus (X (V 4) d) (X (V 0) d)).

(** ---- initial regions ---- *)
Definition in_box (f : fill) (x y z : R) : Prop := (fl_x1 f <= x <= fl_x2 f /\ fl_y1 f <= y <= fl_y2 f /\ fl_z1 f <= z <= fl_z2 f)%R.
Definition in_cylinder (f : fill) (x y : R) : Prop := (fl_r1 f <= sqrt (x * x + y * y) <= fl_r2 f)%R.
Definition in_sphere (f : fill) (x y z : R) : Prop := (fl_r1 f <= sqrt (x * x + y * y + z * z) <= fl_r2 f)%R.
(** the cells a region covers: the kind says which tests are made, and every later test is made too *)
Definition covers (f : fill) (x y z : R) : Prop :=
  match fl_volume f with
  | 0 => True
  | 1 => in_box f x y z \/ in_cylinder f x y \/ in_sphere f x y z
  | 2 => in_cylinder f x y \/ in_sphere f x y z
  | 3 => in_sphere f x y z
  | _ => False
  end.
(** mean of coordinate d of the corners of cell c *)
Definition centre (N : nat -> nat -> nat) (X : nat -> nat -> R) (c d : nat) : R := cell_mean N (fun n => X n d) c.
