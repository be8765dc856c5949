(** Specification vocabulary for the geometry checks of examples/average (area conservation, volume);
    independent of the model. *)
From Coq Require Import List Reals Arith.
Require Import Verif.RSum Verif.Spec_Mat Verif.Spec_Lagrange Verif.Spec_Quad Verif.Spec_HexN.
Open Scope R_scope.

(** how large the i-th Lagrange polynomial on the vertices Z can be: the product of the sums of the
    absolute coefficients of its linear factors *)
Definition growth (n : nat) (Z : nat -> R) (i : nat) : R :=
  rprod n (fun j => if Nat.eqb j i then 1 else (1 + Rabs (Z j)) / Rabs (Z i - Z j)).

(** the map from the reference element to space: coordinate d of the image of (x,y,z), when vertex
    number v (first direction fastest) is placed at Y v *)
Definition elem_map (n : nat) (Z : nat -> R) (Y : nat -> nat -> R) (d : nat) (x y z : R) : R :=
  sum3 n (fun i j k => phi3 n Z i j k x y z * Y (gid n i j k) d).

(** D is the determinant of the matrix of partial derivatives of F at (x,y,z) *)
Definition is_det (F : nat -> R -> R -> R -> R) (x y z D : R) : Prop :=
  exists J : mat, (forall d, (d < 3)%nat -> is_grad (F d) x y z (J d 0%nat, J d 1%nat, J d 2%nat)) /\ D = det3 J.

(** size of coordinate d of the vertices *)
Definition total (nb : nat) (Y : nat -> nat -> R) (d : nat) : R := rsum nb (fun v => Rabs (Y v d)).

(** the tables a geometry check runs on: order p, 1D nodes [lob] of which the vertices are distinct and
    the outer two are -1 and 1, and a rule [leg], [legw] with one point per cell and direction that is
    exact for degree 2 nc - 1 up to tol; L limits the growth of the basis functions *)
Record check_tables (p : nat) (lob leg legw : list R) (tol L : R) : Prop := {
  ct_lob : length lob = nodes_1d p;
  ct_leg : length leg = (nodes_1d p - 1)%nat;
  ct_legw : length legw = (nodes_1d p - 1)%nat;
  ct_distinct : distinct (verts_1d p) (vert_coord p lob);
  ct_first : nth 0 lob 0 = -1;
  ct_last : nth (nodes_1d p - 1) lob 0 = 1;
  ct_tol : 0 <= tol;
  ct_rule : quad_rule (nodes_1d p - 1) (2 * (nodes_1d p - 1) - 1) tol (fun i => nth i leg 0) (fun i => nth i legw 0);
  ct_growth : forall a, (a < verts_1d p)%nat -> growth (verts_1d p) (vert_coord p lob) a <= L }.

(** what the accuracy of the rule leaves of the area sum and of the volume error; both are 0 for an
    exact rule.  A, B, C: sizes of the coordinates *)
Definition area_limit (n : nat) (L tol A B : R) : R :=
  6 * (tol * (INR (2 * n - 2) * L ^ 2)) * ((2 + tol) * (INR (n - 1) * L ^ 2)) ^ 2 * (A * B).
Definition volume_limit (n : nat) (L tol A B C : R) : R :=
  6 * ((2 + tol) ^ 3 - 8) * (INR (n - 1) * L ^ 3) ^ 3 * (A * B * C).
