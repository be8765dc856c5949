(** Vocabulary for the statements about high-order refinement and Jacobian determinants. *)
From Coq Require Import Reals List Arith ZArith.
Require Import Verif.Base Verif.RSum Verif.Spec_Mat Verif.Spec_Lagrange Verif.Model_Quad Verif.Model_Vtk Verif.Model_High Verif.Spec_Quad.
Local Open Scope nat_scope.

(** the i-th of the n Lobatto points (meaning: C43_lobatto) *)
Definition lob (n i : nat) : R := nth i (lobatto_nodes_tab (Z.of_nat n)) 0%R.

(** the mesh m as seen through its accessors: the first nl local nodes of element e are N e 0, N e 1, ...;
    coordinate d of node n is X n d *)
Definition describes (m : mesh R) (nl : nat) (N : nat -> nat -> nat) (X : nat -> nat -> R) : Prop :=
  (forall e v, e < m_num_elems m -> v < nl -> nodes_in_elem m e v = Ok (N e v) /\ N e v < m_num_nodes m) /\
  (forall n d, n < m_num_nodes m -> d < 3 -> node_coords m n d = Ok (X n d)).

(** equispaced vertices of [-1,1]: -1, -1 + 2/p, ..., 1 *)
Definition vertex1 (p v : nat) : R := (-1 + 2 * INR v / INR p)%R.

(** order-p geometry map of element e, coordinate d: the polynomial of degree p in each of x, y, z that
    takes at the equispaced vertex (i,j,k) the coordinate of local node i + j(p+1) + k(p+1)^2 *)
Definition geo (p : nat) (N : nat -> nat -> nat) (X : nat -> nat -> R) (e d : nat) (x y z : R) : R :=
  field3 (p + 1) (vertex1 p) (fun v => X (N e v) d) x y z.

(** Gauss point g belongs to element g / n1^3 and sits at grid position grid n1 g 0, 1, 2 (x fastest);
    coordinate d of its image *)
Definition gauss_pos (p : nat) N X (g d : nat) : R :=
  let n1 := 2 * p + 1 in
  geo p N X (g / n1 ^ 3) d (lob n1 (grid n1 g 0)) (lob n1 (grid n1 g 1)) (lob n1 (grid n1 g 2)).

(** distance of nodes in the x-y plane *)
Definition planar (X : nat -> nat -> R) (a b : nat) : R :=
  sqrt ((X b 0%nat - X a 0%nat) ^ 2 + (X b 1%nat - X a 1%nat) ^ 2).

(** d is the least x-y distance of two of the first p+1 vertices of an element, over all elements *)
Definition least_planar (p ne : nat) N X (d : R) : Prop :=
  (forall e i j, e < ne -> j < i <= p -> (d <= planar X (N e j) (N e i))%R) /\
  (exists e i j, e < ne /\ j < i <= p /\ d = planar X (N e j) (N e i)).

(** c lies in the coordinate range of the mesh's nodes *)
Definition in_range (nn : nat) (X : nat -> nat -> R) (c : nat -> R) : Prop :=
  forall d, d < 3 -> exists a b, a < nn /\ b < nn /\ (X a d <= c d <= X b d)%R.

(** number of the grid position whose coordinate in direction D is t and whose other coordinates are
    a, b, in a cube of n^3 positions, x fastest *)
Definition at3 (n D t a b : nat) : nat :=
  match D with 0 => t + a * n + b * n * n | 1 => a + t * n + b * n * n | _ => a + b * n + t * n * n end.

(** element e' is the neighbour of e in direction D: the nodes on the far side of e are those on the near
    side of e' *)
Definition adjacent (p : nat) (N : nat -> nat -> nat) (D e e' : nat) : Prop :=
  forall a b, a <= p -> b <= p -> N e (at3 (p + 1) D p a b) = N e' (at3 (p + 1) D 0 a b).

(** the elements are boxes of size s 0 x s 1 x s 2; element e has integer position E e 0, E e 1, E e 2 and
    its vertices are equispaced *)
Definition box_elements (p ne : nat) (N : nat -> nat -> nat) (X : nat -> nat -> R) (o s : nat -> R) (E : nat -> nat -> Z) : Prop :=
  forall e i j k, e < ne -> i <= p -> j <= p -> k <= p ->
    let v := N e (i + j * (p + 1) + k * (p + 1) * (p + 1)) in
    X v 0 = (o 0%nat + s 0%nat * (IZR (E e 0%nat) + INR i / INR p))%R /\
    X v 1 = (o 1%nat + s 1%nat * (IZR (E e 1%nat) + INR j / INR p))%R /\
    X v 2 = (o 2%nat + s 2%nat * (IZR (E e 2%nat) + INR k / INR p))%R.

(** ---- Jacobian determinants ---- *)

(** D is the determinant of the Jacobian matrix of the map (F 0, F 1, F 2) at (x,y,z) *)
Definition jac_det (F : nat -> R -> R -> R -> R) (x y z D : R) : Prop :=
  exists M : nat -> nat -> R, (forall d, d < 3 -> is_grad (F d) x y z (M d 0%nat, M d 1%nat, M d 2%nat)) /\ D = det3 M.

(** every other grid position in each direction, numbered x fastest: the v-th one *)
Definition even_lid (p v : nat) : nat :=
  let n1 := 2 * p + 1 in 2 * grid (p + 1) v 0 + 2 * grid (p + 1) v 1 * n1 + 2 * grid (p + 1) v 2 * n1 * n1.

(** order-p map of element e through every other Lobatto point *)
Definition lobatto_geo (p : nat) (N : nat -> nat -> nat) (X : nat -> nat -> R) (e d : nat) (x y z : R) : R :=
  field3 (p + 1) (fun v => lob (2 * p + 1) (2 * v)) (fun v => X (N e (even_lid p v)) d) x y z.

(** node of the g-th point, points counted through all elements *)
Definition point_node (p : nat) (N : nat -> nat -> nat) (g : nat) : nat := N (g / (2 * p + 1) ^ 3) (g mod (2 * p + 1) ^ 3).
