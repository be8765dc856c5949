(** Vocabulary for the statements about refine_mesh. *)
From Coq Require Import Reals List Arith ZArith Sorted.
Require Import Verif.Base Verif.Spec_Quad Verif.Spec_High Verif.Spec_Patch Verif.Model_Full Verif.Model_Conn Verif.Model_Patch.
Local Open Scope nat_scope.

(** Lobatto points per direction of an element of order p, and cells per direction *)
Definition pts1 (p : nat) : nat := match p with 0 => 2 | _ => 2 * p + 1 end.
Definition sub1 (p : nat) : nat := pts1 p - 1.

(** the mesh as seen through its accessors: corner l of cell c is node N c l, coordinate d of node n is X n d *)
Definition cdescribes (m : cmesh) (N : nat -> nat -> nat) (X : nat -> nat -> R) : Prop :=
  (forall c l, c < cm_cells m -> l < 8 -> cm_node m c l = Ok (N c l) /\ N c l < cm_nodes m) /\
  (forall n d, n < cm_nodes m -> d < 3 -> cm_coord m n d = Ok (X n d)).

(** Gauss point g belongs to element g / n1^3 and sits at grid position grid n1 g 0, 1, 2 (x fastest);
    coordinate d of its image under the trilinear map of the element ([geo 1]: corner i + 2j + 4k at
    (2i-1, 2j-1, 2k-1)) *)
Definition tri_pos (p : nat) (N : nat -> nat -> nat) (X : nat -> nat -> R) (g d : nat) : R :=
  let n1 := pts1 p in
  geo 1 N X (g / n1 ^ 3) d (lob n1 (grid n1 g 0)) (lob n1 (grid n1 g 1)) (lob n1 (grid n1 g 2)).

(** number of the cell (i,j,k) of element e, and of its corner c among the element's points *)
Definition cell_id (p e i j k : nat) : nat := let ns := sub1 p in i + j * ns + k * ns * ns + ns * ns * ns * e.
Definition corner_pt (p i j k c : nat) : nat := let n1 := pts1 p in (i + c mod 2) + (j + c / 2 mod 2) * n1 + (k + c / 4) * n1 * n1.

(** d is the least distance of two corners of cell c *)
Definition corner_spacing (N : nat -> nat -> nat) (X : nat -> nat -> R) (c : nat) (d : R) : Prop :=
  (forall a b, a < 8 -> b < 8 -> a <> b ->
     (d <= sqrt ((X (N c a) 0%nat - X (N c b) 0%nat) ^ 2 + (X (N c a) 1%nat - X (N c b) 1%nat) ^ 2 + (X (N c a) 2%nat - X (N c b) 2%nat) ^ 2))%R) /\
  (exists a b, a < 8 /\ b < 8 /\ a <> b /\
     (d = sqrt ((X (N c a) 0%nat - X (N c b) 0%nat) ^ 2 + (X (N c a) 1%nat - X (N c b) 1%nat) ^ 2 + (X (N c a) 2%nat - X (N c b) 2%nat) ^ 2))%R).

(** bin width of the node hash *)
Definition node_bin (p : nat) (d : R) : R := (d / (7 * INR (Nat.max 1 p)))%R.

(** the four corners of side s of a hexahedron, as the mean of its corners on that side *)
Definition side_mean (f : nat -> R) (s : nat) : R :=
  (RSum.rsum 8 (fun l => if Nat.eqb (corner_coord l (s / 2)) (s mod 2) then f l else 0) / 4)%R.

(** centre of side s of refined cell c, coordinate d *)
Definition face_centre (N : nat -> nat -> nat) (X : nat -> nat -> R) (c s d : nat) : R :=
  side_mean (fun l => X (N c l) d) s.

(** ---- connectivity ---- *)

(** in how many of its K positions item c has node n; items c and c' have a node in common *)
Definition times (K : nat) (N : nat -> nat -> nat) (c n : nat) : nat := length (filter (fun l => Nat.eqb (N c l) n) (seq 0 K)).
Definition touch (K : nat) (N : nat -> nat -> nat) (c c' : nat) : Prop := exists l l', l < K /\ l' < K /\ N c l = N c' l'.

(** a counted accessor pair presents the list L *)
Definition presents (num : res nat) (at_ : nat -> res nat) (L : list nat) : Prop :=
  num = Ok (length L) /\ forall j, j < length L -> at_ j = Ok (nth j L 0).

(** the cells (elements) around each node: item c as often as it has the node, ascending *)
Definition around_nodes (A : node_cells) (nn ni K : nat) (N : nat -> nat -> nat) : Prop :=
  forall n, n < nn -> exists L, presents (num_cells_in_node A n) (cells_in_node A n) L /\ Sorted.Sorted le L /\
    forall c, count_occ Nat.eq_dec L c = if c <? ni then times K N c n else 0.

(** corner l of cell c has number 8c+l; the corners at each node, ascending *)
Definition corners_right (C : corners) (nn nc : nat) (N : nat -> nat -> nat) : Prop :=
  (forall c l, c < nc -> l < 8 -> corners_in_cell C 8 c l = Ok (c * 8 + l)) /\
  forall n, n < nn -> exists L, presents (num_corners_in_node C n) (corners_in_node C n) L /\ Sorted.Sorted lt L /\
    forall k, In k L <-> exists c l, c < nc /\ l < 8 /\ k = c * 8 + l /\ N c l = n.

(** the neighbours of item c: the other items with a common node, each once *)
Definition neighbours_right (num : nat -> res nat) (at_ : nat -> nat -> res nat) (ni K : nat) (N : nat -> nat -> nat) : Prop :=
  forall c, c < ni -> exists L, presents (num c) (at_ c) L /\ NoDup L /\ forall c', In c' L <-> c' < ni /\ c' <> c /\ touch K N c c'.

(** side s of cell c is side 6c+s of the mesh and lies on patch pt c s; every patch knows its first and last
    cell and side (-1 if it has only one) and the corners of its first side in order around the side; the boundary patches are, in
    ascending order, those with one side *)
Definition patches_right (P : patches) (nc : nat) (N : nat -> nat -> nat) (pt : nat -> nat -> nat) : Prop :=
  pt_nsides P = nc * 6 /\
  (forall c s, c < nc -> s < 6 -> sides_in_cell P c s = Ok (c * 6 + s) /\ patches_in_cell P c s = Ok (Z.of_nat (pt c s)) /\ pt c s < pt_num P) /\
  (forall p, p < pt_num P -> exists c s c' s', c < nc /\ s < 6 /\ c' < nc /\ s' < 6 /\ pt c s = p /\ pt c' s' = p /\
     (forall a t, a < nc -> t < 6 -> pt a t = p -> c * 6 + s <= a * 6 + t <= c' * 6 + s') /\
     cells_in_patch P p 0 = Ok (Z.of_nat c) /\ sides_in_patch P p 0 = Ok (Z.of_nat (c * 6 + s)) /\
     cells_in_patch P p 1 = Ok (if Nat.eqb (c * 6 + s) (c' * 6 + s') then (-1)%Z else Z.of_nat c') /\
     sides_in_patch P p 1 = Ok (if Nat.eqb (c * 6 + s) (c' * 6 + s') then (-1)%Z else Z.of_nat (c' * 6 + s')) /\
     forall k, k < 4 -> node_in_patch P p k = Ok (Z.of_nat (N c (side_corner s k)))) /\
  exists B, build_bdy_patches (pt_num P) (pt_cells P) = Ok (map Some B) /\ Sorted.Sorted lt B /\
    (forall p, In p B -> p < pt_num P) /\
    forall c s, c < nc -> s < 6 -> (In (pt c s) B <-> forall c' s', c' < nc -> s' < 6 -> pt c' s' = pt c s -> c' = c /\ s' = s).
