(** Vocabulary for the statements about examples/average. *)
From Coq Require Import Reals List Arith ZArith Bool.
Import ListNotations.
Require Import Verif.Base Verif.RSum Verif.NatSum Verif.Spec_Patch Verif.Spec_Full Verif.Model_Conn Verif.Model_Refine Verif.Model_Full Verif.Model_Average Verif.Model_Patch.
Local Open Scope nat_scope.

(** the value of a field at an index *)
Definition val (l : list R) (i : nat) : R := nth i l 0%R.

(** mean of a nodal field over the eight corners of cell c *)
Definition cell_mean (N : nat -> nat -> nat) (f : nat -> R) (c : nat) : R := (rsum 8 (fun l => f (N c l)) / 8)%R.
(** number of cell corners at node n, among nc cells *)
Definition corner_count (N : nat -> nat -> nat) (nc n : nat) : nat := nsum nc (fun c => times 8 N c n).
(** mean of a cell field over the cells around node n (a cell counts as often as it has the node); 0 if none *)
Definition node_mean (N : nat -> nat -> nat) (nc : nat) (g : nat -> R) (n : nat) : R :=
  if corner_count N nc n =? 0 then 0%R else (rsum nc (fun c => INR (times 8 N c n) * g c) / INR (corner_count N nc n))%R.
Definition smoothed (N : nat -> nat -> nat) (nc : nat) (f : nat -> R) (n : nat) : R := node_mean N nc (cell_mean N f) n.

(** node n is a corner of one of the patches L; [Q p k] is the k-th corner of patch p *)
Definition on_patches (L : list nat) (Q : nat -> nat -> nat) (n : nat) : Prop := exists p k, In p L /\ k < 4 /\ Q p k = n.
(** corner k < 4 of every patch of the list is node Q p k < nn *)
Definition patch_corners (P : patches) (nn : nat) (L : list nat) (Q : nat -> nat -> nat) : Prop :=
  forall p k, In p L -> k < 4 -> node_in_patch P p k = Ok (Z.of_nat (Q p k)) /\ Q p k < nn.

(** the mesh and connectivity the solver needs: cells with nodes, the cells around every node *)
Record mesh_sound (sv : solver) (N : nat -> nat -> nat) (X : nat -> nat -> R) : Prop := {
  ms_cells : cdescribes (sv_mesh sv) N X;
  ms_around : around_nodes (cn_node_cells (sv_conn sv)) (cm_nodes (sv_mesh sv)) (cm_cells (sv_mesh sv)) 8 N }.

(** the elements: cell l of element e is EC e l, node l of element e is EN e l; every cell and every node is
    in an element *)
Record elems_sound (sv : solver) (EC EN : nat -> nat -> nat) : Prop := {
  es_cells : forall e l, e < sv_elems sv -> l < sv_ns sv * sv_ns sv * sv_ns sv ->
    cells_in_elem (sv_maps sv) (sv_ns sv) e l = Ok (EC e l) /\ EC e l < cm_cells (sv_mesh sv);
  es_all_cells : forall c, c < cm_cells (sv_mesh sv) -> exists e l, e < sv_elems sv /\ l < sv_ns sv * sv_ns sv * sv_ns sv /\ EC e l = c;
  es_nodes : forall e l, e < sv_elems sv -> l < sv_G sv -> getu (cn_nodes_in_elem (sv_conn sv)) (e * sv_G sv + l) = Ok (EN e l) /\ EN e l < cm_nodes (sv_mesh sv);
  es_all_nodes : forall n, n < cm_nodes (sv_mesh sv) -> exists e l, e < sv_elems sv /\ l < sv_G sv /\ EN e l = n }.

(** the boundary sets 0 and 3: their patches L s and the corners Q of these patches *)
Definition sets_sound (sv : solver) (L : nat -> list nat) (Q : nat -> nat -> nat) : Prop :=
  forall s, s = 0 \/ s = 3 -> presents (num_bdy_patches_in_set (sv_sets sv) s) (bdy_patches_in_set (sv_sets sv) s) (L s) /\
    patch_corners (cn_patches (sv_conn sv)) (cm_nodes (sv_mesh sv)) (L s) Q.

(** all of it *)
Record sound (sv : solver) (N : nat -> nat -> nat) (X : nat -> nat -> R) (EC EN : nat -> nat -> nat) (L : nat -> list nat) (Q : nat -> nat -> nat) : Prop := {
  so_mesh : mesh_sound sv N X; so_elems : elems_sound sv EC EN; so_sets : sets_sound sv L Q }.

(** side t of cell c is on the boundary: no other side lies on its patch *)
Definition boundary_side (nc : nat) (pt : nat -> nat -> nat) (c t : nat) : Prop :=
  c < nc /\ t < 6 /\ forall c' t', c' < nc -> t' < 6 -> pt c' t' = pt c t -> c' = c /\ t' = t.
(** distance of a point from the surface x, y or z = v (tag 0, 1, 2), cylinder (3) or sphere (4) of radius v *)
Definition surface_distance (tag : nat) (v : R) (x : nat -> R) : R :=
  match tag with
  | 0 => Rabs (x 0%nat - v) | 1 => Rabs (x 1%nat - v) | 2 => Rabs (x 2%nat - v)
  | 3 => Rabs (sqrt (x 0%nat * x 0%nat + x 1%nat * x 1%nat) - v)
  | _ => Rabs (sqrt (x 0%nat * x 0%nat + x 1%nat * x 1%nat + x 2%nat * x 2%nat) - v)
  end.
(** node n is a corner of a boundary side with its centre within 1e-8 of the surface *)
Definition near_surface (N : nat -> nat -> nat) (X : nat -> nat -> R) (nc : nat) (pt : nat -> nat -> nat) (tag : nat) (v : R) (n : nat) : Prop :=
  exists c t l, boundary_side nc pt c t /\ tag <= 4 /\ (surface_distance tag v (face_centre N X c t) <= / 10 ^ 8)%R /\ on_side t l /\ N c l = n.

(** one cycle, as a map on nodal fields: 10 on set 0, else 0 on set 3, else the smoothed value *)
Definition cycle_result (N : nat -> nat -> nat) (nc : nat) (L : nat -> list nat) (Q : nat -> nat -> nat) (f f' : nat -> R) (n : nat) : Prop :=
  (on_patches (L 0) Q n -> f' n = 10%R) /\
  (~ on_patches (L 0) Q n -> on_patches (L 3) Q n -> f' n = 0%R) /\
  (~ on_patches (L 0) Q n -> ~ on_patches (L 3) Q n -> f' n = smoothed N nc f n).

(** node n is linked through cells to a node satisfying F *)
Inductive linked (N : nat -> nat -> nat) (nc : nat) (F : nat -> Prop) : nat -> Prop :=
| linked_here : forall n, F n -> linked N nc F n
| linked_cell : forall c l l', c < nc -> l < 8 -> l' < 8 -> linked N nc F (N c l') -> linked N nc F (N c l).
(** element e (with G nodes EN e l) is linked through shared nodes to an element with a node satisfying F *)
Inductive reach (EN : nat -> nat -> nat) (ne G : nat) (F : nat -> Prop) : nat -> Prop :=
| reach_here : forall e l, e < ne -> l < G -> F (EN e l) -> reach EN ne G F e
| reach_next : forall e e' l l', e < ne -> l < G -> l' < G -> EN e l = EN e' l' -> reach EN ne G F e' -> reach EN ne G F e.
(** element e is linked, through coinciding corners other than corner 0 of element 0, to one with a corner in F *)
Inductive chained (N : nat -> nat -> nat) (X : nat -> nat -> R) (ne : nat) (F : nat -> nat -> Prop) : nat -> Prop :=
| chained_here : forall e l, e < ne -> l < 8 -> F e l -> chained N X ne F e
| chained_next : forall e e' l l', e < ne -> l < 8 -> l' < 8 -> 0 < e + l -> 0 < e' + l' -> (forall d, d < 3 -> X (N e l) d = X (N e' l') d) ->
    chained N X ne F e' -> chained N X ne F e.
