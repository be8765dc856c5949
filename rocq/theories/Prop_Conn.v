(** Property theorems C23-C25 and C29 (swage/swage.cpp, index-space builders). *)
From Coq Require Import List Arith Sorted.
Import ListNotations.
Require Import Verif.Base Verif.Model_Conn Verif.Spec_Conn Verif.Proof_Conn Verif.Proof_Neigh Verif.Proof_Elem.

(** C23: on every mesh whose node ids are in range the builder succeeds, and the list of cells around
    a node is sorted and contains cell c as many times as c has that node. *)
Theorem C23_cells_around_node : forall K ncells nnodes nodes,
  mesh_ok K ncells nnodes nodes ->
  exists m, build_node_cell K ncells nnodes nodes = Ok m /\
    forall n, n < nnodes -> exists L,
      num_cells_in_node m n = Ok (length L) /\
      (forall j, j < length L -> cells_in_node m n j = Ok (nth j L 0)) /\
      Sorted le L /\
      (forall c, count_occ Nat.eq_dec L c = if c <? ncells then mult K nodes c n else 0).
Proof. exact node_cell_spec. Qed.
Print Assumptions C23_cells_around_node.

Theorem C23_bad_id_out_of_bounds : forall K ncells nnodes nodes,
  length nodes = ncells * K -> Exists (fun n => nnodes <= n) nodes ->
  build_node_cell K ncells nnodes nodes = Err OOB.
Proof. exact count_oob. Qed.
Print Assumptions C23_bad_id_out_of_bounds.

(** C24: corner l of cell c is numbered K*c+l; the corners of a node are, in increasing order, exactly
    the corners whose cell-local node it is. *)
Theorem C24_corners : forall K ncells nnodes nodes m,
  mesh_ok K ncells nnodes nodes -> build_node_cell K ncells nnodes nodes = Ok m ->
  exists c, build_corner K ncells nnodes nodes m = Ok c /\ co_total c = ncells * K /\
    (forall cell l, cell < ncells -> l < K -> corners_in_cell c K cell l = Ok (cell * K + l)) /\
    forall n, n < nnodes -> exists L,
      num_corners_in_node c n = Ok (length L) /\
      (forall j, j < length L -> corners_in_node c n j = Ok (nth j L 0)) /\
      Sorted lt L /\
      (forall k, In k L <-> exists cell l, cell < ncells /\ k = cell * K + l /\ has_node K nodes cell l n).
Proof. exact corner_spec. Qed.
Print Assumptions C24_corners.

(** C25: the neighbour list of a cell is exactly the other cells sharing a node, without repetition. *)
Theorem C25_cell_neighbours : forall K ncells nnodes nodes m,
  mesh_ok K ncells nnodes nodes -> build_node_cell K ncells nnodes nodes = Ok m ->
  (exists c d, c < ncells /\ d < ncells /\ c <> d /\ share_node K nodes c d) ->
  exists r, build_cell_cell K ncells nodes m = Ok r /\
    forall c, c < ncells -> exists L,
      num_cells_in_cell r c = Ok (length L) /\
      (forall i, i < length L -> cells_in_cell r c i = Ok (nth i L 0)) /\
      NoDup L /\ (forall d, In d L <-> d < ncells /\ d <> c /\ share_node K nodes c d).
Proof. exact cell_cell_ok. Qed.
Print Assumptions C25_cell_neighbours.

(** the relation listed is symmetric: if the builder lists d for c, it lists c for d *)
Theorem C25_symmetric : forall K ncells nnodes nodes m r c d kc kd,
  mesh_ok K ncells nnodes nodes -> build_node_cell K ncells nnodes nodes = Ok m ->
  build_cell_cell K ncells nodes m = Ok r -> c < ncells -> d < ncells ->
  num_cells_in_cell r c = Ok kc -> num_cells_in_cell r d = Ok kd ->
  (exists i, i < kc /\ cells_in_cell r c i = Ok d) -> (exists j, j < kd /\ cells_in_cell r d j = Ok c).
Proof.
  intros K nc nn nodes m r c d kc kd M Em Er Hc Hd Ec Ed (i & Hi & Ei).
  assert (E : exists c d, c < nc /\ d < nc /\ c <> d /\ share_node K nodes c d).
  { destruct (exists_neighbour_dec K nc nodes) as [Y|No]; [exact Y|].
    rewrite (cell_cell_isolated K nc nn nodes m M Em No) in Er. discriminate. }
  destruct (cell_cell_ok K nc nn nodes m M Em E) as (r' & Er' & H).
  rewrite Er in Er'. inversion Er'; subst r'.
  destruct (H c Hc) as (Lc & A1 & A2 & _ & A4). destruct (H d Hd) as (Ld & B1 & B2 & _ & B4).
  rewrite Ec in A1. inversion A1; subst kc. rewrite Ed in B1. inversion B1; subst kd.
  rewrite A2 in Ei by exact Hi. injection Ei as Ei'.
  assert (I : In d Lc) by (rewrite <- Ei'; apply nth_In; exact Hi).
  apply A4 in I. destruct I as (_ & Ne & Sh).
  assert (I : In c Ld) by (apply B4; split; [exact Hc|]; split; [auto|]; apply share_sym; exact Sh).
  apply (In_nth Ld c 0) in I. destruct I as (j & Hj & Ej). exists j. split; [exact Hj|].
  rewrite B2 by exact Hj. rewrite Ej. reflexivity.
Qed.
Print Assumptions C25_symmetric.

(** no two cells share a node (e.g. a one-cell mesh): the builder writes outside an empty array *)
Theorem C25_no_neighbours_out_of_bounds : forall K ncells nnodes nodes m,
  mesh_ok K ncells nnodes nodes -> build_node_cell K ncells nnodes nodes = Ok m ->
  ~ (exists c d, c < ncells /\ d < ncells /\ c <> d /\ share_node K nodes c d) ->
  build_cell_cell K ncells nodes m = Err OOB.
Proof. exact cell_cell_isolated. Qed.
Print Assumptions C25_no_neighbours_out_of_bounds.

(** C29: the element pass copies the Gauss-point node ids and lists, for each node, the elements having
    a Gauss point there (once per incidence, sorted) ... *)
Theorem C29_elements_around_node : forall G nelem nnodes gnodes,
  mesh_ok G nelem nnodes gnodes ->
  exists m, build_elem_node G nelem nnodes gnodes = Ok (m, map Some gnodes) /\
    forall n, n < nnodes -> exists L,
      num_cells_in_node m n = Ok (length L) /\
      (forall j, j < length L -> cells_in_node m n j = Ok (nth j L 0)) /\
      Sorted le L /\
      (forall e, count_occ Nat.eq_dec L e = if e <? nelem then mult G gnodes e n else 0).
Proof.
  intros G ne nn gn M. destruct (elem_node_ok G ne nn gn M) as (m & E & E').
  exists m. split; [exact E|]. destruct (node_cell_spec G ne nn gn M) as (m' & E2 & H).
  rewrite E' in E2. inversion E2; subst m'. exact H.
Qed.
Print Assumptions C29_elements_around_node.

(** ... and the element-neighbour lists are exactly the other elements sharing a node, without
    repetition (also when there are none), provided num_cells >= num_elems. *)
Theorem C29_element_neighbours : forall G nelem nnodes gnodes m nie numcells,
  mesh_ok G nelem nnodes gnodes -> build_elem_node G nelem nnodes gnodes = Ok (m, nie) ->
  nelem <= numcells ->
  exists r, build_elem_elem G nelem numcells gnodes m = Ok r /\
    forall e, e < nelem -> exists L,
      num_elems_in_elem r e = Ok (length L) /\
      (forall i, i < length L -> elems_in_elem r e i = Ok (nth i L 0)) /\
      NoDup L /\ (forall d, In d L <-> d < nelem /\ d <> e /\ share_node G gnodes e d).
Proof.
  intros G ne nn gn m nie k M E Hk. destruct (elem_node_ok G ne nn gn M) as (m' & E' & E2).
  rewrite E in E'. inversion E'; subst. apply (elem_elem_spec G ne nn gn m' k M E2 Hk).
Qed.
Print Assumptions C29_element_neighbours.

(** ---- two hexahedra sharing a face (12 nodes), and one hexahedron alone ---- *)
Definition two_hex : list nat := [0;1;3;2;4;5;7;6; 1;8;9;3;5;10;11;7].

Example conn_nonvacuous :
  mesh_ok 8 2 12 two_hex /\
  (exists m r, build_node_cell 8 2 12 two_hex = Ok m /\ build_cell_cell 8 2 two_hex m = Ok r /\
     num_cells_in_node m 3 = Ok 2 /\ cells_in_node m 3 0 = Ok 0 /\ cells_in_node m 3 1 = Ok 1 /\
     num_cells_in_cell r 0 = Ok 1 /\ cells_in_cell r 0 0 = Ok 1 /\ cells_in_cell r 1 0 = Ok 0) /\
  share_node 8 two_hex 0 1.
Proof.
  split.
  - split; [reflexivity|]. unfold two_hex. repeat constructor.
  - split.
    + eexists _, _. split; [vm_compute; reflexivity|]. split; [vm_compute; reflexivity|].
      repeat split.
    + exists 1, 0, 1. repeat split; try reflexivity; repeat constructor.
Qed.

Example conn_single_cell_fails : exists m,
  build_node_cell 8 1 8 [0;1;3;2;4;5;7;6] = Ok m /\ build_cell_cell 8 1 [0;1;3;2;4;5;7;6] m = Err OOB.
Proof. eexists. split; [vm_compute; reflexivity|]. vm_compute. reflexivity. Qed.

Example elem_nonvacuous : exists m r,
  build_elem_node 8 2 12 two_hex = Ok (m, map Some two_hex) /\ build_elem_elem 8 2 2 two_hex m = Ok r /\
  num_elems_in_elem r 1 = Ok 1 /\ elems_in_elem r 1 0 = Ok 0.
Proof. eexists _, _. split; [vm_compute; reflexivity|]. split; [vm_compute; reflexivity|]. repeat split. Qed.
