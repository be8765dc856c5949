(** Model of swage/refine_high_order_mesh.cpp and swage/evaluate_jacobian_determinants.cpp.
    Doubles are exact reals; int ids and keys are unbounded; pow on ints is exact; a double division by
    zero is DivZero; unset memory is [None].  [Z0], [w0] are the contents of the freshly allocated 1D
    vertex and weight arrays, all overwritten before use.  Printing is left out. *)
From Coq Require Import Reals List Arith NArith ZArith.
Import ListNotations.
Require Import Verif.Base Verif.RBase Verif.Model_Common Verif.Model_Points Verif.Model_Lagrange Verif.Model_Quad
  Verif.Model_Geom Verif.Model_Refine Verif.Model_Ref Verif.Model_Vtk.
Local Open Scope nat_scope.

(** common/common.h:14-15 NUM_MIN, NUM_MAX: std::numeric_limits<double>::min() and max() *)
Definition NUM_MIN : R := (/ 2 ^ 1022)%R.
Definition NUM_MAX : R := ((2 - / 2 ^ 52) * 2 ^ 1023)%R.

(** swage/swage.cpp:596-599 nodes_in_elem and the coordinates node_coords(node, i) of a mesh *)
Definition nodes_in_elem {D} (m : mesh D) (e lid : nat) : res nat := getu (m_conn m) (e * m_width m + lid).
Definition node_coords {D} (m : mesh D) (node i : nat) : res D := getu (m_coords m) (node * 3 + i).

(** an array all of whose entries were just assigned, passed as a pointer *)
Definition ptr (l : list (option R)) : nat -> R := fun i => match nth_error l i with Some (Some v) => v | _ => 0%R end.

(** refine_high_order_mesh.cpp:54-67 and evaluate_jacobian_determinants.cpp:50-64: the vertex
    coordinates of element e; [lid v] is the local node of vertex v *)
Definition vert_arrays (m : mesh R) (nv : nat) (lid : nat -> res nat) (e : nat)
  (st : list (option R) * list (option R) * list (option R)) :=
  loop nv (fun v '(vx, vy, vz) =>
    do l <- lid v;
    do n0 <- nodes_in_elem m e l; do x <- node_coords m n0 0; do vx' <- set vx v (Some x);
    do n1 <- nodes_in_elem m e l; do y <- node_coords m n1 1; do vy' <- set vy v (Some y);
    do n2 <- nodes_in_elem m e l; do z <- node_coords m n2 2; do vz' <- set vz v (Some z);
    Ok (vx', vy', vz')) st.

(** refine_high_order_mesh.cpp:73-84, evaluate_jacobian_determinants.cpp:70-79: reference coordinates
    of quadrature point lid *)
Definition ref_point (lob : list (option R)) (n1 lid : nat) : res (R * R * R) :=
  let r := N.of_nat n1 in
  do ijk <- base_10_to_mixed_radix [r; r; r] (N.of_nat lid);
  do i <- get ijk 0; do j <- get ijk 1; do k <- get ijk 2;
  do x <- getu lob (N.to_nat i); do y <- getu lob (N.to_nat j); do z <- getu lob (N.to_nat k);
  Ok (x, y, z).

(** refine_high_order_mesh.cpp:32-96: the quadrature points of all elements *)
Definition high_points (Z0 w0 : nat -> R) (m : mesh R) : res (list (option R)) :=
  let p := m_order m in let ne := m_num_elems m in
  let nv1 := p + 1 in let nv := Nat.pow nv1 3 in
  let n1 := 2 * p + 1 in let ng := Nat.pow n1 3 in
  do vert <- equispaced_points nv1 (-1) 1 Z0;
  do elem <- new_lagrange_element p vert w0;
  do lob <- lobatto_nodes_1D_tmp (repeat None n1) (Z.of_nat n1);
  do (pts, _, _, _, _, _) <-
    loop ne (fun e '(pts, vx, vy, vz, C, count) =>
      do (vx, vy, vz) <- vert_arrays m nv (fun v => Ok v) e (vx, vy, vz);
      loop ng (fun lid '(pts, vx, vy, vz, C, count) =>
        do (x, y, z) <- ref_point lob n1 lid;
        do (a, C) <- le_eval_approx elem (ptr vx) x y z C; do pts <- set pts (count * 3 + 0) (Some a);
        do (a, C) <- le_eval_approx elem (ptr vy) x y z C; do pts <- set pts (count * 3 + 1) (Some a);
        do (a, C) <- le_eval_approx elem (ptr vz) x y z C; do pts <- set pts (count * 3 + 2) (Some a);
        Ok (pts, vx, vy, vz, C, count + 1)) (pts, vx, vy, vz, C, count))
      (repeat None (ne * ng * 3), repeat None nv, repeat None nv, repeat None nv, (fun _ => Err Uninit), 0);
  Ok pts.

(** refine_high_order_mesh.cpp:104-120: largest and smallest vertex coordinates *)
Definition high_box (m : mesh R) : res ((nat -> R) * (nat -> R)) :=
  loop (m_num_nodes m) (fun v st => loop 3 (fun i '(mx, mn) =>
    do x <- node_coords m v i;
    Ok (fset mx i (Rmax (mx i) x), fset mn i (Rmin (mn i) x))) st) ((fun _ => NUM_MIN), (fun _ => NUM_MAX)).

(** refine_high_order_mesh.cpp:130-140: the distance of vertices j and i of an element, as written *)
Definition high_dist (m : mesh R) (e j i : nat) : res R :=
  do n <- nodes_in_elem m e j; do x1 <- node_coords m n 0;
  do n <- nodes_in_elem m e j; do y1 <- node_coords m n 1;
  do n <- nodes_in_elem m e j; do z1 <- node_coords m n 2;
  do n <- nodes_in_elem m e i; do x2 <- node_coords m n 0;
  do n <- nodes_in_elem m e i; do y2 <- node_coords m n 1;
  do n <- nodes_in_elem m e i; do z2 <- node_coords m n 2;
  Ok (sqrt ((x2 - x1) * (x2 - x1) + (y2 - y1) * (y2 - y1) + (z2 - z1) * (z1 - z1))).

(** refine_high_order_mesh.cpp:123-150 min_dist (the maximum is computed too but not used) *)
Definition high_min_dist (m : mesh R) : res R :=
  let nv1 := m_order m + 1 in
  loop (m_num_elems m) (fun e d => loop nv1 (fun j d => loop_from (j + 1) (nv1 - (j + 1)) (fun i d =>
    do dist <- high_dist m e j i; Ok (Rmin d dist)) d) d) NUM_MAX.

(** refine_high_order_mesh.cpp:155-156 hashing distance *)
Definition high_spacing (m : mesh R) : res R :=
  do d <- high_min_dist m; rdiv d (7 * INR (m_order m)).

(** refine_high_order_mesh.cpp:161-172 number of bins *)
Definition high_bins (h : R) (mx mn : nat -> R) : res (nat -> Z) :=
  loop 3 (fun i b => do f <- rdiv (mx i - mn i + 1 + / 10 ^ 14) h; Ok (fset b i (trunc (Rmax (/ 10 ^ 16) f)))) (fun _ => 0%Z).

(** refine_high_order_mesh.cpp:180-202 keys.  A negative key would index the hash table before its start. *)
Definition high_key (h : R) (mn : nat -> R) (b : nat -> Z) (pts : list (option R)) (g : nat) : res nat :=
  do idx <- loop 3 (fun i idx =>
    do c <- getu pts (g * 3 + i);
    do f <- rdiv (c - mn i + / 10 ^ 14) h;
    Ok (fset idx i (trunc (Rmax (/ 10 ^ 16) f)))) (fun _ => 0%Z);
  let key := (idx 0%nat + idx 1%nat * b 0%nat + idx 2%nat * b 0%nat * b 1%nat)%Z in
  if Z.ltb key 0 then Err OOB else Ok (Z.to_nat key).

(** refine_high_order_mesh.cpp:155-202: h_keys *)
Definition high_keys (m : mesh R) (pts : list (option R)) : res (list nat) :=
  do (mx, mn) <- high_box m;
  do h <- high_spacing m;
  do b <- high_bins h mx mn;
  loop (m_num_elems m * Nat.pow (2 * m_order m + 1) 3) (fun g ks => do k <- high_key h mn b pts g; Ok (ks ++ [k])) [].

(** refine_high_order_mesh.cpp:256-267: node coordinates of the refined mesh *)
Definition high_coords (pts : list (option R)) (mg : merged) : res (list (option R)) :=
  loop (mg_num mg) (fun n cs => loop 3 (fun i cs =>
    do g <- gauss_of_node mg n; do x <- getu pts (g * 3 + i); set cs (n * 3 + i) (Some x)) cs) (repeat None (mg_num mg * 3)).

(** swage/swage.cpp:1660-1673, called by build_connectivity: nodes_in_elem of the refined mesh *)
Definition high_conn (ne ng : nat) (mg : merged) : res (list (option nat)) :=
  loop ne (fun e c => loop ng (fun lid c => do n <- node_in_gauss mg (e * ng + lid); set c (e * ng + lid) (Some n)) c)
    (repeat None (ne * ng)).

Record high_mesh := { hm_points : list (option R);      (* g_points_in_mesh *)
                      hm_merged : merged;               (* node_in_gauss, node_to_gauss_map, num_nodes *)
                      hm_maps : refmaps;                (* gauss_in_cell, cells_in_elem, elems_in_cell *)
                      hm_cells : list (option nat);     (* nodes_in_cell *)
                      hm_mesh : mesh R }.               (* order, counts, node_coords, nodes_in_elem *)

(** refine_high_order_mesh.cpp:8-368.  The merging loop 204-253 and the index maps 285-365 are, word for
    word, those of refine_mesh (swage/swage.cpp:2335-2388, 2414-2503), modelled in Model_Refine. *)
Definition refine_high_order_mesh (Z0 w0 : nat -> R) (m : mesh R) : res high_mesh :=
  let p := m_order m in let ne := m_num_elems m in
  let ns := p * 2 in let n1 := 2 * p + 1 in let ng := Nat.pow n1 3 in
  do pts <- high_points Z0 w0 m;
  do keys <- high_keys m pts;
  do mg <- merge_nodes keys;
  do cs <- high_coords pts mg;
  do maps <- build_maps ne ns n1;
  do nic <- build_cell_nodes ne ns n1 mg;
  do conn <- high_conn ne ng mg;
  Ok {| hm_points := pts; hm_merged := mg; hm_maps := maps; hm_cells := nic;
        hm_mesh := Mesh p (mg_num mg) ne cs ng conn |}.

(** ---- evaluate_jacobian_determinants.cpp ---- *)

(** 17-32: vertex to node map; the loops k += 2 run over 0, 2, ..., below num_nodes_1d *)
Definition vert_node_map (p : nat) : res (list (option nat)) :=
  let n1 := 2 * p + 1 in let r := N.of_nat n1 in let steps := (n1 + 1) / 2 in
  do (vm, _) <-
    loop steps (fun k st => loop steps (fun j st => loop steps (fun i '(vm, vert_id) =>
      do node <- mixed_radix_to_base_10 [r; r; r] [N.of_nat (2 * i); N.of_nat (2 * j); N.of_nat (2 * k)];
      do vm <- set vm vert_id (Some (N.to_nat node));
      Ok (vm, vert_id + 1)) st) st) (repeat None (Nat.pow (p + 1) 3), 0);
  Ok vm.

(** 7-88 evaluate_jacobian_determinants; [dj] is the mesh's array gauss_pt_det_j *)
Definition evaluate_jacobian_determinants (Z0 w0 : nat -> R) (m : mesh R) (dj : list (option R)) : res (list (option R)) :=
  let p := m_order m in let ne := m_num_elems m in
  let nv1 := p + 1 in let nv := Nat.pow nv1 3 in
  let n1 := 2 * p + 1 in let ng := Nat.pow n1 3 in
  do vm <- vert_node_map p;
  do lob <- lobatto_nodes_1D_tmp (repeat None n1) (Z.of_nat n1);
  do vert <- loop nv1 (fun v Z => do q <- getu vm v; do x <- getu lob q; Ok (fset Z v x)) Z0;
  do elem <- new_lagrange_element p vert w0;
  do (dj, _, _, _, _) <-
    loop ne (fun e '(dj, vx, vy, vz, C) =>
      do (vx, vy, vz) <- vert_arrays m nv (fun v => getu vm v) e (vx, vy, vz);
      loop ng (fun lid '(dj, vx, vy, vz, C) =>
        do (x, y, z) <- ref_point lob n1 lid;
        do node <- nodes_in_elem m e lid;
        do (d, C) <- le_eval_det_jac elem (ptr vx) (ptr vy) (ptr vz) x y z C;
        do dj <- set dj node (Some d);
        Ok (dj, vx, vy, vz, C)) (dj, vx, vy, vz, C))
      (dj, repeat None nv, repeat None nv, repeat None nv, (fun _ => Err Uninit));
  Ok dj.
