(** Model of the same code as Model_Full and Model_High with 32-bit ints: swage/swage.cpp:2050-2502
    refine_mesh, 1075-1093 build_connectivity and swage/refine_high_order_mesh.cpp.  A value that an int
    cannot hold is [Err Overflow].  The checks are on the hash keys, on the array sizes and on the final
    values of counters; ids are smaller than the sizes and counters only grow, so they need no check of
    their own (a counter that overflows is reported after its loop).  Arrays are indexed by size_t (MATAR).
    Everything else as in Model_Full and Model_High. *)
From Coq Require Import Reals List Arith ZArith.
Import ListNotations.
Require Import Verif.Base Verif.RBase Verif.Model_Geom Verif.Model_Vtk Verif.Model_Refine Verif.Model_Conn Verif.Model_Ref Verif.Model_High Verif.Model_Full Verif.Model_Patch.
Local Open Scope nat_scope.

(** an int holds -2^31 .. 2^31-1 *)
Definition i32 (z : Z) : res Z := if (Z.leb (-2147483648) z && Z.leb z 2147483647)%bool then Ok z else Err Overflow.
(** (int)x of a double *)
Definition cast32 (x : R) : res Z := i32 (trunc x).
(** a size or counter *)
Definition fits (n : nat) : res nat := do _ <- i32 (Z.of_nat n); Ok n.

(** swage.cpp:2283-2296, refine_high_order_mesh.cpp:161-172 number of bins *)
Definition bins32 (h : R) (mx mn : nat -> R) : res (nat -> Z) :=
  loop 3 (fun i b => do f <- rdiv (mx i - mn i + 1 + / 10 ^ 14) h; do z <- cast32 (Rmax (/ 10 ^ 16) f); Ok (fset b i z)) (fun _ => 0%Z).

(** swage.cpp:2305-2330, refine_high_order_mesh.cpp:182-200: idx0 + idx1*bins0 + idx2*bins0*bins1, as the
    compiler groups it *)
Definition key32 (h : R) (mn : nat -> R) (b : nat -> Z) (pts : list (option R)) (g : nat) : res nat :=
  do idx <- loop 3 (fun i idx =>
    do c <- getu pts (g * 3 + i);
    do f <- rdiv (c - mn i + / 10 ^ 14) h;
    do z <- cast32 (Rmax (/ 10 ^ 16) f);
    Ok (fset idx i z)) (fun _ => 0%Z);
  do t1 <- i32 (idx 1%nat * b 0%nat);
  do s1 <- i32 (idx 0%nat + t1);
  do t2 <- i32 (idx 2%nat * b 0%nat);
  do t3 <- i32 (t2 * b 1%nat);
  do key <- i32 (s1 + t3);
  if Z.ltb key 0 then Err OOB else Ok (Z.to_nat key).

(** swage.cpp:2300-2337 with the size max_key+10 of the table; refine_high_order_mesh.cpp:174-209 *)
Definition keys32 (n : nat) (h : R) (mx mn : nat -> R) (pts : list (option R)) : res (list nat) :=
  do b <- bins32 h mx mn;
  do ks <- loop n (fun g ks => do k <- key32 h mn b pts g; Ok (ks ++ [k])) [];
  do _ <- fits (max_key ks + 10);
  Ok ks.

(** swage.cpp:2190-2337 *)
Definition refine_keys32 (p : nat) (m : cmesh) (pts : list (option R)) : res (list nat) :=
  do (mx, mn) <- mesh_box (10 ^ 16) m;
  do d <- last_dist (fun _ => 10 ^ 64)%R m;
  let h := (d / (7 * (if Nat.eqb p 0 then 1 else INR p)))%R in
  keys32 (Nat.pow (num_g_pts_1d p) 3 * cm_cells m) h mx mn pts.

(** swage.cpp:2050-2499; the sizes num_elem*num_subcells_per_elem (2092, 408) and num_elem*num_g_pts
    (498, 2304, 2348) *)
Definition refine_cells32 (p : nat) (m : cmesh) : res refined :=
  let ne := cm_cells m in let ns := num_sub_1d p in let n1 := num_g_pts_1d p in
  do _ <- fits (ne * (ns * ns * ns));
  do _ <- fits (ne * Nat.pow n1 3);
  do pts <- refine_points p m;
  do keys <- refine_keys32 p m pts;
  do mg <- merge_nodes keys;
  do cs <- high_coords pts mg;
  do maps <- build_maps ne ns n1;
  do nic <- build_cell_nodes ne ns n1 mg;
  Ok {| rf_points := pts; rf_merged := mg; rf_maps := maps;
        rf_mesh := CMesh (mg_num mg) (ne * (ns * ns * ns)) cs nic |}.

(** swage.cpp:1447-1511: (int) of the real key of a face *)
Definition patch_key32 (delta : R) (mn mx : nat -> R) (c : nat -> R) : res Z :=
  do n0 <- rdiv (mx 0%nat - mn 0%nat + / 10 ^ 12) delta;
  do n1 <- rdiv (mx 1%nat - mn 1%nat + / 10 ^ 12) delta;
  do q0 <- rdiv (c 0%nat - mn 0%nat + / 10 ^ 12) delta;
  do q1 <- rdiv (c 1%nat - mn 1%nat + / 10 ^ 12) delta;
  do q2 <- rdiv (c 2%nat - mn 2%nat + / 10 ^ 12) delta;
  cast32 (Rmax (/ 10 ^ 16) q0 + Rmax (/ 10 ^ 16) q1 * n0 + Rmax (/ 10 ^ 16) q2 * n0 * n1)%R.

(** swage.cpp:1359-1519: hash_keys and the size max_key+10 of the table; 1454 num_cells_*num_patches_hex_ *)
Definition face_keys32 (m : cmesh) (nodes : list nat) : res (list nat) :=
  do (mx, mn) <- mesh_box (10 ^ 64) m;
  do d <- last_dist (fun v => node_dist v 0 1) m;
  let delta := (Rmin (10 ^ 64) d / 3)%R in
  do _ <- fits (cm_cells m * 6);
  do ks <- loop (cm_cells m) (fun c ks => loop 6 (fun s ks =>
    do cen <- side_centre m nodes c s;
    do k <- patch_key32 delta mn mx cen;
    if Z.ltb k 0 then Err OOB else Ok (ks ++ [Z.to_nat k])) ks) [];
  do _ <- fits (max_key ks + 10);
  Ok ks.

(** swage.cpp:1075-1093 build_connectivity: the counters num_corners (1113, 1183), num_c_c_pairs (1234),
    num_e_e_pairs (1731), elem_in_node_size (1678) and the sizes 2*num_patches_, 4*num_patches_ (1550-1553) *)
Definition build_connectivity32 (G nelem : nat) (gauss : list (option nat)) (m : cmesh) : res connectivity :=
  let nc := cm_cells m in let nn := cm_nodes m in
  do nodes <- read_all (nc * 8) (cm_conn m);
  do a <- build_node_cell 8 nc nn nodes;
  do _ <- fits (nc * 8);
  do b <- build_corner 8 nc nn nodes a;
  do (_, pairs) <- count_pairs 8 nc nodes a;
  do _ <- fits pairs;
  do c <- build_cell_cell 8 nc nodes a;
  do keys <- face_keys32 m nodes;
  do pt <- build_patches nc keys nodes;
  do _ <- fits (pt_num pt * 4);
  do gnodes <- read_all (nelem * G) gauss;
  do (en, nie) <- build_elem_node G nelem nn gnodes;
  do _ <- fits (nelem * G);
  do (_, pairs) <- count_pairs G nelem gnodes en;
  do _ <- fits pairs;
  do ee <- build_elem_elem G nelem nc gnodes en;
  Ok {| cn_node_cells := a; cn_corners := b; cn_cell_cells := c; cn_patches := pt;
        cn_node_elems := en; cn_nodes_in_elem := nie; cn_elem_elems := ee |}.

(** swage.cpp:2050-2502 refine_mesh *)
Definition refine_mesh32 (p : nat) (m : cmesh) : res (refined * connectivity) :=
  do r <- refine_cells32 p m;
  do c <- build_connectivity32 (Nat.pow (num_g_pts_1d p) 3) (cm_cells m) (mg_node (rf_merged r)) (rf_mesh r);
  Ok (r, c).

(** refine_high_order_mesh.cpp:104-209 *)
Definition high_keys32 (m : mesh R) (pts : list (option R)) : res (list nat) :=
  do (mx, mn) <- high_box m;
  do h <- high_spacing m;
  keys32 (m_num_elems m * Nat.pow (2 * m_order m + 1) 3) h mx mn pts.

(** refine_high_order_mesh.cpp:8-368; its call of build_connectivity is left out, as in Model_High *)
Definition refine_high_order_mesh32 (Z0 w0 : nat -> R) (m : mesh R) : res high_mesh :=
  let p := m_order m in let ne := m_num_elems m in
  let ns := p * 2 in let n1 := 2 * p + 1 in let ng := Nat.pow n1 3 in
  do _ <- fits (ne * (ns * ns * ns));
  do _ <- fits (ne * ng);
  do pts <- high_points Z0 w0 m;
  do keys <- high_keys32 m pts;
  do mg <- merge_nodes keys;
  do cs <- high_coords pts mg;
  do maps <- build_maps ne ns n1;
  do nic <- build_cell_nodes ne ns n1 mg;
  do conn <- high_conn ne ng mg;
  Ok {| hm_points := pts; hm_merged := mg; hm_maps := maps; hm_cells := nic;
        hm_mesh := Mesh p (mg_num mg) ne cs ng conn |}.
