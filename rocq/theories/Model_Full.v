(** Model of swage/swage.cpp:2050-2502 refine_mesh as a whole, and of 1075-1093 build_connectivity with
    the face keys of 1359-1512 read from the mesh arrays.  Doubles are exact reals; ids and keys are
    unbounded; pow on ints is exact; a double division by zero is DivZero; unset memory is [None];
    num_dim = 3.  Printing and the unused dist_max are left out. *)
From Coq Require Import Reals List Arith ZArith.
Import ListNotations.
Require Import Verif.Base Verif.RBase Verif.Model_Quad Verif.Model_Geom Verif.Model_Refine Verif.Model_Conn Verif.Model_Ref Verif.Model_High Verif.Model_Patch.
Local Open Scope nat_scope.

(** the part of mesh_t that refinement reads and writes: num_nodes_, num_cells_, node_coords_ (node, 3),
    nodes_in_cell_list_ (cell, 8) *)
Record cmesh := CMesh { cm_nodes : nat; cm_cells : nat; cm_coords : list (option R); cm_conn : list (option nat) }.
(** swage/swage.cpp node_coords(node, dim) and 676-679 nodes_in_cell(cell, node_lid) *)
Definition cm_coord (m : cmesh) (node d : nat) : res R := getu (cm_coords m) (node * 3 + d).
Definition cm_node (m : cmesh) (cell l : nat) : res nat := getu (cm_conn m) (cell * 8 + l).

(** swage/swage.cpp:2155-2160: x_init, y_init, z_init of one element *)
Definition init_arrays (m : cmesh) (e : nat) (st : list (option R) * list (option R) * list (option R)) :=
  loop 8 (fun l '(vx, vy, vz) =>
    do n0 <- cm_node m e l; do x <- cm_coord m n0 0; do vx <- set vx l (Some x);
    do n1 <- cm_node m e l; do y <- cm_coord m n1 1; do vy <- set vy l (Some y);
    do n2 <- cm_node m e l; do z <- cm_coord m n2 2; do vz <- set vz l (Some z);
    Ok (vx, vy, vz)) st.

(** swage/swage.cpp:2096-2189: the Gauss-point positions g_points_in_mesh.  temp_pts(i,j,k,.) is read as
    the Lobatto nodes i, j, k it was filled with (2103-2111); basis[] is inlined in [tri_map]. *)
Definition refine_points (p : nat) (m : cmesh) : res (list (option R)) :=
  let n1 := num_g_pts_1d p in let ne := cm_cells m in let ng := Nat.pow n1 3 in
  do lob <- lobatto_nodes_1D_tmp (repeat None n1) (Z.of_nat n1);
  do (pts, _, _, _, _) <-
    loop ne (fun e '(pts, vx, vy, vz, count) =>
      do (vx, vy, vz) <- init_arrays m e (vx, vy, vz);
      loop n1 (fun k st => loop n1 (fun j st => loop n1 (fun i '(pts, vx, vy, vz, count) =>
        do x <- getu lob i; do y <- getu lob j; do z <- getu lob k;
        let q := fun d : nat => match d with 0 => x | 1 => y | _ => z end in
        do pts <- set pts (count * 3 + 0) (Some (tri_map (ptr vx) q));
        do pts <- set pts (count * 3 + 1) (Some (tri_map (ptr vy) q));
        do pts <- set pts (count * 3 + 2) (Some (tri_map (ptr vz) q));
        Ok (pts, vx, vy, vz, count + 1)) st) st) (pts, vx, vy, vz, count))
      (repeat None (ne * ng * 3), repeat None 8, repeat None 8, repeat None 8, 0);
  Ok pts.

(** swage/swage.cpp:2196-2216 (big = 1e16) and 1364-1387 (big = 1e64): coordinate range of the nodes *)
Definition mesh_box (big : R) (m : cmesh) : res ((nat -> R) * (nat -> R)) :=
  loop (cm_nodes m) (fun n st => loop 3 (fun d '(mx, mn) =>
    do x <- cm_coord m n d;
    Ok (fset mx d (Rmax (mx d) x), fset mn d (Rmin (mn d) x))) st) ((fun _ => (- big)%R), (fun _ => big)).

(** swage/swage.cpp:2229-2233, 1402-1406: vert1 of one cell *)
Definition cell_verts (m : cmesh) (c : nat) : res (nat -> nat -> R) :=
  loop 8 (fun l v => loop 3 (fun d v => do n <- cm_node m c l; do x <- cm_coord m n d; Ok (fset v l (fset (v l) d x))) v)
    (fun _ _ => 0%R).

(** swage/swage.cpp:2226-2272, 1399-1440: the loop over cells; dist_min is overwritten by every cell.
    [start v] is the value it is reset to. *)
Definition last_dist (start : (nat -> nat -> R) -> R) (m : cmesh) : res R :=
  do d <- loop (cm_cells m) (fun c _ => do v <- cell_verts m c; Ok (Some (cell_dist_min (start v) v))) None;
  match d with Some d => Ok d | None => Err Uninit end.

(** swage/swage.cpp:2277-2333: bin width, bins and keys; the bins and the key of one point are, word for
    word, those of refine_high_order_mesh.cpp:161-202 (Model_High) *)
Definition refine_keys (p : nat) (m : cmesh) (pts : list (option R)) : res (list nat) :=
  do (mx, mn) <- mesh_box (10 ^ 16) m;
  do d <- last_dist (fun _ => 10 ^ 64)%R m;
  let h := (d / (7 * (if Nat.eqb p 0 then 1 else INR p)))%R in
  do b <- high_bins h mx mn;
  loop (Nat.pow (num_g_pts_1d p) 3 * cm_cells m) (fun g ks => do k <- high_key h mn b pts g; Ok (ks ++ [k])) [].

Record refined := { rf_points : list (option R);      (* g_points_in_mesh *)
                    rf_merged : merged;               (* node_in_gauss, node_to_gauss_map, num_nodes *)
                    rf_maps : refmaps;                (* gauss_in_cell, cells_in_elem, elems_in_cell *)
                    rf_mesh : cmesh }.                (* counts, node_coords, nodes_in_cell *)

(** swage/swage.cpp:2050-2499: everything before build_connectivity.  The node placement 2397-2402 is
    [high_coords]. *)
Definition refine_cells (p : nat) (m : cmesh) : res refined :=
  let ne := cm_cells m in let ns := num_sub_1d p in let n1 := num_g_pts_1d p in
  do pts <- refine_points p m;
  do keys <- refine_keys p m pts;
  do mg <- merge_nodes keys;
  do cs <- high_coords pts mg;
  do maps <- build_maps ne ns n1;
  do nic <- build_cell_nodes ne ns n1 mg;
  Ok {| rf_points := pts; rf_merged := mg; rf_maps := maps;
        rf_mesh := CMesh (mg_num mg) (ne * (ns * ns * ns)) cs nic |}.

(** the entries of a filled array, in order; an unset one is Uninit *)
Definition read_all (n : nat) (l : list (option nat)) : res (list nat) :=
  loop n (fun q acc => do v <- getu l q; Ok (acc ++ [v])) [].

(** swage/swage.cpp:1467-1483: centre of side s of a cell *)
Definition side_centre (m : cmesh) (nodes : list nat) (c s : nat) : res (nat -> R) :=
  loop 4 (fun k acc => do n <- node_in_patch_in_cell nodes c s k;
    loop 3 (fun d acc => do x <- cm_coord m n d; Ok (fset acc d (acc d + x / 4)%R)) acc) (fun _ => 0%R).

(** swage/swage.cpp:1359-1512: hash_keys.  A negative key would index the table before its start. *)
Definition face_keys (m : cmesh) (nodes : list nat) : res (list nat) :=
  do (mx, mn) <- mesh_box (10 ^ 64) m;
  do d <- last_dist (fun v => node_dist v 0 1) m;
  let delta := (Rmin (10 ^ 64) d / 3)%R in
  loop (cm_cells m) (fun c ks => loop 6 (fun s ks =>
    do cen <- side_centre m nodes c s;
    do k <- patch_key delta mn mx cen;
    if Z.ltb k 0 then Err OOB else Ok (ks ++ [Z.to_nat k])) ks) [].

Record connectivity := { cn_node_cells : node_cells;     (* cells in node *)
                         cn_corners : corners;           (* corners in node, in cell *)
                         cn_cell_cells : cell_cells;     (* cells in cell *)
                         cn_patches : patches;           (* patches, sides *)
                         cn_node_elems : node_cells;     (* elems in node *)
                         cn_nodes_in_elem : list (option nat);
                         cn_elem_elems : elem_elems }.   (* elems in elem *)

(** swage/swage.cpp:1075-1093 build_connectivity.  [G] Gauss points per element, [gauss] node_in_gauss *)
Definition build_connectivity (G nelem : nat) (gauss : list (option nat)) (m : cmesh) : res connectivity :=
  let nc := cm_cells m in let nn := cm_nodes m in
  do nodes <- read_all (nc * 8) (cm_conn m);
  do a <- build_node_cell 8 nc nn nodes;
  do b <- build_corner 8 nc nn nodes a;
  do c <- build_cell_cell 8 nc nodes a;
  do keys <- face_keys m nodes;
  do pt <- build_patches nc keys nodes;
  do gnodes <- read_all (nelem * G) gauss;
  do (en, nie) <- build_elem_node G nelem nn gnodes;
  do ee <- build_elem_elem G nelem nc gnodes en;
  Ok {| cn_node_cells := a; cn_corners := b; cn_cell_cells := c; cn_patches := pt;
        cn_node_elems := en; cn_nodes_in_elem := nie; cn_elem_elems := ee |}.

(** swage/swage.cpp:2050-2502 refine_mesh *)
Definition refine_mesh (p : nat) (m : cmesh) : res (refined * connectivity) :=
  do r <- refine_cells p m;
  do c <- build_connectivity (Nat.pow (num_g_pts_1d p) 3) (cm_cells m) (mg_node (rf_merged r)) (rf_mesh r);
  Ok (r, c).
