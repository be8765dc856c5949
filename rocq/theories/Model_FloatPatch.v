(** Model of swage/swage.cpp:1355-1512 (hash keys of build_patch_connectivity) in rounded arithmetic, and of 1075-1093
    build_connectivity and 2050-2502 refine_mesh with it.  As in Model_FloatRefine.v, [rnd] is applied to the result of
    every floating-point operation and to the literals; pow(x, 2.0) and sqrt are correctly rounded, no multiply-add is
    contracted, ints are unbounded.  The rest of the functions works on integers and is that of Model_Full.v. *)
From Coq Require Import Reals List Arith ZArith.
Import ListNotations.
Require Import Verif.Base Verif.RBase Verif.Model_Geom Verif.Model_Conn Verif.Model_Refine Verif.Model_Ref Verif.Model_High Verif.Model_Full Verif.Model_FloatLagrange Verif.Model_FloatRefine Verif.Model_Patch.
Local Open Scope nat_scope.

Section FloatPatch.
Context (rnd : R -> R).

(** swage/swage.cpp:1467-1483: centre of side s of a cell.  num_nodes_patch_ is the int 4 *)
Definition side_centref (m : cmesh) (nodes : list nat) (c s : nat) : res (nat -> R) :=
  loop 4 (fun k acc => do n <- node_in_patch_in_cell nodes c s k;
    loop 3 (fun d acc => do x <- cm_coord m n d; Ok (fset acc d (rnd (acc d + rnd (x / 4))))%R) acc) (fun _ => 0%R).

(** swage/swage.cpp:1399-1440: the loop over cells; dist_min is reset to dist(0) by every cell *)
Definition patch_last_distf (m : cmesh) : res R :=
  do d <- loop (cm_cells m) (fun c _ => do v <- cell_verts m c; Ok (Some (cell_dist_minf rnd (node_distf rnd v 0 1) v))) None;
  match d with Some d => Ok d | None => Err Uninit end.

(** swage/swage.cpp:1447-1451, 1486-1509 *)
Definition patch_keyf (delta : R) (mn mx : nat -> R) (c : nat -> R) : res Z :=
  let e := rnd (/ 10 ^ 12) in let f := rnd (/ 10 ^ 16) in
  do n0 <- rdivf rnd (rnd (rnd (mx 0%nat - mn 0%nat) + e)) delta;
  do n1 <- rdivf rnd (rnd (rnd (mx 1%nat - mn 1%nat) + e)) delta;
  do q0 <- rdivf rnd (rnd (rnd (c 0%nat - mn 0%nat) + e)) delta;
  do q1 <- rdivf rnd (rnd (rnd (c 1%nat - mn 1%nat) + e)) delta;
  do q2 <- rdivf rnd (rnd (rnd (c 2%nat - mn 2%nat) + e)) delta;
  Ok (trunc (rnd (rnd (Rmax f q0 + rnd (Rmax f q1 * n0)) + rnd (rnd (Rmax f q2 * n0) * n1))))%R.

(** swage/swage.cpp:1359-1512: hash_keys.  A negative key would index the table before its start. *)
Definition face_keysf (m : cmesh) (nodes : list nat) : res (list nat) :=
  do (mx, mn) <- mesh_box (rnd (10 ^ 64)) m;
  do d <- patch_last_distf m;
  do delta <- rdivf rnd (Rmin (rnd (10 ^ 64)) d) 3;
  loop (cm_cells m) (fun c ks => loop 6 (fun s ks =>
    do cen <- side_centref m nodes c s;
    do k <- patch_keyf delta mn mx cen;
    if Z.ltb k 0 then Err OOB else Ok (ks ++ [Z.to_nat k])) ks) [].

(** swage/swage.cpp:1075-1093 build_connectivity *)
Definition build_connectivityf (G nelem : nat) (gauss : list (option nat)) (m : cmesh) : res connectivity :=
  let nc := cm_cells m in let nn := cm_nodes m in
  do nodes <- read_all (nc * 8) (cm_conn m);
  do a <- build_node_cell 8 nc nn nodes;
  do b <- build_corner 8 nc nn nodes a;
  do c <- build_cell_cell 8 nc nodes a;
  do keys <- face_keysf m nodes;
  do pt <- build_patches nc keys nodes;
  do gnodes <- read_all (nelem * G) gauss;
  do (en, nie) <- build_elem_node G nelem nn gnodes;
  do ee <- build_elem_elem G nelem nc gnodes en;
  Ok {| cn_node_cells := a; cn_corners := b; cn_cell_cells := c; cn_patches := pt;
        cn_node_elems := en; cn_nodes_in_elem := nie; cn_elem_elems := ee |}.

(** swage/swage.cpp:2050-2502 refine_mesh *)
Definition refine_meshf (p : nat) (m : cmesh) : res (refined * connectivity) :=
  do r <- refine_cellsf rnd p m;
  do c <- build_connectivityf (Nat.pow (num_g_pts_1d p) 3) (cm_cells m) (mg_node (rf_merged r)) (rf_mesh r);
  Ok (r, c).
End FloatPatch.
