(** Model of swage/swage.cpp refine_mesh: node merging and the index maps of the refined mesh.
    Ids are unbounded naturals; hash-table values (which go through -1) are Z; unset memory is [None]. *)
From Coq Require Import List Arith ZArith.
Import ListNotations.
Require Import Verif.Base Verif.Model_Patch.

(** swage/swage.cpp:2064-2085: sub-cells and Gauss points per direction *)
Definition num_sub_1d (p_order : nat) : nat := if Nat.eqb p_order 0 then 1 else p_order * 2.
Definition num_g_pts_1d (p_order : nat) : nat := if Nat.eqb p_order 0 then 2 else 2 * p_order + 1.

Record merged := { mg_num : nat;                    (* num_nodes *)
                   mg_node : list (option nat);     (* node_in_gauss *)
                   mg_gauss : list (option nat) }.  (* node_to_gauss_map *)

(** swage/swage.cpp:2335-2342: table of max_key+10 entries, 0 at every key *)
Definition init_hash (keys : list nat) : res (list (option Z)) :=
  iter keys (fun k t => set t k (Some 0%Z)) (repeat None (max_key keys + 10)).

(** swage/swage.cpp:2354-2388: one Gauss point.
    State: (hash, node_to_gauss_map, node_in_gauss, num_nodes, node_gid) *)
Definition merge_step (keys : list nat) (g : nat)
  (st : list (option Z) * list (option nat) * list (option nat) * nat * nat) :=
  let '(h, n2g, nig, num, gid) := st in
  do k <- get keys g;
  do v <- getu h k;
  do h1 <- (if Z.leb v 0 then set h k (Some (v - 1)%Z) else Ok h);
  do v1 <- getu h1 k;
  do (n2g1, num1) <- (if Z.eqb v1 (-1) then do a <- set n2g num (Some g); Ok (a, num + 1) else Ok (n2g, num));
  if Z.leb v1 (-1) then
    do h2 <- set h1 k (Some (Z.of_nat gid));
    do nig' <- set nig g (Some gid);
    Ok (h2, n2g1, nig', num1, gid + 1)
  else
    do nig' <- set nig g (Some (Z.to_nat v1));
    Ok (h1, n2g1, nig', num1, gid).

(** swage/swage.cpp:2335-2388 merging of Gauss points into nodes *)
Definition merge_nodes (keys : list nat) : res merged :=
  do h <- init_hash keys;
  do (_, n2g, nig, num, _) <-
    loop (length keys) (merge_step keys) (h, repeat None (length keys), repeat None (length keys), 0, 0);
  Ok {| mg_num := num; mg_node := nig; mg_gauss := n2g |}.

Definition node_in_gauss (m : merged) (g : nat) : res nat := getu (mg_node m) g.
(** node_to_gauss_map(node), used to place the node: swage/swage.cpp:2397-2402 *)
Definition gauss_of_node (m : merged) (n : nat) : res nat := getu (mg_gauss m) n.

(** ---- index maps: swage/swage.cpp:2414-2464 and 2468-2503 ---- *)

(** swage/swage.cpp:2421-2446, 2476-2492: the eight Gauss points of sub-cell (i,j,k), before the element offset *)
Definition eight (n1 i j k : nat) : list nat :=
  [ i + j * n1 + k * n1 * n1; (i + 1) + j * n1 + k * n1 * n1;
    i + (j + 1) * n1 + k * n1 * n1; (i + 1) + (j + 1) * n1 + k * n1 * n1;
    i + j * n1 + (k + 1) * n1 * n1; (i + 1) + j * n1 + (k + 1) * n1 * n1;
    i + (j + 1) * n1 + (k + 1) * n1 * n1; (i + 1) + (j + 1) * n1 + (k + 1) * n1 * n1 ].

Record refmaps := { rm_gauss : list (option nat);   (* gauss_in_cell (cell, 8) *)
                    rm_cie : list (option nat);     (* cells_in_elem (elem, sub^3) *)
                    rm_eic : list (option nat) }.   (* elems_in_cell *)

(** swage/swage.cpp:2414-2464 *)
Definition build_maps (ne ns n1 : nat) : res refmaps :=
  do (g, cie, eic) <-
   loop ne (fun e st => loop ns (fun k st => loop ns (fun j st => loop ns (fun i '(g, cie, eic) =>
     let p := map (fun x => x + n1 * n1 * n1 * e) (eight n1 i j k) in
     let cell_lid := i + j * ns + k * ns * ns in
     let cell_gid := cell_lid + ns * ns * ns * e in
     do g' <- loop 8 (fun l g => do v <- get p l; set g (cell_gid * 8 + l) (Some v)) g;
     do cie' <- set cie (e * (ns * ns * ns) + cell_lid) (Some cell_gid);
     do eic' <- set eic cell_gid (Some e);
     Ok (g', cie', eic')) st) st) st)
    (repeat None (ne * (ns * ns * ns) * 8), repeat None (ne * (ns * ns * ns)), repeat None (ne * (ns * ns * ns)));
  Ok {| rm_gauss := g; rm_cie := cie; rm_eic := eic |}.

(** swage/swage.cpp:2468-2503: nodes of the refined cells, with the running counter cell_gid *)
Definition build_cell_nodes (ne ns n1 : nat) (m : merged) : res (list (option nat)) :=
  do (nic, _) <-
   loop ne (fun e st => loop ns (fun k st => loop ns (fun j st => loop ns (fun i '(nic, cell_gid) =>
     let p := map (fun x => x + n1 * n1 * n1 * e) (eight n1 i j k) in
     do nic' <- loop 8 (fun l nic => do q <- get p l; do n <- node_in_gauss m q; set nic (cell_gid * 8 + l) (Some n)) nic;
     Ok (nic', cell_gid + 1)) st) st) st)
    (repeat None (ne * (ns * ns * ns) * 8), 0);
  Ok nic.

(** accessors swage/swage.cpp: gauss_in_cell, cells_in_elem, elems_in_cell, nodes_in_cell *)
Definition gauss_in_cell (m : refmaps) (cell l : nat) : res nat := getu (rm_gauss m) (cell * 8 + l).
Definition cells_in_elem (m : refmaps) (ns e lid : nat) : res nat := getu (rm_cie m) (e * (ns * ns * ns) + lid).
Definition elems_in_cell (m : refmaps) (cell : nat) : res nat := getu (rm_eic m) cell.
