(** Model of the index-space builders of swage/swage.cpp: node-cell, corner, cell-cell and element
    connectivity.  Arrays are lists with checked access; freshly allocated memory is [None]
    (reading it is [Err Uninit]).  Simplification: [int] ids are unbounded naturals; a two-index
    CArray (n, m) is the flat row-major list of length n*m.  [nodes] is the flat array
    nodes_in_cell_list_ (or the Gauss-point-to-node map read through gauss_in_elem): the node of
    local position [l] of cell [c] is entry [c*K + l], K = nodes per cell. *)
From Coq Require Import List Arith.
Import ListNotations.
Require Import Verif.Base.

(** a freshly allocated CArray<int>(n): contents unset *)
Definition alloc (n : nat) : list (option nat) := repeat None n.

(** swage/swage.cpp:1099-1120 and 1653-1672: clear the per-node counters, then one increment per
    (cell, local node) pair *)
Definition count_incidences (K ncells nnodes : nat) (nodes : list nat) : res (list nat) :=
  loop ncells (fun c cnt =>
    loop K (fun l cnt =>
      do n <- get nodes (c * K + l);
      do v <- get cnt n;
      set cnt n (v + 1)) cnt) (repeat 0 nnodes).

(** swage/swage.cpp:1132-1138, 1264-1270, 1686-1690, 1756-1762: running start offsets
    [start(0) = 0; start(i+1) = start(i) + count(i)] in an array of n+1 entries *)
Definition build_starts (n : nat) (cnt : list nat) : res (list nat) :=
  loop n (fun i st =>
    do s <- get st i;
    do v <- get cnt i;
    set st (i + 1) (s + v)) (repeat 0 (n + 1)).

(** swage/swage.cpp:1142-1160 and 1695-1709: write the cell id of every pair at
    [start(node) + saved(node)] and bump [saved] *)
Definition fill_incidences (K ncells nnodes : nat) (nodes starts : list nat) (size : nat)
  (value : nat -> nat -> nat) : res (list (option nat) * list nat) :=
  loop ncells (fun c st =>
    loop K (fun l '(lst, saved) =>
      do n <- get nodes (c * K + l);
      do s <- get starts n;
      do k <- get saved n;
      do lst' <- set lst (s + k) (Some (value c l));
      do saved' <- set saved n (k + 1);
      Ok (lst', saved')) st) (alloc size, repeat 0 nnodes).

(** CSR structure "cells in node" *)
Record node_cells := { nc_num : list nat; nc_start : list nat; nc_list : list (option nat) }.

(** swage/swage.cpp:1096-1162 build_node_cell_connectivity *)
Definition build_node_cell (K ncells nnodes : nat) (nodes : list nat) : res node_cells :=
  do cnt <- count_incidences K ncells nnodes nodes;
  do st <- build_starts nnodes cnt;
  do (lst, _) <- fill_incidences K ncells nnodes nodes st (ncells * K) (fun c _ => c);
  Ok {| nc_num := cnt; nc_start := st; nc_list := lst |}.

(** swage/swage.cpp:733-754 num_cells_in_node, cells_in_node *)
Definition num_cells_in_node (m : node_cells) (node : nat) : res nat := get (nc_num m) node.
Definition cells_in_node (m : node_cells) (node lid : nat) : res nat :=
  do s <- get (nc_start m) node; getu (nc_list m) (s + lid).

(** swage/swage.cpp:1165-1220 build_corner_connectivity: corner ids count up over (cell, node)
    pairs; fills corners_in_node_list_ (CSR with the starts of cells_in_node), corners_in_cell and
    num_corners_in_node_ *)
Record corners := { co_start : list nat; co_list : list (option nat); co_num : list nat;
                    co_in_cell : list (option nat); co_total : nat }.

Definition build_corner (K ncells nnodes : nat) (nodes : list nat) (m : node_cells) : res corners :=
  do (st, incell, total) <-
    loop ncells (fun c st =>
      loop K (fun l '((lst, saved), incell, gid) =>
        do n <- get nodes (c * K + l);
        do s <- get (nc_start m) n;
        do k <- get saved n;
        do saved' <- set saved n (k + 1);
        do lst' <- set lst (s + k) (Some gid);
        do incell' <- set incell (c * K + l) (Some gid);
        Ok ((lst', saved'), incell', gid + 1)) st)
      ((alloc (ncells * K), repeat 0 nnodes), alloc (ncells * K), 0);
  let '(lst, saved) := st in
  Ok {| co_start := nc_start m; co_list := lst; co_num := saved; co_in_cell := incell; co_total := total |}.

(** swage/swage.cpp:700-703, 828-844 corners_in_cell, num_corners_in_node, corners_in_node *)
Definition corners_in_cell (m : corners) (K cell lid : nat) : res nat := getu (co_in_cell m) (cell * K + lid).
Definition num_corners_in_node (m : corners) (node : nat) : res nat := get (co_num m) node.
Definition corners_in_node (m : corners) (node lid : nat) : res nat :=
  do s <- get (co_start m) node; getu (co_list m) (s + lid).

(** swage/swage.cpp:1225-1256 and 1724-1751: number of (cell, neighbour) pairs with repetition *)
Definition count_pairs (K ncells : nat) (nodes : list nat) (m : node_cells) : res (list nat * nat) :=
  loop ncells (fun c st =>
    loop K (fun l st =>
      do n <- get nodes (c * K + l);
      do cn <- num_cells_in_node m n;
      loop cn (fun i st =>
        do nb <- cells_in_node m n i;
        let '(cnt, total) := st in
        if Nat.eqb nb c then Ok (cnt, total)
        else do v <- get cnt c; do cnt' <- set cnt c (v + 1); Ok (cnt', total + 1)) st) st)
    (repeat 0 ncells, 0).

(** swage/swage.cpp:1292-1305 and 1792-1805: the [save] flag: not the cell itself, and not among the
    entries start..index-1 of the temporary list *)
Definition save_flag (c nb start index : nat) (temp : list (option nat)) : res bool :=
  loop_from start (index - start) (fun i save =>
    do t <- getu temp i;
    Ok (if Nat.eqb nb t then false else save)) (negb (Nat.eqb nb c)).

(** swage/swage.cpp:1273-1319 and 1765-1822: fill the temporary neighbour list.
    State: (temp, saved counts, actual_size) *)
Definition fill_neighbors (K ncells savedsize : nat) (nodes : list nat) (m : node_cells)
  (starts : list nat) (total : nat) : res (list (option nat) * list nat * nat) :=
  loop ncells (fun c st =>
    loop K (fun l st =>
      do n <- get nodes (c * K + l);
      do cn <- num_cells_in_node m n;
      loop cn (fun i st =>
        do nb <- cells_in_node m n i;
        let '(temp, saved, actual) := st in
        do s <- get starts c;
        do k <- get saved c;
        do save <- save_flag c nb s (s + k) temp;
        if save then
          do temp' <- set temp (s + k) (Some nb);
          do saved' <- set saved c (k + 1);
          Ok (temp', saved', actual + 1)
        else Ok (temp, saved, actual)) st) st)
    (alloc total, repeat 0 savedsize, 0).

Record cell_cells := { cc_num : list nat; cc_start : list nat; cc_list : list (option nat) }.

(** swage/swage.cpp:1322-1355: compact the temporary list; the first statement writes entry 0 even
    when the list is empty *)
Definition compact_neighbors (ncells actual : nat) (temp : list (option nat)) (saved starts : list nat)
  (num0 : list nat) : res cell_cells :=
  do lst0 <- set (alloc actual) 0 (Some 0);
  do (num, st, lst, _) <-
    loop ncells (fun c '(num, st, lst, index) =>
      do k <- get saved c;
      do num' <- set num c k;
      do s <- get st c;
      do st' <- set st c index;
      do (lst', index') <- loop_from s k (fun i '(lst, index) =>
          do v <- getu temp i;
          do lst' <- set lst index (Some v);
          Ok (lst', index + 1)) (lst, index);
      Ok (num', st', lst', index')) (num0, starts, lst0, 0);
  Ok {| cc_num := num; cc_start := st; cc_list := lst |}.

(** swage/swage.cpp:1223-1357 build_cell_cell_connectivity *)
Definition build_cell_cell (K ncells : nat) (nodes : list nat) (m : node_cells) : res cell_cells :=
  do (cnt, total) <- count_pairs K ncells nodes m;
  do starts <- build_starts ncells cnt;
  do (temp, saved, actual) <- fill_neighbors K ncells ncells nodes m starts total;
  compact_neighbors ncells actual temp saved starts cnt.

(** swage/swage.cpp:682-697 num_cells_in_cell, cells_in_cell *)
Definition num_cells_in_cell (m : cell_cells) (cell : nat) : res nat := get (cc_num m) cell.
Definition cells_in_cell (m : cell_cells) (cell lid : nat) : res nat :=
  do s <- get (cc_start m) cell; getu (cc_list m) (s + lid).

(** ---- element connectivity ---- *)

(** swage/swage.cpp:1648-1719: elements in node.  [gnodes] is node_in_gauss_list_; Gauss point
    [elem*G + lid] is gauss_in_elem(elem, lid).  nodes_in_elem(elem, lid) is set to the same node, so
    the flat array nodes_in_elem_list_ equals [gnodes] on its first nelem*G entries; it is returned
    as written by the loop. *)
Definition build_elem_node (G nelem nnodes : nat) (gnodes : list nat)
  : res (node_cells * list (option nat)) :=
  do (cnt, nie) <-
    loop nelem (fun e st =>
      loop G (fun g '(cnt, nie) =>
        do n <- get gnodes (e * G + g);
        do v <- get cnt n;
        do cnt' <- set cnt n (v + 1);
        do nie' <- set nie (e * G + g) (Some n);
        Ok (cnt', nie')) st) (repeat 0 nnodes, alloc (nelem * G));
  do size <- loop nnodes (fun n acc => do v <- get cnt n; Ok (acc + v)) 0;
  do st <- build_starts nnodes cnt;
  do (lst, _) <- fill_incidences G nelem nnodes gnodes st size (fun e _ => e);
  Ok ({| nc_num := cnt; nc_start := st; nc_list := lst |}, nie).

(** the elements-in-element structure: counts and a ragged array (one list per element) *)
Record elem_elems := { ee_num : list nat; ee_rows : list (list (option nat)) }.

(** swage/swage.cpp:1825-1838: ragged array with row length start(e+1) - start(e); the stride array
    has one extra entry (the total), giving one extra unused row *)
Definition alloc_ragged (nelem : nat) (starts : list nat) : res (list (list (option nat))) :=
  do rows <- loop nelem (fun e rows =>
    do a <- get starts e; do b <- get starts (e + 1);
    Ok (rows ++ [alloc (b - a)])) [];
  do t <- get starts nelem;
  Ok (rows ++ [alloc t]).

(** swage/swage.cpp:1840-1863: copy the saved neighbours into row e *)
Definition copy_rows (nelem : nat) (temp : list (option nat)) (saved starts num0 : list nat)
  (rows0 : list (list (option nat))) : res elem_elems :=
  do (num, rows) <-
    loop nelem (fun e '(num, rows) =>
      do k <- get saved e;
      do num' <- set num e k;
      do s <- get starts e;
      do rows' <- loop k (fun i rows =>
          do v <- getu temp (s + i);
          do row <- get rows e;
          do row' <- set row i (Some v);
          set rows e row') rows;
      Ok (num', rows')) (num0, rows0);
  Ok {| ee_num := num; ee_rows := rows |}.

(** swage/swage.cpp:1721-1864: elements in element.  The local array num_elem_elem_saved has
    num_cells_ entries. *)
Definition build_elem_elem (G nelem numcells : nat) (nodes : list nat) (m : node_cells) : res elem_elems :=
  do (cnt, total) <- count_pairs G nelem nodes m;
  do starts <- build_starts nelem cnt;
  do (temp, saved, actual) <- fill_neighbors G nelem numcells nodes m starts total;
  do rows0 <- alloc_ragged nelem starts;
  copy_rows nelem temp saved starts cnt rows0.

(** swage/swage.cpp:601-604 num_elems_in_elem, elems_in_elem *)
Definition num_elems_in_elem (m : elem_elems) (e : nat) : res nat := get (ee_num m) e.
Definition elems_in_elem (m : elem_elems) (e lid : nat) : res nat :=
  do row <- get (ee_rows m) e; getu row lid.
