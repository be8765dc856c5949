(** Model of swage/swage.cpp patch (face) and boundary builders, after the real-valued key has been
    truncated: [keys] are the integers hash_keys[0 .. 6*num_cells-1].  Entries that the code sets to
    -1 are of type Z; unset memory is [None].  Simplification: ints are unbounded; the running index
    hash_count is written as the position c*6+s it always equals. *)
From Coq Require Import List Arith ZArith.
Import ListNotations.
Require Import Verif.Base Verif.Model_Conn.

(** swage/swage.h:90-99 node_rlid_in_patch_in_cell_ *)
Definition patch_node_table : list nat :=
  [0;2;6;4; 1;3;7;5; 0;4;5;1; 2;6;7;3; 0;1;3;2; 4;5;7;6].

(** swage/swage.cpp:855-862 node_in_patch_in_cell (8 nodes per cell, 4 per patch) *)
Definition node_in_patch_in_cell (nodes : list nat) (cell patch k : nat) : res nat :=
  do l <- get patch_node_table (k + patch * 4);
  get nodes (cell * 8 + l).

(** swage/swage.cpp:1453, 1511: max_key starts at 0 *)
Definition max_key (keys : list nat) : nat := fold_left Nat.max keys 0.

(** swage/swage.cpp:1519-1524: table of max_key+10 unset entries; -1 stored at every key *)
Definition init_table (keys : list nat) : res (list (option Z)) :=
  iter keys (fun k t => set t k (Some (-1)%Z)) (repeat None (max_key keys + 10)).

(** swage/swage.cpp:1528-1544: first-seen numbering.  State: (table, patch_gid) *)
Definition number_patches (ncells : nat) (keys : list nat) (table : list (option Z))
  : res (list (option Z) * nat) :=
  loop ncells (fun c st => loop 6 (fun s '(t, gid) =>
    do k <- get keys (c * 6 + s);
    do v <- getu t k;
    if Z.eqb v (-1) then do t' <- set t k (Some (Z.of_nat gid)); Ok (t', gid + 1)
    else Ok (t, gid)) st) (table, 0).

Record patches := {
  pt_num : nat;                       (* num_patches_ *)
  pt_cells : list Z;                  (* cells_in_patch_list_, 2 per patch *)
  pt_sides : list Z;                  (* sides_in_patch_list_, 2 per patch *)
  pt_nodes : list Z;                  (* patch_nodes_list_, 4 per patch *)
  pt_in_cell : list (option Z);       (* patch_in_cell_list_ (cell, 6) *)
  pt_side_in_cell : list (option nat);(* sides_in_cell_list_ (cell, 6) *)
  pt_nsides : nat }.                  (* num_sides_ *)

(** swage/swage.cpp:1619-1621: copy the four node ids *)
Definition save_patch_nodes (lst : list Z) (at_ : nat) (these : list nat) : res (list Z) :=
  loop 4 (fun k lst => do n <- get these k; set lst (at_ + k) (Z.of_nat n)) lst.

(** swage/swage.cpp:1591-1603: node ids of one patch of a cell *)
Definition these_nodes (nodes : list nat) (c s : nat) : res (list nat) :=
  loop 4 (fun k acc => do n <- node_in_patch_in_cell nodes c s k; Ok (acc ++ [n])) [].

(** swage/swage.cpp:1573-1639: one (cell, patch_lid) step.  A patch id read from the table as -1 would
    index out of bounds. *)
Definition patch_step (keys nodes : list nat) (table : list (option Z)) (c s : nat)
  (st : list Z * list Z * list Z * list (option Z) * list (option nat) * nat) :=
  let '(cells, sides, pnodes, incell, sidecell, side) := st in
  do k <- get keys (c * 6 + s);
  do gid <- getu table k;
  do incell' <- set incell (c * 6 + s) (Some gid);
  do sidecell' <- set sidecell (c * 6 + s) (Some side);
  do ns <- these_nodes nodes c s;
  if Z.ltb gid 0 then Err OOB else
  let p := Z.to_nat gid in
  do first <- get cells (p * 2);
  if Z.eqb first (-1) then
    do cells' <- set cells (p * 2) (Z.of_nat c);
    do sides' <- set sides (p * 2) (Z.of_nat side);
    do pnodes' <- save_patch_nodes pnodes (p * 4) ns;
    Ok (cells', sides', pnodes', incell', sidecell', side + 1)
  else
    do cells' <- set cells (p * 2 + 1) (Z.of_nat c);
    do sides' <- set sides (p * 2 + 1) (Z.of_nat side);
    Ok (cells', sides', pnodes, incell', sidecell', side + 1).

(** swage/swage.cpp:1519-1642 build_patch_connectivity from the keys on *)
Definition build_patches (ncells : nat) (keys nodes : list nat) : res patches :=
  do t0 <- init_table keys;
  do (t, np) <- number_patches ncells keys t0;
  do (cells, sides, pnodes, incell, sidecell, side) <-
    loop ncells (fun c st => loop 6 (fun s st => patch_step keys nodes t c s st) st)
      (repeat (-1)%Z (2 * np), repeat (-1)%Z (2 * np), repeat (-1)%Z (4 * np),
       repeat None (ncells * 6), repeat None (ncells * 6), 0);
  Ok {| pt_num := np; pt_cells := cells; pt_sides := sides; pt_nodes := pnodes;
        pt_in_cell := incell; pt_side_in_cell := sidecell; pt_nsides := side |}.

(** accessors swage/swage.cpp:711-719, 866-897 *)
Definition patches_in_cell (m : patches) (cell lid : nat) : res Z := getu (pt_in_cell m) (cell * 6 + lid).
Definition sides_in_cell (m : patches) (cell lid : nat) : res nat := getu (pt_side_in_cell m) (cell * 6 + lid).
Definition cells_in_patch (m : patches) (patch i : nat) : res Z := get (pt_cells m) (patch * 2 + i).
Definition sides_in_patch (m : patches) (patch i : nat) : res Z := get (pt_sides m) (patch * 2 + i).
Definition node_in_patch (m : patches) (patch k : nat) : res Z := get (pt_nodes m) (patch * 4 + k).

(** swage/swage.cpp:1867-1919 build_bdy_patches: count, allocate, save *)
Definition build_bdy_patches (npatches : nat) (cells : list Z) : res (list (option nat)) :=
  do n <- loop npatches (fun p n => loop 2 (fun l n =>
            do c <- get cells (p * 2 + l); Ok (if Z.eqb c (-1) then n + 1 else n)) n) 0;
  do (lst, _) <- loop npatches (fun p st => loop 2 (fun l '(lst, n) =>
            do c <- get cells (p * 2 + l);
            if Z.eqb c (-1) then do lst' <- set lst n (Some p); Ok (lst', n + 1) else Ok (lst, n)) st)
          (repeat None n, 0);
  Ok lst.

(** ---- boundary sets ---- *)
Record bdy_sets := { bs_n : nat; bs_num : list (option nat); bs_start : list (option nat); bs_list : list (option nat) }.

(** swage/swage.cpp:553-566 init_bdy_sets *)
Definition init_bdy_sets (num_sets num_bdy : nat) : bdy_sets :=
  let n := if Nat.eqb num_sets 0 then 1 else num_sets in
  {| bs_n := n; bs_num := repeat None n; bs_start := repeat None (n + 1); bs_list := repeat None (n * num_bdy) |}.

(** swage/swage.cpp:1936-1976 tag_bdys.  [bdy] is bdy_patches_, [chk p] the result of
    check_bdy(p, tag, val). *)
Definition tag_bdys (bdy : list nat) (chk : nat -> res bool) (set_id : nat) (b : bdy_sets) : res bdy_sets :=
  if Nat.eqb set_id (bs_n b) then Err Exited else
  do st0 <- set (bs_start b) 0 (Some 0);
  do start <- getu st0 set_id;
  do (lst, counter) <- iter bdy (fun p '(lst, counter) =>
      do on <- chk p;
      if (on : bool) then do lst' <- set lst (start + counter) (Some p); Ok (lst', counter + 1)
      else Ok (lst, counter)) (bs_list b, 0);
  do num' <- set (bs_num b) set_id (Some counter);
  do s <- getu st0 set_id;
  do st' <- set st0 (set_id + 1) (Some (s + counter));
  Ok {| bs_n := bs_n b; bs_num := num'; bs_start := st'; bs_list := lst |}.

(** swage/swage.cpp:914-925 num_bdy_patches_in_set, bdy_patches_in_set and 1924-1929 set_bdy_patches *)
Definition num_bdy_patches_in_set (b : bdy_sets) (s : nat) : res nat := getu (bs_num b) s.
Definition bdy_patches_in_set (b : bdy_sets) (s i : nat) : res nat :=
  do st <- getu (bs_start b) s; getu (bs_list b) (st + i).
