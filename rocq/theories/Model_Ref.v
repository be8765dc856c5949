(** Model of elements/elements.cpp ref_element::init (2302-3026): the index spaces and quadrature
    data of the reference element, 3D case, and of swage/swage.cpp mesh_t::init_element (364-430).
    Ids are unbounded naturals, the patch list (which holds -1) is Z, unset memory is [None].
    1D tables (lobatto/legendre nodes and weights) are arguments: any list of the allocated length.
    Where one loop of the code fills several independent arrays, the model has one loop per array
    (the writes are to different arrays, so the order between them is not observable). *)
From Coq Require Import List Arith ZArith Reals.
Import ListNotations.
Require Import Verif.Base.
Local Open Scope bool_scope.

(** ---- sizes: elements/elements.cpp:2309-2358, 2391-2392, 2730 ---- *)
Record ref_sizes := {
  rs_nodes_1d : nat;   (* num_ref_nodes_1D_ *)
  rs_verts_1d : nat;   (* num_ref_verts_1d_ *)
  rs_zones_1d : nat;   (* num_zones_1d_ *)
  rs_zone_len : nat;   (* second extent of cells_in_zone_list_ *)
  rs_cells_1d : nat;   (* num_ref_cells_1D_ *)
  rs_corners_1d : nat; (* num_ref_corners_1D_ *)
  rs_nodes : nat; rs_verts : nat; rs_zones : nat; rs_cells : nat; rs_corners : nat;
  rs_inside : nat; rs_surface : nat; rs_patches : nat }.

Definition ref_sizes_of (p_order : nat) : ref_sizes :=
  let n1 := if p_order =? 0 then 2 else 2 * p_order + 1 in
  let v1 := if p_order =? 0 then 2 else p_order + 1 in
  let z1 := if p_order =? 0 then 1 else (n1 - 1) / 2 in
  let zl := if p_order =? 0 then 1 else 8 in
  let c1 := n1 - 1 in
  let r1 := 2 * (n1 - 2) + 2 in
  {| rs_nodes_1d := n1; rs_verts_1d := v1; rs_zones_1d := z1; rs_zone_len := zl;
     rs_cells_1d := c1; rs_corners_1d := r1;
     rs_nodes := n1 * n1 * n1; rs_verts := v1 * v1 * v1; rs_zones := z1 * z1 * z1;
     rs_cells := (n1 - 1) * (n1 - 1) * (n1 - 1); rs_corners := r1 * r1 * r1;
     rs_inside := (n1 - 2) * (n1 - 2) * (n1 - 2);
     rs_surface := n1 * n1 * n1 - (n1 - 2) * (n1 - 2) * (n1 - 2);
     rs_patches := (c1 + 1) * (c1 * c1) * 3 |}.

(** swage/swage.cpp:364-430 mesh_t::init_element; [pow] of two integers is taken as exact *)
Record mesh_sizes := {
  ms_gauss_in_elem : nat; ms_zones_in_elem : nat; ms_cells_in_zone : nat; ms_cells_in_elem : nat;
  ms_cells : nat; ms_nodes_in_elem : nat; ms_patches_in_elem : nat; ms_patch_pts_in_elem : nat }.

Definition init_element (e_order dim num_elem : nat) : mesh_sizes :=
  let g1 := if e_order =? 0 then 2 else 2 * e_order + 1 in
  let c1 := g1 - 1 in
  let g := Nat.pow g1 dim in
  let sub := if e_order =? 0 then Nat.pow (g1 - 1) dim else Nat.pow (2 * e_order) dim in
  let z := if e_order =? 0 then 1 else Nat.pow (c1 / 2) dim in
  let p := (c1 + 1) * (c1 * c1) * 3 in
  {| ms_gauss_in_elem := g; ms_zones_in_elem := z; ms_cells_in_zone := 8; ms_cells_in_elem := sub;
     ms_cells := num_elem * sub; ms_nodes_in_elem := g; ms_patches_in_elem := p; ms_patch_pts_in_elem := p |}.

(** swage/swage.cpp:799-808 gauss_in_elem, gauss_patch_pt_in_elem *)
Definition gauss_in_elem (m : mesh_sizes) (e l : nat) : nat := e * ms_gauss_in_elem m + l.
Definition gauss_patch_pt_in_elem (m : mesh_sizes) (e l : nat) : nat := e * ms_patch_pts_in_elem m + l.

(** elements/elements.cpp:3056-3069 cell_rid, node_rid, corner_rid with the 1D count as argument *)
Definition rid (n i j k : nat) : nat := i + j * n + k * n * n.

(** ---- zones: elements/elements.cpp:2475-2503 ---- *)
Definition zone_cells (nc i j k : nat) : list nat :=
  [ rid nc (2*i) (2*j) (2*k); rid nc (2*i+1) (2*j) (2*k);
    rid nc (2*i) (2*j+1) (2*k); rid nc (2*i+1) (2*j+1) (2*k);
    rid nc (2*i) (2*j) (2*k+1); rid nc (2*i+1) (2*j) (2*k+1);
    rid nc (2*i) (2*j+1) (2*k+1); rid nc (2*i+1) (2*j+1) (2*k+1) ].

Definition build_zones (p_order : nat) : res (list (option nat)) :=
  let sz := ref_sizes_of p_order in
  let z1 := rs_zones_1d sz in
  let nc := rs_cells_1d sz in
  let zl := rs_zone_len sz in
  let mem := repeat None (rs_zones sz * zl) in
  if p_order =? 0 then set mem (0 * zl + 0) (Some 0)
  else
    do (lst, _) <-
      loop z1 (fun k st => loop z1 (fun j st => loop z1 (fun i '(lst, zone_rid) =>
        do lst' <- loop 8 (fun l g => do v <- get (zone_cells nc i j k) l; set g (zone_rid * zl + l) (Some v)) lst;
        Ok (lst', zone_rid + 1)) st) st) (mem, 0);
    Ok lst.

(** elements/elements.cpp:3146-3149 cell_lid_in_zone: two-index access into cells_in_zone_list_ (zones, zl);
    the second index is checked against its extent *)
Definition cell_lid_in_zone (p_order : nat) (lst : list (option nat)) (z l : nat) : res nat :=
  let zl := rs_zone_len (ref_sizes_of p_order) in
  if l <? zl then getu lst (z * zl + l) else Err OOB.

(** ---- nodes of the cells: elements/elements.cpp:2506-2524 ---- *)
Definition cell_corner_nodes (n1 i j k : nat) : list nat :=
  [ rid n1 i j k; rid n1 (i+1) j k; rid n1 i (j+1) k; rid n1 (i+1) (j+1) k;
    rid n1 i j (k+1); rid n1 (i+1) j (k+1); rid n1 i (j+1) (k+1); rid n1 (i+1) (j+1) (k+1) ].

Definition build_cell_nodes_in_elem (n1 : nat) : res (list (option nat)) :=
  let nc := n1 - 1 in
  do (lst, _) <-
    loop nc (fun k st => loop nc (fun j st => loop nc (fun i '(lst, cell_lid) =>
      do lst' <- loop 8 (fun l g => do v <- get (cell_corner_nodes n1 i j k) l; set g (cell_lid * 8 + l) (Some v)) lst;
      Ok (lst', cell_lid + 1)) st) st) (repeat None (nc * nc * nc * 8), 0);
  Ok lst.

Definition cell_nodes_in_elem (lst : list (option nat)) (c l : nat) : res nat := getu lst (c * 8 + l).

(** ---- corners of the cells: elements/elements.cpp:2552-2577, 2618-2626.
    State: (ref_corners_in_cell_, ref_nodes_in_cell_, index) ---- *)
Definition build_ref_corners (n1 : nat) : res (list (option nat) * list (option nat)) :=
  let nc := n1 - 1 in
  let r1 := 2 * (n1 - 2) + 2 in
  do (crn, nod, _) <-
    loop nc (fun k st => loop nc (fun j st => loop nc (fun i st =>
      let corner_rid_in_cell_0 := 2 * i + 2 * r1 * j + 2 * r1 * r1 * k in
      loop 2 (fun kr st => loop 2 (fun jr st => loop 2 (fun ir '(crn, nod, index) =>
        let crn_rid := corner_rid_in_cell_0 + ir + r1 * jr + r1 * r1 * kr in
        do crn' <- set crn index (Some crn_rid);
        do nod' <- set nod index (Some (rid n1 (i + ir) (j + jr) (k + kr)));
        Ok (crn', nod', index + 1)) st) st) st) st) st)
      (repeat None (r1 * r1 * r1), repeat None (r1 * r1 * r1), 0);
  Ok (crn, nod).

(** elements/elements.cpp:3073-3083 *)
Definition ref_corners_in_cell (lst : list (option nat)) (c l : nat) : res nat := getu lst (l + c * 8).
Definition ref_nodes_in_cell (lst : list (option nat)) (c l : nat) : res nat := getu lst (l + c * 8).

(** ---- surface and inside nodes: elements/elements.cpp:2391-2394, 2692-2716.
    State: (inside list, surface list, count_inside, count_surf) ---- *)
Definition build_node_lists (n1 : nat) : res (list (option nat) * list (option nat) * nat * nat) :=
  let nin := (n1 - 2) * (n1 - 2) * (n1 - 2) in
  loop n1 (fun k st => loop n1 (fun j st => loop n1 (fun i '(ins, sur, ci, cs) =>
    let r := rid n1 i j k in
    if (0 <? i) && (i <? n1 - 1) && (0 <? j) && (j <? n1 - 1) && (0 <? k) && (k <? n1 - 1) then
      do ins' <- set ins ci (Some r); Ok (ins', sur, ci + 1, cs)
    else
      do sur' <- set sur cs (Some r); Ok (ins, sur', ci, cs + 1)) st) st)
    (repeat None nin, repeat None (n1 * n1 * n1 - nin), 0, 0).

Definition ref_inside_nodes_in_elem (lst : list (option nat)) (l : nat) : res nat := getu lst l.
Definition ref_surface_nodes_in_elem (lst : list (option nat)) (l : nat) : res nat := getu lst l.

(** ---- node positions and weights: elements/elements.cpp:2402-2417 ---- *)
Definition build_node_pos (n1 : nat) (lob : list R) : res (list (option R)) :=
  loop n1 (fun k st => loop n1 (fun j st => loop n1 (fun i pos =>
    let r := rid n1 i j k in
    do x <- get lob i; do y <- get lob j; do z <- get lob k;
    do p1 <- set pos (r * 3 + 0) (Some x);
    do p2 <- set p1 (r * 3 + 1) (Some y);
    set p2 (r * 3 + 2) (Some z)) st) st) (repeat None (n1 * n1 * n1 * 3)).
Definition ref_node_positions (pos : list (option R)) (r d : nat) : res R := getu pos (r * 3 + d).

Definition tensor_weights (n : nat) (w : list R) : res (list (option R)) :=
  loop n (fun k st => loop n (fun j st => loop n (fun i g =>
    do x <- get w i; do y <- get w j; do z <- get w k;
    set g (rid n i j k) (Some (x * y * z)%R)) st) st) (repeat None (n * n * n)).

(** elements/elements.cpp:2411-2413 ref_node_g_weights_ *)
Definition build_node_weights (n1 : nat) (lobw : list R) : res (list (option R)) := tensor_weights n1 lobw.

(** ---- corner weights: elements/elements.cpp:2420-2437 corner_lob_weights_1D ---- *)
Definition corner_weights_1d (n1 : nat) (lobw : list R) : res (list (option R)) :=
  let r1 := 2 * (n1 - 2) + 2 in
  do w0 <- get lobw 0;
  do c0 <- set (repeat None r1) 0 (Some w0);
  do c1 <- loop_from 1 (n1 - 2) (fun i c =>
      do w <- get lobw i;
      do c' <- set c (2 * i - 1) (Some (/ 2 * w)%R);
      do w' <- get lobw i;
      set c' (2 * i) (Some (/ 2 * w')%R)) c0;
  do wl <- get lobw (n1 - 1);
  set c1 (r1 - 1) (Some wl).

(** elements/elements.cpp:2527-2542 r_corner_part_g_weights (corners, 3) and ref_corner_g_weights_ *)
Definition build_corner_parts (n1 : nat) (cw : list (option R)) : res (list (option R)) :=
  let r1 := 2 * (n1 - 2) + 2 in
  loop r1 (fun k st => loop r1 (fun j st => loop r1 (fun i pos =>
    let r := rid r1 i j k in
    do x <- getu cw i; do y <- getu cw j; do z <- getu cw k;
    do p1 <- set pos (r * 3 + 0) (Some x);
    do p2 <- set p1 (r * 3 + 1) (Some y);
    set p2 (r * 3 + 2) (Some z)) st) st) (repeat None (r1 * r1 * r1 * 3)).

Definition build_corner_weights (n1 : nat) (cw : list (option R)) : res (list (option R)) :=
  let r1 := 2 * (n1 - 2) + 2 in
  loop r1 (fun k st => loop r1 (fun j st => loop r1 (fun i g =>
    do x <- getu cw i; do y <- getu cw j; do z <- getu cw k;
    set g (rid r1 i j k) (Some (x * y * z)%R)) st) st) (repeat None (r1 * r1 * r1)).

(** ---- corner surface normals and weights: elements/elements.cpp:1357-1396, 2562-2631 ---- *)

(** elements/elements.cpp:1357-1396 set_unit_normals (8 rows of 3) *)
Definition unit_normals : list R :=
  [ -1; -1; -1;   1; -1; -1;   -1; 1; -1;   1; 1; -1;
    -1; -1; 1;    1; -1; 1;    -1; 1; 1;    1; 1; 1 ]%R.

(** [pow(w, e)] with e = 1 - |n|: only the exponents 0 and 1 occur; anything else is outside the model *)
Definition cpow (w e : R) : res R :=
  if Req_EM_T e 0 then Ok 1%R else if Req_EM_T e 1 then Ok w else Err Fuel.

(** elements/elements.cpp:2581-2583 surf_vec0..2: row [s] is the normal component in direction [s] *)
Definition surf_vec (u : R) (s : nat) : list R :=
  match s with 0 => [u; 0; 0] | 1 => [0; u; 0] | _ => [0; 0; u] end%R.

(** elements/elements.cpp:2587-2618. State: (ref_corner_surf_normals_, ref_corner_surf_g_weights_, corner_rlid) *)
Definition build_corner_surfs (n1 : nat) (parts : list (option R)) : res (list (option R) * list (option R)) :=
  let nc := n1 - 1 in
  let r1 := 2 * (n1 - 2) + 2 in
  loop nc (fun k st => loop nc (fun j st => loop nc (fun i st =>
    let corner_rid_in_cell_0 := 2 * i + 2 * r1 * j + 2 * r1 * r1 * k in
    do (nrm', swt', _) <-
     loop 2 (fun kr st => loop 2 (fun jr st => loop 2 (fun ir '(nrm, swt, corner_rlid) =>
      let crn_rid := corner_rid_in_cell_0 + ir + r1 * jr + r1 * r1 * kr in
      do (nrm1, swt1) <- loop 3 (fun s '(nrm, swt) =>
        do u <- get unit_normals (corner_rlid * 3 + s);
        let v := surf_vec u s in
        do nrm1 <- loop 3 (fun d a => do x <- get v d; set a (crn_rid * 9 + s * 3 + d) (Some x)) nrm;
        do v0 <- get v 0; do v1 <- get v 1; do v2 <- get v 2;
        do w0 <- getu parts (crn_rid * 3 + 0); do w1 <- getu parts (crn_rid * 3 + 1);
        do w2 <- getu parts (crn_rid * 3 + 2);
        do a <- cpow w0 (1 - Rabs v0); do b <- cpow w1 (1 - Rabs v1); do c <- cpow w2 (1 - Rabs v2);
        do swt1 <- set swt (crn_rid * 3 + s) (Some (a * b * c)%R);
        Ok (nrm1, swt1)) (nrm, swt);
      Ok (nrm1, swt1, corner_rlid + 1)) st) st) (fst st, snd st, 0);
    Ok (nrm', swt')) st) st)
    (repeat None (r1 * r1 * r1 * 9), repeat None (r1 * r1 * r1 * 3)).

(** elements/elements.cpp:3111-3121 accessors *)
Definition ref_corner_surface_normals (nrm : list (option R)) (r s d : nat) : res R := getu nrm (r * 9 + s * 3 + d).
Definition ref_corner_g_surface_weights (swt : list (option R)) (r s : nat) : res R := getu swt (r * 3 + s).

(** ---- patches: elements/elements.cpp:2727-2899 ---- *)

(** elements/elements.cpp:2773-2775, 2778: Gauss-Legendre point and weight of a cell *)
Definition build_cell_pos (nc : nat) (leg : list R) : res (list (option R)) := build_node_pos nc leg.
Definition build_cell_weights (nc : nat) (legw : list R) : res (list (option R)) := tensor_weights nc legw.

(** elements/elements.cpp:2795-2853: position and weight of the patch on side [side] of cell (i,j,k) *)
Definition patch_point (lob leg legw : list R) (side i j k : nat) : res (R * R * R * R) :=
  match side with
  | 0 => do x <- get lob i; do y <- get leg j; do z <- get leg k;
         do a <- get legw j; do b <- get legw k; Ok (x, y, z, a * b)%R
  | 1 => do x <- get lob (i + 1); do y <- get leg j; do z <- get leg k;
         do a <- get legw j; do b <- get legw k; Ok (x, y, z, a * b)%R
  | 2 => do x <- get leg i; do y <- get lob j; do z <- get leg k;
         do a <- get legw i; do b <- get legw k; Ok (x, y, z, a * b)%R
  | 3 => do x <- get leg i; do y <- get lob (j + 1); do z <- get leg k;
         do a <- get legw i; do b <- get legw k; Ok (x, y, z, a * b)%R
  | 4 => do x <- get leg i; do y <- get leg j; do z <- get lob k;
         do a <- get legw i; do b <- get legw j; Ok (x, y, z, a * b)%R
  | _ => do x <- get leg i; do y <- get leg j; do z <- get lob (k + 1);
         do a <- get legw i; do b <- get legw j; Ok (x, y, z, a * b)%R
  end.

(** elements/elements.cpp:2859-2880: neighbour across a side ([None] models -1) *)
Definition patch_neighbour (nc side i j k : nat) : option nat :=
  if (side =? 0) && (0 <? i) then Some (rid nc (i - 1) j k)
  else if (side =? 1) && (i <? nc - 1) then Some (rid nc (i + 1) j k)
  else if (side =? 2) && (0 <? j) then Some (rid nc i (j - 1) k)
  else if (side =? 3) && (j <? nc - 1) then Some (rid nc i (j + 1) k)
  else if (side =? 4) && (0 <? k) then Some (rid nc i j (k - 1))
  else if (side =? 5) && (k <? nc - 1) then Some (rid nc i j (k + 1))
  else None.

(** elements/elements.h:1228-1235 patch_rlid_cell_neighbor_ *)
Definition patch_rlid_cell_neighbor : list nat := [1; 0; 3; 2; 5; 4].

Record patches := { pt_list : list (option Z);   (* ref_patches_in_cell_list_ *)
                    pt_pos : list (option R);    (* ref_patch_positions_ (patches, 3) *)
                    pt_wgt : list (option R);    (* ref_patch_g_weights_ *)
                    pt_rid : nat }.              (* patch_rid *)

(** elements/elements.cpp:2781-2893: one side of one cell *)
Definition patch_side (nc : nat) (lob leg legw : list R) (i j k side : nat) (st : patches) : res patches :=
  let this_cell_rid := rid nc i j k in
  let side_rid := side + this_cell_rid * 6 in
  do cur <- getu (pt_list st) side_rid;
  if Z.eqb cur (-1) then
    let pr := pt_rid st in
    do l1 <- set (pt_list st) side_rid (Some (Z.of_nat pr));
    do (x, y, z, w) <- patch_point lob leg legw side i j k;
    do p1 <- set (pt_pos st) (pr * 3 + 0) (Some x);
    do p2 <- set p1 (pr * 3 + 1) (Some y);
    do p3 <- set p2 (pr * 3 + 2) (Some z);
    do w1 <- set (pt_wgt st) pr (Some w);
    do l2 <- match patch_neighbour nc side i j k with
             | None => Ok l1
             | Some nb => if nb <? nc * nc * nc then
                            do ns <- get patch_rlid_cell_neighbor side;
                            set l1 (ns + nb * 6) (Some (Z.of_nat pr))
                          else Ok l1
             end;
    Ok {| pt_list := l2; pt_pos := p3; pt_wgt := w1; pt_rid := pr + 1 |}
  else Ok st.

(** elements/elements.cpp:2729-2731, 2747-2754, 2757-2899 *)
Definition build_patches (nc : nat) (lob leg legw : list R) : res patches :=
  let np := (nc + 1) * (nc * nc) * 3 in
  let nsides := nc * nc * nc * 6 in
  do l0 <- loop nsides (fun s l => set l s (Some (-1)%Z)) (repeat None nsides);
  loop nc (fun k st => loop nc (fun j st => loop nc (fun i st =>
    loop 6 (fun side st => patch_side nc lob leg legw i j k side st) st) st) st)
    {| pt_list := l0; pt_pos := repeat None (np * 3); pt_wgt := repeat None np; pt_rid := 0 |}.

(** elements/elements.cpp:3173-3197 accessors *)
Definition ref_patches_in_cell (p : patches) (c side : nat) : res Z := getu (pt_list p) (side + c * 6).
Definition ref_patch_positions (p : patches) (r d : nat) : res R := getu (pt_pos p) (r * 3 + d).
Definition ref_patch_g_weights (p : patches) (r : nat) : res R := getu (pt_wgt p) r.

(** elements/elements.h:1215-1225 node_rlid_in_patch_in_cell_, elements.cpp:3163-3167 node_in_patch_in_cell *)
Definition node_rlid_in_patch : list nat :=
  [0;2;6;4; 1;3;7;5; 0;4;5;1; 2;6;7;3; 0;1;3;2; 4;5;7;6].
Definition node_in_patch_in_cell (patch l : nat) : res nat := get node_rlid_in_patch (l + patch * 4).

(** elements/elements.h:1238-1245 cell_side_unit_normals_, elements.cpp:3181-3185 *)
Definition cell_side_unit_normals_tab : list R :=
  [ -1; 0; 0;  1; 0; 0;  0; -1; 0;  0; 1; 0;  0; 0; -1;  0; 0; 1 ]%R.
Definition cell_side_unit_normals (side d : nat) : res R := get cell_side_unit_normals_tab (side * 3 + d).
