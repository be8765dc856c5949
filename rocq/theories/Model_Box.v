(** mesh_tools/box_mesh_creator/meshbox.cpp: the structured hexahedral box mesh.
    The numbers of cells and the lengths, constants in main (lines 111-117), are parameters here.
    Simplifications: int arithmetic is unbounded, doubles are reals; the ids are Z, since get_id is
    also called with -1; a negative array index is out of bounds (in C++ it converts to a huge
    size_t).  Arrays that are allocated and never used (cell_face_neighbor_list, face_coords,
    face_edges_list, bdy_point_list, bdy_point_boollian) are left out. *)
From Coq Require Import List Arith ZArith Reals Bool.
Import ListNotations.
Require Import Verif.Base Verif.RBase.
Local Open Scope nat_scope.

(** meshbox.cpp:455-458 get_id *)
Definition get_id (i j k num_i num_j : Z) : Z := (i + j * num_i + k * num_i * num_j)%Z.

(** write at an int index *)
Definition setz {A} (l : list A) (i : Z) (v : A) : res (list A) := if (i <? 0)%Z then Err OOB else set l (Z.to_nat i) v.

Notation Zn := Z.of_nat.

(** meshbox.cpp:160-162 the number of faces allocated; p = number of points per direction *)
Definition box_num_faces (pi pj pk : nat) : nat := (pi - 1) * (pj - 1) * pk + pi * (pj - 1) * (pk - 1) + (pi - 1) * pj * (pk - 1).

(** meshbox.cpp:174-178 the number of boundary points *)
Definition box_num_bdy_points (pi pj pk : Z) : Z :=
  (2 * (pi - 2) * (pj - 2) + 2 * (pi - 2) * (pk - 2) + 2 * (pj - 2) * (pk - 2) + 4 * (pi - 2) + 4 * (pj - 2) + 4 * (pk - 2) + 8)%Z.

(** meshbox.cpp:190-198 convert_point_number_in_Hex, lines 205-210 face_face_index (an array of
    num_faces entries of which the first six are set) *)
Definition convert_point_number : list nat := [0; 1; 3; 2; 4; 5; 7; 6].
Definition face_face_index (num_faces : nat) : res (list (option nat)) :=
  do a <- set (repeat None num_faces) 0 (Some 3); do a <- set a 1 (Some 4); do a <- set a 2 (Some 5);
  do a <- set a 3 (Some 0); do a <- set a 4 (Some 1); set a 5 (Some 2).

(** meshbox.cpp:221-238 the points *)
Definition box_points (ni nj nk : nat) (sx sy sz dx dy dz : R) : res (list (option R)) :=
  loop (nk + 1) (fun k s => loop (nj + 1) (fun j s => loop (ni + 1) (fun i s =>
    let id := get_id (Zn i) (Zn j) (Zn k) (Zn (ni + 1)) (Zn (nj + 1)) in
    do s <- setz s (id * 3 + 0) (Some (sx + INR i * dx)%R);
    do s <- setz s (id * 3 + 1) (Some (sy + INR j * dy)%R);
    setz s (id * 3 + 2) (Some (sz + INR k * dz)%R)) s) s) (repeat None ((ni + 1) * (nj + 1) * (nk + 1) * 3)).

(** meshbox.cpp:243-288 the cells: (cell_coords, cell_point_list); the three inner loops run over
    icount = i, i+1 and so on, this_point counts their iterations *)
Definition box_cells (ni nj nk : nat) (dx dy dz : R) : res (list (option R) * list (option Z)) :=
  loop nk (fun k s => loop nj (fun j s => loop ni (fun i '(cc, cpl) =>
    let id := get_id (Zn i) (Zn j) (Zn k) (Zn ni) (Zn nj) in
    do cc <- setz cc (id * 3 + 0) (Some (INR i * dx + dx / 2)%R);
    do cc <- setz cc (id * 3 + 1) (Some (INR j * dy + dy / 2)%R);
    do cc <- setz cc (id * 3 + 2) (Some (INR k * dz + dz / 2)%R);
    do (cpl, _) <- loop_from k 2 (fun kc s => loop_from j 2 (fun jc s => loop_from i 2 (fun ic '(cpl, this_point) =>
      let point_id := get_id (Zn ic) (Zn jc) (Zn kc) (Zn (ni + 1)) (Zn (nj + 1)) in
      do this_index <- get convert_point_number this_point;
      do cpl <- setz cpl (id * 8 + Zn this_index) (Some point_id);
      Ok (cpl, this_point + 1)) s) s) (cpl, 0);
    Ok (cc, cpl)) s) s) (repeat None (ni * nj * nk * 3), repeat None (ni * nj * nk * 8)).

(** the state of the face loop: face_id, face_points_list, face_cell_list, cell_face_list *)
Definition fstate : Type := (nat * list (option Z) * list (option Z) * list (option nat))%type.

(** meshbox.cpp:303-328, and with other arguments 334-359 and 366-393: one face with its four points,
    the cells c1 (ahead) and c2 (behind), this_face, and the two tests whether the cells exist *)
Definition add_face (ffi : list (option nat)) (p0 p1 p2 p3 c1 c2 : Z) (this_face : nat) (in1 in2 : bool) (st : fstate) : res fstate :=
  let '(face_id, fpl, fcl, cfl) := st in
  do fpl <- set fpl (face_id * 4 + 0) (Some p0);
  do fpl <- set fpl (face_id * 4 + 1) (Some p1);
  do fpl <- set fpl (face_id * 4 + 2) (Some p2);
  do fpl <- set fpl (face_id * 4 + 3) (Some p3);
  do this_face_2 <- getu ffi this_face;
  do fcl <- set fcl (face_id * 2 + 1) (Some c1);
  do fcl <- set fcl (face_id * 2 + 0) (Some c2);
  do cfl <- (if in1 then setz cfl (c1 * 6 + Zn this_face) (Some face_id) else Ok cfl);
  do cfl <- (if in2 then setz cfl (c2 * 6 + Zn this_face_2) (Some face_id) else Ok cfl);
  Ok (face_id + 1, fpl, fcl, cfl).

(** meshbox.cpp:294-398 the faces; num_points_i = ni + 1 and so on *)
Definition box_faces (ni nj nk : nat) (ffi : list (option nat)) (s0 : fstate) : res fstate :=
  let pid i j k := get_id i j k (Zn (ni + 1)) (Zn (nj + 1)) in
  let cid i j k := get_id i j k (Zn ni) (Zn nj) in
  loop (nk + 1) (fun k s => loop (nj + 1) (fun j s => loop (ni + 1) (fun i s =>
    let x := Zn i in let y := Zn j in let z := Zn k in
    let x1 := (x + 1)%Z in let y1 := (y + 1)%Z in let z1 := (z + 1)%Z in
    do s <- (if (j <? nj + 1 - 1) && (k <? nk + 1 - 1) then
               add_face ffi (pid x y z) (pid x y1 z) (pid x y1 z1) (pid x y z1)
                 (cid x y z) (cid (x - 1)%Z y z) 0 ((0 <=? x) && (x <? Zn ni))%Z%bool ((0 <=? x - 1) && (x - 1 <? Zn ni))%Z%bool s
             else Ok s);
    do s <- (if (i <? ni + 1 - 1) && (k <? nk + 1 - 1) then
               add_face ffi (pid x y z) (pid x y z1) (pid x1 y z1) (pid x1 y z)
                 (cid x y z) (cid x (y - 1)%Z z) 1 ((0 <=? y) && (y <? Zn nj))%Z%bool ((0 <=? y - 1) && (y - 1 <? Zn nj))%Z%bool s
             else Ok s);
    (if (i <? ni + 1 - 1) && (j <? nj + 1 - 1) then
       add_face ffi (pid x y z) (pid x1 y z) (pid x1 y1 z) (pid x y1 z)
         (cid x y z) (cid x y (z - 1)%Z) 2 ((0 <=? z) && (z <? Zn nk))%Z%bool ((0 <=? z - 1) && (z - 1 <? Zn nk))%Z%bool s
     else Ok s)) s) s) s0.

(** meshbox.cpp:107-398 main up to the output: all the arrays *)
Record box : Type := Box { b_pt_coords : list (option R); b_cell_coords : list (option R); b_cell_points : list (option Z);
  b_num_faces : nat; b_face_points : list (option Z); b_face_cells : list (option Z); b_cell_faces : list (option nat) }.

Definition build_box (ni nj nk : nat) (lx ly lz sx sy sz : R) : res box :=
  do dx <- rdiv lx (INR (ni + 1) - 1)%R; do dy <- rdiv ly (INR (nj + 1) - 1)%R; do dz <- rdiv lz (INR (nk + 1) - 1)%R;
  let nf := box_num_faces (ni + 1) (nj + 1) (nk + 1) in
  do ffi <- face_face_index nf;
  do pts <- box_points ni nj nk sx sy sz dx dy dz;
  do (cc, cpl) <- box_cells ni nj nk dx dy dz;
  do (n, fpl, fcl, cfl) <- box_faces ni nj nk ffi (0, repeat None (nf * 4), repeat None (nf * 2), repeat None (ni * nj * nk * 6));
  Ok (Box pts cc cpl n fpl fcl cfl).

(** meshbox.cpp:467-555 Ensight: the numbers written to the geometry file (the first, second and third
    coordinates of every point, then the eight point numbers of every cell, counted from 1), one list
    per kind; the fixed text lines and the number formats are not modelled *)
Definition ensight_geo (num_points num_cells : nat) (b : box) : res (list R * list Z) :=
  do xs <- loop 3 (fun d s => loop num_points (fun p s => do v <- getu (b_pt_coords b) (p * 3 + d); Ok (s ++ [v])) s) [];
  do cs <- loop num_cells (fun c s => loop 8 (fun v s => do p <- getu (b_cell_points b) (c * 8 + v); Ok (s ++ [(p + 1)%Z])) s) [];
  Ok (xs, cs).
