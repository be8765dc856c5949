(** Model of examples/vtk/plotting_jacobian_determinants.cpp: the half-annulus mesh, the determinants at
    its vertices and the grid handed to VTK.  Simplifications: double is R (sin, cos exact, M_PI a
    parameter); int arithmetic is exact (no overflow for 2 (p+1)^3 < 2^31); the file name and the file
    are left to write_grid (Model_Vtk). *)
From Coq Require Import List Arith ZArith Reals.
Import ListNotations.
Require Import Verif.Base Verif.RBase Verif.Model_Lagrange Verif.Model_Points Verif.Model_Vtk Verif.Model_High.
Local Open Scope nat_scope.

(** 29-34 and 57-62: theta, r, then x, y, z; ri = 0.5, ro = 2.5 (14-15) *)
Definition annular_point (N : nat) (lb ub : R) (i j k : nat) : res (R * R * R) :=
  do a <- rdiv (INR i * (ub - lb)) (INR (N - 1));
  let theta := (lb + a)%R in
  do b <- rdiv (INR j * (5 / 2 - 1 / 2)) (INR (N - 1));
  let r := (1 / 2 + b)%R in
  do c <- rdiv (2 * INR k) (INR (N - 1));
  Ok (- r * cos theta, r * sin theta, -1 + c)%R.

(** 36-38, 64-66 *)
Definition put_node (crd : list (option R)) (cnt : nat) (q : R * R * R) : res (list (option R)) :=
  let '(x, y, z) := q in
  do crd <- set crd (cnt * 3 + 0) (Some x); do crd <- set crd (cnt * 3 + 1) (Some y); set crd (cnt * 3 + 2) (Some z).

(** 24-49: vertices and connectivity of the first element; [w] = row length of nodes_in_elem *)
Definition first_vertex (mpi : R) (N w k j i : nat) (s : list (option R) * list (option nat) * nat) :=
  let '(crd, con, cnt) := s in
  do q <- annular_point N 0 (1 / 2 * mpi) i j k;
  do crd <- put_node crd cnt q;
  let ii := i + j * N + k * N * N in
  do con <- set con (0 * w + ii) (Some cnt);
  do con <- (if i =? N - 1 then set con (1 * w + (ii - i)) (Some cnt) else Ok con);
  Ok (crd, con, cnt + 1).
Definition first_element (mpi : R) (N w : nat) (s : list (option R) * list (option nat) * nat) :=
  loop N (fun k s => loop N (fun j s => loop N (fun i s => first_vertex mpi N w k j i s) s) s) s.

(** 51-73: the second element; i runs from 1 *)
Definition second_vertex (mpi : R) (N w k j i : nat) (s : list (option R) * list (option nat) * nat) :=
  let '(crd, con, cnt) := s in
  do q <- annular_point N (1 / 2 * mpi) mpi i j k;
  do crd <- put_node crd cnt q;
  let ii := i + j * N + k * N * N in
  do con <- set con (1 * w + ii) (Some cnt);
  Ok (crd, con, cnt + 1).
Definition second_element (mpi : R) (N w : nat) (s : list (option R) * list (option nat) * nat) :=
  loop N (fun k s => loop N (fun j s => loop (N - 1) (fun i s => second_vertex mpi N w k j (i + 1) s) s) s) s.

(** 6-74 create_annular_mesh; [mpi] = M_PI, [m0] the caller's mesh *)
Definition create_annular_mesh (mpi : R) (elem_order : nat) (m0 : mesh R) : res (mesh R) :=
  let Nh := 2 in
  let N := elem_order + 1 in
  let Ne := Nat.pow N 3 in
  let Nv := Ne * Nh - N * N in
  let m := init_elements elem_order Nh (init_nodes Nv m0) in
  do s <- first_element mpi N (m_width m) (m_coords m, m_conn m, 0);
  do (crd, con, _) <- second_element mpi N (m_width m) s;
  Ok (Mesh (m_order m) (m_num_nodes m) (m_num_elems m) crd (m_width m) con).

(** 91-97: the vertex coordinates of one element *)
Definition extract (m : mesh R) (nv e : nat) (st : list (option R) * list (option R) * list (option R)) :=
  loop nv (fun v '(vx, vy, vz) =>
    do gid <- nodes_in_elem m e v;
    do x <- node_coords m gid 0; do vx <- set vx v (Some x);
    do y <- node_coords m gid 1; do vy <- set vy v (Some y);
    do z <- node_coords m gid 2; do vz <- set vz v (Some z);
    Ok (vx, vy, vz)) st.

(** 100-108: the determinant at vertex (i,j,k) of element e *)
Definition det_at (elem : lagrange_element) (Ze : nat -> R) (Nv Ne e k j i : nat) (s : list (option R) * list (option R) * list (option R) * list (option R) * (nat -> res R)) :=
  let '(dets, vx, vy, vz, C) := s in
  let ii := i + j * Nv + k * Nv * Nv in
  do (d, C) <- le_eval_det_jac elem (ptr vx) (ptr vy) (ptr vz) (Ze i) (Ze j) (Ze k) C;
  do dets <- set dets (e * Ne + ii) (Some d);
  Ok (dets, vx, vy, vz, C).

(** 76-112 compute_jacobian_determinants; the result has (p+1)^3 columns.  [Z0], [w0]: what the arrays Ze
    and the element's weights hold before *)
Definition compute_jacobian_determinants (Z0 w0 : nat -> R) (m : mesh R) : res (list (option R)) :=
  let Nh := m_num_elems m in let Np := m_order m in let Nv := Np + 1 in let Ne := Nat.pow Nv 3 in
  do Ze <- equispaced_points Nv (-1) 1 Z0;
  do elem <- new_lagrange_element Np Ze w0;
  do (dets, _, _, _, _) <-
    loop Nh (fun e '(dets, vx, vy, vz, C) =>
      do (vx, vy, vz) <- extract m Ne e (vx, vy, vz);
      loop Nv (fun k s => loop Nv (fun j s => loop Nv (fun i s => det_at elem Ze Nv Ne e k j i s) s) s) (dets, vx, vy, vz, C))
      (repeat None (Nh * Ne), repeat None Ne, repeat None Ne, repeat None Ne, (fun _ => Err Uninit));
  Ok dets.

(** 114-133 main: mesh, determinants and the grid written to the file; [rnd] = rounding to VTK's float *)
Definition plot_main (pif : nat -> nat -> nat -> nat -> nat) (rnd : R -> R) (mpi : R) (Z0 w0 : nat -> R) (elem_order : nat) (m0 : mesh R) : res (mesh R * list (option R) * grid R) :=
  do m <- create_annular_mesh mpi elem_order m0;
  do dets <- compute_jacobian_determinants Z0 w0 m;
  do g <- init_vtk_grid pif rnd m (Nat.pow (elem_order + 1) 3) dets;
  Ok (m, dets, g).
