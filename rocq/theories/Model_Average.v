(** Model of examples/average: src/input.cpp, include/state.h, include/header.h and test/average.cpp, on top of
    the mesh of Model_Full.  Doubles are exact reals; ids are unbounded naturals; num_dim = 3.  Left out:
    printing to the console, the creation of directories, the Jacobian and area loops of main (176-292, see
    Model_Jac and Model_Gcl), vtk_writer (never called), rk storage other than stage 0. *)
From Coq Require Import Reals List Arith ZArith Bool.
Import ListNotations.
Require Import Verif.Base Verif.RBase Verif.Model_Geom Verif.Model_Refine Verif.Model_Conn Verif.Model_Ref Verif.Model_Full Verif.Model_Patch.
Local Open Scope nat_scope.

(** ---- what the solver reads ---- *)

(** the mesh object after refine_mesh and generate_bcs: elements, cells per direction of an element, Gauss
    points per element, index maps, cells and nodes, connectivity, bdy_patches_ and the boundary sets *)
Record solver := Solver { sv_elems : nat; sv_ns : nat; sv_G : nat; sv_maps : refmaps; sv_mesh : cmesh; sv_conn : connectivity;
                          sv_sets : bdy_sets }.

(** node_in_patch as an array index: a negative one is out of bounds *)
Definition patch_node (P : patches) (p k : nat) : res nat :=
  do z <- node_in_patch P p k; if Z.ltb z 0 then Err OOB else Ok (Z.to_nat z).

(** swage/swage.cpp:1046-1063 patch_coords, on the mesh arrays *)
Definition patch_coord (m : cmesh) (P : patches) (p d : nat) : res R :=
  loop 4 (fun k a => do n <- patch_node P p k; do x <- cm_coord m n d; Ok (a + x / 4)%R) 0%R.

(** swage/swage.cpp:1983-2034 check_bdy, with its three reads of patch_coords *)
Definition check_patch (m : cmesh) (P : patches) (tag : nat) (val : R) (p : nat) : res bool :=
  do x <- patch_coord m P p 0; do y <- patch_coord m P p 1; do z <- patch_coord m P p 2;
  Ok (check_bdy (fun d => match d with 0 => x | 1 => y | _ => z end) tag val).

(** average.cpp:513-541 generate_bcs; [bcs] is boundary[0..NB-1] as (surface, value) *)
Definition generate_bcs (m : cmesh) (P : patches) (bcs : list (nat * R)) : res bdy_sets :=
  do lst <- build_bdy_patches (pt_num P) (pt_cells P);
  do bdy <- read_all (length lst) lst;
  loop (length bcs) (fun i b =>
    do bc <- get bcs i;
    tag_bdys bdy (check_patch m P (fst bc) (snd bc)) i b) (init_bdy_sets (length bcs) (length bdy)).

(** average.cpp:673-689 and 692-708: write [val] at the nodes of the patches of one boundary set *)
Definition fix_set (sv : solver) (s : nat) (val : R) (node : list R) : res (list R) :=
  do num <- num_bdy_patches_in_set (sv_sets sv) s;
  loop num (fun i node =>
    do p <- bdy_patches_in_set (sv_sets sv) s i;
    loop 4 (fun k node => do n <- patch_node (cn_patches (sv_conn sv)) p k; set node n val) node) node.

(** average.cpp:670-709 apply_boundary *)
Definition apply_boundary (sv : solver) (node : list R) : res (list R) :=
  do node <- fix_set sv 3 0 node;
  fix_set sv 0 10 node.

(** average.cpp:719-731, 765-777: the mean of the eight nodes of a cell *)
Definition cell_average (sv : solver) (node : list R) (c : nat) : res R :=
  loop 8 (fun l a => do n <- cm_node (sv_mesh sv) c l; do x <- get node n; Ok (a + x / 8)%R) 0%R.

(** average.cpp:736-752, 796-808: the mean over the cells around a node, with the counts read at every step *)
Definition node_average (sv : solver) (mat : list R) (n : nat) : res R :=
  do k <- num_cells_in_node (cn_node_cells (sv_conn sv)) n;
  loop k (fun j a =>
    do c <- cells_in_node (cn_node_cells (sv_conn sv)) n j;
    do x <- get mat c;
    do k' <- num_cells_in_node (cn_node_cells (sv_conn sv)) n;
    do q <- rdiv x (INR k');
    Ok (a + q)%R) 0%R.

(** average.cpp:712-753 smooth_cells: (node field, cell field) *)
Definition smooth_cells (sv : solver) (st : list R * list R) : res (list R * list R) :=
  let '(node, mat) := st in
  do mat <- loop (cm_cells (sv_mesh sv)) (fun c mat => do a <- cell_average sv node c; set mat c a) mat;
  do node <- loop (cm_nodes (sv_mesh sv)) (fun n node => do a <- node_average sv mat n; set node n a) node;
  Ok (node, mat).

(** average.cpp:756-812 smooth_element *)
Definition smooth_element (sv : solver) (st : list R * list R) : res (list R * list R) :=
  let '(node, mat) := st in let ns := sv_ns sv in let G := sv_G sv in
  do mat <- loop (sv_elems sv) (fun e mat => loop (ns * ns * ns) (fun l mat =>
      do c <- cells_in_elem (sv_maps sv) ns e l;
      do a <- cell_average sv node c; set mat c a) mat) mat;
  do node <- loop (sv_elems sv) (fun e node => loop G (fun l node =>
      do n <- getu (cn_nodes_in_elem (sv_conn sv)) (e * G + l);
      do a <- node_average sv mat n; set node n a) node) node;
  Ok (node, mat).

(** ---- initial state ---- *)

(** header.h mat_fill_t: volume 0 global, 1 box, 2 cylinder, 3 sphere.  mat_fill comes from malloc: a member
    that input() does not set holds whatever was in memory, so it is a parameter like the others. *)
Record fill := Fill { fl_volume : nat; fl_x1 : R; fl_x2 : R; fl_y1 : R; fl_y2 : R; fl_z1 : R; fl_z2 : R;
                      fl_r1 : R; fl_r2 : R; fl_field1 : R; fl_field2 : R }.

Definition between (a x b : R) : bool := if Rle_dec a x then (if Rle_dec x b then true else false) else false.

(** average.cpp:614-647: the switch has no break, so every case runs into the next ones *)
Definition fill_this (f : fill) (x y z : R) : bool :=
  let radius := sqrt (x * x + y * y + z * z) in
  let radius_cyl := sqrt (x * x + y * y) in
  let sphere := fun v : bool => if between (fl_r1 f) radius (fl_r2 f) then true else v in
  let cylinder := fun v : bool => sphere (if between (fl_r1 f) radius_cyl (fl_r2 f) then true else v) in
  let box := fun v : bool => cylinder (if between (fl_x1 f) x (fl_x2 f) && between (fl_y1 f) y (fl_y2 f) && between (fl_z1 f) z (fl_z2 f) then true else v) in
  match fl_volume f with
  | 0 => box true
  | 1 => box false
  | 2 => cylinder false
  | 3 => sphere false
  | _ => false
  end.

(** average.cpp:574-593: coordinate d of the mean of the eight nodes of a cell *)
Definition cell_centre (m : cmesh) (c d : nat) : res R :=
  do s <- loop 8 (fun l a => do n <- cm_node m c l; do x <- cm_coord m n d; Ok (a + x)%R) 0%R;
  Ok (s / 8)%R.

(** average.cpp:563-662 initialize_state: the cell field; mat_pt.coords is not read again and left out *)
Definition initialize_state (m : cmesh) (fills : list fill) (mat : list R) : res (list R) :=
  loop (length fills) (fun i mat => do f <- get fills i;
    loop (cm_cells m) (fun c mat =>
      do x <- cell_centre m c 0; do y <- cell_centre m c 1; do z <- cell_centre m c 2;
      if fill_this f x y z then set mat c (fl_field2 f) else Ok mat) mat) mat.

(** ---- mesh file ---- *)

(** what fscanf meets after the eight header lines: integers, decimal numbers, words.  [fmt] below is the
    effect of writing a double with %12.5e and reading it back with %le. *)
Inductive token := TInt (z : Z) | TNum (x : R) | TWord.

(** fscanf %d, %le, %s: on a mismatch or at the end the variable keeps its value and nothing is consumed.
    %d on a decimal number would take its integer part and leave the rest: files where that happens are
    outside the model (Fuel). *)
Definition scan_int (t : list token) : res (option Z * list token) :=
  match t with TInt z :: t' => Ok (Some z, t') | TNum _ :: _ => Err Fuel | _ => Ok (None, t) end.
Definition scan_real (t : list token) : option R * list token :=
  match t with TInt z :: t' => (Some (IZR z), t') | TNum x :: t' => (Some x, t') | _ => (None, t) end.
Definition scan_word (t : list token) : list token := match t with [] => [] | _ :: t' => t' end.

(** average.cpp:372-405: number of nodes and the coordinates.  An unread count is unset memory; a negative
    one cannot be allocated. *)
Definition read_coords (t : list token) : res (nat * list (option R) * list token) :=
  do zt <- scan_int t;
  match zt with
  | (None, _) => Err Uninit
  | (Some z, t) =>
    if Z.ltb z 0 then Err OOB else let nn := Z.to_nat z in
    do (cs, t) <- loop 3 (fun d st => loop nn (fun n '(cs, t) =>
        match scan_real t with
        | (Some x, t) => do cs <- set cs (n * 3 + d) (Some x); Ok (cs, t)
        | (None, t) => Ok (cs, t)
        end) st) (repeat None (nn * 3), t);
    Ok (nn, cs, t)
  end.

(** average.cpp:437-445: the node numbers, shifted to start at 0.  A number below 1 would be a negative index. *)
Definition read_cells (ne : nat) (t : list token) : res (list (option nat)) :=
  do (conn, _) <- loop ne (fun c st => loop 8 (fun l '(conn, t) =>
      do zt <- scan_int t;
      match zt with
      | (Some z, t) => if Z.ltb z 1 then Err OOB else do conn <- set conn (c * 8 + l) (Some (Z.to_nat (z - 1))); Ok (conn, t)
      | (None, t) => Err Uninit
      end) st) (repeat None (ne * 8), t);
  Ok conn.

(** average.cpp:449-457 convert_ensight_to_ijk *)
Definition ensight_to_ijk : list nat := [0; 1; 3; 2; 4; 5; 7; 6].

(** average.cpp:459-472: reorder the nodes of every cell through tmp_ijk_indx *)
Definition reorder_cells (ne : nat) (conn : list (option nat)) : res (list (option nat)) :=
  loop ne (fun c conn =>
    do tmp <- loop 8 (fun l tmp => do q <- get ensight_to_ijk l; do v <- getu conn (c * 8 + q); Ok (tmp ++ [v])) [];
    loop 8 (fun l conn => do v <- get tmp l; set conn (c * 8 + l) (Some v)) conn) conn.

(** average.cpp:412-433: the word before the cells, the number of elements (0 if unread) *)
Definition parse_mesh (t : list token) : res cmesh :=
  do (nn, cs, t) <- read_coords t;
  let t := scan_word t in
  do zt <- scan_int t;
  let (z, t) := match zt with (Some z, t) => (z, t) | (None, t) => (0%Z, t) end in
  if Z.ltb z 0 then Err OOB else let ne := Z.to_nat z in
  do conn <- read_cells ne t;
  do conn <- reorder_cells ne conn;
  Ok (CMesh nn ne cs conn).

(** average.cpp:477-490: connectivity of the initial mesh; the results are not used again *)
Definition init_connectivity (m : cmesh) : res unit :=
  let nc := cm_cells m in
  if Nat.eqb nc 0 then Ok tt else
  do nodes <- read_all (nc * 8) (cm_conn m);
  do a <- build_node_cell 8 nc (cm_nodes m) nodes;
  do _ <- build_corner 8 nc (cm_nodes m) nodes a;
  do _ <- build_cell_cell 8 nc nodes a;
  do keys <- face_keys m nodes;
  do _ <- build_patches nc keys nodes;
  Ok tt.

(** average.cpp:355-509 read_mesh (ref_elem.init is Model_Ref) *)
Definition read_mesh (p : nat) (t : list token) : res (cmesh * (refined * connectivity)) :=
  do m <- parse_mesh t;
  do _ <- init_connectivity m;
  do rc <- refine_mesh p m;
  Ok (m, rc).

(** ---- graphics dump ---- *)

(** average.cpp:1002-1010 *)
Definition ijk_to_ensight : list nat := [1; 0; 2; 3; 5; 4; 6; 7].

(** what one call of ensight() writes: geometry (coordinates, node numbers from 1), the four cell variables,
    the node positions, and the times listed in the case file *)
Record dump := Dump { du_id : nat; du_coords : list R; du_cells : list nat; du_vars : list (list R); du_pos : list R; du_times : list R }.

(** average.cpp:1028-1089: cell_fields(cell, 4) *)
Definition cell_fields (sv : solver) (mat : list R) : res (list (option R)) :=
  let nc := cm_cells (sv_mesh sv) in let ns := sv_ns sv in
  do f <- loop nc (fun c f => do x <- get mat c; set f (c * 4 + 0) (Some x)) (repeat None (nc * 4));
  do (f, _) <- loop (sv_elems sv) (fun e '(f, v) =>
     do f <- loop ns (fun k f => loop ns (fun j f => loop ns (fun i f =>
        set f ((i + j * ns + k * ns * ns + ns * ns * ns * e) * 4 + 1) (Some v)) f) f) f;
     Ok (f, (- v)%R)) (f, 1%R);
  do f <- loop (sv_elems sv) (fun e f => loop ns (fun k f => loop ns (fun j f => loop ns (fun i f =>
        set f ((i + j * ns + k * ns * ns + ns * ns * ns * e) * 4 + 2) (Some (INR e))) f) f) f) f;
  loop nc (fun c f => do x <- get mat c; set f (c * 4 + 3) (Some x)) f.

(** average.cpp:1130-1170: coordinates by component, then eight numbers per cell *)
Definition dump_coords (fmt : R -> R) (m : cmesh) : res (list R) :=
  loop 3 (fun d s => loop (cm_nodes m) (fun n s => do x <- cm_coord m n d; Ok (s ++ [fmt x])) s) [].
Definition dump_cells (m : cmesh) : res (list nat) :=
  loop (cm_cells m) (fun c s => loop 8 (fun j s =>
    do q <- get ijk_to_ensight j; do n <- cm_node m c q; Ok (s ++ [n + 1])) s) [].

(** average.cpp:1001-1289 ensight.  [times] is graphics_times (250 entries), [id] graphics_id; the position
    variable vec_fields (1092-1102, 1206-1232) is written from the same coordinates in the same order. *)
Definition ensight (fmt : R -> R) (sv : solver) (mat : list R) (now : R) (id : nat) (times : list R) : res (dump * nat * list R) :=
  do f <- cell_fields sv mat;
  do xs <- dump_coords fmt (sv_mesh sv);
  do cs <- dump_cells (sv_mesh sv);
  do vars <- loop 4 (fun v s => do col <- loop (cm_cells (sv_mesh sv)) (fun c s => do x <- getu f (c * 4 + v); Ok (s ++ [fmt x])) []; Ok (s ++ [col])) [];
  do ps <- dump_coords fmt (sv_mesh sv);
  do times <- set times id now;
  do ts <- loop (id + 1) (fun i s => do t <- get times i; Ok (s ++ [fmt t])) [];
  Ok (Dump id xs cs vars ps ts, id + 1, times).

(** ---- the run ---- *)

(** input.cpp: what the run depends on *)
Record input := Input { in_tfinal : R; in_stop : nat; in_order : nat; in_cyc_ival : nat; in_dt_ival : R;
                        in_fills : list fill; in_bcs : list (nat * R) }.

(** the globals that change: node field, cell field, dumps written so far (first one first), graphics_id,
    graphics_times, graphics_time, TIME *)
Record run := Run { ru_node : list R; ru_mat : list R; ru_dumps : list dump; ru_id : nat; ru_times : list R; ru_next : R; ru_now : R }.

Definition write_dump (fmt : R -> R) (sv : solver) (s : run) : res run :=
  do (d, id, ts) <- ensight fmt sv (ru_mat s) (ru_now s) (ru_id s) (ru_times s);
  Ok (Run (ru_node s) (ru_mat s) (ru_dumps s ++ [d]) id ts (ru_next s) (ru_now s)).

(** average.cpp:305-325: smoothing, boundary, time *)
Definition advance (sv : solver) (s : run) : res run :=
  do (node, mat) <- smooth_element sv (ru_node s, ru_mat s);
  do node <- apply_boundary sv node;
  Ok (Run node mat (ru_dumps s) (ru_id s) (ru_times s) (ru_next s) (ru_now s + 1 / 1000)%R).

(** average.cpp:295-342: the cycle loop from [cycle] on, [todo] cycles left; stop_calc is never set.  cycle %
    graphics_cyc_ival with interval 0 divides by zero. *)
Fixpoint cycles (fmt : R -> R) (inp : input) (sv : solver) (cycle todo : nat) (s : run) : res run :=
  match todo with
  | 0 => Ok s
  | S todo' =>
    do s <- advance sv s;
    if Rle_dec (in_tfinal inp) (ru_now s) then Ok s else
    if Nat.eqb (in_cyc_ival inp) 0 then Err DivZero else
    do s <- (if Nat.eqb (cycle mod in_cyc_ival inp) 0 || (if Rle_dec 0 (ru_now s - ru_next s) then true else false)
             then do s <- write_dump fmt sv s;
                  Ok (Run (ru_node s) (ru_mat s) (ru_dumps s) (ru_id s) (ru_times s) (ru_next s + in_dt_ival inp)%R (ru_now s))
             else Ok s);
    cycles fmt inp sv (cycle + 1) todo' s
  end.

(** average.cpp:112, 149-350 main.  graphics_time is initialised from the default graphics_dt_ival = 1e8
    before input() runs. *)
Definition setup (inp : input) (file : list token) : res (solver * list R * list R) :=
  do (m0, (r, C)) <- read_mesh (in_order inp) file;
  let m := rf_mesh r in
  do sets <- generate_bcs m (cn_patches C) (in_bcs inp);
  let sv := Solver (cm_cells m0) (num_sub_1d (in_order inp)) (Nat.pow (num_g_pts_1d (in_order inp)) 3) (rf_maps r) m C sets in
  do mat <- initialize_state m (in_fills inp) (repeat 0%R (cm_cells m));
  do node <- apply_boundary sv (repeat 0%R (cm_nodes m));
  Ok (sv, node, mat).
Definition simulate (fmt : R -> R) (inp : input) (sv : solver) (node mat : list R) : res run :=
  do s <- write_dump fmt sv (Run node mat [] 0 (repeat 0%R 250) (10 ^ 8)%R 0%R);
  do s <- cycles fmt inp sv 1 (in_stop inp) s;
  write_dump fmt sv s.
Definition average (fmt : R -> R) (inp : input) (file : list token) : res run :=
  do (sv, node, mat) <- setup inp file;
  simulate fmt inp sv node mat.

(** input.cpp:22-108 input(); [u i] is what malloc left in the unset members *)
Definition shipped_input (u : nat -> R) : input :=
  Input (1 / 2)%R (Z.to_nat 100000000) 3 10 (1 / 10)%R
    [Fill 0 (u 0) (u 1) (u 2) (u 3) (u 4) (u 5) (u 6) (u 7) 1 0;
     Fill 1 0 (7 / 10) 0 2 0 2 (u 8) (u 9) 10 0]
    [(0, 0%R); (1, 0%R); (2, 0%R); (0, 2%R); (1, 2%R); (2, 2%R)].
