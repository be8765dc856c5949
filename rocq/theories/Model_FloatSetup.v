(** Model of the setup of examples/average (average.cpp:355-662, 670-709 with swage.cpp:1046-1063 and 1983-2034) in rounded
    arithmetic: the functions of Model_Average.v with [rnd] applied to the result of every floating-point operation, to
    the literal 1.0e-8 and to every coordinate read (%le converts to the nearest double), in the order written in the
    code.  The literals 4, 8 and 0.0 are exact.  Boundary and fill values are taken as they are stored; sqrt is
    correctly rounded, no multiply-add is contracted, overflow and underflow are not modelled.  Together with
    Model_FloatRefine.v, Model_FloatPatch.v and Model_FloatAverage.v this is the whole program. *)
From Coq Require Import Reals List Arith ZArith Bool.
Import ListNotations.
Require Import Verif.Base Verif.RBase Verif.Model_Geom Verif.Model_Refine Verif.Model_Conn Verif.Model_Ref Verif.Model_Full Verif.Model_Average
  Verif.Model_FloatLagrange Verif.Model_FloatPatch Verif.Model_FloatAverage Verif.Model_Patch.
Local Open Scope nat_scope.

Section FloatSetup.
Context (rnd : R -> R).

(** swage/swage.cpp:1046-1063 patch_coords *)
Definition patch_coordf (m : cmesh) (P : patches) (p d : nat) : res R :=
  loop 4 (fun k a => do n <- patch_node P p k; do x <- cm_coord m n d; Ok (rnd (a + rnd (x / 4)))%R) 0%R.

(** swage/swage.cpp:1996-2034 check_bdy, after its reads of patch_coords *)
Definition nearf (a b : R) : bool := if Rle_dec (Rabs (rnd (a - b))) (rnd (/ 10 ^ 8)) then true else false.
Definition check_bdyf (c : nat -> R) (tag : nat) (val : R) : bool :=
  let sq d := rnd (c d * c d)%R in
  match tag with
  | 0 => nearf (c 0) val
  | 1 => nearf (c 1) val
  | 2 => nearf (c 2) val
  | 3 => nearf (rnd (sqrt (rnd (sq 0 + sq 1)))) val
  | 4 => nearf (rnd (sqrt (rnd (rnd (sq 0 + sq 1) + sq 2)))) val
  | _ => false
  end.

(** swage/swage.cpp:1983-2034 check_bdy *)
Definition check_patchf (m : cmesh) (P : patches) (tag : nat) (val : R) (p : nat) : res bool :=
  do x <- patch_coordf m P p 0; do y <- patch_coordf m P p 1; do z <- patch_coordf m P p 2;
  Ok (check_bdyf (fun d => match d with 0 => x | 1 => y | _ => z end) tag val).

(** average.cpp:513-541 generate_bcs *)
Definition generate_bcsf (m : cmesh) (P : patches) (bcs : list (nat * R)) : res bdy_sets :=
  do lst <- build_bdy_patches (pt_num P) (pt_cells P);
  do bdy <- read_all (length lst) lst;
  loop (length bcs) (fun i b =>
    do bc <- get bcs i;
    tag_bdys bdy (check_patchf m P (fst bc) (snd bc)) i b) (init_bdy_sets (length bcs) (length bdy)).

(** average.cpp:599-647: the radii and the switch without breaks *)
Definition fill_thisf (f : fill) (x y z : R) : bool :=
  let radius := rnd (sqrt (rnd (rnd (rnd (x * x) + rnd (y * y)) + rnd (z * z)))) in
  let radius_cyl := rnd (sqrt (rnd (rnd (x * x) + rnd (y * y)))) in
  let sphere := fun v : bool => if between (fl_r1 f) radius (fl_r2 f) then true else v in
  let cylinder := fun v : bool => sphere (if between (fl_r1 f) radius_cyl (fl_r2 f) then true else v) in
  let box := fun v : bool => cylinder (if between (fl_x1 f) x (fl_x2 f) && between (fl_y1 f) y (fl_y2 f) && between (fl_z1 f) z (fl_z2 f) then true else v) in
  match fl_volume f with
  | 0 => box true
  | 1 => box false
  | 2 => cylinder false
  | 3 => sphere false
  | _ => false
  end.

(** average.cpp:574-593: coordinate d of the mean of the eight nodes of a cell *)
Definition cell_centref (m : cmesh) (c d : nat) : res R :=
  do s <- loop 8 (fun l a => do n <- cm_node m c l; do x <- cm_coord m n d; Ok (rnd (a + x))) 0%R;
  Ok (rnd (s / 8)).

(** average.cpp:563-662 initialize_state: the cell field *)
Definition initialize_statef (m : cmesh) (fills : list fill) (mat : list R) : res (list R) :=
  loop (length fills) (fun i mat => do f <- get fills i;
    loop (cm_cells m) (fun c mat =>
      do x <- cell_centref m c 0; do y <- cell_centref m c 1; do z <- cell_centref m c 2;
      if fill_thisf f x y z then set mat c (fl_field2 f) else Ok mat) mat) mat.

(** average.cpp:372-472: the mesh file, its numbers rounded (384-405 fscanf %le) *)
Definition parse_meshf (t : list token) : res cmesh :=
  do m <- parse_mesh t;
  Ok (CMesh (cm_nodes m) (cm_cells m) (map (option_map rnd) (cm_coords m)) (cm_conn m)).

(** average.cpp:477-490: connectivity of the initial mesh; the results are not used again *)
Definition init_connectivityf (m : cmesh) : res unit :=
  let nc := cm_cells m in
  if Nat.eqb nc 0 then Ok tt else
  do nodes <- read_all (nc * 8) (cm_conn m);
  do a <- build_node_cell 8 nc (cm_nodes m) nodes;
  do _ <- build_corner 8 nc (cm_nodes m) nodes a;
  do _ <- build_cell_cell 8 nc nodes a;
  do keys <- face_keysf rnd m nodes;
  do _ <- build_patches nc keys nodes;
  Ok tt.

(** average.cpp:355-509 read_mesh *)
Definition read_meshf (p : nat) (t : list token) : res (cmesh * (refined * connectivity)) :=
  do m <- parse_meshf t;
  do _ <- init_connectivityf m;
  do rc <- refine_meshf rnd p m;
  Ok (m, rc).

(** average.cpp:149-175 main: mesh, boundary sets, start fields (apply_boundary: Model_Average, exact) *)
Definition setupf (inp : input) (file : list token) : res (solver * list R * list R) :=
  do (m0, (r, C)) <- read_meshf (in_order inp) file;
  let m := rf_mesh r in
  do sets <- generate_bcsf m (cn_patches C) (in_bcs inp);
  let sv := Solver (cm_cells m0) (num_sub_1d (in_order inp)) (Nat.pow (num_g_pts_1d (in_order inp)) 3) (rf_maps r) m C sets in
  do mat <- initialize_statef m (in_fills inp) (repeat 0%R (cm_cells m));
  do node <- apply_boundary sv (repeat 0%R (cm_nodes m));
  Ok (sv, node, mat).

(** average.cpp:112-350 main: the whole program *)
Definition averagef (fmt : R -> R) (inp : input) (file : list token) : res run :=
  do (sv, node, mat) <- setupf inp file;
  simulatef rnd fmt inp sv node mat.
End FloatSetup.
