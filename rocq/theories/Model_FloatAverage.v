(** Model of examples/average/test/average.cpp in rounded arithmetic: the smoothing, the boundary values and the
    cycle loop of Model_Average.v with [rnd] applied to the result of every floating-point operation and to the
    literal 0.001, in the order written in the code.  The literals 0.0, 8.0 and 10.0, the count of cells around a
    node and the value 1e8 of graphics_time are integers below 2^53 and exact.  The input values (TFINAL,
    graphics_dt_ival, boundary and fill values) are taken as they are stored.  No multiply-add is contracted;
    overflow and underflow are not modelled. *)
From Coq Require Import Reals List Arith ZArith Bool.
Import ListNotations.
Require Import Verif.Base Verif.RBase Verif.Model_Geom Verif.Model_Refine Verif.Model_Conn Verif.Model_Ref Verif.Model_Full Verif.Model_Average
  Verif.Model_FloatLagrange Verif.Model_Patch.
Local Open Scope nat_scope.

Section FloatAverage.
Context (rnd : R -> R).

(** average.cpp:719-731, 765-777 *)
Definition cell_averagef (sv : solver) (node : list R) (c : nat) : res R :=
  loop 8 (fun l a => do n <- cm_node (sv_mesh sv) c l; do x <- get node n; Ok (rnd (a + rnd (x / 8)))%R) 0%R.

(** average.cpp:736-752, 796-808 *)
Definition node_averagef (sv : solver) (mat : list R) (n : nat) : res R :=
  do k <- num_cells_in_node (cn_node_cells (sv_conn sv)) n;
  loop k (fun j a =>
    do c <- cells_in_node (cn_node_cells (sv_conn sv)) n j;
    do x <- get mat c;
    do k' <- num_cells_in_node (cn_node_cells (sv_conn sv)) n;
    do q <- rdivf rnd x (INR k');
    Ok (rnd (a + q))%R) 0%R.

(** average.cpp:712-753 smooth_cells: (node field, cell field) *)
Definition smooth_cellsf (sv : solver) (st : list R * list R) : res (list R * list R) :=
  let '(node, mat) := st in
  do mat <- loop (cm_cells (sv_mesh sv)) (fun c mat => do a <- cell_averagef sv node c; set mat c a) mat;
  do node <- loop (cm_nodes (sv_mesh sv)) (fun n node => do a <- node_averagef sv mat n; set node n a) node;
  Ok (node, mat).

(** average.cpp:756-812 smooth_element *)
Definition smooth_elementf (sv : solver) (st : list R * list R) : res (list R * list R) :=
  let '(node, mat) := st in let ns := sv_ns sv in let G := sv_G sv in
  do mat <- loop (sv_elems sv) (fun e mat => loop (ns * ns * ns) (fun l mat =>
      do c <- cells_in_elem (sv_maps sv) ns e l;
      do a <- cell_averagef sv node c; set mat c a) mat) mat;
  do node <- loop (sv_elems sv) (fun e node => loop G (fun l node =>
      do n <- getu (cn_nodes_in_elem (sv_conn sv)) (e * G + l);
      do a <- node_averagef sv mat n; set node n a) node) node;
  Ok (node, mat).

(** average.cpp:305-317: smoothing, boundary (Model_Average, exact), TIME += dt *)
Definition advancef (sv : solver) (s : run) : res run :=
  do (node, mat) <- smooth_elementf sv (ru_node s, ru_mat s);
  do node <- apply_boundary sv node;
  Ok (Run node mat (ru_dumps s) (ru_id s) (ru_times s) (ru_next s) (rnd (ru_now s + rnd (1 / 1000)))%R).

(** average.cpp:295-342: the cycle loop *)
Fixpoint cyclesf (fmt : R -> R) (inp : input) (sv : solver) (cycle todo : nat) (s : run) : res run :=
  match todo with
  | 0 => Ok s
  | S todo' =>
    do s <- advancef sv s;
    if Rle_dec (in_tfinal inp) (ru_now s) then Ok s else
    if Nat.eqb (in_cyc_ival inp) 0 then Err DivZero else
    do s <- (if Nat.eqb (cycle mod in_cyc_ival inp) 0 || (if Rle_dec 0 (rnd (ru_now s - ru_next s)) then true else false)
             then do s <- write_dump fmt sv s;
                  Ok (Run (ru_node s) (ru_mat s) (ru_dumps s) (ru_id s) (ru_times s) (rnd (ru_next s + in_dt_ival inp)) (ru_now s))
             else Ok s);
    cyclesf fmt inp sv (cycle + 1) todo' s
  end.

(** average.cpp:285-350: first dump, cycles, last dump *)
Definition simulatef (fmt : R -> R) (inp : input) (sv : solver) (node mat : list R) : res run :=
  do s <- write_dump fmt sv (Run node mat [] 0 (repeat 0%R 250) (10 ^ 8)%R 0%R);
  do s <- cyclesf fmt inp sv 1 (in_stop inp) s;
  write_dump fmt sv s.
End FloatAverage.
