(** Model of the arbitrary-order Lagrange elements of elements/elements.cpp: HexN (5373-5868), QuadN
    (3970-4190) and the basis tables ref_element::init fills with HexN (2634-2690, 2903-3022).
    doubles are exact reals, a division by zero is the outcome DivZero, unset memory is [None]. *)
From Coq Require Import List Arith Reals.
Import ListNotations.
Require Import Verif.Base Verif.RBase Verif.Model_Ref.
Local Open Scope nat_scope.
Local Open Scope bool_scope.

(** the members of HexN that its functions read *)
Record hexn := {
  hx_n1 : nat;                      (* num_nodes_1d_ *)
  hx_nv : nat;                      (* num_verts_1d_ *)
  hx_nodes1 : list (option R);      (* HexN_Nodes_1d_ *)
  hx_nodes : list (option R);       (* HexN_Nodes_ *)
  hx_verts1 : list (option R);      (* HexN_Verts_1d_ *)
  hx_map : list (option nat) }.     (* Vert_Node_map_ *)

(** elements/elements.cpp:5818 the call of lobatto_nodes_1D on the freshly allocated HexN_Nodes_1d_;
    [lob] is what that function writes (the empty list for sizes it does not know) *)
Definition hexn_nodes_1d (n1 : nat) (lob : list R) : res (list (option R)) :=
  loop (length lob) (fun i a => do v <- get lob i; set a i (Some v)) (repeat None (n1 * n1 * n1)).

(** elements/elements.cpp:5820-5833 *)
Definition hexn_nodes_3d (n1 : nat) (nodes1 : list (option R)) : res (list (option R)) :=
  loop n1 (fun k st => loop n1 (fun j st => loop n1 (fun i pos =>
    let r := rid n1 i j k in
    do x <- getu nodes1 i; do y <- getu nodes1 j; do z <- getu nodes1 k;
    do p1 <- set pos (r * 3 + 0) (Some x);
    do p2 <- set p1 (r * 3 + 1) (Some y);
    set p2 (r * 3 + 2) (Some z)) st) st) (repeat None (n1 * n1 * n1 * 3)).

(** elements/elements.cpp:5836-5858; the step-2 loop runs over i = 2 a, a < (n1 + 1) / 2 *)
Definition hexn_verts_1d (elem_order n1 nv : nat) (nodes1 : list (option R)) : res (list (option R)) :=
  let mem := repeat None (nv * nv * nv) in
  do (vs, _) <-
    (if elem_order =? 0 then
       loop n1 (fun i '(vs, vert_id) => do x <- getu nodes1 i; do vs' <- set vs vert_id (Some x); Ok (vs', vert_id + 1)) (mem, 0)
     else
       loop ((n1 + 1) / 2) (fun a '(vs, vert_id) =>
         let i := 2 * a in
         do x <- getu nodes1 i; do vs' <- set vs vert_id (Some x); Ok (vs', vert_id + 1)) (mem, 0));
  Ok vs.

(** elements/elements.cpp:5428-5463 *)
Definition hexn_vert_node_map (elem_order n1 nv : nat) : res (list (option nat)) :=
  let mem := repeat None (nv * nv * nv) in
  do (mp, _) <-
    (if elem_order =? 0 then
       loop n1 (fun k st => loop n1 (fun j st => loop n1 (fun i '(mp, vert_rid) =>
         do mp' <- set mp vert_rid (Some (rid n1 i j k)); Ok (mp', vert_rid + 1)) st) st) (mem, 0)
     else
       let h := (n1 + 1) / 2 in
       loop h (fun k2 st => loop h (fun j2 st => loop h (fun i2 '(mp, vert_rid) =>
         let k := 2 * k2 in let j := 2 * j2 in let i := 2 * i2 in
         do mp' <- set mp vert_rid (Some (rid n1 i j k)); Ok (mp', vert_rid + 1)) st) st) (mem, 0));
  Ok mp.

(** elements/elements.cpp:5373-5465 setup_HexN (5373-5425 sizes) with 5801-5859 create_lobatto_nodes *)
Definition setup_hexn (elem_order : nat) (lob : list R) : res hexn :=
  let n1 := if elem_order =? 0 then 2 else 2 * elem_order + 1 in
  let nv := if elem_order =? 0 then 2 else elem_order + 1 in
  do nodes1 <- hexn_nodes_1d n1 lob;
  do nodes <- hexn_nodes_3d n1 nodes1;
  do verts1 <- hexn_verts_1d elem_order n1 nv nodes1;
  do mp <- hexn_vert_node_map elem_order n1 nv;
  Ok {| hx_n1 := n1; hx_nv := nv; hx_nodes1 := nodes1; hx_nodes := nodes; hx_verts1 := verts1; hx_map := mp |}.

(** elements/elements.cpp:5480-5490 node_coords, vert_node_map *)
Definition hexn_node_coords (h : hexn) (r d : nat) : res R := getu (hx_nodes h) (r * 3 + d).
Definition hexn_vert_node (h : hexn) (v : nat) : res nat := getu (hx_map h) v.

(** elements/elements.cpp:5727-5748, value of vertex vert_i; the quotient is recomputed in every
    iteration *)
Definition lag_value (nv : nat) (vs : list (option R)) (x_point : R) (vert_i : nat) : res R :=
  do (_, _, interpolant) <-
    loop nv (fun vert_j '(numerator, denominator, _) =>
      do (num, den) <-
        (if negb (vert_j =? vert_i) then
           do vj <- getu vs vert_j; do vi <- getu vs vert_i;
           Ok (numerator * (x_point - vj), denominator * (vi - vj))%R
         else Ok (numerator, denominator));
      do q <- rdiv num den;
      Ok (num, den, q)) (1, 1, 1)%R;
  Ok interpolant.

(** elements/elements.cpp:5769-5779, the product over N different from vert_j and vert_i *)
Definition lag_prod (nv : nat) (vs : list (option R)) (x_point : R) (vert_i vert_j : nat) : res R :=
  loop nv (fun n p =>
    if negb (n =? vert_j) && negb (n =? vert_i) then
      do vn <- getu vs n; Ok (p * (x_point - vn))%R
    else Ok p) 1%R.

(** elements/elements.cpp:5756-5795, derivative of vertex vert_i *)
Definition lag_deriv (nv : nat) (vs : list (option R)) (x_point : R) (vert_i : nat) : res R :=
  do (_, _, gradient) <-
    loop nv (fun vert_j '(num_gradient, denominator, _) =>
      do (ng, den) <-
        (if negb (vert_j =? vert_i) then
           do vi <- getu vs vert_i; do vj <- getu vs vert_j;
           do p <- lag_prod nv vs x_point vert_i vert_j;
           Ok (num_gradient + p, denominator * (vi - vj))%R
         else Ok (num_gradient, denominator));
      do q <- rdiv ng den;
      Ok (ng, den, q)) (0, 1, 0)%R;
  Ok gradient.

(** elements/elements.cpp:5719-5750 lagrange_basis_1D, 5752-5798 lagrange_derivative_1D: fill an array *)
Definition lagrange_basis_1D (nv : nat) (vs : list (option R)) (interp : list (option R)) (x : R) : res (list (option R)) :=
  loop nv (fun i a => do v <- lag_value nv vs x i; set a i (Some v)) interp.
Definition lagrange_derivative_1D (nv : nat) (vs : list (option R)) (der : list (option R)) (x : R) : res (list (option R)) :=
  loop nv (fun i a => do v <- lag_deriv nv vs x i; set a i (Some v)) der.

(** elements/elements.cpp:5515-5518 (and its copies): save the 1D values as direction [d] and zero the
    1D array *)
Definition save_dir (nv d : nat) (v1 v3 : list (option R)) : res (list (option R) * list (option R)) :=
  loop nv (fun i '(v1, v3) =>
    do v <- getu v1 i;
    do v3' <- set v3 (i * 3 + d) (Some v);
    do v1' <- set v1 i (Some 0%R);
    Ok (v1', v3')) (v1, v3).

(** elements/elements.cpp:5542-5551 (and its copies): tensor products into the caller's array; the three
    factor arrays are val_3d or Dval_3d *)
Definition tensor_out (nv : nat) (a0 a1 a2 : list (option R)) (out : list (option R)) : res (list (option R)) :=
  loop nv (fun k st => loop nv (fun j st => loop nv (fun i o =>
    do x <- getu a0 (i * 3 + 0); do y <- getu a1 (j * 3 + 1); do z <- getu a2 (k * 3 + 2);
    set o (rid nv i j k) (Some (x * y * z)%R)) st) st) out.

(** elements/elements.cpp:5505-5553 *)
Definition hexn_basis (h : hexn) (basis : list (option R)) (p0 p1 p2 : R) : res (list (option R)) :=
  let nv := hx_nv h in let vs := hx_verts1 h in
  do v1 <- lagrange_basis_1D nv vs (repeat None nv) p0;
  do (v1, v3) <- save_dir nv 0 v1 (repeat None (nv * 3));
  do v1 <- lagrange_basis_1D nv vs v1 p1;
  do (v1, v3) <- save_dir nv 1 v1 v3;
  do v1 <- lagrange_basis_1D nv vs v1 p2;
  do (v1, v3) <- save_dir nv 2 v1 v3;
  tensor_out nv v3 v3 v3 basis.

(** elements/elements.cpp:5556-5610 *)
Definition hexn_partial_xi (h : hexn) (out : list (option R)) (p0 p1 p2 : R) : res (list (option R)) :=
  let nv := hx_nv h in let vs := hx_verts1 h in
  do d1 <- lagrange_derivative_1D nv vs (repeat None nv) p0;
  do (d1, d3) <- save_dir nv 0 d1 (repeat None (nv * 3));
  do v1 <- lagrange_basis_1D nv vs (repeat None nv) p1;
  do (v1, v3) <- save_dir nv 1 v1 (repeat None (nv * 3));
  do v1 <- lagrange_basis_1D nv vs v1 p2;
  do (v1, v3) <- save_dir nv 2 v1 v3;
  tensor_out nv d3 v3 v3 out.

(** elements/elements.cpp:5613-5662 *)
Definition hexn_partial_eta (h : hexn) (out : list (option R)) (p0 p1 p2 : R) : res (list (option R)) :=
  let nv := hx_nv h in let vs := hx_verts1 h in
  do v1 <- lagrange_basis_1D nv vs (repeat None nv) p0;
  do (v1, v3) <- save_dir nv 0 v1 (repeat None (nv * 3));
  do d1 <- lagrange_derivative_1D nv vs (repeat None nv) p1;
  do (d1, d3) <- save_dir nv 1 d1 (repeat None (nv * 3));
  do v1 <- lagrange_basis_1D nv vs v1 p2;
  do (v1, v3) <- save_dir nv 2 v1 v3;
  tensor_out nv v3 d3 v3 out.

(** elements/elements.cpp:5665-5715; here the code zeroes val_1d instead of Dval_1d after the third
    copy, neither array is read again, so [save_dir] is used as is *)
Definition hexn_partial_mu (h : hexn) (out : list (option R)) (p0 p1 p2 : R) : res (list (option R)) :=
  let nv := hx_nv h in let vs := hx_verts1 h in
  do v1 <- lagrange_basis_1D nv vs (repeat None nv) p0;
  do (v1, v3) <- save_dir nv 0 v1 (repeat None (nv * 3));
  do v1 <- lagrange_basis_1D nv vs v1 p1;
  do (v1, v3) <- save_dir nv 1 v1 v3;
  do d1 <- lagrange_derivative_1D nv vs (repeat None nv) p2;
  do (d1, d3) <- save_dir nv 2 d1 (repeat None (nv * 3));
  tensor_out nv v3 v3 d3 out.

(** ---- tables of ref_element::init: values and gradients of all basis functions at [m] points whose
    coordinates are in [pos] (point-major, 3 per point); [nb] = num_ref_verts_in_elem_ ---- *)
(** elements/elements.cpp:2638-2658 (ref_nodal_basis_), 2909-2930 (ref_patch_basis_).  2970-2990
    (ref_cell_basis_) is the same loop, except that the array is allocated with a third extent 3 that
    the two-index accesses ignore; it is modelled with its two indices. *)
Definition basis_table (h : hexn) (m nb : nat) (pos : list (option R)) : res (list (option R)) :=
  loop m (fun r tab =>
    do x <- getu pos (r * 3 + 0); do y <- getu pos (r * 3 + 1); do z <- getu pos (r * 3 + 2);
    do b <- hexn_basis h (repeat None nb) x y z;
    loop nb (fun v tab => do s <- getu b v; set tab (r * nb + v) (Some s)) tab) (repeat None (m * nb)).

(** elements/elements.cpp:2663-2690 (ref_nodal_gradient_), 2937-2966 (ref_patch_gradient_), 2995-3020
    (ref_cell_gradient_); the three partial arrays live across the loop and have [np] entries
    (num_ref_nodes_in_elem_) *)
Definition gradient_table (h : hexn) (m nb np : nat) (pos : list (option R)) : res (list (option R)) :=
  do (tab, _, _, _) <-
    loop m (fun r '(tab, px, pe, pm) =>
      do x <- getu pos (r * 3 + 0); do y <- getu pos (r * 3 + 1); do z <- getu pos (r * 3 + 2);
      do px <- hexn_partial_xi h px x y z;
      do pe <- hexn_partial_eta h pe x y z;
      do pm <- hexn_partial_mu h pm x y z;
      loop nb (fun b '(tab, px, pe, pm) =>
        do gx <- getu px b; do ge <- getu pe b; do gm <- getu pm b;
        do t1 <- set tab ((r * nb + b) * 3 + 0) (Some gx);
        do t2 <- set t1 ((r * nb + b) * 3 + 1) (Some ge);
        do t3 <- set t2 ((r * nb + b) * 3 + 2) (Some gm);
        do px <- set px b (Some 0%R); do pe <- set pe b (Some 0%R); do pm <- set pm b (Some 0%R);
        Ok (t3, px, pe, pm)) (tab, px, pe, pm))
      (repeat None (m * nb * 3), repeat None np, repeat None np, repeat None np);
  Ok tab.

(** accessors: elements/elements.cpp:3133-3218 ref_nodal_basis, ref_nodal_gradient and their patch and
    cell versions *)
Definition ref_basis (nb : nat) (tab : list (option R)) (r v : nat) : res R := getu tab (r * nb + v).
Definition ref_gradient (nb : nat) (tab : list (option R)) (r v d : nat) : res R := getu tab ((r * nb + v) * 3 + d).

(** ---- QuadN ---- *)
(** elements/elements.cpp:3987-4013: value and derivative of node i *)
Definition quad_lag (np : nat) (xi : list (option R)) (x_point : R) (i : nat) : res (R * R) :=
  do (_, _, _, c, q) <-
    loop np (fun j '(n, d, p, _, _) =>
      do (n', d', p') <-
        (if negb (j =? i) then
           do xj <- getu xi j; do xi_i <- getu xi i;
           do s <- loop np (fun m s => if negb (m =? j) && negb (m =? i) then do xm <- getu xi m; Ok (s * (x_point - xm))%R else Ok s) 1%R;
           Ok (n * (x_point - xj), d * (xi_i - xj), p + s)%R
         else Ok (n, d, p));
      do c <- rdiv n' d';
      do q <- rdiv p' d';
      Ok (n', d', p', c, q)) (1, 1, 0, 1, 0)%R;
  Ok (c, q).

(** elements/elements.cpp:3972-4018 lagrange_1D *)
Definition quad_lagrange_1D (orderN : nat) (interp Dinterp : list (option R)) (x : R) (xi : list (option R))
  : res (list (option R) * list (option R)) :=
  let np := orderN + 1 in
  loop np (fun i '(a, b) => do (c, q) <- quad_lag np xi x i; do a' <- set a i (Some c); do b' <- set b i (Some q); Ok (a', b')) (interp, Dinterp).

(** elements/elements.cpp:4021-4065 corners *)
Definition quad_corners (orderN : nat) (lag_nodes lag_corner : list (option R)) : res (list (option R)) :=
  let n := orderN + 1 in
  let ids := [0; n - 1; n * n - n; n * n - 1] in
  loop 4 (fun c st => loop 2 (fun dim a =>
    do id <- get ids c; do v <- getu lag_nodes (id * 2 + dim); set a (c * 2 + dim) (Some v)) st) lag_corner.

(** elements/elements.cpp:4070-4085 physical_position: adds to what x_point holds *)
Definition quad_physical_position (orderN : nat) (x_point : list (option R)) (lag_nodes lag_basis : list (option R)) : res (list (option R)) :=
  let n2 := (orderN + 1) * (orderN + 1) in
  loop n2 (fun v st => loop 2 (fun dim a =>
    do old <- getu a dim; do c <- getu lag_nodes (v * 2 + dim); do b <- getu lag_basis v;
    set a dim (Some (old + c * b)%R)) st) x_point.

(** the caller's arrays of basis_partials *)
Record quad_work := {
  qw_nodes : list (option R);     (* lag_nodes, 2 per node *)
  qw_val1 : list (option R); qw_dval1 : list (option R);
  qw_val2 : list (option R); qw_dval2 : list (option R);
  qw_basis : list (option R);     (* lag_basis_2d *)
  qw_part : list (option R) }.    (* lag_partial, 2 per node *)

(** zeroing loops 4143-4146, 4155-4158 *)
Definition quad_zero (n : nat) (a b : list (option R)) : res (list (option R) * list (option R)) :=
  loop n (fun i '(a, b) => do a' <- set a i (Some 0%R); do b' <- set b i (Some 0%R); Ok (a', b')) (a, b).

(** elements/elements.cpp:4088-4170 basis_partials *)
Definition quad_basis_partials (orderN : nat) (nodes_1d : list (option R)) (p0 p1 : R) (w : quad_work) : res quad_work :=
  let n := orderN + 1 in
  loop (n * n) (fun m w =>
    let j := m / n + 1 in
    let i := (m + 1) - n * (j - 1) in
    do x <- getu nodes_1d (i - 1);
    do nd <- set (qw_nodes w) (m * 2 + 0) (Some x);
    do y <- getu nodes_1d (j - 1);
    do nd <- set nd (m * 2 + 1) (Some y);
    do (v1, d1) <- quad_lagrange_1D orderN (qw_val1 w) (qw_dval1 w) p0 nodes_1d;
    do s <- getu v1 (i - 1);
    do v2 <- set (qw_val2 w) (m * 2 + 0) (Some s);
    do s <- getu d1 (i - 1);
    do d2 <- set (qw_dval2 w) (m * 2 + 0) (Some s);
    do (v1, d1) <- quad_zero n v1 d1;
    do (v1, d1) <- quad_lagrange_1D orderN v1 d1 p1 nodes_1d;
    do s <- getu v1 (j - 1);
    do v2 <- set v2 (m * 2 + 1) (Some s);
    do s <- getu d1 (j - 1);
    do d2 <- set d2 (m * 2 + 1) (Some s);
    do (v1, d1) <- quad_zero n v1 d1;
    do a <- getu v2 (m * 2 + 0); do b <- getu v2 (m * 2 + 1);
    do bs <- set (qw_basis w) m (Some (a * b)%R);
    do da <- getu d2 (m * 2 + 0); do db <- getu d2 (m * 2 + 1);
    do pt <- set (qw_part w) (m * 2 + 0) (Some (da * b)%R);
    do pt <- set pt (m * 2 + 1) (Some (a * db)%R);
    Ok {| qw_nodes := nd; qw_val1 := v1; qw_dval1 := d1; qw_val2 := v2; qw_dval2 := d2; qw_basis := bs; qw_part := pt |}) w.
