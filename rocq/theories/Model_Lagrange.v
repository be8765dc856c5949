(** Model of elements/lagrange_polynomials.cpp and elements/lagrange_element.cpp over exact reals.
    Simplifications: NumType = Real only (the Complex instantiation is not modelled); doubles are
    exact reals; coefficient and work arrays are functions from indices (array extents are not
    tracked here; the work array C is shown to have no influence on results). *)
From Coq Require Import List Reals NArith Arith.
Import ListNotations.
Require Import Verif.Base Verif.RBase Verif.Model_Common.
Open Scope R_scope.

(** common/common.h:14 NUM_EPS = DBL_EPSILON = 2^-52 *)
Definition num_eps : R := / 2 ^ 52.

(** common/common.h:35-37 almost_equal (Real instantiation) *)
Definition almost_equal (a b : R) : bool :=
  if Rlt_dec (Rabs (a - b)) (2 * num_eps) then true else false.

(** elements/lagrange_polynomials.cpp:22-34 find_coincident_vertex; k starts at (size_t)-1. *)
Definition find_coincident_vertex (Nv : nat) (z : nat -> R) (x : R) : N :=
  fold_up Nv (fun j k =>
    w64 (k + (N.of_nat j + 1) * (if almost_equal (z j) x then 1 else 0)))%N (two64 - 1)%N.

(** elements/lagrange_polynomials.cpp:57-67 compute_barycentric_weights; [w] is the caller's array. *)
Definition compute_barycentric_weights (Nv : nat) (z : nat -> R) (w : nat -> R) : res (nat -> R) :=
  loop Nv (fun j w =>
    do wj <- loop Nv (fun k acc =>
               if Nat.eqb j k then Ok acc
               else do q <- rdiv 1 (z j - z k); Ok (acc * q)) 1;
    Ok (fset w j wj)) w.

(** elements/lagrange_polynomials.cpp:82-91 eval *)
Definition eval (Nv i : nat) (ic : N) (Z w : nat -> R) (X : R) : res R :=
  if (ic <? N.of_nat Nv)%N then Ok (if (N.of_nat i =? ic)%N then 1 else 0)
  else
    let L := fold_up Nv (fun j L => L * (X - Z j)) 1 in
    rdiv (L * w i) (X - Z i).

(** the common non-coincident sum: elements/lagrange_polynomials.cpp:155-167 and 203-214.
    [c] entries may be non-finite/unset ([Err]); only entries that are read matter. *)
Definition interp_sum (Nv : nat) (Z w : nat -> R) (X : R) (c : nat -> res R) : res (R * R) :=
  loop Nv (fun j '(p, L) =>
    do cj <- c j;
    do q <- rdiv (w j * cj) (X - Z j);
    Ok (p + q, L * (X - Z j))) (0, 1).

(** elements/lagrange_polynomials.cpp:146-171 eval_interp *)
Definition eval_interp (Nv : nat) (ic : N) (Z w : nat -> R) (X : R) (c : nat -> res R) : res R :=
  if (ic <? N.of_nat Nv)%N then c (N.to_nat ic)
  else do (p, L) <- interp_sum Nv Z w X c; Ok (p * L).

(** elements/lagrange_polynomials.cpp:219-235: one order [k] at a coincident vertex [i].  For
    j = i the quotient 1/(Z[i]-Z[i]) is computed and stored in c[i] (non-finite) but not added. *)
Definition der_step_coincident (Nv i : nat) (Z w : nat -> R) (k : nat)
    (st : R * R * R * (nat -> res R)) : res (R * R * R * (nat -> res R)) :=
  let '(dkp, _, M, c) := st in
  do (dnp, c') <- loop Nv (fun j '(dnp, c) =>
      let cj := do sx <- rdiv 1 (Z i - Z j); do old <- c j; Ok (sx * (dkp - old)) in
      let c' := fset c j cj in
      if Nat.eqb j i then Ok (dnp, c')
      else do v <- cj; Ok (dnp + w j * v, c')) (0, c);
  let M' := M * INR k in
  do s <- rdiv (- M') (w i);
  let dnp' := dnp * s in
  Ok (dnp', dnp', M', c').

(** elements/lagrange_polynomials.cpp:237-254: one order [k] away from the vertices. *)
Definition der_step_free (Nv : nat) (Z w : nat -> R) (X L : R) (k : nat)
    (st : R * R * R * (nat -> res R)) : res (R * R * R * (nat -> res R)) :=
  let '(dkp, _, M, c) := st in
  do (dnp, c') <- loop Nv (fun j '(dnp, c) =>
      do sx <- rdiv 1 (X - Z j);
      do old <- c j;
      let v := sx * (dkp - old) in
      do q <- rdiv (w j * v) (X - Z j);
      Ok (dnp + q, fset c j (Ok v))) (0, c);
  let M' := M * INR k in
  let dnp' := dnp * (L * M') in
  Ok (dnp', dnp', M', c').

(** elements/lagrange_polynomials.cpp:193-260 eval_der_interp: order [n], coincidence index [ic];
    returns the derivative and the modified coefficient array.  State: (dkp, dnp, M, c). *)
Definition eval_der_interp (Nv n : nat) (ic : N) (Z w : nat -> R) (X : R) (c : nat -> res R)
  : res (R * (nat -> res R)) :=
  if (ic <? N.of_nat Nv)%N then
    let i := N.to_nat ic in
    do p <- c i;
    do (_, dnp, _, c') <- loop_from 1 n (der_step_coincident Nv i Z w) (p, 0, 1, c);
    Ok (dnp, c')
  else
    do (p0, L) <- interp_sum Nv Z w X c;
    do (_, dnp, _, c') <- loop_from 1 n (der_step_free Nv Z w X L) (p0 * L, 0, 1, c);
    Ok (dnp, c').

(** elements/lagrange_polynomials.cpp:111-124 eval_der: coefficients set to Kronecker deltas in the
    caller's work array, then eval_der_interp. *)
Definition eval_der (Nv n i : nat) (ic : N) (Z w : nat -> R) (X : R) (c : nat -> res R)
  : res (R * (nat -> res R)) :=
  let c1 := fold_up Nv (fun j c => fset c j (Ok (if Nat.eqb j i then 1 else 0))) c in
  eval_der_interp Nv n ic Z w X c1.

(** ---- elements/lagrange_element.{h,cpp} ---- *)

Record lagrange_element := { le_N : nat; le_Z : nat -> R; le_w : nat -> R }.

(** elements/lagrange_element.cpp:5-20 constructor ([w0]: contents of the fresh array w) *)
Definition new_lagrange_element (order : nat) (Z w0 : nat -> R) : res lagrange_element :=
  let N := (order + 1)%nat in
  do w <- compute_barycentric_weights N Z w0;
  Ok {| le_N := N; le_Z := Z; le_w := w |}.

(** the three indices of basis function I: base_10_to_mixed_radix(3, rad, I, ijk) *)
Definition le_ijk (e : lagrange_element) (I : N) : res (nat * nat * nat) :=
  let n := N.of_nat (le_N e) in
  do ijk <- base_10_to_mixed_radix [n; n; n] I;
  do i <- get ijk 0; do j <- get ijk 1; do k <- get ijk 2;
  Ok (N.to_nat i, N.to_nat j, N.to_nat k).

(** elements/lagrange_element.cpp:37-53 eval_basis; X is (x, y, z) *)
Definition le_eval_basis (e : lagrange_element) (I : N) (x y z : R) : res R :=
  do (i, j, k) <- le_ijk e I;
  let ix := find_coincident_vertex (le_N e) (le_Z e) x in
  let iy := find_coincident_vertex (le_N e) (le_Z e) y in
  let iz := find_coincident_vertex (le_N e) (le_Z e) z in
  do li <- eval (le_N e) i ix (le_Z e) (le_w e) x;
  do lj <- eval (le_N e) j iy (le_Z e) (le_w e) y;
  do lk <- eval (le_N e) k iz (le_Z e) (le_w e) z;
  Ok (li * lj * lk).

(** elements/lagrange_element.cpp:68-94 eval_grad_basis; [C] is the element's work array, whose
    final contents are returned. *)
Definition le_eval_grad_basis (e : lagrange_element) (I : N) (x y z : R) (C : nat -> res R)
  : res ((R * R * R) * (nat -> res R)) :=
  do (i, j, k) <- le_ijk e I;
  let N := le_N e in let Z := le_Z e in let w := le_w e in
  let ix := find_coincident_vertex N Z x in
  let iy := find_coincident_vertex N Z y in
  let iz := find_coincident_vertex N Z z in
  do li <- eval N i ix Z w x;
  do lj <- eval N j iy Z w y;
  do lk <- eval N k iz Z w z;
  do (dli, C1) <- eval_der N 1 i ix Z w x C;
  do (dlj, C2) <- eval_der N 1 j iy Z w y C1;
  do (dlk, C3) <- eval_der N 1 k iz Z w z C2;
  Ok ((dli * lj * lk, li * dlj * lk, li * lj * dlk), C3).

(** pointer arithmetic [p + off] on an array *)
Definition shift {A} (off : nat) (p : nat -> A) : nat -> A := fun i => p (off + i)%nat.

(** elements/lagrange_element.cpp:120-139 eval_approx; result and final work array *)
Definition le_eval_approx (e : lagrange_element) (c : nat -> R) (x y z : R) (C : nat -> res R)
  : res (R * (nat -> res R)) :=
  let N := le_N e in let Z := le_Z e in let w := le_w e in
  let ix := find_coincident_vertex N Z x in
  let iy := find_coincident_vertex N Z y in
  let iz := find_coincident_vertex N Z z in
  do C1 <- loop N (fun k C =>
      do C' <- loop N (fun j C =>
          do v <- eval_interp N ix Z w x (fun i => Ok (c (j * N + k * N * N + i)%nat));
          Ok (fset C j (Ok v))) C;
      do v <- eval_interp N iy Z w y C';
      Ok (fset C' (N + k)%nat (Ok v))) C;
  do r <- eval_interp N iz Z w z (shift N C1);
  Ok (r, C1).

(** std::copy(C+from, C+from+n, C): copy n entries starting at [from] to the front *)
Definition copy_front (n from : nat) (C : nat -> res R) : nat -> res R :=
  fun i => if Nat.ltb i n then C (from + i)%nat else C i.

(** one 1D collapse: derivative if [d], value otherwise; returns the (possibly modified) array *)
Definition collapse (d : bool) (Nv : nat) (ic : N) (Z w : nat -> R) (X : R) (C : nat -> res R)
  : res (R * (nat -> res R)) :=
  if d then eval_der_interp Nv 1 ic Z w X C
  else do v <- eval_interp Nv ic Z w X C; Ok (v, C).

(** elements/lagrange_element.cpp:164-201 eval_grad_approx: component [l] *)
Definition le_eval_grad_comp (e : lagrange_element) (l : nat) (c : nat -> R) (x y z : R)
  (C : nat -> res R) : res (R * (nat -> res R)) :=
  let N := le_N e in let Z := le_Z e in let w := le_w e in
  let ix := find_coincident_vertex N Z x in
  let iy := find_coincident_vertex N Z y in
  let iz := find_coincident_vertex N Z z in
  do C1 <- loop N (fun k C =>
      do C' <- loop N (fun j C =>
          let C0 := (fun i => if Nat.ltb i N then Ok (c (j * N + k * N * N + i)%nat) else C i) in
          do (v, C0') <- collapse (Nat.eqb l 0) N ix Z w x C0;
          Ok (fset C0' (N + j)%nat (Ok v))) C;
      do (v, C'') <- collapse (Nat.eqb l 1) N iy Z w y (copy_front N N C');
      Ok (fset C'' (2 * N + k)%nat (Ok v))) C;
  collapse (Nat.eqb l 2) N iz Z w z (copy_front N (2 * N) C1).

(** elements/lagrange_element.cpp:173 loop over l = 0..2 *)
Definition le_eval_grad_approx (e : lagrange_element) (c : nat -> R) (x y z : R) (C : nat -> res R)
  : res ((R * R * R) * (nat -> res R)) :=
  do (g0, C0) <- le_eval_grad_comp e 0 c x y z C;
  do (g1, C1) <- le_eval_grad_comp e 1 c x y z C0;
  do (g2, C2) <- le_eval_grad_comp e 2 c x y z C1;
  Ok ((g0, g1, g2), C2).

(** 3x3 matrix stored row by row as in J[9] *)
Definition mat9 := nat -> R.
Definition mk9 (r0 r1 r2 : R * R * R) : mat9 :=
  let '(a, b, c) := r0 in let '(d, e, f) := r1 in let '(g, h, i) := r2 in
  fun n => match n with
           | 0 => a | 1 => b | 2 => c | 3 => d | 4 => e | 5 => f | 6 => g | 7 => h | _ => i
           end%nat.

(** elements/lagrange_element.cpp:219-230 eval_jac *)
Definition le_eval_jac (e : lagrange_element) (px py pz : nat -> R) (x y z : R) (C : nat -> res R)
  : res (mat9 * (nat -> res R)) :=
  do (gx, C0) <- le_eval_grad_approx e px x y z C;
  do (gy, C1) <- le_eval_grad_approx e py x y z C0;
  do (gz, C2) <- le_eval_grad_approx e pz x y z C1;
  Ok (mk9 gx gy gz, C2).

(** entry n of a 3x3 matrix *)
Definition ent (J : mat9) (n : nat) : R := J n.

(** elements/lagrange_element.cpp:249-251 determinant expression *)
Definition det_expr (J : mat9) : R :=
  (ent J 0 * (ent J 4 * ent J 8 - ent J 5 * ent J 7) - ent J 1 * (ent J 3 * ent J 8 - ent J 5 * ent J 6)
   + ent J 2 * (ent J 3 * ent J 7 - ent J 4 * ent J 6)).

(** elements/lagrange_element.cpp:243-252 eval_det_jac *)
Definition le_eval_det_jac (e : lagrange_element) (px py pz : nat -> R) (x y z : R) (C : nat -> res R)
  : res (R * (nat -> res R)) :=
  do (J, C1) <- le_eval_jac e px py pz x y z C;
  Ok (det_expr J, C1).

(** elements/lagrange_element.cpp:275-288 the nine inverse entries, d = 1/det *)
Definition inv_expr (d : R) (J : mat9) : mat9 :=
  mk9 (d * (ent J 4 * ent J 8 - ent J 5 * ent J 7), - d * (ent J 1 * ent J 8 - ent J 2 * ent J 7), d * (ent J 1 * ent J 5 - ent J 2 * ent J 4))
      (- d * (ent J 3 * ent J 8 - ent J 5 * ent J 6), d * (ent J 0 * ent J 8 - ent J 2 * ent J 6), - d * (ent J 0 * ent J 5 - ent J 2 * ent J 3))
      (d * (ent J 3 * ent J 7 - ent J 4 * ent J 6), - d * (ent J 0 * ent J 7 - ent J 1 * ent J 6), d * (ent J 0 * ent J 4 - ent J 1 * ent J 3)).

(** elements/lagrange_element.cpp:268-289 eval_inv_jac *)
Definition le_eval_inv_jac (e : lagrange_element) (px py pz : nat -> R) (x y z : R) (C : nat -> res R)
  : res (mat9 * (nat -> res R)) :=
  do (J, C1) <- le_eval_jac e px py pz x y z C;
  do (det, C2) <- le_eval_det_jac e px py pz x y z C1;
  do d <- rdiv 1 det;
  Ok (inv_expr d J, C2).
