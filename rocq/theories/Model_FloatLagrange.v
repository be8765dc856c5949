(** elements/lagrange_polynomials.cpp and elements/lagrange_element.cpp in rounded arithmetic: the definitions of
    Model_Lagrange.v with the result of every +, -, *, / rounded by [rnd] (fabs, unary minus, comparisons and copies
    are exact; 2*NUM_EPS and the conversion of the order k to double are exact).
    Simplifications: as in Model_Lagrange.v, and no overflow, no underflow (the exponent is unbounded), no fused
    multiply-add.  A division by zero is an error, not an infinity. *)
From Coq Require Import List Reals NArith Arith.
Import ListNotations.
Require Import Verif.Base Verif.RBase Verif.Model_Common Verif.Model_Lagrange.
Open Scope R_scope.

Section Rounded.
Variable rnd : R -> R.

(** a rounded quotient *)
Definition rdivf (a b : R) : res R := if Req_EM_T b 0 then Err DivZero else Ok (rnd (a / b)).

(** common/common.h:33-35 almost_equal (Real instantiation) *)
Definition almost_equalf (a b : R) : bool :=
  if Rlt_dec (Rabs (rnd (a - b))) (2 * num_eps) then true else false.

(** elements/lagrange_polynomials.cpp:22-34 find_coincident_vertex *)
Definition find_coincident_vertexf (Nv : nat) (z : nat -> R) (x : R) : N :=
  fold_up Nv (fun j k =>
    w64 (k + (N.of_nat j + 1) * (if almost_equalf (z j) x then 1 else 0)))%N (two64 - 1)%N.

(** elements/lagrange_polynomials.cpp:57-67 compute_barycentric_weights *)
Definition compute_barycentric_weightsf (Nv : nat) (z : nat -> R) (w : nat -> R) : res (nat -> R) :=
  loop Nv (fun j w =>
    do wj <- loop Nv (fun k acc =>
               if Nat.eqb j k then Ok acc
               else do q <- rdivf 1 (rnd (z j - z k)); Ok (rnd (acc * q))) 1;
    Ok (fset w j wj)) w.

(** elements/lagrange_polynomials.cpp:82-91 eval *)
Definition evalf (Nv i : nat) (ic : N) (Z w : nat -> R) (X : R) : res R :=
  if (ic <? N.of_nat Nv)%N then Ok (if (N.of_nat i =? ic)%N then 1 else 0)
  else
    let L := fold_up Nv (fun j L => rnd (L * rnd (X - Z j))) 1 in
    rdivf (rnd (L * w i)) (rnd (X - Z i)).

(** elements/lagrange_polynomials.cpp:155-167 and 203-214: the common sum *)
Definition interp_sumf (Nv : nat) (Z w : nat -> R) (X : R) (c : nat -> res R) : res (R * R) :=
  loop Nv (fun j '(p, L) =>
    do cj <- c j;
    do q <- rdivf (rnd (w j * cj)) (rnd (X - Z j));
    Ok (rnd (p + q), rnd (L * rnd (X - Z j)))) (0, 1).

(** elements/lagrange_polynomials.cpp:146-171 eval_interp *)
Definition eval_interpf (Nv : nat) (ic : N) (Z w : nat -> R) (X : R) (c : nat -> res R) : res R :=
  if (ic <? N.of_nat Nv)%N then c (N.to_nat ic)
  else do (p, L) <- interp_sumf Nv Z w X c; Ok (rnd (p * L)).

(** elements/lagrange_polynomials.cpp:219-235: one order [k] at a coincident vertex [i] *)
Definition der_step_coincidentf (Nv i : nat) (Z w : nat -> R) (k : nat)
    (st : R * R * R * (nat -> res R)) : res (R * R * R * (nat -> res R)) :=
  let '(dkp, _, M, c) := st in
  do (dnp, c') <- loop Nv (fun j '(dnp, c) =>
      let cj := do sx <- rdivf 1 (rnd (Z i - Z j)); do old <- c j; Ok (rnd (sx * rnd (dkp - old))) in
      let c' := fset c j cj in
      if Nat.eqb j i then Ok (dnp, c')
      else do v <- cj; Ok (rnd (dnp + rnd (w j * v)), c')) (0, c);
  let M' := rnd (M * INR k) in
  do s <- rdivf (- M') (w i);
  let dnp' := rnd (dnp * s) in
  Ok (dnp', dnp', M', c').

(** elements/lagrange_polynomials.cpp:237-254: one order [k] away from the vertices *)
Definition der_step_freef (Nv : nat) (Z w : nat -> R) (X L : R) (k : nat)
    (st : R * R * R * (nat -> res R)) : res (R * R * R * (nat -> res R)) :=
  let '(dkp, _, M, c) := st in
  do (dnp, c') <- loop Nv (fun j '(dnp, c) =>
      do sx <- rdivf 1 (rnd (X - Z j));
      do old <- c j;
      let v := rnd (sx * rnd (dkp - old)) in
      do q <- rdivf (rnd (w j * v)) (rnd (X - Z j));
      Ok (rnd (dnp + q), fset c j (Ok v))) (0, c);
  let M' := rnd (M * INR k) in
  let dnp' := rnd (dnp * rnd (L * M')) in
  Ok (dnp', dnp', M', c').

(** elements/lagrange_polynomials.cpp:193-260 eval_der_interp *)
Definition eval_der_interpf (Nv n : nat) (ic : N) (Z w : nat -> R) (X : R) (c : nat -> res R)
  : res (R * (nat -> res R)) :=
  if (ic <? N.of_nat Nv)%N then
    let i := N.to_nat ic in
    do p <- c i;
    do (_, dnp, _, c') <- loop_from 1 n (der_step_coincidentf Nv i Z w) (p, 0, 1, c);
    Ok (dnp, c')
  else
    do (p0, L) <- interp_sumf Nv Z w X c;
    do (_, dnp, _, c') <- loop_from 1 n (der_step_freef Nv Z w X L) (rnd (p0 * L), 0, 1, c);
    Ok (dnp, c').

(** elements/lagrange_polynomials.cpp:111-124 eval_der *)
Definition eval_derf (Nv n i : nat) (ic : N) (Z w : nat -> R) (X : R) (c : nat -> res R)
  : res (R * (nat -> res R)) :=
  let c1 := fold_up Nv (fun j c => fset c j (Ok (if Nat.eqb j i then 1 else 0))) c in
  eval_der_interpf Nv n ic Z w X c1.

(** elements/lagrange_element.cpp:5-20 constructor *)
Definition new_lagrange_elementf (order : nat) (Z w0 : nat -> R) : res lagrange_element :=
  let N := (order + 1)%nat in
  do w <- compute_barycentric_weightsf N Z w0;
  Ok {| le_N := N; le_Z := Z; le_w := w |}.

(** elements/lagrange_element.cpp:37-53 eval_basis *)
Definition le_eval_basisf (e : lagrange_element) (I : N) (x y z : R) : res R :=
  do (i, j, k) <- le_ijk e I;
  let ix := find_coincident_vertexf (le_N e) (le_Z e) x in
  let iy := find_coincident_vertexf (le_N e) (le_Z e) y in
  let iz := find_coincident_vertexf (le_N e) (le_Z e) z in
  do li <- evalf (le_N e) i ix (le_Z e) (le_w e) x;
  do lj <- evalf (le_N e) j iy (le_Z e) (le_w e) y;
  do lk <- evalf (le_N e) k iz (le_Z e) (le_w e) z;
  Ok (rnd (rnd (li * lj) * lk)).

(** elements/lagrange_element.cpp:68-94 eval_grad_basis *)
Definition le_eval_grad_basisf (e : lagrange_element) (I : N) (x y z : R) (C : nat -> res R)
  : res ((R * R * R) * (nat -> res R)) :=
  do (i, j, k) <- le_ijk e I;
  let N := le_N e in let Z := le_Z e in let w := le_w e in
  let ix := find_coincident_vertexf N Z x in
  let iy := find_coincident_vertexf N Z y in
  let iz := find_coincident_vertexf N Z z in
  do li <- evalf N i ix Z w x;
  do lj <- evalf N j iy Z w y;
  do lk <- evalf N k iz Z w z;
  do (dli, C1) <- eval_derf N 1 i ix Z w x C;
  do (dlj, C2) <- eval_derf N 1 j iy Z w y C1;
  do (dlk, C3) <- eval_derf N 1 k iz Z w z C2;
  Ok ((rnd (rnd (dli * lj) * lk), rnd (rnd (li * dlj) * lk), rnd (rnd (li * lj) * dlk)), C3).

(** elements/lagrange_element.cpp:120-139 eval_approx *)
Definition le_eval_approxf (e : lagrange_element) (c : nat -> R) (x y z : R) (C : nat -> res R)
  : res (R * (nat -> res R)) :=
  let N := le_N e in let Z := le_Z e in let w := le_w e in
  let ix := find_coincident_vertexf N Z x in
  let iy := find_coincident_vertexf N Z y in
  let iz := find_coincident_vertexf N Z z in
  do C1 <- loop N (fun k C =>
      do C' <- loop N (fun j C =>
          do v <- eval_interpf N ix Z w x (fun i => Ok (c (j * N + k * N * N + i)%nat));
          Ok (fset C j (Ok v))) C;
      do v <- eval_interpf N iy Z w y C';
      Ok (fset C' (N + k)%nat (Ok v))) C;
  do r <- eval_interpf N iz Z w z (shift N C1);
  Ok (r, C1).

(** one 1D collapse *)
Definition collapsef (d : bool) (Nv : nat) (ic : N) (Z w : nat -> R) (X : R) (C : nat -> res R)
  : res (R * (nat -> res R)) :=
  if d then eval_der_interpf Nv 1 ic Z w X C
  else do v <- eval_interpf Nv ic Z w X C; Ok (v, C).

(** elements/lagrange_element.cpp:164-201 eval_grad_approx: component [l] *)
Definition le_eval_grad_compf (e : lagrange_element) (l : nat) (c : nat -> R) (x y z : R)
  (C : nat -> res R) : res (R * (nat -> res R)) :=
  let N := le_N e in let Z := le_Z e in let w := le_w e in
  let ix := find_coincident_vertexf N Z x in
  let iy := find_coincident_vertexf N Z y in
  let iz := find_coincident_vertexf N Z z in
  do C1 <- loop N (fun k C =>
      do C' <- loop N (fun j C =>
          let C0 := (fun i => if Nat.ltb i N then Ok (c (j * N + k * N * N + i)%nat) else C i) in
          do (v, C0') <- collapsef (Nat.eqb l 0) N ix Z w x C0;
          Ok (fset C0' (N + j)%nat (Ok v))) C;
      do (v, C'') <- collapsef (Nat.eqb l 1) N iy Z w y (copy_front N N C');
      Ok (fset C'' (2 * N + k)%nat (Ok v))) C;
  collapsef (Nat.eqb l 2) N iz Z w z (copy_front N (2 * N) C1).

(** elements/lagrange_element.cpp:173 loop over l = 0..2 *)
Definition le_eval_grad_approxf (e : lagrange_element) (c : nat -> R) (x y z : R) (C : nat -> res R)
  : res ((R * R * R) * (nat -> res R)) :=
  do (g0, C0) <- le_eval_grad_compf e 0 c x y z C;
  do (g1, C1) <- le_eval_grad_compf e 1 c x y z C0;
  do (g2, C2) <- le_eval_grad_compf e 2 c x y z C1;
  Ok ((g0, g1, g2), C2).

(** elements/lagrange_element.cpp:219-230 eval_jac *)
Definition le_eval_jacf (e : lagrange_element) (px py pz : nat -> R) (x y z : R) (C : nat -> res R)
  : res (mat9 * (nat -> res R)) :=
  do (gx, C0) <- le_eval_grad_approxf e px x y z C;
  do (gy, C1) <- le_eval_grad_approxf e py x y z C0;
  do (gz, C2) <- le_eval_grad_approxf e pz x y z C1;
  Ok (mk9 gx gy gz, C2).

(** a 2x2 minor a*b - c*d *)
Definition minorf (a b c d : R) : R := rnd (rnd (a * b) - rnd (c * d)).

(** elements/lagrange_element.cpp:249-251 determinant expression *)
Definition det_exprf (J : mat9) : R :=
  rnd (rnd (rnd (ent J 0 * minorf (ent J 4) (ent J 8) (ent J 5) (ent J 7))
       - rnd (ent J 1 * minorf (ent J 3) (ent J 8) (ent J 5) (ent J 6)))
   + rnd (ent J 2 * minorf (ent J 3) (ent J 7) (ent J 4) (ent J 6))).

(** elements/lagrange_element.cpp:243-252 eval_det_jac *)
Definition le_eval_det_jacf (e : lagrange_element) (px py pz : nat -> R) (x y z : R) (C : nat -> res R)
  : res (R * (nat -> res R)) :=
  do (J, C1) <- le_eval_jacf e px py pz x y z C;
  Ok (det_exprf J, C1).

(** elements/lagrange_element.cpp:275-288 the nine inverse entries, d = 1/det *)
Definition inv_exprf (d : R) (J : mat9) : mat9 :=
  mk9 (rnd (d * minorf (ent J 4) (ent J 8) (ent J 5) (ent J 7)), rnd (- d * minorf (ent J 1) (ent J 8) (ent J 2) (ent J 7)), rnd (d * minorf (ent J 1) (ent J 5) (ent J 2) (ent J 4)))
      (rnd (- d * minorf (ent J 3) (ent J 8) (ent J 5) (ent J 6)), rnd (d * minorf (ent J 0) (ent J 8) (ent J 2) (ent J 6)), rnd (- d * minorf (ent J 0) (ent J 5) (ent J 2) (ent J 3)))
      (rnd (d * minorf (ent J 3) (ent J 7) (ent J 4) (ent J 6)), rnd (- d * minorf (ent J 0) (ent J 7) (ent J 1) (ent J 6)), rnd (d * minorf (ent J 0) (ent J 4) (ent J 1) (ent J 3))).

(** elements/lagrange_element.cpp:268-289 eval_inv_jac *)
Definition le_eval_inv_jacf (e : lagrange_element) (px py pz : nat -> R) (x y z : R) (C : nat -> res R)
  : res (mat9 * (nat -> res R)) :=
  do (J, C1) <- le_eval_jacf e px py pz x y z C;
  do (det, C2) <- le_eval_det_jacf e px py pz x y z C1;
  do d <- rdivf 1 det;
  Ok (inv_exprf d J, C2).
End Rounded.
