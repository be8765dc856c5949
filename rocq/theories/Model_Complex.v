(** The numerical templates of /repo with their type parameter kept: common/common.h (almost_equal),
    elements/lagrange_polynomials.cpp, lagrange_element.cpp, jacobi_polynomials.cpp,
    legendre_polynomials.cpp, legendre_element.cpp, point_distributions.cpp are [template <typename NumType>] and instantiated
    for [Real] = double and [Complex] = std::complex<double>.  [num] lists what the templates use of
    NumType; [Rnum] and [Cnum] are the two instances.  Simplifications: double is R, std::complex<double>
    is C = R * R with exact arithmetic; division by zero is the outcome DivZero; arrays are functions from
    indices; a product of a complex and a real number is the product with that real number as a complex
    number.  [C74_real_instance] in Prop_Complex.v shows that the Real instances are the models of
    Model_Lagrange.v, Model_Poly.v and Model_Points.v. *)
From Coq Require Import List Reals ZArith NArith Arith.
From Coquelicot Require Import Complex.
Import ListNotations.
Require Import Verif.Base Verif.RBase Verif.Model_Common Verif.Model_Lagrange Verif.Model_Poly.
Local Close Scope N_scope.
Open Scope R_scope.
Open Scope res_scope.

(** what the templates use of NumType *)
Record num := {
  car :> Type;
  nadd : car -> car -> car;
  nsub : car -> car -> car;
  nmul : car -> car -> car;
  nopp : car -> car;
  ndiv : car -> car -> res car;
  ofR : R -> car;               (** conversion from double *)
  nabs : car -> R               (** common/common.h:27-29 common::abs *)
}.
Arguments nadd {n}. Arguments nsub {n}. Arguments nmul {n}. Arguments nopp {n}.
Arguments ndiv {n}. Arguments ofR {n}. Arguments nabs {n}.

(** NumType = Real; common/common.h:27 abs(Real) *)
Definition Rnum : num :=
  {| car := R; nadd := Rplus; nsub := Rminus; nmul := Rmult; nopp := Ropp; ndiv := rdiv;
     ofR := (fun x => x); nabs := Rabs |}.
(** NumType = Complex; common/common.h:28-29 abs(Complex): the absolute value of the real part.
    Operators of std::complex. *)
Definition cdiv (a b : C) : res C := if Ceq_dec b (RtoC 0) then Err DivZero else Ok (a / b)%C.
Definition Cnum : num :=
  {| car := C; nadd := Cplus; nsub := Cminus; nmul := Cmult; nopp := Copp; ndiv := cdiv;
     ofR := RtoC; nabs := (fun c => Rabs (Re c)) |}.

Declare Scope num_scope.
Delimit Scope num_scope with num.
Infix "+" := nadd : num_scope.
Infix "-" := nsub : num_scope.
Infix "*" := nmul : num_scope.
Notation "- x" := (nopp x) : num_scope.

Section Templates.
Variable K : num.
Local Open Scope num_scope.

(** common/common.h:35-37 almost_equal *)
Definition t_almost_equal (a b : K) : bool :=
  if Rlt_dec (nabs (a - b)) (2 * num_eps)%R then true else false.

(** elements/lagrange_polynomials.cpp:22-34 find_coincident_vertex *)
Definition t_find (Nv : nat) (z : nat -> K) (x : K) : N :=
  fold_up Nv (fun j k =>
    w64 (k + (N.of_nat j + 1) * (if t_almost_equal (z j) x then 1 else 0))%N) (two64 - 1)%N.

(** elements/lagrange_polynomials.cpp:57-67 compute_barycentric_weights *)
Definition t_weights (Nv : nat) (z : nat -> K) (w : nat -> K) : res (nat -> K) :=
  loop Nv (fun j w =>
    do wj <- loop Nv (fun k acc =>
               if Nat.eqb j k then Ok acc
               else do q <- ndiv (ofR 1) (z j - z k); Ok (acc * q)) (ofR 1);
    Ok (fset w j wj)) w.

(** elements/lagrange_polynomials.cpp:82-91 eval *)
Definition t_eval (Nv i : nat) (ic : N) (Z w : nat -> K) (X : K) : res K :=
  if (ic <? N.of_nat Nv)%N then Ok (if (N.of_nat i =? ic)%N then ofR 1 else ofR 0)
  else
    let L := fold_up Nv (fun j L => L * (X - Z j)) (ofR 1) in
    ndiv (L * w i) (X - Z i).

(** elements/lagrange_polynomials.cpp:155-167, 203-214: the sum and the nodal polynomial *)
Definition t_interp_sum (Nv : nat) (Z w : nat -> K) (X : K) (c : nat -> res K) : res (K * K) :=
  loop Nv (fun j '(p, L) =>
    do cj <- c j;
    do q <- ndiv (w j * cj) (X - Z j);
    Ok (p + q, L * (X - Z j))) (ofR 0, ofR 1).

(** elements/lagrange_polynomials.cpp:146-171 eval_interp *)
Definition t_eval_interp (Nv : nat) (ic : N) (Z w : nat -> K) (X : K) (c : nat -> res K) : res K :=
  if (ic <? N.of_nat Nv)%N then c (N.to_nat ic)
  else do (p, L) <- t_interp_sum Nv Z w X c; Ok (p * L).

(** elements/lagrange_polynomials.cpp:219-235 *)
Definition t_der_step_coincident (Nv i : nat) (Z w : nat -> K) (k : nat)
    (st : K * K * K * (nat -> res K)) : res (K * K * K * (nat -> res K)) :=
  let '(dkp, _, M, c) := st in
  do (dnp, c') <- loop Nv (fun j '(dnp, c) =>
      let cj := do sx <- ndiv (ofR 1) (Z i - Z j); do old <- c j; Ok (sx * (dkp - old)) in
      let c' := fset c j cj in
      if Nat.eqb j i then Ok (dnp, c')
      else do v <- cj; Ok (dnp + w j * v, c')) (ofR 0, c);
  let M' := M * ofR (INR k) in
  do s <- ndiv (- M') (w i);
  let dnp' := dnp * s in
  Ok (dnp', dnp', M', c').

(** elements/lagrange_polynomials.cpp:237-254 *)
Definition t_der_step_free (Nv : nat) (Z w : nat -> K) (X L : K) (k : nat)
    (st : K * K * K * (nat -> res K)) : res (K * K * K * (nat -> res K)) :=
  let '(dkp, _, M, c) := st in
  do (dnp, c') <- loop Nv (fun j '(dnp, c) =>
      do sx <- ndiv (ofR 1) (X - Z j);
      do old <- c j;
      let v := sx * (dkp - old) in
      do q <- ndiv (w j * v) (X - Z j);
      Ok (dnp + q, fset c j (Ok v))) (ofR 0, c);
  let M' := M * ofR (INR k) in
  let dnp' := dnp * (L * M') in
  Ok (dnp', dnp', M', c').

(** elements/lagrange_polynomials.cpp:193-260 eval_der_interp *)
Definition t_eval_der_interp (Nv n : nat) (ic : N) (Z w : nat -> K) (X : K) (c : nat -> res K)
  : res (K * (nat -> res K)) :=
  if (ic <? N.of_nat Nv)%N then
    let i := N.to_nat ic in
    do p <- c i;
    do (_, dnp, _, c') <- loop_from 1 n (t_der_step_coincident Nv i Z w) (p, ofR 0, ofR 1, c);
    Ok (dnp, c')
  else
    do (p0, L) <- t_interp_sum Nv Z w X c;
    do (_, dnp, _, c') <- loop_from 1 n (t_der_step_free Nv Z w X L) (p0 * L, ofR 0, ofR 1, c);
    Ok (dnp, c').

(** elements/lagrange_polynomials.cpp:111-124 eval_der *)
Definition t_eval_der (Nv n i : nat) (ic : N) (Z w : nat -> K) (X : K) (c : nat -> res K)
  : res (K * (nat -> res K)) :=
  let c1 := fold_up Nv (fun j c => fset c j (Ok (if Nat.eqb j i then ofR 1 else ofR 0))) c in
  t_eval_der_interp Nv n ic Z w X c1.

(** elements/lagrange_element.{h,cpp}: class LagrangeElement<NumType> *)
Record t_element := { te_N : nat; te_Z : nat -> K; te_w : nat -> K }.

(** elements/lagrange_element.cpp:5-20 constructor *)
Definition t_new_element (order : nat) (Z w0 : nat -> K) : res t_element :=
  let N := (order + 1)%nat in
  do w <- t_weights N Z w0;
  Ok {| te_N := N; te_Z := Z; te_w := w |}.

(** base_10_to_mixed_radix(3, rad, I, ijk): integer arithmetic, the same for every NumType *)
Definition t_ijk (n0 : nat) (I : N) : res (nat * nat * nat) :=
  let n := N.of_nat n0 in
  do ijk <- base_10_to_mixed_radix [n; n; n] I;
  do i <- get ijk 0; do j <- get ijk 1; do k <- get ijk 2;
  Ok (N.to_nat i, N.to_nat j, N.to_nat k).

(** elements/lagrange_element.cpp:37-53 eval_basis *)
Definition t_eval_basis (e : t_element) (I : N) (x y z : K) : res K :=
  do (i, j, k) <- t_ijk (te_N e) I;
  let ix := t_find (te_N e) (te_Z e) x in
  let iy := t_find (te_N e) (te_Z e) y in
  let iz := t_find (te_N e) (te_Z e) z in
  do li <- t_eval (te_N e) i ix (te_Z e) (te_w e) x;
  do lj <- t_eval (te_N e) j iy (te_Z e) (te_w e) y;
  do lk <- t_eval (te_N e) k iz (te_Z e) (te_w e) z;
  Ok (li * lj * lk).

(** elements/lagrange_element.cpp:68-94 eval_grad_basis *)
Definition t_eval_grad_basis (e : t_element) (I : N) (x y z : K) (C : nat -> res K)
  : res ((K * K * K) * (nat -> res K)) :=
  do (i, j, k) <- t_ijk (te_N e) I;
  let N := te_N e in let Z := te_Z e in let w := te_w e in
  let ix := t_find N Z x in
  let iy := t_find N Z y in
  let iz := t_find N Z z in
  do li <- t_eval N i ix Z w x;
  do lj <- t_eval N j iy Z w y;
  do lk <- t_eval N k iz Z w z;
  do (dli, C1) <- t_eval_der N 1 i ix Z w x C;
  do (dlj, C2) <- t_eval_der N 1 j iy Z w y C1;
  do (dlk, C3) <- t_eval_der N 1 k iz Z w z C2;
  Ok ((dli * lj * lk, li * dlj * lk, li * lj * dlk), C3).

(** elements/lagrange_element.cpp:120-139 eval_approx; the coefficients may be of either kind *)
Definition t_eval_approx (e : t_element) (c : nat -> K) (x y z : K) (C : nat -> res K)
  : res (K * (nat -> res K)) :=
  let N := te_N e in let Z := te_Z e in let w := te_w e in
  let ix := t_find N Z x in
  let iy := t_find N Z y in
  let iz := t_find N Z z in
  do C1 <- loop N (fun k C =>
      do C' <- loop N (fun j C =>
          do v <- t_eval_interp N ix Z w x (fun i => Ok (c (j * N + k * N * N + i)%nat));
          Ok (fset C j (Ok v))) C;
      do v <- t_eval_interp N iy Z w y C';
      Ok (fset C' (N + k)%nat (Ok v))) C;
  do r <- t_eval_interp N iz Z w z (shift N C1);
  Ok (r, C1).

(** std::copy(C+from, C+from+n, C), as [copy_front] of Model_Lagrange.v *)
Definition t_copy_front (n from : nat) (C : nat -> res K) : nat -> res K :=
  fun i => if Nat.ltb i n then C (from + i)%nat else C i.

(** elements/lagrange_element.cpp:178-182, 188-192, 198-202: derivative if [d], value otherwise *)
Definition t_collapse (d : bool) (Nv : nat) (ic : N) (Z w : nat -> K) (X : K) (C : nat -> res K)
  : res (K * (nat -> res K)) :=
  if d then t_eval_der_interp Nv 1 ic Z w X C
  else do v <- t_eval_interp Nv ic Z w X C; Ok (v, C).

(** elements/lagrange_element.cpp:164-203 eval_grad_approx: component [l] *)
Definition t_grad_comp (e : t_element) (l : nat) (c : nat -> K) (x y z : K)
  (C : nat -> res K) : res (K * (nat -> res K)) :=
  let N := te_N e in let Z := te_Z e in let w := te_w e in
  let ix := t_find N Z x in
  let iy := t_find N Z y in
  let iz := t_find N Z z in
  do C1 <- loop N (fun k C =>
      do C' <- loop N (fun j C =>
          let C0 := (fun i => if Nat.ltb i N then Ok (c (j * N + k * N * N + i)%nat) else C i) in
          do (v, C0') <- t_collapse (Nat.eqb l 0) N ix Z w x C0;
          Ok (fset C0' (N + j)%nat (Ok v))) C;
      do (v, C'') <- t_collapse (Nat.eqb l 1) N iy Z w y (t_copy_front N N C');
      Ok (fset C'' (2 * N + k)%nat (Ok v))) C;
  t_collapse (Nat.eqb l 2) N iz Z w z (t_copy_front N (2 * N) C1).

(** elements/lagrange_element.cpp:173 loop over l *)
Definition t_eval_grad_approx (e : t_element) (c : nat -> K) (x y z : K) (C : nat -> res K)
  : res ((K * K * K) * (nat -> res K)) :=
  do (g0, C0) <- t_grad_comp e 0 c x y z C;
  do (g1, C1) <- t_grad_comp e 1 c x y z C0;
  do (g2, C2) <- t_grad_comp e 2 c x y z C1;
  Ok ((g0, g1, g2), C2).

(** J[9], row by row *)
Definition t_mk9 (r0 r1 r2 : K * K * K) : nat -> K :=
  let '(a, b, c) := r0 in let '(d, e, f) := r1 in let '(g, h, i) := r2 in
  fun n => match n with
           | 0 => a | 1 => b | 2 => c | 3 => d | 4 => e | 5 => f | 6 => g | 7 => h | _ => i
           end%nat.

(** elements/lagrange_element.cpp:219-230 eval_jac *)
Definition t_eval_jac (e : t_element) (px py pz : nat -> K) (x y z : K) (C : nat -> res K)
  : res ((nat -> K) * (nat -> res K)) :=
  do (gx, C0) <- t_eval_grad_approx e px x y z C;
  do (gy, C1) <- t_eval_grad_approx e py x y z C0;
  do (gz, C2) <- t_eval_grad_approx e pz x y z C1;
  Ok (t_mk9 gx gy gz, C2).

(** elements/lagrange_element.cpp:249-251 *)
Definition t_det_expr (J : nat -> K) : K :=
  (J 0%nat * (J 4%nat * J 8%nat - J 5%nat * J 7%nat) - J 1%nat * (J 3%nat * J 8%nat - J 5%nat * J 6%nat)
   + J 2%nat * (J 3%nat * J 7%nat - J 4%nat * J 6%nat)).

(** elements/lagrange_element.cpp:243-252 eval_det_jac *)
Definition t_eval_det_jac (e : t_element) (px py pz : nat -> K) (x y z : K) (C : nat -> res K)
  : res (K * (nat -> res K)) :=
  do (J, C1) <- t_eval_jac e px py pz x y z C;
  Ok (t_det_expr J, C1).

(** elements/lagrange_element.cpp:275-288 *)
Definition t_inv_expr (d : K) (J : nat -> K) : nat -> K :=
  t_mk9
   (d * (J 4%nat * J 8%nat - J 5%nat * J 7%nat), - d * (J 1%nat * J 8%nat - J 2%nat * J 7%nat),
    d * (J 1%nat * J 5%nat - J 2%nat * J 4%nat))
   (- d * (J 3%nat * J 8%nat - J 5%nat * J 6%nat), d * (J 0%nat * J 8%nat - J 2%nat * J 6%nat),
    - d * (J 0%nat * J 5%nat - J 2%nat * J 3%nat))
   (d * (J 3%nat * J 7%nat - J 4%nat * J 6%nat), - d * (J 0%nat * J 7%nat - J 1%nat * J 6%nat),
    d * (J 0%nat * J 4%nat - J 1%nat * J 3%nat)).

(** elements/lagrange_element.cpp:268-289 eval_inv_jac *)
Definition t_eval_inv_jac (e : t_element) (px py pz : nat -> K) (x y z : K) (C : nat -> res K)
  : res ((nat -> K) * (nat -> res K)) :=
  do (J, C1) <- t_eval_jac e px py pz x y z C;
  do (det, C2) <- t_eval_det_jac e px py pz x y z C1;
  do d <- ndiv (ofR 1) det;
  Ok (t_inv_expr d J, C2).

(** elements/jacobi_polynomials.cpp:4-12 jacobi::eval at n = m - 1; the recurrence parameters a, b, c
    are Real for every NumType (jacobi_polynomials.h:7-26) *)
Fixpoint t_jac_rec (m : nat) (al be : R) (X : K) : res K :=
  match m with
  | O => Ok (ofR 0)
  | S m1 =>
      match m1 with
      | O => Ok (ofR 1)
      | S m2 =>
          do a <- jac_a al be m1; do b <- jac_b al be m1;
          do p1 <- t_jac_rec m1 al be X;
          do c <- jac_c al be m1;
          do p2 <- t_jac_rec m2 al be X;
          Ok ((ofR a * X + ofR b) * p1 - ofR c * p2)
      end
  end.
Definition t_jacobi_eval (n : nat) (al be : R) (X : K) : res K := t_jac_rec (S n) al be X.

(** elements/jacobi_polynomials.cpp:14-21 jacobi::eval_der; tgamma is [G] *)
Definition t_jacobi_eval_der (G : R -> R) (n k : nat) (al be : R) (X : K) : res K :=
  if (Nat.eqb n 0 || Nat.ltb n k)%bool then Ok (ofR 0)
  else
    let theta := (INR n + (al + al) + 1)%R in
    do p <- t_jacobi_eval (n - k) (al + INR k)%R (be + INR k)%R X;
    ndiv (ofR ((1 / 2) ^ k * G (theta + INR k)%R)%R * p) (ofR (G theta)).

(** elements/legendre_polynomials.cpp:14-20 legendre::eval at n = m - 1 *)
Fixpoint t_leg_rec (m : nat) (X : K) : res K :=
  match m with
  | O => Ok (ofR 0)
  | S m1 =>
      match m1 with
      | O => Ok (ofR 1)
      | S m2 =>
          do i <- rdiv 1 (INR m1);
          do p1 <- t_leg_rec m1 X;
          do p2 <- t_leg_rec m2 X;
          Ok (ofR i * (ofR (2 * INR m1 - 1)%R * X * p1 - ofR (INR m1 - 1)%R * p2))
      end
  end.
Definition t_legendre_eval (n : nat) (X : K) : res K := t_leg_rec (S n) X.

(** elements/legendre_polynomials.cpp:32-35 eval_der *)
Definition t_legendre_eval_der (G : R -> R) (n k : nat) (X : K) : res K := t_jacobi_eval_der G n k 0 0 X.

(** elements/legendre_polynomials.cpp:48-56 eval_approx *)
Definition t_legendre_eval_approx (N : nat) (c : nat -> res K) (X : K) : res K :=
  loop N (fun j s => do cj <- c j; do p <- t_legendre_eval j X; Ok (s + cj * p)) (ofR 0).

(** elements/legendre_polynomials.cpp:69-78 eval_der_approx *)
Definition t_legendre_eval_der_approx (G : R -> R) (N k : nat) (c : nat -> res K) (X : K) : res K :=
  loop N (fun j s => do cj <- c j; do p <- t_legendre_eval_der G j k X; Ok (s + cj * p)) (ofR 0).

(** elements/legendre_element.cpp:30-42 eval_basis *)
Definition t_lg_eval_basis (order : nat) (I : N) (x y z : K) : res K :=
  do (i, j, k) <- t_ijk (lg_size order) I;
  do pi <- t_legendre_eval i x; do pj <- t_legendre_eval j y; do pk <- t_legendre_eval k z;
  Ok (pi * pj * pk).

(** elements/legendre_element.cpp:56-77 eval_grad_basis *)
Definition t_lg_eval_grad_basis (G : R -> R) (order : nat) (I : N) (x y z : K) : res (K * K * K) :=
  do (i, j, k) <- t_ijk (lg_size order) I;
  do pi <- t_legendre_eval i x; do pj <- t_legendre_eval j y; do pk <- t_legendre_eval k z;
  do di <- t_legendre_eval_der G i 1 x; do dj <- t_legendre_eval_der G j 1 y;
  do dk <- t_legendre_eval_der G k 1 z;
  Ok (di * pj * pk, pi * dj * pk, pi * pj * dk).

(** elements/legendre_element.cpp:101-115 eval_approx *)
Definition t_lg_eval_approx (order : nat) (c : nat -> res K) (x y z : K) (C : nat -> res K)
  : res (K * (nat -> res K)) :=
  let N := lg_size order in
  do C1 <- loop N (fun k C =>
      do C' <- loop N (fun j C =>
          do v <- t_legendre_eval_approx N (shift (j * N + k * N * N) c) x;
          Ok (fset C j (Ok v))) C;
      do v <- t_legendre_eval_approx N C' y;
      Ok (fset C' (N + k)%nat (Ok v))) C;
  do r <- t_legendre_eval_approx N (shift N C1) z;
  Ok (r, C1).

(** elements/legendre_element.cpp:139-143, 147-151, 155-159 *)
Definition t_lg_collapse (G : R -> R) (d : bool) (N : nat) (c : nat -> res K) (X : K) : res K :=
  if d then t_legendre_eval_der_approx G N 1 c X else t_legendre_eval_approx N c X.

(** elements/legendre_element.cpp:132-161 eval_grad_approx: pass [l] of the outer loop *)
Definition t_lg_grad_comp (G : R -> R) (order l : nat) (c : nat -> res K) (x y z : K) (C : nat -> res K)
  : res (K * (nat -> res K)) :=
  let N := lg_size order in
  do C1 <- loop N (fun k C =>
      do C' <- loop N (fun j C =>
          do v <- t_lg_collapse G (Nat.eqb l 0) N (shift (j * N + k * N * N) c) x;
          Ok (fset C j (Ok v))) C;
      do v <- t_lg_collapse G (Nat.eqb l 1) N C' y;
      Ok (fset C' (N + k)%nat (Ok v))) C;
  do r <- t_lg_collapse G (Nat.eqb l 2) N (shift N C1) z;
  Ok (r, C1).
Definition t_lg_eval_grad_approx (G : R -> R) (order : nat) (c : nat -> res K) (x y z : K) (C : nat -> res K)
  : res ((K * K * K) * (nat -> res K)) :=
  do (g0, C0) <- t_lg_grad_comp G order 0 c x y z C;
  do (g1, C1) <- t_lg_grad_comp G order 1 c x y z C0;
  do (g2, C2) <- t_lg_grad_comp G order 2 c x y z C1;
  Ok ((g0, g1, g2), C2).

(** elements/point_distributions.cpp:16-20 equispaced_points *)
Definition t_equispaced_points (N : nat) (Zl Zr : K) (Z : nat -> K) : res (nat -> K) :=
  loop N (fun i Z => do q <- rdiv (INR i) (INR (N - 1)); Ok (fset Z i (Zl + ofR q * (Zr - Zl)))) Z.

(** elements/point_distributions.cpp:37-49 chebyshev_points; the argument f*double(j) of sin is real, and
    std::sin of a complex number with imaginary part zero is the real sine *)
Definition t_chebyshev_points (N : nat) (Zl Zr : K) (Z0 : nat -> K) : res (nat -> K) :=
  if Nat.eqb N 0 then Ok Z0 else
  do f <- rdiv (1 / 2 * PI)%R (INR N);
  let Z1 := fold_up N (fun i Z =>
              let j := ((-1 * Z.of_nat N + 1) + 2 * Z.of_nat i)%Z in
              fset Z i (ofR (sin (f * IZR j)%R))) Z0 in
  Ok (fold_up N (fun i Z =>
        fset Z i (ofR (1 / 2)%R * (ofR 1 - Z i) * Zl + ofR (1 / 2)%R * (ofR 1 + Z i) * Zr)) Z1).
End Templates.
