(** Model of geometry/geometry.cpp and of the small-matrix kernels of elements/elements.cpp in rounded arithmetic:
    Model_Jac.v and Model_Vol.v with [rnd] applied to the result of every floating-point operation and to the
    literals, in the order written in the code (+ and - to the left, * before them).  A change of sign is exact.
    No multiply-add is contracted; overflow and underflow are not modelled. *)
From Coq Require Import Reals List Arith.
Import ListNotations.
Require Import Verif.Base Verif.RBase Verif.Spec_Mat Verif.Model_Geom Verif.Model_Jac Verif.Model_Vol Verif.Model_FloatLagrange.
Open Scope R_scope.

Section FloatGeom.
Context (rnd : R -> R).
Local Notation "a ⊕ b" := (rnd (a + b)) (at level 50, left associativity).
Local Notation "a ⊖ b" := (rnd (a - b)) (at level 50, left associativity).
Local Notation "a ⊗ b" := (rnd (a * b)) (at level 40, left associativity).

(** elements/elements.cpp:1271-1273 and geometry/geometry.cpp:38-41, 83-86, 126-129 (same expression) *)
Definition det_cofactorf (m : mat) : R :=
  m 0%nat 0%nat ⊗ (m 1%nat 1%nat ⊗ m 2%nat 2%nat ⊖ m 2%nat 1%nat ⊗ m 1%nat 2%nat) ⊖
  m 0%nat 1%nat ⊗ (m 1%nat 0%nat ⊗ m 2%nat 2%nat ⊖ m 1%nat 2%nat ⊗ m 2%nat 0%nat) ⊕
  m 0%nat 2%nat ⊗ (m 1%nat 0%nat ⊗ m 2%nat 1%nat ⊖ m 1%nat 1%nat ⊗ m 2%nat 0%nat).
(** elements/elements.cpp:1266-1289 mat_inverse *)
Definition mat_inversef (m : mat) : res mat :=
  do invdet <- rdivf rnd 1 (det_cofactorf m);
  Ok (rows [
    [ (m 1%nat 1%nat ⊗ m 2%nat 2%nat ⊖ m 2%nat 1%nat ⊗ m 1%nat 2%nat) ⊗ invdet;
      (m 0%nat 2%nat ⊗ m 2%nat 1%nat ⊖ m 0%nat 1%nat ⊗ m 2%nat 2%nat) ⊗ invdet;
      (m 0%nat 1%nat ⊗ m 1%nat 2%nat ⊖ m 0%nat 2%nat ⊗ m 1%nat 1%nat) ⊗ invdet ];
    [ (m 1%nat 2%nat ⊗ m 2%nat 0%nat ⊖ m 1%nat 0%nat ⊗ m 2%nat 2%nat) ⊗ invdet;
      (m 0%nat 0%nat ⊗ m 2%nat 2%nat ⊖ m 0%nat 2%nat ⊗ m 2%nat 0%nat) ⊗ invdet;
      (m 1%nat 0%nat ⊗ m 0%nat 2%nat ⊖ m 0%nat 0%nat ⊗ m 1%nat 2%nat) ⊗ invdet ];
    [ (m 1%nat 0%nat ⊗ m 2%nat 1%nat ⊖ m 2%nat 0%nat ⊗ m 1%nat 1%nat) ⊗ invdet;
      (m 2%nat 0%nat ⊗ m 0%nat 1%nat ⊖ m 0%nat 0%nat ⊗ m 2%nat 1%nat) ⊗ invdet;
      (m 0%nat 0%nat ⊗ m 1%nat 1%nat ⊖ m 1%nat 0%nat ⊗ m 0%nat 1%nat) ⊗ invdet ] ]).
(** elements/elements.cpp:1931-1949 (2d), 2008-2026 (4d): zero the matrix, then accumulate *)
Definition jac_fillf (dim nv : nat) (X P : mat) (J0 : mat) : mat :=
  let Jz := fold_up dim (fun j J => fold_up dim (fun k J => set2 J j k 0) J) J0 in
  fold_up dim (fun j J => fold_up dim (fun k J => fold_up nv (fun v J => set2 J j k (J j k ⊕ X v k ⊗ P v j)) J) J) Jz.
(** elements/elements.cpp:1921-1954 jacobian_2d; result is (J_matrix, det_J) *)
Definition jacobian_2df (nv : nat) (X P J0 : mat) : mat * R :=
  let J := jac_fillf 2 nv X P J0 in
  (J, J 0%nat 0%nat ⊗ J 1%nat 1%nat ⊖ J 0%nat 1%nat ⊗ J 1%nat 0%nat).
(** elements/elements.cpp:1996-2047 jacobian_4d (the dimension is an argument) *)
Definition jacobian_4df (nv dim : nat) (X P J0 : mat) : mat * R :=
  let J := jac_fillf dim nv X P J0 in
  (J, J 0%nat 3%nat ⊗ J 1%nat 2%nat ⊗ J 2%nat 1%nat ⊗ J 3%nat 0%nat
 ⊖ J 0%nat 2%nat ⊗ J 1%nat 3%nat ⊗ J 2%nat 1%nat ⊗ J 3%nat 0%nat
 ⊖ J 0%nat 3%nat ⊗ J 1%nat 1%nat ⊗ J 2%nat 2%nat ⊗ J 3%nat 0%nat
   ⊕ J 0%nat 1%nat ⊗ J 1%nat 3%nat ⊗ J 2%nat 2%nat ⊗ J 3%nat 0%nat
   ⊕ J 0%nat 2%nat ⊗ J 1%nat 1%nat ⊗ J 2%nat 3%nat ⊗ J 3%nat 0%nat
 ⊖ J 0%nat 1%nat ⊗ J 1%nat 2%nat ⊗ J 2%nat 3%nat ⊗ J 3%nat 0%nat
 ⊖ J 0%nat 3%nat ⊗ J 1%nat 2%nat ⊗ J 2%nat 0%nat ⊗ J 3%nat 1%nat
   ⊕ J 0%nat 2%nat ⊗ J 1%nat 3%nat ⊗ J 2%nat 0%nat ⊗ J 3%nat 1%nat
   ⊕ J 0%nat 3%nat ⊗ J 1%nat 0%nat ⊗ J 2%nat 2%nat ⊗ J 3%nat 1%nat
 ⊖ J 0%nat 0%nat ⊗ J 1%nat 3%nat ⊗ J 2%nat 2%nat ⊗ J 3%nat 1%nat
 ⊖ J 0%nat 2%nat ⊗ J 1%nat 0%nat ⊗ J 2%nat 3%nat ⊗ J 3%nat 1%nat
   ⊕ J 0%nat 0%nat ⊗ J 1%nat 2%nat ⊗ J 2%nat 3%nat ⊗ J 3%nat 1%nat
   ⊕ J 0%nat 3%nat ⊗ J 1%nat 1%nat ⊗ J 2%nat 0%nat ⊗ J 3%nat 2%nat
 ⊖ J 0%nat 1%nat ⊗ J 1%nat 3%nat ⊗ J 2%nat 0%nat ⊗ J 3%nat 2%nat
 ⊖ J 0%nat 3%nat ⊗ J 1%nat 0%nat ⊗ J 2%nat 1%nat ⊗ J 3%nat 2%nat
   ⊕ J 0%nat 0%nat ⊗ J 1%nat 3%nat ⊗ J 2%nat 1%nat ⊗ J 3%nat 2%nat
   ⊕ J 0%nat 1%nat ⊗ J 1%nat 0%nat ⊗ J 2%nat 3%nat ⊗ J 3%nat 2%nat
 ⊖ J 0%nat 0%nat ⊗ J 1%nat 1%nat ⊗ J 2%nat 3%nat ⊗ J 3%nat 2%nat
 ⊖ J 0%nat 2%nat ⊗ J 1%nat 1%nat ⊗ J 2%nat 0%nat ⊗ J 3%nat 3%nat
   ⊕ J 0%nat 1%nat ⊗ J 1%nat 2%nat ⊗ J 2%nat 0%nat ⊗ J 3%nat 3%nat
   ⊕ J 0%nat 2%nat ⊗ J 1%nat 0%nat ⊗ J 2%nat 1%nat ⊗ J 3%nat 3%nat
 ⊖ J 0%nat 0%nat ⊗ J 1%nat 2%nat ⊗ J 2%nat 1%nat ⊗ J 3%nat 3%nat
 ⊖ J 0%nat 1%nat ⊗ J 1%nat 0%nat ⊗ J 2%nat 2%nat ⊗ J 3%nat 3%nat
   ⊕ J 0%nat 0%nat ⊗ J 1%nat 1%nat ⊗ J 2%nat 2%nat ⊗ J 3%nat 3%nat).
(** elements/elements.cpp:2050-2063 jacobian_inverse_2d *)
Definition jacobian_inverse_2df (J : mat) : res mat :=
  let det := J 0%nat 0%nat ⊗ J 1%nat 1%nat ⊖ J 0%nat 1%nat ⊗ J 1%nat 0%nat in
  do a <- rdivf rnd (J 1%nat 1%nat) det;
  do b <- rdivf rnd (- J 0%nat 1%nat) det;
  do c <- rdivf rnd (- J 1%nat 0%nat) det;
  do d <- rdivf rnd (J 0%nat 0%nat) det;
  Ok (rows [[a; b]; [c; d]]).
(** geometry/geometry.cpp:19-35, 64-80, 107-123: Jacobian of a point of an element *)
Definition point_jacobianf (nb : nat) (vmap : nat -> nat) (N : nat -> nat -> nat) (X : nat -> nat -> R)
  (grad : nat -> nat -> nat -> R) (e l : nat) (J0 : mat) : mat :=
  fold_up 3 (fun i J => fold_up 3 (fun j J =>
    fold_up nb (fun v J => set2 J i j (J i j ⊕ grad l v j ⊗ X (N e (vmap v)) i)) (set2 J i j 0)) J) J0.
(** geometry/geometry.cpp:11-51 get_gauss_pt_jacobian, 54-96 get_gauss_patch_pt_jacobian, 99-139 get_gauss_cell_pt_jacobian *)
Definition get_pt_jacobianf (ne np nb : nat) (gid : nat -> nat -> nat) (vmap : nat -> nat) (N : nat -> nat -> nat)
  (X : nat -> nat -> R) (grad : nat -> nat -> nat -> R) (T0 : jac_tab) : jac_tab :=
  fold_up ne (fun e T => fold_up np (fun l T =>
    let g := gid e l in
    let J := point_jacobianf nb vmap N X grad e l (t_jac T g) in
    {| t_jac := fset (t_jac T) g J; t_det := fset (t_det T) g (det_cofactorf J); t_inv := fset (t_inv T) g (mat_inversef J) |}) T) T0.

(** geometry/geometry.cpp:142-190 get_vol_jacobi *)
Definition vol_jacobi_cornerf (detj : nat -> R) (gic : nat -> nat -> nat) (wt : nat -> nat -> R) (NC : nat -> nat -> nat)
  (X : nat -> nat -> R) (cell lid : nat) (l : nat) (st : R * R * R * R) : R * R * R * R :=
  let '(v, x, y, z) := st in
  (v ⊕ detj (gic cell l) ⊗ wt lid l, x ⊕ X (NC cell l) 0%nat, y ⊕ X (NC cell l) 1%nat, z ⊕ X (NC cell l) 2%nat).
Definition get_vol_jacobif (ne nc : nat) (cie : nat -> nat -> nat) (detj : nat -> R) (gic : nat -> nat -> nat)
  (wt : nat -> nat -> R) (NC : nat -> nat -> nat) (X : nat -> nat -> R) (T0 : vol_tab) : vol_tab :=
  fold_up ne (fun e T =>
    let '(T1, ev) := fold_up nc (fun lid st => let '(T, ev) := st in
      let c := cie e lid in
      let '(v, x, y, z) := fold_up 8 (vol_jacobi_cornerf detj gic wt NC X c lid) (0, 0, 0, 0) in
      ({| v_cell := fset (v_cell T) c v;
          v_cent := fset (v_cent T) c (fset (fset (fset (v_cent T c) 0%nat (x ⊗ rnd 0.125)) 1%nat (y ⊗ rnd 0.125)) 2%nat (z ⊗ rnd 0.125));
          v_elem := v_elem T |}, ev ⊕ v)) (T, 0) in
    {| v_cell := v_cell T1; v_cent := v_cent T1; v_elem := fset (v_elem T1) e ev |}) T0.

(** geometry/geometry.cpp:240-253: fill one scratch array and accumulate the sum *)
Definition gatherf (X : nat -> nat -> R) (N : nat -> nat -> nat) (cell dim : nat) (x0 : nat -> R) : (nat -> R) * R :=
  fold_up 8 (fun l '(x, s) => let x' := fset x (c_con l) (X (N cell l) dim) in (x', s ⊕ x' l)) (x0, 0).

(** geometry/geometry.cpp:209, 262-270 *)
Definition vol_formulaf (x y z : nat -> R) : R :=
  let twelth := rnd (1 / 12) in
  ( x 1%nat ⊗ (y 3%nat ⊗ (-z 0%nat ⊕ z 2%nat) ⊕ y 4%nat ⊗ ( z 0%nat ⊖ z 5%nat) ⊕ y 0%nat ⊗ (z 2%nat ⊕ z 3%nat ⊖ z 4%nat ⊖ z 5%nat) ⊕ y 6%nat ⊗ (-z 2%nat ⊕ z 5%nat) ⊕ y 5%nat ⊗ (z 0%nat ⊖ z 2%nat ⊕ z 4%nat ⊖ z 6%nat) ⊕ y 2%nat ⊗ (-z 0%nat ⊖ z 3%nat ⊕ z 5%nat ⊕ z 6%nat)) ⊕
     x 7%nat ⊗ (y 0%nat ⊗ (-z 3%nat ⊕ z 4%nat) ⊕ y 6%nat ⊗ ( z 2%nat ⊕ z 3%nat ⊖ z 4%nat ⊖ z 5%nat) ⊕ y 2%nat ⊗ (z 3%nat ⊖ z 6%nat) ⊕ y 3%nat ⊗ (z 0%nat ⊖ z 2%nat ⊕ z 4%nat ⊖ z 6%nat) ⊕ y 5%nat ⊗ (-z 4%nat ⊕ z 6%nat) ⊕ y 4%nat ⊗ (-z 0%nat ⊖ z 3%nat ⊕ z 5%nat ⊕ z 6%nat)) ⊕
     x 3%nat ⊗ (y 1%nat ⊗ ( z 0%nat ⊖ z 2%nat) ⊕ y 7%nat ⊗ (-z 0%nat ⊕ z 2%nat ⊖ z 4%nat ⊕ z 6%nat) ⊕ y 6%nat ⊗ (z 2%nat ⊖ z 7%nat) ⊕ y 2%nat ⊗ (z 0%nat ⊕ z 1%nat ⊖ z 6%nat ⊖ z 7%nat) ⊕ y 4%nat ⊗ (-z 0%nat ⊕ z 7%nat) ⊕ y 0%nat ⊗ (-z 1%nat ⊖ z 2%nat ⊕ z 4%nat ⊕ z 7%nat)) ⊕
     x 5%nat ⊗ (y 0%nat ⊗ ( z 1%nat ⊖ z 4%nat) ⊕ y 7%nat ⊗ ( z 4%nat ⊖ z 6%nat) ⊕ y 2%nat ⊗ (-z 1%nat ⊕ z 6%nat) ⊕ y 1%nat ⊗ (-z 0%nat ⊕ z 2%nat ⊖ z 4%nat ⊕ z 6%nat) ⊕ y 4%nat ⊗ (z 0%nat ⊕ z 1%nat ⊖ z 6%nat ⊖ z 7%nat) ⊕ y 6%nat ⊗ (-z 1%nat ⊖ z 2%nat ⊕ z 4%nat ⊕ z 7%nat)) ⊕
     x 6%nat ⊗ (y 1%nat ⊗ ( z 2%nat ⊖ z 5%nat) ⊕ y 7%nat ⊗ (-z 2%nat ⊖ z 3%nat  ⊕ z 4%nat ⊕ z 5%nat) ⊕ y 5%nat ⊗ (z 1%nat ⊕ z 2%nat ⊖ z 4%nat ⊖ z 7%nat) ⊕ y 4%nat ⊗ (z 5%nat ⊖ z 7%nat) ⊕ y 3%nat ⊗ (-z 2%nat ⊕ z 7%nat) ⊕ y 2%nat ⊗ (-z 1%nat ⊕ z 3%nat ⊖ z 5%nat ⊕ z 7%nat)) ⊕
     x 0%nat ⊗ (y 2%nat ⊗ ( z 1%nat ⊖ z 3%nat) ⊕ y 7%nat ⊗ ( z 3%nat ⊖ z 4%nat) ⊕ y 5%nat ⊗ (-z 1%nat ⊕ z 4%nat) ⊕ y 1%nat ⊗ (-z 2%nat ⊖ z 3%nat ⊕ z 4%nat ⊕ z 5%nat) ⊕ y 3%nat ⊗ (z 1%nat ⊕ z 2%nat ⊖ z 4%nat ⊖ z 7%nat) ⊕ y 4%nat ⊗ (-z 1%nat ⊕ z 3%nat ⊖ z 5%nat ⊕ z 7%nat)) ⊕
     x 2%nat ⊗ (y 0%nat ⊗ (-z 1%nat ⊕ z 3%nat) ⊕ y 5%nat ⊗ ( z 1%nat ⊖ z 6%nat) ⊕ y 1%nat ⊗ (z 0%nat ⊕ z 3%nat ⊖ z 5%nat ⊖ z 6%nat) ⊕ y 7%nat ⊗ (-z 3%nat ⊕ z 6%nat) ⊕ y 6%nat ⊗ (z 1%nat ⊖ z 3%nat ⊕ z 5%nat ⊖ z 7%nat) ⊕ y 3%nat ⊗ (-z 0%nat ⊖ z 1%nat ⊕ z 6%nat ⊕ z 7%nat)) ⊕
     x 4%nat ⊗ (y 1%nat ⊗ (-z 0%nat ⊕ z 5%nat) ⊕ y 7%nat ⊗ ( z 0%nat ⊕ z 3%nat ⊖ z 5%nat ⊖ z 6%nat) ⊕ y 3%nat ⊗ (z 0%nat ⊖ z 7%nat) ⊕ y 0%nat ⊗ (z 1%nat ⊖ z 3%nat ⊕ z 5%nat ⊖ z 7%nat) ⊕ y 6%nat ⊗ (-z 5%nat ⊕ z 7%nat) ⊕ y 5%nat ⊗ (-z 0%nat ⊖ z 1%nat ⊕ z 6%nat ⊕ z 7%nat))) ⊗ twelth.
(** geometry/geometry.cpp:233-272, one cell: (volume, stored centre) *)
Definition vol_hex_cellf X N cell (x0 y0 z0 : nat -> R) : R * (nat -> R) :=
  let '(x, sx) := gatherf X N cell 0 x0 in
  let '(y, sy) := gatherf X N cell 1 y0 in
  let '(z, sz) := gatherf X N cell 2 z0 in
  (vol_formulaf x y z, fun d => match d with 0%nat => sx ⊗ rnd (1 / 8) | 1%nat => sy ⊗ rnd (1 / 8) | _ => sz ⊗ rnd (1 / 8) end).
End FloatGeom.
