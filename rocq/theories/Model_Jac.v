(** Model of the small-matrix kernels of elements/elements.cpp and of the Jacobian loops of
    geometry/geometry.cpp.  Simplifications: double is R (exact); a division by zero is [Err DivZero];
    matrices are total functions, only their leading entries are written. *)
From Coq Require Import Reals List Arith.
Import ListNotations.
Require Import Verif.Base Verif.RBase Verif.Spec_Mat.
Open Scope R_scope.

(** a matrix given by rows; entries outside are those of [old] *)
Definition rows (l : list (list R)) : mat := fun i j => nth j (nth i l nil) 0.

(** elements/elements.cpp:1271-1273 and geometry/geometry.cpp:38-41, 83-86, 126-129 (same expression) *)
Definition det_cofactor (m : mat) : R :=
  m 0%nat 0%nat * (m 1%nat 1%nat * m 2%nat 2%nat - m 2%nat 1%nat * m 1%nat 2%nat) -
  m 0%nat 1%nat * (m 1%nat 0%nat * m 2%nat 2%nat - m 1%nat 2%nat * m 2%nat 0%nat) +
  m 0%nat 2%nat * (m 1%nat 0%nat * m 2%nat 1%nat - m 1%nat 1%nat * m 2%nat 0%nat).
(** elements/elements.cpp:1266-1289 mat_inverse *)
Definition mat_inverse (m : mat) : res mat :=
  do invdet <- rdiv 1 (det_cofactor m);
  Ok (rows [
    [ (m 1%nat 1%nat * m 2%nat 2%nat - m 2%nat 1%nat * m 1%nat 2%nat) * invdet;
      (m 0%nat 2%nat * m 2%nat 1%nat - m 0%nat 1%nat * m 2%nat 2%nat) * invdet;
      (m 0%nat 1%nat * m 1%nat 2%nat - m 0%nat 2%nat * m 1%nat 1%nat) * invdet ];
    [ (m 1%nat 2%nat * m 2%nat 0%nat - m 1%nat 0%nat * m 2%nat 2%nat) * invdet;
      (m 0%nat 0%nat * m 2%nat 2%nat - m 0%nat 2%nat * m 2%nat 0%nat) * invdet;
      (m 1%nat 0%nat * m 0%nat 2%nat - m 0%nat 0%nat * m 1%nat 2%nat) * invdet ];
    [ (m 1%nat 0%nat * m 2%nat 1%nat - m 2%nat 0%nat * m 1%nat 1%nat) * invdet;
      (m 2%nat 0%nat * m 0%nat 1%nat - m 0%nat 0%nat * m 2%nat 1%nat) * invdet;
      (m 0%nat 0%nat * m 1%nat 1%nat - m 1%nat 0%nat * m 0%nat 1%nat) * invdet ] ]).

Definition set2 (a : mat) (i j : nat) (v : R) : mat :=
  fun r c => if (Nat.eqb r i && Nat.eqb c j)%bool then v else a r c.

(** elements/elements.cpp:1931-1949 (2d), 1967-1986 (3d), 2008-2026 (4d): zero the matrix, then accumulate *)
Definition jac_fill (dim nv : nat) (X P : mat) (J0 : mat) : mat :=
  let Jz := fold_up dim (fun j J => fold_up dim (fun k J => set2 J j k 0) J) J0 in
  fold_up dim (fun j J => fold_up dim (fun k J => fold_up nv (fun v J => set2 J j k (J j k + X v k * P v j)) J) J) Jz.

(** elements/elements.cpp:1921-1954 jacobian_2d; result is (J_matrix, det_J) *)
Definition jacobian_2d (nv : nat) (X P J0 : mat) : mat * R :=
  let J := jac_fill 2 nv X P J0 in
  (J, J 0%nat 0%nat * J 1%nat 1%nat - J 0%nat 1%nat * J 1%nat 0%nat).
(** elements/elements.cpp:1957-1997 jacobian_3d; parenthesised as written *)
Definition jacobian_3d (nv : nat) (X P J0 : mat) : mat * R :=
  let J := jac_fill 3 nv X P J0 in
  (J, J 0%nat 0%nat * (J 1%nat 1%nat * J 2%nat 2%nat) - (J 2%nat 1%nat * J 1%nat 2%nat)
    - J 0%nat 1%nat * (J 1%nat 0%nat * J 2%nat 2%nat) - (J 2%nat 0%nat * J 1%nat 2%nat)
    + J 0%nat 2%nat * (J 1%nat 0%nat * J 2%nat 1%nat) - (J 2%nat 0%nat * J 1%nat 1%nat)).
(** elements/elements.cpp:1996-2047 jacobian_4d (the dimension is an argument) *)
Definition jacobian_4d (nv dim : nat) (X P J0 : mat) : mat * R :=
  let J := jac_fill dim nv X P J0 in
  (J, J 0%nat 3%nat * J 1%nat 2%nat * J 2%nat 1%nat * J 3%nat 0%nat
   - J 0%nat 2%nat * J 1%nat 3%nat * J 2%nat 1%nat * J 3%nat 0%nat
   - J 0%nat 3%nat * J 1%nat 1%nat * J 2%nat 2%nat * J 3%nat 0%nat
   + J 0%nat 1%nat * J 1%nat 3%nat * J 2%nat 2%nat * J 3%nat 0%nat
   + J 0%nat 2%nat * J 1%nat 1%nat * J 2%nat 3%nat * J 3%nat 0%nat
   - J 0%nat 1%nat * J 1%nat 2%nat * J 2%nat 3%nat * J 3%nat 0%nat
   - J 0%nat 3%nat * J 1%nat 2%nat * J 2%nat 0%nat * J 3%nat 1%nat
   + J 0%nat 2%nat * J 1%nat 3%nat * J 2%nat 0%nat * J 3%nat 1%nat
   + J 0%nat 3%nat * J 1%nat 0%nat * J 2%nat 2%nat * J 3%nat 1%nat
   - J 0%nat 0%nat * J 1%nat 3%nat * J 2%nat 2%nat * J 3%nat 1%nat
   - J 0%nat 2%nat * J 1%nat 0%nat * J 2%nat 3%nat * J 3%nat 1%nat
   + J 0%nat 0%nat * J 1%nat 2%nat * J 2%nat 3%nat * J 3%nat 1%nat
   + J 0%nat 3%nat * J 1%nat 1%nat * J 2%nat 0%nat * J 3%nat 2%nat
   - J 0%nat 1%nat * J 1%nat 3%nat * J 2%nat 0%nat * J 3%nat 2%nat
   - J 0%nat 3%nat * J 1%nat 0%nat * J 2%nat 1%nat * J 3%nat 2%nat
   + J 0%nat 0%nat * J 1%nat 3%nat * J 2%nat 1%nat * J 3%nat 2%nat
   + J 0%nat 1%nat * J 1%nat 0%nat * J 2%nat 3%nat * J 3%nat 2%nat
   - J 0%nat 0%nat * J 1%nat 1%nat * J 2%nat 3%nat * J 3%nat 2%nat
   - J 0%nat 2%nat * J 1%nat 1%nat * J 2%nat 0%nat * J 3%nat 3%nat
   + J 0%nat 1%nat * J 1%nat 2%nat * J 2%nat 0%nat * J 3%nat 3%nat
   + J 0%nat 2%nat * J 1%nat 0%nat * J 2%nat 1%nat * J 3%nat 3%nat
   - J 0%nat 0%nat * J 1%nat 2%nat * J 2%nat 1%nat * J 3%nat 3%nat
   - J 0%nat 1%nat * J 1%nat 0%nat * J 2%nat 2%nat * J 3%nat 3%nat
   + J 0%nat 0%nat * J 1%nat 1%nat * J 2%nat 2%nat * J 3%nat 3%nat).

(** elements/elements.cpp:2050-2063 jacobian_inverse_2d *)
Definition jacobian_inverse_2d (J : mat) : res mat :=
  let det := J 0%nat 0%nat * J 1%nat 1%nat - J 0%nat 1%nat * J 1%nat 0%nat in
  do a <- rdiv (J 1%nat 1%nat) det;
  do b <- rdiv (- J 0%nat 1%nat) det;
  do c <- rdiv (- J 1%nat 0%nat) det;
  do d <- rdiv (J 0%nat 0%nat) det;
  Ok (rows [[a; b]; [c; d]]).
(** elements/elements.cpp:2066-2111 jacobian_inverse_3d *)
Definition jacobian_inverse_3d (J : mat) : res mat :=
  let A_11 := J 1%nat 1%nat*J 2%nat 2%nat - J 1%nat 2%nat*J 2%nat 1%nat in
  let A_22 := J 2%nat 2%nat*J 0%nat 0%nat - J 2%nat 0%nat*J 0%nat 2%nat in
  let A_33 := J 0%nat 0%nat*J 1%nat 1%nat - J 0%nat 1%nat*J 1%nat 0%nat in
  let A_12 := J 1%nat 2%nat*J 2%nat 0%nat - J 1%nat 0%nat*J 2%nat 2%nat in
  let A_23 := J 2%nat 0%nat*J 0%nat 1%nat - J 2%nat 1%nat*J 0%nat 0%nat in
  let A_31 := J 0%nat 1%nat*J 1%nat 2%nat - J 0%nat 2%nat*J 1%nat 1%nat in
  let A_21 := J 2%nat 1%nat*J 0%nat 2%nat - J 0%nat 1%nat*J 2%nat 2%nat in
  let A_32 := J 0%nat 2%nat*J 1%nat 0%nat - J 1%nat 2%nat*J 0%nat 0%nat in
  let A_13 := J 1%nat 0%nat*J 1%nat 1%nat - J 2%nat 0%nat*J 1%nat 1%nat in
  let det := J 0%nat 0%nat*A_11 + J 0%nat 1%nat*A_21 + J 0%nat 2%nat*A_31 in
  do i00 <- rdiv A_11 det;
  do i01 <- rdiv A_12 det;
  do i02 <- rdiv A_13 det;
  do i10 <- rdiv A_21 det;
  do i11 <- rdiv A_22 det;
  do i12 <- rdiv A_23 det;
  do i20 <- rdiv A_31 det;
  do i21 <- rdiv A_32 det;
  do i22 <- rdiv A_33 det;
  Ok (rows [[i00; i01; i02]; [i10; i11; i12]; [i20; i21; i22]]).

(** elements/elements.cpp:2114-2273 jacobian_inverse_4d; m[4*i+j] = jacobian(i,j), J_inverse(i,j) = inv_mat[4*i+j] *)
Definition inv4 (m : nat -> R) (k : nat) : R :=
  match k with
  | 0%nat => m 5%nat * m 10%nat * m 15%nat - m 5%nat * m 11%nat * m 14%nat - m 9%nat * m 6%nat * m 15%nat + m 9%nat * m 7%nat * m 14%nat + m 13%nat * m 6%nat * m 11%nat - m 13%nat * m 7%nat * m 10%nat
  | 1%nat => -m 1%nat * m 10%nat * m 15%nat + m 1%nat * m 11%nat * m 14%nat + m 9%nat * m 2%nat * m 15%nat - m 9%nat * m 3%nat * m 14%nat - m 13%nat * m 2%nat * m 11%nat + m 13%nat * m 3%nat * m 10%nat
  | 2%nat => m 1%nat * m 6%nat * m 15%nat - m 1%nat * m 7%nat * m 14%nat - m 5%nat * m 2%nat * m 15%nat + m 5%nat * m 3%nat * m 14%nat + m 13%nat * m 2%nat * m 7%nat - m 13%nat * m 3%nat * m 6%nat
  | 3%nat => -m 1%nat * m 6%nat * m 11%nat + m 1%nat * m 7%nat * m 10%nat + m 5%nat * m 2%nat * m 11%nat - m 5%nat * m 3%nat * m 10%nat - m 9%nat * m 2%nat * m 7%nat + m 9%nat * m 3%nat * m 6%nat
  | 4%nat => -m 4%nat * m 10%nat * m 15%nat + m 4%nat * m 11%nat * m 14%nat + m 8%nat * m 6%nat * m 15%nat - m 8%nat * m 7%nat * m 14%nat - m 12%nat * m 6%nat * m 11%nat + m 12%nat * m 7%nat * m 10%nat
  | 5%nat => m 0%nat * m 10%nat * m 15%nat - m 0%nat * m 11%nat * m 14%nat - m 8%nat * m 2%nat * m 15%nat + m 8%nat * m 3%nat * m 14%nat + m 12%nat * m 2%nat * m 11%nat - m 12%nat * m 3%nat * m 10%nat
  | 6%nat => -m 0%nat * m 6%nat * m 15%nat + m 0%nat * m 7%nat * m 14%nat + m 4%nat * m 2%nat * m 15%nat - m 4%nat * m 3%nat * m 14%nat - m 12%nat * m 2%nat * m 7%nat + m 12%nat * m 3%nat * m 6%nat
  | 7%nat => m 0%nat * m 6%nat * m 11%nat - m 0%nat * m 7%nat * m 10%nat - m 4%nat * m 2%nat * m 11%nat + m 4%nat * m 3%nat * m 10%nat + m 8%nat * m 2%nat * m 7%nat - m 8%nat * m 3%nat * m 6%nat
  | 8%nat => m 4%nat * m 9%nat * m 15%nat - m 4%nat * m 11%nat * m 13%nat - m 8%nat * m 5%nat * m 15%nat + m 8%nat * m 7%nat * m 13%nat + m 12%nat * m 5%nat * m 11%nat - m 12%nat * m 7%nat * m 9%nat
  | 9%nat => -m 0%nat * m 9%nat * m 15%nat + m 0%nat * m 11%nat * m 13%nat + m 8%nat * m 1%nat * m 15%nat - m 8%nat * m 3%nat * m 13%nat - m 12%nat * m 1%nat * m 11%nat + m 12%nat * m 3%nat * m 9%nat
  | 10%nat => m 0%nat * m 5%nat * m 15%nat - m 0%nat * m 7%nat * m 13%nat - m 4%nat * m 1%nat * m 15%nat + m 4%nat * m 3%nat * m 13%nat + m 12%nat * m 1%nat * m 7%nat - m 12%nat * m 3%nat * m 5%nat
  | 11%nat => -m 0%nat * m 5%nat * m 11%nat + m 0%nat * m 7%nat * m 9%nat + m 4%nat * m 1%nat * m 11%nat - m 4%nat * m 3%nat * m 9%nat - m 8%nat * m 1%nat * m 7%nat + m 8%nat * m 3%nat * m 5%nat
  | 12%nat => -m 4%nat * m 9%nat * m 14%nat + m 4%nat * m 10%nat * m 13%nat + m 8%nat * m 5%nat * m 14%nat - m 8%nat * m 6%nat * m 13%nat - m 12%nat * m 5%nat * m 10%nat + m 12%nat * m 6%nat * m 9%nat
  | 13%nat => m 0%nat * m 9%nat * m 14%nat - m 0%nat * m 10%nat * m 13%nat - m 8%nat * m 1%nat * m 14%nat + m 8%nat * m 2%nat * m 13%nat + m 12%nat * m 1%nat * m 10%nat - m 12%nat * m 2%nat * m 9%nat
  | 14%nat => -m 0%nat * m 5%nat * m 14%nat + m 0%nat * m 6%nat * m 13%nat + m 4%nat * m 1%nat * m 14%nat - m 4%nat * m 2%nat * m 13%nat - m 12%nat * m 1%nat * m 6%nat + m 12%nat * m 2%nat * m 5%nat
  | 15%nat => m 0%nat * m 5%nat * m 10%nat - m 0%nat * m 6%nat * m 9%nat - m 4%nat * m 1%nat * m 10%nat + m 4%nat * m 2%nat * m 9%nat + m 8%nat * m 1%nat * m 6%nat - m 8%nat * m 2%nat * m 5%nat
  | _ => 0
  end.
Definition jacobian_inverse_4d (J : mat) (det_J : R) : res mat :=
  let m := fun k => J (k / 4)%nat (k mod 4)%nat in
  do det_inv <- rdiv 1 det_J;
  Ok (fun i j => inv4 m (4 * i + j) * det_inv).

(** geometry/geometry.cpp:19-35, 64-80, 107-123: Jacobian of point [g] (local index [l]) of element [e];
    [grad l v j] the basis gradients, [vmap] = vert_node_map, [N] = nodes_in_elem, [X] = node_coords *)
Definition point_jacobian (nb : nat) (vmap : nat -> nat) (N : nat -> nat -> nat) (X : nat -> nat -> R)
  (grad : nat -> nat -> nat -> R) (e l : nat) (J0 : mat) : mat :=
  fold_up 3 (fun i J => fold_up 3 (fun j J =>
    fold_up nb (fun v J => set2 J i j (J i j + grad l v j * X (N e (vmap v)) i)) (set2 J i j 0)) J) J0.
(** the three per-point tables *)
Record jac_tab := { t_jac : nat -> mat; t_det : nat -> R; t_inv : nat -> res mat }.
(** geometry/geometry.cpp:11-51 get_gauss_pt_jacobian ([gid e l] = gauss_in_elem, [np] = num_gauss_in_elem),
    54-96 get_gauss_patch_pt_jacobian ([gid] = gauss_patch_pt_in_elem, [np] = num_patches_in_elem),
    99-139 get_gauss_cell_pt_jacobian ([gid] = cells_in_elem, [np] = num_cells_in_elem): the same loop nest *)
Definition get_pt_jacobian (ne np nb : nat) (gid : nat -> nat -> nat) (vmap : nat -> nat) (N : nat -> nat -> nat)
  (X : nat -> nat -> R) (grad : nat -> nat -> nat -> R) (T0 : jac_tab) : jac_tab :=
  fold_up ne (fun e T => fold_up np (fun l T =>
    let g := gid e l in
    let J := point_jacobian nb vmap N X grad e l (t_jac T g) in
    {| t_jac := fset (t_jac T) g J; t_det := fset (t_det T) g (det_cofactor J); t_inv := fset (t_inv T) g (mat_inverse J) |}) T) T0.
(** swage/swage.cpp:799-803 gauss_in_elem, 806-810 gauss_patch_pt_in_elem; [n] points per element *)
Definition pt_in_elem (n e l : nat) : nat := (e * n + l)%nat.

(** geometry/geometry.cpp:142-190 get_vol_jacobi: per-cell volume and centre, per-element volume.
    [wt c l] = ref_corner_g_weights(ref_corners_in_cell(c,l)), [gic] = gauss_in_cell, [cie] = cells_in_elem *)
Record vol_tab := { v_cell : nat -> R; v_cent : nat -> nat -> R; v_elem : nat -> R }.
Definition vol_jacobi_corner (detj : nat -> R) (gic : nat -> nat -> nat) (wt : nat -> nat -> R) (NC : nat -> nat -> nat)
  (X : nat -> nat -> R) (cell lid : nat) (l : nat) (st : R * R * R * R) : R * R * R * R :=
  let '(v, x, y, z) := st in
  (v + detj (gic cell l) * wt lid l, x + X (NC cell l) 0%nat, y + X (NC cell l) 1%nat, z + X (NC cell l) 2%nat).
Definition get_vol_jacobi (ne nc : nat) (cie : nat -> nat -> nat) (detj : nat -> R) (gic : nat -> nat -> nat)
  (wt : nat -> nat -> R) (NC : nat -> nat -> nat) (X : nat -> nat -> R) (T0 : vol_tab) : vol_tab :=
  fold_up ne (fun e T =>
    let '(T1, ev) := fold_up nc (fun lid st => let '(T, ev) := st in
      let c := cie e lid in
      let '(v, x, y, z) := fold_up 8 (vol_jacobi_corner detj gic wt NC X c lid) (0, 0, 0, 0) in
      ({| v_cell := fset (v_cell T) c v;
          v_cent := fset (v_cent T) c (fset (fset (fset (v_cent T c) 0%nat (x * 0.125)) 1%nat (y * 0.125)) 2%nat (z * 0.125));
          v_elem := v_elem T |}, ev + v)) (T, 0) in
    {| v_cell := v_cell T1; v_cent := v_cent T1; v_elem := fset (v_elem T1) e ev |}) T0.
