(** Model of the two geometry checks of examples/average/test/average.cpp (191-253 area conservation,
    256-289 volume), on the tables of Model_Ref and Model_Jac.  double is R; the printed numbers are the
    results; an element of the tables that was computed by a division by zero is the outcome DivZero. *)
From Coq Require Import List Arith ZArith Reals.
Import ListNotations.
Require Import Verif.Base Verif.RBase Verif.Spec_Mat Verif.Model_Ref Verif.Model_Jac.
Open Scope R_scope.

(** average.cpp:227-238, one component: the sum over dim_j; [g] = gauss_patch_gid, [w] = w_gauss_patch *)
Definition side_area_normal (T : jac_tab) (g s i : nat) (w : R) : res R :=
  loop 3 (fun j a =>
    do nj <- cell_side_unit_normals s j;
    do B <- t_inv T g;
    Ok (a + nj * B j i * t_det T g * w)) 0.

(** average.cpp:195-246, one element: surf_tally.  [ncell] = num_cells_in_elem, [np] = points per
    element (swage/swage.cpp:806-810).  side_area_normals is a local array that is only read back where
    it is written; it is not kept. *)
Definition surf_tally (P : patches) (ncell np : nat) (T : jac_tab) (e : nat) : res (nat -> R) :=
  loop ncell (fun c t => loop 6 (fun s t =>
    do pr <- ref_patches_in_cell P c s;
    if (pr <? 0)%Z then Err OOB else
    let r := Z.to_nat pr in
    do w <- ref_patch_g_weights P r;
    let g := pt_in_elem np e r in
    loop 3 (fun i t => do a <- side_area_normal T g s i w; Ok (fset t i (t i + a))) t) t) (fun _ => 0).

(** elements/elements.cpp:3155-3158 ref_cell_g_weights *)
Definition ref_cell_g_weights (wts : list (option R)) (c : nat) : res R := getu wts c.

(** average.cpp:259-286, one element: vol_elem; [cie] = cells_in_elem *)
Definition elem_volume (wts : list (option R)) (ncell : nat) (cie : nat -> nat -> nat) (T : jac_tab) (e : nat) : res R :=
  loop ncell (fun c v =>
    let g := cie e c in
    do w <- ref_cell_g_weights wts c;
    Ok (v + t_det T g * w)) 0.
