(** slam/slam.cpp in rounded arithmetic: the definitions of Model_LU.v with the result of every +, -, *, / rounded
    by [rnd] (fabs, comparisons and copies are exact).
    Simplifications: no overflow and no underflow (the exponent is unbounded); no fused multiply-add, i.e. every
    operation of the source rounds; an n x n ViewCArray is a total function on indices. *)
From Coq Require Import Reals Arith.
Require Import Verif.RBase Verif.Spec_Mat Verif.Model_LU.
Open Scope R_scope.

Section Rounded.
Variable rnd : R -> R.

(** slam/slam.h:19 #define TINY 1.e-30: the nearest number *)
Definition TINYf : R := rnd TINY.
(** the inner loops "sum -= a(i,k)*a(k,j)" *)
Definition dot_subf (a : mat) (i j m : nat) : R := fold_up m (fun k s => rnd (s - rnd (a i k * a k j))) (a i j).
(** slam/slam.cpp:53-60 *)
Definition part_af (j : nat) (a : mat) : mat := fold_up j (fun i a => mset a i j (dot_subf a i j i)) a.
(** slam/slam.cpp:62-79; the figure of merit vv[i]*fabs(sum) is rounded as well *)
Definition part_bf (n j : nat) (vv : nat -> R) (a : mat) : mat * R * nat :=
  fold_up (n - j) (fun d st => let '(a, big, imax) := st in
    let i := (j + d)%nat in
    let sum := dot_subf a i j j in
    let a' := mset a i j sum in
    let temp := rnd (vv i * Rabs sum) in
    if Rle_dec big temp then (a', temp, i) else (a', big, imax)) (a, 0, j).
(** slam/slam.cpp:97-105 *)
Definition scale_colf (n j : nat) (a : mat) : mat :=
  let a1 := if Req_EM_T (a j j) 0 then mset a j j TINYf else a in
  if Nat.ltb j (n - 1) then
    let temp := rnd (1 / a1 j j) in
    fold_up (n - (j + 1)) (fun d a => mset a (j + 1 + d) j (rnd (a (j + 1 + d)%nat j * temp))) a1
  else a1.
(** slam/slam.cpp:50-106 *)
Definition crout_colf (n j : nat) (s : lu) : lu :=
  let a1 := part_af j (lu_a s) in
  let '(a2, _, imax) := part_bf n j (lu_vv s) a1 in
  let swapped := negb (Nat.eqb imax j) in
  let a3 := if swapped then swap_rows n imax j a2 else a2 in
  let par := if swapped then - lu_parity s else lu_parity s in
  let vv := if swapped then fset (lu_vv s) imax (lu_vv s j) else lu_vv s in
  {| lu_a := scale_colf n j a3; lu_indx := fset (lu_indx s) j imax; lu_parity := par; lu_vv := vv |}.
(** slam/slam.cpp:22-109 LU_decompos; the row maxima (lu_scale) need no rounding *)
Definition LU_decomposf (n : nat) (a : mat) (indx0 : nat -> nat) (vv0 : nat -> R) : option lu :=
  match lu_scale n a vv0 with
  | None => None
  | Some vv => Some (fold_up n (crout_colf n) {| lu_a := a; lu_indx := indx0; lu_parity := 1; lu_vv := vv |})
  end.

(** slam/slam.cpp:131-145 *)
Definition forward_stepf (a : mat) (indx : nat -> nat) (i : nat) (st : (nat -> R) * option nat) : (nat -> R) * option nat :=
  let '(b, ii) := st in
  let ip := indx i in
  let sum := b ip in
  let b1 := fset b ip (b i) in
  match ii with
  | Some s => (fset b1 i (fold_up (i - s) (fun d t => rnd (t - rnd (a i (s + d)%nat * b1 (s + d)%nat))) sum), Some s)
  | None => (fset b1 i sum, if Req_EM_T sum 0 then None else Some i)
  end.
(** slam/slam.cpp:148-154 *)
Definition backward_stepf (n : nat) (a : mat) (d : nat) (b : nat -> R) : nat -> R :=
  let i := (n - 1 - d)%nat in
  fset b i (rnd (fold_up (n - (i + 1)) (fun e t => rnd (t - rnd (a i (i + 1 + e)%nat * b (i + 1 + e)%nat))) (b i) / a i i)).
(** slam/slam.cpp:116-157 LU_backsub *)
Definition LU_backsubf (n : nat) (a : mat) (indx : nat -> nat) (b : nat -> R) : nat -> R :=
  let '(b1, _) := fold_up n (forward_stepf a indx) (b, None) in
  fold_up n (backward_stepf n a) b1.
(** slam/slam.cpp:163-179 LU_invert *)
Definition LU_invertf (n : nat) (a : mat) (indx : nat -> nat) (inv0 : mat) (col0 : nat -> R) : mat :=
  fst (fold_up n (fun j st => let '(inv, col) := st in
    let c0 := fold_up n (fun i c => fset c i 0) col in
    let c1 := fset c0 j 1 in
    let c2 := LU_backsubf n a indx c1 in
    (fold_up n (fun i inv => mset inv i j (c2 i)) inv, c2)) (inv0, col0)).
(** slam/slam.cpp:185-197 LU_determ *)
Definition LU_determf (n : nat) (a : mat) (parity : R) : R := fold_up n (fun j r => rnd (r * a j j)) parity.
End Rounded.
