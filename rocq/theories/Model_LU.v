(** Model of slam/slam.cpp (LU_decompos, LU_backsub, LU_invert, LU_determ).
    Simplifications: double is R (exact); an n x n ViewCArray is a total function on indices (all indices
    used are below n, n unbounded); TINY is the exact rational 1e-30. *)
From Coq Require Import Reals Arith.
Require Import Verif.RBase Verif.Spec_Mat.
Open Scope R_scope.

(** source_mat(i,j) = v *)
Definition mset (a : mat) (i j : nat) (v : R) : mat :=
  fun r c => if (Nat.eqb r i && Nat.eqb c j)%bool then v else a r c.

(** slam/slam.h:20 *)
Definition TINY : R := / 10 ^ 30.

(** slam/slam.cpp:41-42: largest absolute value of row i *)
Definition row_big (n : nat) (a : mat) (i : nat) : R :=
  fold_up n (fun j big => if Rlt_dec big (Rabs (a i j)) then Rabs (a i j) else big) 0.
(** slam/slam.cpp:39-47: scaling vector; None is the early "return 0" *)
Definition lu_scale (n : nat) (a : mat) (vv0 : nat -> R) : option (nat -> R) :=
  fold_up n (fun i o => match o with
    | None => None
    | Some vv => if Req_EM_T (row_big n a i) 0 then None else Some (fset vv i (row_big n a i))
    end) (Some vv0).

(** the inner product loops "for k < m: sum -= a(i,k)*a(k,j)" *)
Definition dot_sub (a : mat) (i j m : nat) : R := fold_up m (fun k s => s - a i k * a k j) (a i j).

(** slam/slam.cpp:53-60 part a) *)
Definition part_a (j : nat) (a : mat) : mat := fold_up j (fun i a => mset a i j (dot_sub a i j i)) a.
(** slam/slam.cpp:63-78 part b) and pivot search; i = j + d.  State: (matrix, big, imax) *)
Definition part_b (n j : nat) (vv : nat -> R) (a : mat) : mat * R * nat :=
  fold_up (n - j) (fun d st => let '(a, big, imax) := st in
    let i := (j + d)%nat in
    let sum := dot_sub a i j j in
    let a' := mset a i j sum in
    let temp := vv i * Rabs sum in
    if Rle_dec big temp then (a', temp, i) else (a', big, imax)) (a, 0, j).
(** slam/slam.cpp:82-86 *)
Definition swap_rows (n : nat) (p q : nat) (a : mat) : mat :=
  fold_up n (fun k a => let temp := a p k in mset (mset a p k (a q k)) q k temp) a.
(** slam/slam.cpp:97-104: zero pivot becomes TINY, then the column below is multiplied by 1/pivot *)
Definition scale_col (n j : nat) (a : mat) : mat :=
  let a1 := if Req_EM_T (a j j) 0 then mset a j j TINY else a in
  if Nat.ltb j (n - 1) then
    let temp := 1 / a1 j j in
    fold_up (n - (j + 1)) (fun d a => mset a (j + 1 + d) j (a (j + 1 + d)%nat j * temp)) a1
  else a1.

Record lu := { lu_a : mat; lu_indx : nat -> nat; lu_parity : R; lu_vv : nat -> R }.

(** slam/slam.cpp:50-105, one pass of the main loop *)
Definition crout_col (n j : nat) (s : lu) : lu :=
  let a1 := part_a j (lu_a s) in
  let '(a2, _, imax) := part_b n j (lu_vv s) a1 in
  let swapped := negb (Nat.eqb imax j) in
  let a3 := if swapped then swap_rows n imax j a2 else a2 in
  let par := if swapped then - lu_parity s else lu_parity s in
  let vv := if swapped then fset (lu_vv s) imax (lu_vv s j) else lu_vv s in
  {| lu_a := scale_col n j a3; lu_indx := fset (lu_indx s) j imax; lu_parity := par; lu_vv := vv |}.

(** slam/slam.cpp:22-108 LU_decompos; [None] is return value 0 (indx and matrix untouched) *)
Definition LU_decompos (n : nat) (a : mat) (indx0 : nat -> nat) (vv0 : nat -> R) : option lu :=
  match lu_scale n a vv0 with
  | None => None
  | Some vv => Some (fold_up n (crout_col n) {| lu_a := a; lu_indx := indx0; lu_parity := 1; lu_vv := vv |})
  end.

(** slam/slam.cpp:131-144: forward substitution.  State: (b, ii) with ii = None for -1 *)
Definition forward_step (a : mat) (indx : nat -> nat) (i : nat) (st : (nat -> R) * option nat) : (nat -> R) * option nat :=
  let '(b, ii) := st in
  let ip := indx i in
  let sum := b ip in
  let b1 := fset b ip (b i) in
  match ii with
  | Some s => (fset b1 i (fold_up (i - s) (fun d t => t - a i (s + d)%nat * b1 (s + d)%nat) sum), Some s)
  | None => (fset b1 i sum, if Req_EM_T sum 0 then None else Some i)
  end.
(** slam/slam.cpp:147-153: backward substitution, i = n-1-d *)
Definition backward_step (n : nat) (a : mat) (d : nat) (b : nat -> R) : nat -> R :=
  let i := (n - 1 - d)%nat in
  fset b i (fold_up (n - (i + 1)) (fun e t => t - a i (i + 1 + e)%nat * b (i + 1 + e)%nat) (b i) / a i i).
(** slam/slam.cpp:115-156 LU_backsub *)
Definition LU_backsub (n : nat) (a : mat) (indx : nat -> nat) (b : nat -> R) : nat -> R :=
  let '(b1, _) := fold_up n (forward_step a indx) (b, None) in
  fold_up n (backward_step n a) b1.

(** slam/slam.cpp:162-178 LU_invert; col0, inv0 are the previous contents *)
Definition LU_invert (n : nat) (a : mat) (indx : nat -> nat) (inv0 : mat) (col0 : nat -> R) : mat :=
  fst (fold_up n (fun j st => let '(inv, col) := st in
    let c0 := fold_up n (fun i c => fset c i 0) col in
    let c1 := fset c0 j 1 in
    let c2 := LU_backsub n a indx c1 in
    (fold_up n (fun i inv => mset inv i j (c2 i)) inv, c2)) (inv0, col0)).

(** slam/slam.cpp:184-196 LU_determ *)
Definition LU_determ (n : nat) (a : mat) (parity : R) : R := fold_up n (fun j r => r * a j j) parity.
