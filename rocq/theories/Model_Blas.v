(** Model of common/matar_blas_lapack_interface.cpp: the wrappers around BLAS and LAPACK.
    Simplifications: exact reals; int arithmetic does not overflow; a failed assert is the outcome Exited
    (the asserts vanish when NDEBUG is defined); the arrays handed to one call do not overlap; the memory
    leaks of [delete[] a, b, c] (only a is freed) are not represented.
    dgemv and dgemm are modelled as the loops of the reference BLAS (alpha = 1, beta = 0, no transposition);
    dgetrf, dgetrs and dstev are function arguments. *)
From Coq Require Import Reals ZArith List Arith Bool.
Import ListNotations.
Require Import Verif.Base.
Local Open Scope nat_scope.

(** MATAR's CArray<Real>: its dimensions and its row-major memory; None is memory never written *)
Record carr := { dims : list nat; cells : list (option R) }.

(** CArray::operator()(i,j), reading and writing *)
Definition get2 (A : carr) (i j : nat) : res R :=
  match dims A with
  | [m; n] => if (i <? m) && (j <? n) then getu (cells A) (i * n + j) else Err OOB
  | _ => Err OOB
  end.
Definition set2 (A : carr) (i j : nat) (v : R) : res carr :=
  match dims A with
  | [m; n] => if (i <? m) && (j <? n)
              then do c <- set (cells A) (i * n + j) (Some v); Ok {| dims := dims A; cells := c |}
              else Err OOB
  | _ => Err OOB
  end.

(** common/matar_blas_lapack_interface.cpp:10-33 *)
Definition transpose (A B : carr) : res carr :=
  match dims A, dims B with
  | [m_a; n_a], [m_b; n_b] =>
      if (m_a =? n_b) && (n_a =? m_b) then
        loop m_a (fun i B => loop n_a (fun j B => do v <- get2 A i j; set2 B j i v) B) B
      else Err Exited
  | _, _ => Err Exited
  end.

(** the packing loops of common/matar_blas_lapack_interface.cpp:66-69, 130-133, 135-138 and 209-212:
    a new array of m*n cells, a[i+n*j] = A(i,j) *)
Definition pack (A : carr) (m n : nat) : res (list (option R)) :=
  loop m (fun i a => loop n (fun j a => do v <- get2 A i j; set a (i + n * j) (Some v)) a) (repeat None (m * n)).

(** reference BLAS dgemv('N', m, n, 1, a, lda, x, 1, 0, y, 1) *)
Definition dgemv (m n : nat) (a : list (option R)) (lda : nat) (x y : list (option R)) : res (list (option R)) :=
  if lda <? Nat.max 1 m then Err Exited
  else if (m =? 0) || (n =? 0) then Ok y
  else
    do y <- loop m (fun i y => set y i (Some 0%R)) y;
    loop n (fun j y =>
      do t <- getu x j;
      loop m (fun i y => do v <- getu y i; do w <- getu a (i + lda * j); set y i (Some (v + t * w)%R)) y) y.

(** common/matar_blas_lapack_interface.cpp:43-97 *)
Definition matvec (A x y : carr) : res carr :=
  match dims A, dims x, dims y with
  | [m_a; n_a], [n_x], [m_y] =>
      if (m_y =? m_a) && (n_a =? n_x) then
        do a <- pack A m_a n_a;
        do c <- dgemv m_a n_a a m_a (cells x) (cells y);
        Ok {| dims := dims y; cells := c |}
      else Err Exited
  | _, _, _ => Err Exited
  end.

(** reference BLAS dgemm('N', 'N', m, n, k, 1, a, lda, b, ldb, 0, c, ldc) *)
Definition dgemm (m n k : nat) (a : list (option R)) (lda : nat) (b : list (option R)) (ldb : nat)
  (c : list (option R)) (ldc : nat) : res (list (option R)) :=
  if (lda <? Nat.max 1 m) || (ldb <? Nat.max 1 k) || (ldc <? Nat.max 1 m) then Err Exited
  else if (m =? 0) || (n =? 0) then Ok c
  else
    loop n (fun j c =>
      do c <- loop m (fun i c => set c (i + ldc * j) (Some 0%R)) c;
      loop k (fun l c =>
        do t <- getu b (l + ldb * j);
        loop m (fun i c =>
          do v <- getu c (i + ldc * j); do w <- getu a (i + lda * l); set c (i + ldc * j) (Some (v + t * w)%R)) c) c) c.

(** common/matar_blas_lapack_interface.cpp:108-181; the dimensions of C are not compared with those of A and B *)
Definition matmul (A B C : carr) : res carr :=
  match dims A, dims B, dims C with
  | [m_a; n_a], [m_b; n_b], [_; _] =>
      if n_a =? m_b then
        do a <- pack A m_a n_a;
        do b <- pack B m_b n_b;
        do c <- dgemm m_a n_b n_a a m_a b m_b (repeat None (m_a * n_b)) m_a;
        loop n_b (fun j C => loop m_a (fun i C => do v <- getu c (i + n_b * j); set2 C i j v) C) C
      else Err Exited
  | _, _, _ => Err Exited
  end.

(** dgetrf(&n, &n, a, &n, ipiv, &info): (a', ipiv, info);  dgetrs('N', &n, &n, a', &n, ipiv, b, &n, &info): (b', info) *)
Definition getrf_fun := nat -> list (option R) -> list (option R) * list nat * Z.
Definition getrs_fun := nat -> list (option R) -> list nat -> list (option R) -> list (option R) * Z.

(** common/matar_blas_lapack_interface.cpp:190-260; a non-zero info only prints a message.  The result
    carries the number of messages printed. *)
Definition invert (getrf : getrf_fun) (getrs : getrs_fun) (A B : carr) : res (carr * nat) :=
  match dims A, dims B with
  | [m_a; n_a], [m_b; n_b] =>
      if (m_a =? m_b) && (n_a =? n_b) then
        if m_a =? n_a then
          do a <- pack A m_a n_a;
          let '(a, ipiv, info) := getrf n_a a in
          let said1 := if (info =? 0)%Z then 0 else 1 in
          do b <- loop n_a (fun j b => loop n_a (fun i b =>
                    set b (i + n_a * j) (Some (if i =? j then 1%R else 0%R))) b) (repeat None (m_a * n_a));
          let '(b, info) := getrs n_a a ipiv b in
          let said2 := if (info =? 0)%Z then 0 else 1 in
          do B <- loop n_a (fun j B => loop m_a (fun i B => do v <- getu b (i + n_a * j); set2 B i j v) B) B;
          Ok (B, said1 + said2)
        else Err Exited
      else Err Exited
  | _, _ => Err Exited
  end.

(** dstev('V', &n, d, e, z, &n, work, &info): (d', e', z', info) *)
Definition dstev_fun := nat -> list (option R) -> list (option R) -> list (option R) ->
  list (option R) * list (option R) * list (option R) * Z.

(** common/matar_blas_lapack_interface.cpp:266-313; the result is (subdiag, eigvals, eigvecs, messages):
    dstev destroys the memory of subdiag although it is passed as a const reference *)
Definition eig_sym_tri (stev : dstev_fun) (diag subdiag eigvals eigvecs : carr) : res (carr * carr * carr * nat) :=
  match dims diag, dims subdiag, dims eigvals, dims eigvecs with
  | [n_diag], [n_subdiag], [n_eigvals], [m_eigvecs; n_eigvecs] =>
      if (n_diag =? n_subdiag + 1) && (n_eigvals =? n_diag) && (m_eigvecs =? n_eigvals) && (n_eigvecs =? m_eigvecs) then
        do d <- loop n_diag (fun i d => do v <- getu (cells diag) i; set d i (Some v)) (repeat None n_diag);
        let '(d, e, z, info) := stev n_diag d (cells subdiag) (cells eigvecs) in
        let said := if (info =? 0)%Z then 0 else 1 in
        do w <- loop n_diag (fun i w => do v <- getu d i; set w i (Some v)) (cells eigvals);
        Ok ({| dims := dims subdiag; cells := e |}, {| dims := dims eigvals; cells := w |}, {| dims := dims eigvecs; cells := z |}, said)
      else Err Exited
  | _, _, _, _ => Err Exited
  end.
