(** Model of common/common.cpp (index and derivative encodings).
    [size_t] is 64 bits: values are [N] and every arithmetic result is reduced mod 2^64. *)
From Coq Require Import List NArith ZArith.
Import ListNotations.
Require Import Verif.Base.
Open Scope N_scope.

Definition two64 : N := 2 ^ 64.
(** unsigned wrap-around of size_t *)
Definition w64 (x : N) : N := x mod two64.

(** common/common.cpp:17-23 base_10_to_mixed_radix.  The caller's array [y] is the returned list
    (Nb entries); [Nb] is the length of [b]. *)
Fixpoint base_10_to_mixed_radix (b : list N) (x : N) : res (list N) :=
  match b with
  | [] => Ok []
  | b0 :: bs =>
      if b0 =? 0 then Err DivZero
      else do ys <- base_10_to_mixed_radix bs (x / b0); Ok (x mod b0 :: ys)
  end.

(** common/common.cpp:39-49 mixed_radix_to_base_10: loop body with running [y], [z]. *)
Fixpoint mixed_radix_loop (b x : list N) (y z : N) : res N :=
  match b with
  | [] => Ok y
  | b0 :: bs =>
      match x with
      | [] => Err OOB
      | x0 :: xs => mixed_radix_loop bs xs (w64 (y + w64 (x0 * z))) (w64 (z * b0))
      end
  end.
Definition mixed_radix_to_base_10 (b x : list N) : res N := mixed_radix_loop b x 0 1.

(** common/common.cpp:74-75: each operand [(n > 0) << amount].  The left operand is a bool promoted
    to (32-bit) int, so an amount >= 32 is undefined behaviour; an amount of 31 lands in the sign
    bit (two's complement, as C++20 and all supported compilers define it).  The amount itself is
    size_t arithmetic and wraps: for n = 0 it is 2^64-3+off. *)
Definition shl_int (bit : bool) (amount : N) : res Z :=
  if 32 <=? amount then Err BadShift
  else if bit then
         if amount =? 31 then Ok (- 2 ^ 31)%Z else Ok (2 ^ Z.of_N amount)%Z
       else Ok 0%Z.

(** [off + 3*(n - 1)] in size_t *)
Definition shift_amount (off n : N) : N := w64 (off + w64 (3 * w64 (n + two64 - 1))).

(** common/common.cpp:72-78 encode_partial_derivative; the int result converts to size_t. *)
Definition encode_partial_derivative (nx ny nz : N) : res N :=
  do a <- shl_int (0 <? nx) (shift_amount 0 nx);
  do b <- shl_int (0 <? ny) (shift_amount 1 ny);
  do c <- shl_int (0 <? nz) (shift_amount 2 nz);
  Ok (Z.to_N ((Z.lor (Z.lor a b) c) mod 2 ^ 64)%Z).

(** common/common.cpp:93-105 decode_partial_derivative: the while loop, with fuel.  A 64-bit [e]
    is exhausted after 22 iterations. *)
Fixpoint decode_loop (fuel : nat) (e p nx ny nz : N) : res (N * N * N) :=
  if e =? 0 then Ok (nx, ny, nz)
  else match fuel with
       | O => Err Fuel
       | S f =>
           let bit m := if 0 <? N.land e m then p else 0 in
           decode_loop f (N.shiftr e 3) (w64 (p + 1))
             (w64 (nx + bit 1)) (w64 (ny + bit 2)) (w64 (nz + bit 4))
       end.
Definition decode_partial_derivative (e : N) : res (N * N * N) := decode_loop 22 e 1 0 0 0.
