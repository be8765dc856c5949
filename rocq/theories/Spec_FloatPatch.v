(** Vocabulary for the patches in rounded arithmetic (independent of the model). *)
From Coq Require Import Reals ZArith.
Require Import Verif.Spec_Float.
Open Scope R_scope.

(** the real number whose integer part is the key of a side with centre c; delta is the bin width, lo and hi enclose the mesh *)
Definition face_bin (delta lo x : R) : R := Rmax (/ 10 ^ 16) ((x - lo + / 10 ^ 12) / delta).
Definition real_key (delta : R) (lo hi c : nat -> R) : R :=
  let bins i := (hi i - lo i + / 10 ^ 12) / delta in
  face_bin delta (lo 0%nat) (c 0%nat) + face_bin delta (lo 1%nat) (c 1%nat) * bins 0%nat + face_bin delta (lo 2%nat) (c 2%nat) * bins 0%nat * bins 1%nat.

(** error bounds for coordinates of at most M in absolute value that differ by at most L: of a centre, of a bin number, of a key *)
Definition centre_err (u M : R) : R := gamma u 5 * M.
Definition bin_err (u M L delta : R) : R := let E := centre_err u M in (E + gamma u 12 * (L + E + / 10 ^ 12)) / delta + u.
Definition key_err (u M L delta : R) : R :=
  let e := bin_err u M L delta in let Q := (L + / 10 ^ 12) / delta + 1 + e in
  gamma u 3 * (Q + Q ^ 2 + Q ^ 3) + e * (1 + 2 * Q + 3 * Q ^ 2).
