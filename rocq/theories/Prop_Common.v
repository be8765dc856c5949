(** Property theorems C01-C03 (common/common.cpp). *)
From Coq Require Import List NArith ZArith.
Import ListNotations.
Require Import Verif.Base Verif.Model_Common Verif.Spec_Common Verif.Proof_Common.
Open Scope N_scope.

(** C01: number -> digits -> number, for every radix list without zeros and every 64-bit number. *)
Theorem C01_number_round_trip : forall (b : list N) (x : N),
  Forall (fun r => 0 < r) b -> x < 2 ^ 64 ->
  exists y, base_10_to_mixed_radix b x = Ok y /\
            Forall2 (fun r d => d < r) b y /\
            mixed_radix_to_base_10 b y = Ok (x mod prodN b).
Proof. exact round_trip_number. Qed.
Print Assumptions C01_number_round_trip.

Theorem C01_zero_radix_divides_by_zero : forall b x,
  In 0 b -> base_10_to_mixed_radix b x = Err DivZero.
Proof. exact encode_zero_radix. Qed.
Print Assumptions C01_zero_radix_divides_by_zero.

Example C01_nonvacuous :
  Forall (fun r => 0 < r) [4; 4; 4] /\ 27 < 2 ^ 64 /\
  base_10_to_mixed_radix [4; 4; 4] 27 = Ok [3; 2; 1] /\ 27 mod prodN [4; 4; 4] = 27.
Proof. repeat split; repeat constructor. Qed.

(** C02: digits -> number -> digits; the number is the positional value and is unique. *)
Theorem C02_digits_round_trip : forall b d,
  Forall2 (fun r x => x < r) b d -> prodN b <= 2 ^ 64 ->
  exists v, mixed_radix_to_base_10 b d = Ok v /\ v = positional b d /\ v < prodN b /\
            base_10_to_mixed_radix b v = Ok d.
Proof. exact round_trip_digits. Qed.
Print Assumptions C02_digits_round_trip.

Theorem C02_distinct_digits_distinct_numbers : forall b d1 d2,
  Forall2 (fun r x => x < r) b d1 -> Forall2 (fun r x => x < r) b d2 -> prodN b <= 2 ^ 64 ->
  mixed_radix_to_base_10 b d1 = mixed_radix_to_base_10 b d2 -> d1 = d2.
Proof. exact mixed_injective. Qed.
Print Assumptions C02_distinct_digits_distinct_numbers.

Theorem C02_every_number_reached : forall b v,
  Forall (fun r => 0 < r) b -> prodN b <= 2 ^ 64 -> v < prodN b ->
  exists d, Forall2 (fun r x => x < r) b d /\ mixed_radix_to_base_10 b d = Ok v.
Proof. exact mixed_surjective. Qed.
Print Assumptions C02_every_number_reached.

(** The bound on the product is needed: beyond 2^64 two digit lists collide. *)
Theorem C02_overflow_collides_refuted :
  exists b d1 d2, Forall2 (fun r x => x < r) b d1 /\ Forall2 (fun r x => x < r) b d2 /\ d1 <> d2 /\
    mixed_radix_to_base_10 b d1 = mixed_radix_to_base_10 b d2.
Proof.
  exists [2 ^ 63; 4], [0; 2], [0; 0].
  split; [repeat constructor|]. split; [repeat constructor|]. split; [discriminate|reflexivity].
Qed.
Print Assumptions C02_overflow_collides_refuted.

Example C02_nonvacuous :
  Forall2 (fun r x => x < r) [5; 3; 7] [4; 0; 6] /\ prodN [5; 3; 7] <= 2 ^ 64 /\
  mixed_radix_to_base_10 [5; 3; 7] [4; 0; 6] = Ok 94.
Proof. repeat split; repeat constructor; discriminate. Qed.

(** C03: exact domain of the derivative-order encoding (all 64-bit orders). *)
Theorem C03_round_trip_exact_domain : forall nx ny nz : N,
  (exists e, encode_partial_derivative nx ny nz = Ok e /\
             decode_partial_derivative e = Ok (nx, ny, nz))
  <-> (1 <= nx <= 11 /\ 1 <= ny <= 10 /\ 1 <= nz <= 10).
Proof. exact encode_round_trip_iff. Qed.
Print Assumptions C03_round_trip_exact_domain.

(** a zero order (e.g. the plain d/dx) always executes an undefined shift *)
Theorem C03_zero_order_undefined : forall nx ny nz,
  nx = 0 \/ ny = 0 \/ nz = 0 -> exists er, encode_partial_derivative nx ny nz = Err er.
Proof. exact encode_zero_order. Qed.
Print Assumptions C03_zero_order_undefined.

Example C03_nonvacuous :
  encode_partial_derivative 2 1 3 = Ok 266 /\ decode_partial_derivative 266 = Ok (2, 1, 3) /\
  encode_partial_derivative 1 0 0 = Err BadShift.
Proof. repeat split. Qed.
