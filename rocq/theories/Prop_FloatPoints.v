(** Property theorem C84 (elements/point_distributions.cpp): point distributions in floating-point arithmetic. *)
From Coq Require Import Reals ZArith Arith Lia Lra.
From Flocq Require Import Core.
Require Import Verif.Base Verif.RBase Verif.Model_Points Verif.Proof_Points Verif.Spec_Float Verif.Float_Base Verif.Model_FloatLagrange Verif.Spec_FloatRefine Verif.Proof_FloatRefine5 Verif.Prop_FloatLU
  Verif.Model_FloatPoints Verif.Spec_FloatPoints Verif.Proof_FloatPoints.
Open Scope R_scope.

(** without rounding these are the functions of C17 *)
Theorem C84_exact : (forall N Zl Zr Z, equispaced_pointsf (fun x => x) N Zl Zr Z = equispaced_points N Zl Zr Z) /\
  (forall N Zl Zr Z, chebyshev_pointsf (fun x => x) sin N Zl Zr Z = chebyshev_points N Zl Zr Z).
Proof. split; [exact equi_id|exact cheb_id]. Qed.
Print Assumptions C84_exact.

(** equispaced points: the first is the left end, they never decrease, each has an error of a few roundings; when the
    length of the interval is a double, the last is the right end and all lie in the interval *)
Theorem C84_equispaced : forall u rnd N Zl Zr Z0, double_like u rnd -> (2 <= N)%nat -> Zl <= Zr -> rnd Zl = Zl -> rnd Zr = Zr ->
  exists Z, equispaced_pointsf rnd N Zl Zr Z0 = Ok Z /\ Z 0%nat = Zl /\
    (forall i j, (i <= j)%nat -> (j < N)%nat -> Zl <= Z i <= Z j) /\
    (forall i, (i < N)%nat -> let x := INR i / INR (N - 1) * (Zr - Zl) in Rabs (Z i - (Zl + x)) <= gamma u 4 * (Rabs Zl + Rabs x)) /\
    (rnd (Zr - Zl) = Zr - Zl -> Z (N - 1)%nat = Zr /\ forall i, (i < N)%nat -> Zl <= Z i <= Zr) /\
    (forall i, (N <= i)%nat -> Z i = Z0 i).
Proof.
  intros u rnd N Zl Zr Z0 HD HN HZ El Er. destruct (equf_ok rnd N Zl Zr Z0 HN) as (Z & E & H & H'). exists Z. split; [exact E|].
  assert (M : forall i j, (i <= j)%nat -> (j < N)%nat -> Zl <= Z i <= Z j).
  { intros i j Hij Hj. rewrite !H by lia. split; [|apply (equf_mono u rnd HD); assumption]. rewrite <- (equf_first u rnd HD N Zl Zr El) at 1. apply (equf_mono u rnd HD); [exact HN|exact HZ|lia]. }
  split; [rewrite H by lia; apply (equf_first u rnd HD); exact El|]. split; [exact M|].
  split; [intros i Hi; rewrite H by exact Hi; apply (equf_err u rnd HD); exact HN|]. split; [|exact H'].
  intros L. assert (Q : Z (N - 1)%nat = Zr).
  { rewrite H by lia. rewrite (equf_last u rnd HD) by exact HN. rewrite L. replace (Zl + (Zr - Zl)) with Zr by ring. exact Er. }
  split; [exact Q|]. intros i Hi. rewrite <- Q. apply M; lia.
Qed.
Print Assumptions C84_equispaced.

(** in doubles the last point can lie outside the interval, whatever the number of points *)
Theorem C84_equispaced_end_refuted : exists Zl Zr, binary64 Zl = Zl /\ binary64 Zr = Zr /\ Zl < 0 < Zr /\
  forall N Z0, (2 <= N)%nat -> exists Z, equispaced_pointsf binary64 N Zl Zr Z0 = Ok Z /\ Z (N - 1)%nat = 4 / 3 * Zr.
Proof.
  assert (B0 : 0 < bpow radix2 (-54)) by apply bpow_gt_0.
  assert (E52 : bpow radix2 (-52) = 4 * bpow radix2 (-54)) by (change (-52)%Z with (2 + -54)%Z; rewrite bpow_plus; change (bpow radix2 2) with 4; reflexivity).
  assert (V52 : bpow radix2 52 = 4503599627370496) by (apply bp; [lia|reflexivity]).
  assert (I52 : bpow radix2 52 * bpow radix2 (-54) = / 4) by (rewrite <- bpow_plus; reflexivity).
  exists (-1), (3 * bpow radix2 (-54)). split; [apply (b64_int (-1)); lia|]. split; [apply b64_exact; lia|]. split; [lra|].
  intros N Z0 HN. destruct (equf_ok binary64 N (-1) (3 * bpow radix2 (-54)) Z0 HN) as (Z & E & H & _). exists Z. split; [exact E|].
  rewrite H by lia. rewrite (equf_last u64 binary64 double_like_b64) by exact HN.
  assert (F : binary64 (3 * bpow radix2 (-54) - -1) = IZR (2 ^ 52 + 1) * bpow radix2 (1 - 53)).
  { apply b64_near.
    - change (bpow radix2 (1 - 1)) with 1. change (bpow radix2 1) with 2. rewrite Rabs_pos_eq by lra. rewrite V52 in I52. lra.
    - change (53 - 1)%Z with 52%Z. rewrite plus_IZR. replace (IZR (2 ^ 52)) with (bpow radix2 52) by (rewrite <- (IZR_Zpower radix2 52) by lia; reflexivity). change (IZR 1) with 1. replace ((3 * bpow radix2 (-54) - -1) * bpow radix2 52 - (bpow radix2 52 + 1)) with (3 * (bpow radix2 52 * bpow radix2 (-54)) - 1) by ring.
      rewrite I52. apply Rabs_def1; lra. }
  rewrite F. change (1 - 53)%Z with (-52)%Z. replace (-1 + IZR (2 ^ 52 + 1) * bpow radix2 (-52)) with (1 * bpow radix2 (-52)).
  - rewrite b64_exact by lia. rewrite E52. lra.
  - rewrite plus_IZR. replace (IZR (2 ^ 52)) with (bpow radix2 52) by (rewrite <- (IZR_Zpower radix2 52) by lia; reflexivity). rewrite Rmult_plus_distr_r, <- bpow_plus. change (bpow radix2 (52 + -52)) with 1. ring.
Qed.
Print Assumptions C84_equispaced_end_refuted.

(** a single point divides by zero *)
Theorem C84_equispaced_single : forall rnd Zl Zr Z0, equispaced_pointsf rnd 1 Zl Zr Z0 = Err DivZero.
Proof. intros. unfold equispaced_pointsf. cbn. unfold rdivf. destruct (Req_EM_T 0 0); [reflexivity|contradiction]. Qed.
Print Assumptions C84_equispaced_single.

(** Chebyshev points with a sine routine of error v: on an interval that is symmetric about 0 the points are exactly symmetric;
    each point has an error of a few roundings; if 0 lies in the interval they never decrease and lie in it *)
Theorem C84_chebyshev : forall u rnd sine v N Zl Zr Z0, double_like u rnd -> close_sine v (rnd PI / 2) sine -> (1 <= N)%nat -> INR N * u <= 1 ->
  exists Z, chebyshev_pointsf rnd sine N Zl Zr Z0 = Ok Z /\
    (Zl = - Zr -> forall i, (i < N)%nat -> Z (N - 1 - i)%nat = - Z i) /\
    (forall i, (i < N)%nat -> let x := (Zl + Zr) / 2 - (Zr - Zl) / 2 * cos ((2 * INR i + 1) * PI / (2 * INR N)) in
       Rabs (Z i - x) <= (2 * gamma u 3 + v / 2) * (Rabs Zl + Rabs Zr)) /\
    (Zl <= 0 <= Zr -> (forall i j, (i <= j)%nat -> (j < N)%nat -> Z i <= Z j) /\
       (rnd Zl = Zl -> rnd Zr = Zr -> forall i, (i < N)%nat -> Zl <= Z i <= Zr)) /\
    (forall i, (N <= i)%nat -> Z i = Z0 i).
Proof.
  intros u rnd sine v N Zl Zr Z0 HD HS HN HNu. destruct (chebf_ok rnd sine N HN Zl Zr Z0) as (Z & E & H & H'). exists Z. split; [exact E|].
  split; [intros -> i Hi; rewrite !H by lia; apply (chpf_sym u rnd HD sine v HS N HN HNu); exact Hi|].
  split; [intros i Hi; cbv zeta; rewrite H by exact Hi; rewrite <- chpt_cos by exact Hi; apply (chpf_err u rnd HD sine v HS N HN HNu); exact Hi|].
  split; [|exact H']. intros HZ. split.
  - intros i j Hij Hj. rewrite !H by lia. apply (chpf_mono u rnd HD sine v HS N HN HNu); assumption.
  - intros El Er i Hi. rewrite H by exact Hi. apply (chpf_inside u rnd HD sine v HS N HN HNu); assumption.
Qed.
Print Assumptions C84_chebyshev.

(** a sine routine as assumed: the sine of the nearest angle in [-pi/2, pi/2], rounded *)
Definition rounded_sine (x : R) : R := binary64 (sin (Rmax (- (PI / 2)) (Rmin (PI / 2) x))).
Lemma rounded_sine_close : close_sine (3 * u64) (binary64 PI / 2) rounded_sine.
Proof.
  assert (Pp := PI_RGT_0). assert (P4 := PI_4). assert (U := u64_range). destruct double_like_b64 as (_ & Hr & _ & Ho & _ & Hm & H1).
  assert (BP : binary64 PI / 2 <= PI / 2 + 2 * u64).
  { destruct (Hr PI) as (d & D & ->). assert (D1 : d <= u64) by (apply Rle_trans with (Rabs d); [apply Rle_abs|exact D]). nra. }
  set (c := fun x => Rmax (- (PI / 2)) (Rmin (PI / 2) x)).
  assert (C : forall x, - (PI / 2) <= c x <= PI / 2) by (intros x; unfold c, Rmax, Rmin; destruct (Rle_dec (PI / 2) x), (Rle_dec _ _); lra).
  split.
  - intros x Hx. assert (X : - (binary64 PI / 2) <= x <= binary64 PI / 2) by (unfold Rabs in Hx; destruct (Rcase_abs x); lra).
    unfold rounded_sine. fold (c x). fold (c (- x)). assert (Co : c (- x) = - c x) by (unfold c, Rmax, Rmin; destruct (Rle_dec (PI / 2) x), (Rle_dec (PI / 2) (- x)); repeat destruct (Rle_dec _ _); lra).
    split; [rewrite Co, sin_neg; apply Ho|]. assert (SB := SIN_bound (c x)). split.
    + apply Rabs_le. split; [apply Rle_trans with (binary64 (-1)); [replace (-1) with (- (1)) by ring; rewrite Ho, H1; lra|apply Hm; lra]|apply Rle_trans with (binary64 1); [apply Hm; lra|rewrite H1; lra]].
    + destruct (Hr (sin (c x))) as (d & D & ->). replace (sin (c x) * (1 + d) - sin x) with (sin (c x) * d + (sin (c x) - sin x)) by ring.
      apply Rle_trans with (1 := Rabs_triang _ _). replace (3 * u64) with (1 * u64 + 2 * u64) by ring. apply Rplus_le_compat.
      * rewrite Rabs_mult. apply Rmult_le_compat; try apply Rabs_pos; [apply Rabs_le; lra|exact D].
      * apply Rle_trans with (1 := sin_lip _ _). apply Rabs_le. unfold c, Rmax, Rmin. destruct (Rle_dec (PI / 2) x), (Rle_dec _ _); lra.
  - intros x y _ Hxy _. unfold rounded_sine. apply Hm. fold (c x). fold (c y). apply sin_incr_1; try apply C. unfold c, Rmax, Rmin. destruct (Rle_dec (PI / 2) x), (Rle_dec (PI / 2) y); repeat destruct (Rle_dec _ _); lra.
Qed.
(** five Chebyshev points on [-1,1]: the middle one is exactly 0 *)
Example C84_chebyshev_nonvacuous : exists Z, chebyshev_pointsf binary64 rounded_sine 5 (-1) 1 (fun _ => 9) = Ok Z /\ Z 2%nat = 0 /\ Z 4%nat = - Z 0%nat /\ Z 1%nat <= Z 3%nat /\ Z 7%nat = 9.
Proof.
  assert (U := u64_range). assert (U5 : u64 <= / 16) by apply double_like_b64.
  destruct (C84_chebyshev u64 binary64 rounded_sine (3 * u64) 5 (-1) 1 (fun _ => 9) double_like_b64 rounded_sine_close) as (Z & E & S & _ & M & O); [lia|cbn [INR]; lra|].
  exists Z. split; [exact E|]. assert (S2 := S ltac:(ring) 2%nat ltac:(lia)). assert (S0 := S ltac:(ring) 0%nat ltac:(lia)). cbn [Nat.sub] in S2, S0.
  split; [lra|]. split; [exact S0|]. split; [apply (proj1 (M ltac:(lra))); lia|apply O; lia].
Qed.
Example C84_equispaced_nonvacuous : exists Z, equispaced_pointsf binary64 4 (-1) 1 (fun _ => 9) = Ok Z /\ Z 0%nat = -1 /\ Z 3%nat = 1 /\ Z 1%nat <= Z 2%nat.
Proof.
  assert (I : forall z, (Z.abs z < 2 ^ 53)%Z -> binary64 (IZR z) = IZR z) by apply b64_int.
  destruct (C84_equispaced u64 binary64 4 (-1) 1 (fun _ => 9) double_like_b64) as (Z & E & F & M & _ & L & _); [lia|lra|apply (I (-1)%Z); lia|apply (I 1%Z); lia|].
  exists Z. split; [exact E|]. split; [exact F|]. split; [|apply M; lia]. apply L. replace (1 - -1) with 2 by ring. apply (I 2%Z). lia.
Qed.
Example C84_exact_nonvacuous : exists Z, chebyshev_pointsf (fun x => x) sin 3 (-1) 1 (fun _ => 9) = Ok Z /\ Z 1%nat = 0.
Proof.
  destruct (cheb_ok 3 (-1) 1 (fun _ => 9)) as (Z & E & H & _); [lia|]. exists Z. split; [rewrite (proj2 C84_exact); exact E|]. rewrite H by lia. unfold chpt, ang. cbn [INR]. replace (PI / 2 * _) with 0 by field. rewrite sin_0. field.
Qed.
