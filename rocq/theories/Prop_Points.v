(** Property C17: point distributions. *)
From Coq Require Import Reals ZArith Arith Lia Lra.
Require Import Verif.Base Verif.RBase Verif.Model_Points Verif.Proof_Points.
Open Scope R_scope.

Theorem C17_equispaced : forall N Zl Zr Z0, (2 <= N)%nat -> Zl < Zr ->
  exists Z, equispaced_points N Zl Zr Z0 = Ok Z /\
    Z 0%nat = Zl /\ Z (N - 1)%nat = Zr /\
    (forall i, (S i < N)%nat -> Z (S i) - Z i = (Zr - Zl) / (INR N - 1)) /\
    (forall i j, (i < j)%nat -> (j < N)%nat -> Z i < Z j) /\
    (forall i, (i < N)%nat -> Zl <= Z i <= Zr /\ Z i + Z (N - 1 - i)%nat = Zl + Zr) /\
    (forall i, (N <= i)%nat -> Z i = Z0 i).
Proof.
  intros N Zl Zr Z0 HN HZ. destruct (equi_ok N Zl Zr Z0 HN) as (Z & E & H & H'). exists Z. split; [exact E|].
  assert (HP : 0 < INR (N - 1)) by (apply lt_0_INR; lia).
  assert (HM : INR (N - 1) = INR N - 1) by (rewrite minus_INR by lia; reflexivity).
  split; [rewrite H by lia; cbn [INR]; field; lra|]. split; [rewrite H by lia; field; lra|].
  split; [intros i Hi; rewrite !H by lia; rewrite S_INR, <- HM; field; lra|].
  assert (M : forall i j, (i < j)%nat -> (j < N)%nat -> Z i < Z j).
  { intros i j Hij Hj. rewrite !H by lia. assert (L := lt_INR _ _ Hij). apply Rplus_lt_compat_l. apply Rmult_lt_compat_r; [lra|].
    unfold Rdiv. apply Rmult_lt_compat_r; [apply Rinv_0_lt_compat; exact HP|exact L]. }
  split; [exact M|]. split; [|exact H'].
  intros i Hi. split.
  - assert (Z0l : Z 0%nat = Zl) by (rewrite H by lia; cbn [INR]; field; lra).
    assert (Zlr : Z (N - 1)%nat = Zr) by (rewrite H by lia; field; lra). rewrite <- Z0l, <- Zlr. split.
    + destruct (Nat.eq_dec i 0) as [->|]; [lra|]. apply Rlt_le, M; lia.
    + destruct (Nat.eq_dec i (N - 1)) as [->|]; [lra|]. apply Rlt_le, M; lia.
  - rewrite !H by lia. rewrite (minus_INR (N - 1) i) by lia. field. lra.
Qed.
Print Assumptions C17_equispaced.
Theorem C17_equispaced_single : forall Zl Zr Z0, equispaced_points 1 Zl Zr Z0 = Err DivZero.
Proof. intros. unfold equispaced_points. cbn. rewrite rdiv_zero. reflexivity. Qed.
Print Assumptions C17_equispaced_single.
(** Chebyshev points: strictly inside, increasing, symmetric; they are the points of the first kind (the
    header comment says second kind): images of -cos((2i+1) pi / (2N)), so no end point is hit *)
Theorem C17_chebyshev : forall N Zl Zr Z0, (1 <= N)%nat -> Zl < Zr ->
  exists Z, chebyshev_points N Zl Zr Z0 = Ok Z /\
    (forall i, (i < N)%nat -> Z i = (Zl + Zr) / 2 - (Zr - Zl) / 2 * cos ((2 * INR i + 1) * PI / (2 * INR N))) /\
    (forall i j, (i < j)%nat -> (j < N)%nat -> Z i < Z j) /\
    (forall i, (i < N)%nat -> Zl < Z i < Zr /\ Z i + Z (N - 1 - i)%nat = Zl + Zr) /\
    (forall i, (N <= i)%nat -> Z i = Z0 i).
Proof.
  intros N Zl Zr Z0 HN HZ. destruct (cheb_ok N Zl Zr Z0 HN) as (Z & E & H & H'). exists Z. split; [exact E|].
  split; [intros i Hi; rewrite H by exact Hi; apply chpt_cos; exact Hi|].
  split; [intros i j Hij Hj; rewrite !H by lia; apply chpt_lt; assumption|].
  split; [|exact H']. intros i Hi. rewrite !H by lia. split; [apply chpt_inside; assumption|apply chpt_sym; exact Hi].
Qed.
Print Assumptions C17_chebyshev.
Example C17_nonvacuous : exists Z, equispaced_points 3 (-1) 1 (fun _ => 9) = Ok Z /\ Z 1%nat = 0 /\ Z 3%nat = 9.
Proof.
  destruct (equi_ok 3 (-1) 1 (fun _ => 9)) as (Z & E & H & H'); [lia|]. exists Z. split; [exact E|]. split; [rewrite H by lia; cbn; field|apply H'; lia].
Qed.
