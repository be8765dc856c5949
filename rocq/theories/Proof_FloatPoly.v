(** Rounded Legendre and Jacobi recurrences (Model_FloatPoly.v). *)
From Coq Require Import List Reals NArith ZArith Arith Lia Lra.
From Flocq Require Import Core.
Import ListNotations.
Require Import Verif.Base Verif.RBase Verif.RSum Verif.Jacobi_Math Verif.Model_Lagrange Verif.Model_FloatLagrange Verif.Model_Poly Verif.Proof_Poly
  Verif.Model_FloatPoly Verif.Spec_Float Verif.Spec_FloatPoly Verif.Float_Base Verif.Three_Term.
Open Scope R_scope.

Lemma ok_inj (a b : R) : Ok a = Ok b -> a = b.
Proof. intros E. injection E as E. exact E. Qed.
Lemma b64_ints : exact_ints binary64.
Proof.
  intros z H. unfold binary64. apply round_generic; [typeclasses eauto|]. apply generic_format_FLX. exists (Float radix2 z 0).
  - unfold F2R. cbn. ring.
  - exact H.
Qed.

(** ---- the exact values are bounded ---- *)
Definition tL (n : nat) : R := INR n / (INR n + 1).
Definition tJ (k n : nat) : R := INR n / (INR n + 1 + 2 * INR k).
Lemma frac_range a b : 0 <= a -> a < b -> 0 <= a / b <= 1.
Proof.
  intros A B. split; [apply Rmult_le_pos; [exact A|apply Rlt_le, Rinv_0_lt_compat; lra]|].
  apply Rmult_le_reg_r with b; [lra|]. unfold Rdiv. rewrite Rmult_assoc, Rinv_l by lra. lra.
Qed.
Lemma tJ_range k n : 0 <= tJ k n <= 1.
Proof. apply frac_range; [apply pos_INR|]. assert (A := pos_INR n). assert (B := pos_INR k). lra. Qed.
Lemma tL_range n : 0 <= tL n <= 1.
Proof. apply frac_range; [apply pos_INR|]. lra. Qed.
Definition qL (X : R) (m : nat) : R := match m with O => 0 | S n => lP n X end.
Lemma qL_S X n : qL X (S (S n)) = (1 + tL n) * X * qL X (S n) - tL n * qL X n.
Proof.
  unfold tL. destruct n as [|n]; cbn [qL].
  - rewrite lP_1, lP_0. cbn [INR]. field.
  - assert (E := lP_rec n X). assert (P := pos_INR n). rewrite S_INR. apply Rmult_eq_reg_l with (INR n + 2); [|lra]. rewrite E. field. lra.
Qed.
(** value at 1 of the Jacobi polynomial with both parameters k, shifted index *)
Definition s1 (k n : nat) : R := rising (INR k + 1) n / INR (fact n).
Definition sJ (k m : nat) : R := match m with O => 1 | S n => s1 k n end.
Lemma s1_pos k n : 0 < s1 k n.
Proof. apply Rmult_lt_0_compat; [apply rising_pos; assert (P := pos_INR k); lra|apply Rinv_0_lt_compat, INR_fact_lt_0]. Qed.
Lemma sJ_pos k m : 0 < sJ k m.
Proof. destruct m; [cbn; lra|apply s1_pos]. Qed.
Lemma s1_0 k : s1 k 0 = 1.
Proof. unfold s1, rising. cbn. field. Qed.
Lemma s1_S k n : s1 k (S n) = s1 k n * ((INR k + 1 + INR n) / (INR n + 1)).
Proof. unfold s1. rewrite rising_S, fact_S_R. assert (P := pos_INR n). field. split; [lra|apply INR_fact_neq_0]. Qed.
Definition pJ (k : nat) (X : R) (m : nat) : R := match m with O => 0 | S n => jP (INR k) (INR k + INR k) n X end.
Definition qJ (k : nat) (X : R) (m : nat) : R := pJ k X m / sJ k m.
Lemma pJ_qJ k X m : pJ k X m = sJ k m * qJ k X m.
Proof. unfold qJ. assert (P := sJ_pos k m). field. lra. Qed.
Lemma qJ_S k X n : qJ k X (S (S n)) = (1 + tJ k n) * X * qJ k X (S n) - tJ k n * qJ k X n.
Proof.
  assert (Pk := pos_INR k). assert (Pn := pos_INR n). unfold qJ, tJ. cbn [sJ pJ]. rewrite s1_S. assert (S1 := s1_pos k n). destruct n as [|n]; cbn [pJ sJ].
  - rewrite jP_1, jP_0. rewrite s1_0. cbn [INR]. field. lra.
  - rewrite (jP_rec (INR k) (INR k) n X) by (rewrite !S_INR; assert (Q := pos_INR n); lra).
    unfold cA, cB, cC. rewrite s1_S in *. assert (S0 := s1_pos k n). rewrite !S_INR in *. assert (Q := pos_INR n).
    set (p1 := jP (INR k) (INR k + INR k) (S n) X). set (p0 := jP (INR k) (INR k + INR k) n X). set (s := s1 k n) in *. set (x := INR n) in *. set (y := INR k) in *.
    field. repeat split; lra.
Qed.
Lemma qJ_0 k X : qJ k X 0 = 0. Proof. unfold qJ. cbn. field. Qed.
Lemma qJ_1 k X : qJ k X 1 = 1. Proof. unfold qJ. cbn [pJ sJ]. rewrite jP_0, s1_0. field. Qed.
Lemma tL_0 : tL 0 = 0. Proof. unfold tL. cbn. field. Qed.
Lemma tJ_0 k : tJ k 0 = 0. Proof. unfold tJ. cbn [INR]. assert (Pk := pos_INR k). field. lra. Qed.
Lemma lP_bound n X : -1 <= X <= 1 -> Rabs (lP n X) <= 1.
Proof. intros H. apply (q_bound tL X tL_range H (qL X) eq_refl (lP_0 X) tL_0 (qL_S X) (S n)). Qed.
Lemma jP_bound k n X : -1 <= X <= 1 -> Rabs (jP (INR k) (INR k + INR k) n X) <= s1 k n.
Proof.
  intros H. assert (B := q_bound (tJ k) X (tJ_range k) H (qJ k X) (qJ_0 k X) (qJ_1 k X) (tJ_0 k) (qJ_S k X) (S n)).
  change (jP (INR k) (INR k + INR k) n X) with (pJ k X (S n)). rewrite pJ_qJ, Rabs_mult. cbn [sJ]. assert (P := s1_pos k n). rewrite Rabs_right by lra.
  rewrite <- (Rmult_1_r (s1 k n)) at 2. apply Rmult_le_compat_l; lra.
Qed.

Section Rounded.
Context (u : R) (rnd : R -> R).
Hypothesis Hu : 0 <= u < 1.
Hypothesis Hr : rounds u rnd.
Hypothesis Hi : exact_ints rnd.
Notation within := (within u).

Definition small (m : nat) : Prop := (Z.of_nat m < 2 ^ 53)%Z.
Lemma rn m : small m -> rnd (INR m) = INR m.
Proof. intros H. rewrite INR_IZR_INZ. apply Hi. unfold small in H. lia. Qed.
Lemma rn_add a b : small (a + b) -> rnd (INR a + INR b) = INR (a + b).
Proof. intros H. rewrite <- plus_INR. apply rn. exact H. Qed.
Lemma rn_mul2 a : small (2 * a) -> rnd (2 * INR a) = INR (2 * a).
Proof. intros H. replace (2 * INR a) with (INR (2 * a)) by (rewrite mult_INR; reflexivity). apply rn. exact H. Qed.
Lemma rn_sub1 a : (1 <= a)%nat -> small a -> rnd (INR a - 1) = INR (a - 1).
Proof. intros L H. replace (INR a - 1) with (INR (a - 1)) by (rewrite minus_INR by lia; reflexivity). apply rn. unfold small in *. lia. Qed.
Lemma rn_sub2 a : (2 <= a)%nat -> small a -> rnd (INR a - 2) = INR (a - 2).
Proof. intros L H. replace (INR a - 2) with (INR (a - 2)) by (rewrite minus_INR by lia; reflexivity). apply rn. unfold small in *. lia. Qed.
Lemma rdivf_w a b : b <> 0 -> exists t, within 1 t /\ rdivf rnd a b = Ok (a / b * t).
Proof. intros H. unfold rdivf. destruct (Req_EM_T b 0); [contradiction|]. destruct (rnd_w u Hu rnd Hr (a / b)) as (t & W & ->). exists t. split; [exact W|reflexivity]. Qed.
Ltac rw x t W := let E := fresh in destruct (rnd_w u Hu rnd Hr x) as (t & W & E); rewrite E; clear E.

(** ---- Legendre ---- *)
Lemma leg_recf_SS m X : leg_recf rnd (S (S m)) X =
  (do i <- rdivf rnd 1 (INR (S m)); do p1 <- leg_recf rnd (S m) X; do p2 <- leg_recf rnd m X;
   Ok (rnd (i * rnd (rnd (rnd (rnd (rnd (2 * INR (S m)) - 1) * X) * p1) - rnd (rnd (INR (S m) - 1) * p2))))).
Proof. reflexivity. Qed.
Definition val (x : res R) : R := match x with Ok v => v | Err _ => 0 end.
Lemma leg_recf_ok X : forall m, (exists v, leg_recf rnd m X = Ok v) /\ (exists v, leg_recf rnd (S m) X = Ok v).
Proof.
  induction m as [|m (( v0 & E0) & (v1 & E1))]; [split; eexists; reflexivity|]. split; [eexists; exact E1|]. rewrite leg_recf_SS.
  destruct (rdivf_w 1 (INR (S m)) ltac:(apply not_0_INR; lia)) as (t & _ & ->). cbn [bind]. rewrite E1, E0. cbn [bind]. eexists. reflexivity.
Qed.
Definition hL (X : R) (m : nat) : R := val (leg_recf rnd m X).
Lemma hL_ok X m : leg_recf rnd m X = Ok (hL X m).
Proof. unfold hL. destruct (proj1 (leg_recf_ok X m)) as (v & ->). reflexivity. Qed.
Lemma hL_S X n : small (2 * S n) -> exists a b, within 5 a /\ within 5 b /\
  hL X (S (S n)) = (1 + tL n) * X * hL X (S n) * a - tL n * hL X n * b.
Proof.
  intros Sm. assert (E := hL_ok X (S (S n))). rewrite leg_recf_SS in E. destruct (rdivf_w 1 (INR (S n)) ltac:(apply not_0_INR; lia)) as (t1 & W1 & R1).
  rewrite R1 in E. cbn [bind] in E. rewrite !hL_ok in E. cbn [bind] in E. apply ok_inj in E. rewrite <- E. clear E R1.
  rewrite rn_mul2 by exact Sm. rewrite (rn_sub1 (2 * S n)) by (try exact Sm; lia). rewrite rn_sub1 by (unfold small in *; lia).
  replace (2 * S n - 1)%nat with (2 * n + 1)%nat by lia. replace (S n - 1)%nat with n by lia.
  rw (INR (2 * n + 1) * X) t2 W2. rw (INR (2 * n + 1) * X * t2 * hL X (S n)) t3 W3. rw (INR n * hL X n) t4 W4.
  rw (INR (2 * n + 1) * X * t2 * hL X (S n) * t3 - INR n * hL X n * t4) t5 W5.
  rw (1 / INR (S n) * t1 * ((INR (2 * n + 1) * X * t2 * hL X (S n) * t3 - INR n * hL X n * t4) * t5)) t6 W6.
  exists (t1 * (t2 * (t3 * (t5 * t6)))), (1 * (t1 * (t4 * (t5 * t6)))). split; [|split].
  - repeat apply (within_mul u Hu 1); assumption.
  - apply (within_mul u Hu 1); [apply within_1; exact Hu|]. repeat apply (within_mul u Hu 1); assumption.
  - unfold tL. rewrite plus_INR, mult_INR, S_INR. cbn [INR]. assert (P := pos_INR n). field. lra.
Qed.
Lemma small_le a b : (a <= b)%nat -> small b -> small a.
Proof. unfold small. lia. Qed.
Theorem legendre_evalf_err N X : -1 <= X <= 1 -> small (2 * N) -> INR 5 * u < 1 -> 3 * gamma u 5 * (INR N * (INR N + 1)) <= 1 ->
  forall n, (n <= N)%nat -> legendre_evalf rnd n X = Ok (hL X (S n)) /\
  Rabs (hL X (S n) - lP n X) <= 3 * gamma u 5 * (INR n * (INR n + 1)) /\
  (1 - X * X) * ((hL X (S n) - lP n X) * (hL X (S n) - lP n X)) <= (6 * gamma u 5 * INR n) * (6 * gamma u 5 * INR n).
Proof.
  intros HX Sm H5 HN n L. split; [apply hL_ok|].
  apply (error_bound tL X tL_range HX (qL X) eq_refl (lP_0 X) tL_0 (qL_S X) N (hL X) (gamma u 5) (gamma_nonneg u Hu 5 H5) eq_refl eq_refl); [|exact HN|exact L].
  intros m Hm. destruct (hL_S X m ltac:(apply (small_le _ (2 * N)); [lia|exact Sm])) as (a & b & A & B & E). exists a, b.
  split; [apply within_gamma; assumption|]. split; [apply within_gamma; assumption|exact E].
Qed.

(** ---- Jacobi, both parameters the natural number k ---- *)
Lemma jac_recf_SS m al be X : jac_recf rnd (S (S m)) al be X =
  (do a <- jac_af rnd al be (S m); do b <- jac_bf rnd al be (S m); do p1 <- jac_recf rnd (S m) al be X;
   do c <- jac_cf rnd al be (S m); do p2 <- jac_recf rnd m al be X;
   Ok (rnd (rnd (rnd (rnd (a * X) + b) * p1) - rnd (c * p2)))).
Proof. reflexivity. Qed.
Lemma half2 k : rnd (INR k + INR k) = INR (k + k) -> 1 / 2 * rnd (INR k + INR k) = INR k.
Proof. intros ->. rewrite plus_INR. field. Qed.
Lemma jac_af_ok k n : small (2 * S n + 2 * k) -> exists t, within 3 t /\
  jac_af rnd (INR k) (INR k) (S n) = Ok ((1 + tJ k n) * (s1 k (S n) / s1 k n) * t).
Proof.
  intros Sm. assert (Pk := pos_INR k). assert (Pn := pos_INR n). assert (S1 := s1_pos k n). unfold jac_af. destruct n as [|n]; cbn [Nat.eqb].
  - exists 1. split; [apply within_1; exact Hu|]. f_equal. rewrite half2 by (apply rn_add; unfold small in *; lia). rewrite rn by (unfold small in *; lia).
    change 1 with (INR 1) at 1. rewrite rn_add by (unfold small in *; lia). rewrite s1_S, s1_0, tJ_0, plus_INR. cbn [INR]. field.
  - rewrite rn_mul2 by (unfold small in *; lia). rewrite !(rn_add _ k) by (unfold small in *; lia).
    replace (2 * S (S n) + k + k)%nat with (2 * S (S n) + 2 * k)%nat by lia. rewrite rn_sub1 by (unfold small in *; lia).
    set (N1 := INR (2 * S (S n) + 2 * k - 1)). set (N2 := INR (2 * S (S n) + 2 * k)). set (D1 := INR (2 * S (S n))). set (D2 := INR (S (S n) + k + k)).
    rw (N1 * N2) t1 W1. rw (D1 * D2) t2 W2. assert (P1 := within_pos u Hu _ _ W1). assert (P2 := within_pos u Hu _ _ W2).
    assert (Q1 : D1 <> 0) by (apply not_0_INR; lia). assert (Q2 : D2 <> 0) by (apply not_0_INR; lia).
    destruct (rdivf_w (N1 * N2 * t1) (D1 * D2 * t2)) as (t3 & W3 & ->); [repeat apply Rmult_integral_contrapositive_currified; lra|].
    exists (t1 * (/ t2 * t3)). split; [repeat apply (within_mul u Hu 1); try assumption; apply within_inv; assumption|]. f_equal.
    rewrite (s1_S k (S n)). unfold tJ, N1, N2, D1, D2 in *. rewrite minus_INR in * by lia. rewrite ?plus_INR, ?mult_INR, ?plus_INR, ?S_INR in *. cbn [INR] in *. field.
    repeat split; lra.
Qed.
Lemma jac_bf_ok k n : small (2 * S n + 2 * k) -> jac_bf rnd (INR k) (INR k) (S n) = Ok 0.
Proof.
  intros Sm. assert (Z := rnd_0 u Hu rnd Hr). unfold jac_bf. destruct n as [|n]; cbn [Nat.eqb].
  - replace (INR k - INR k) with 0 by ring. rewrite Z, Rmult_0_r, Z. reflexivity.
  - replace (rnd (INR k * INR k) - rnd (INR k * INR k)) with 0 by ring. rewrite Z, Rmult_0_l, Z.
    rewrite rn_mul2 by (unfold small in *; lia). rewrite !(rn_add _ k) by (unfold small in *; lia).
    replace (2 * S (S n) + k + k)%nat with (2 * S (S n) + 2 * k)%nat by lia. rewrite rn_sub2 by (unfold small in *; lia).
    set (A := INR (2 * S (S n))). set (B := INR (S (S n) + k + k)). set (C := INR (2 * S (S n) + 2 * k - 2)).
    rw (A * B) t1 W1. rw (A * B * t1 * C) t2 W2. apply within_pos in W1; [|exact Hu]. apply within_pos in W2; [|exact Hu].
    destruct (rdivf_w 0 (A * B * t1 * C * t2)) as (t3 & _ & ->).
    + assert (A <> 0) by (apply not_0_INR; lia). assert (B <> 0) by (apply not_0_INR; lia). assert (C <> 0) by (apply not_0_INR; lia). repeat apply Rmult_integral_contrapositive_currified; lra.
    + f_equal. unfold Rdiv. ring.
Qed.
Lemma jac_cf_ok k n : small (2 * S n + 2 * k) -> exists t, within 5 t /\
  jac_cf rnd (INR k) (INR k) (S n) = Ok (tJ k n * (s1 k (S n) / sJ k n) * t).
Proof.
  intros Sm. assert (Pk := pos_INR k). assert (Pn := pos_INR n). assert (S1 := s1_pos k n). unfold jac_cf. destruct n as [|n]; cbn [Nat.eqb sJ].
  - exists 1. split; [apply within_1; exact Hu|]. rewrite tJ_0. f_equal. ring.
  - rewrite rn_mul2 by (unfold small in *; lia). rewrite !(rn_add _ k) by (unfold small in *; lia).
    replace (2 * S (S n) + k + k)%nat with (2 * S (S n) + 2 * k)%nat by lia. rewrite rn_sub2 by (unfold small in *; lia). rewrite rn_sub1 by (unfold small in *; lia).
    set (A := INR (S (S n) + k - 1)). set (B := INR (2 * S (S n) + 2 * k)). set (C := INR (S (S n))). set (D := INR (S (S n) + k + k)). set (E := INR (2 * S (S n) + 2 * k - 2)).
    rw (A * A) t1 W1. rw (A * A * t1 * B) t2 W2. rw (C * D) t3 W3. rw (C * D * t3 * E) t4 W4.
    assert (P3 := within_pos u Hu _ _ W3). assert (P4 := within_pos u Hu _ _ W4).
    assert (Q1 : C <> 0) by (apply not_0_INR; lia). assert (Q2 : D <> 0) by (apply not_0_INR; lia). assert (Q3 : E <> 0) by (apply not_0_INR; lia).
    destruct (rdivf_w (A * A * t1 * B * t2) (C * D * t3 * E * t4)) as (t5 & W5 & ->); [repeat apply Rmult_integral_contrapositive_currified; lra|].
    exists (t1 * (t2 * (/ t3 * (/ t4 * t5)))). split; [repeat apply (within_mul u Hu 1); try assumption; apply within_inv; assumption|]. f_equal.
    assert (S0 := s1_pos k n). rewrite (s1_S k (S n)), (s1_S k n). unfold tJ, A, B, C, D, E in *. rewrite !minus_INR in * by lia. rewrite ?plus_INR, ?mult_INR, ?plus_INR, ?S_INR in *. cbn [INR] in *. assert (Pn' := pos_INR n). field.
    repeat split; lra.
Qed.
Lemma jac_recf_ok k X M : small (2 * M + 2 * k) -> forall m, (m <= M)%nat -> (exists v, jac_recf rnd m (INR k) (INR k) X = Ok v) /\ (exists v, jac_recf rnd (S m) (INR k) (INR k) X = Ok v).
Proof.
  intros Sm. induction m as [|m IH]; intros L; [split; eexists; reflexivity|]. destruct (IH ltac:(lia)) as (( v0 & E0) & (v1 & E1)). split; [eexists; exact E1|]. rewrite jac_recf_SS.
  assert (Sm' : small (2 * S m + 2 * k)) by (apply (small_le _ (2 * M + 2 * k)); [lia|exact Sm]).
  destruct (jac_af_ok k m Sm') as (ta & _ & ->). rewrite (jac_bf_ok k m Sm'). cbn [bind]. rewrite E1. cbn [bind]. destruct (jac_cf_ok k m Sm') as (tc & _ & ->). cbn [bind].
  rewrite E0. cbn [bind]. eexists. reflexivity.
Qed.
Definition hJ (k : nat) (X : R) (m : nat) : R := val (jac_recf rnd m (INR k) (INR k) X) / sJ k m.
Lemma hJ_ok k X M m : small (2 * M + 2 * k) -> (m <= S M)%nat -> jac_recf rnd m (INR k) (INR k) X = Ok (sJ k m * hJ k X m).
Proof.
  intros Sm L. unfold hJ. assert (P := sJ_pos k m). assert (E : exists v, jac_recf rnd m (INR k) (INR k) X = Ok v).
  { destruct m as [|m]; [eexists; reflexivity|]. apply (jac_recf_ok k X M Sm m). lia. }
  destruct E as (v & ->). cbn [val]. f_equal. field. lra.
Qed.
Lemma hJ_S k X n : small (2 * S n + 2 * k) -> exists a b, within 7 a /\ within 7 b /\
  hJ k X (S (S n)) = (1 + tJ k n) * X * hJ k X (S n) * a - tJ k n * hJ k X n * b.
Proof.
  intros Sm. assert (E := hJ_ok k X (S n) (S (S n)) Sm ltac:(lia)). rewrite jac_recf_SS in E.
  destruct (jac_af_ok k n Sm) as (ta & Wa & Ea). destruct (jac_cf_ok k n Sm) as (tc & Wc & Ec). rewrite Ea, (jac_bf_ok k n Sm), Ec in E. cbn [bind] in E.
  rewrite (hJ_ok k X (S n) (S n) Sm), (hJ_ok k X (S n) n Sm) in E by lia. cbn [bind] in E. apply ok_inj in E.
  cbn [sJ] in E. assert (P1 := s1_pos k n). assert (P2 := s1_pos k (S n)). assert (P0 := sJ_pos k n).
  set (q := s1 k (S n)) in *. set (p := s1 k n) in *. set (o := sJ k n) in *. set (T := tJ k n) in *. set (h1 := hJ k X (S n)) in *. set (h0 := hJ k X n) in *.
  revert E. rw ((1 + T) * (q / p) * ta * X) t1 W1. rewrite Rplus_0_r. rw ((1 + T) * (q / p) * ta * X * t1) t2 W2.
  rw ((1 + T) * (q / p) * ta * X * t1 * t2 * (p * h1)) t3 W3. rw (T * (q / o) * tc * (o * h0)) t4 W4.
  rw ((1 + T) * (q / p) * ta * X * t1 * t2 * (p * h1) * t3 - T * (q / o) * tc * (o * h0) * t4) t5 W5. intros E.
  exists (ta * (t1 * (t2 * (t3 * t5)))), (tc * (t4 * t5)). split; [|split].
  - apply (within_mul u Hu 3 4); [exact Wa|]. repeat apply (within_mul u Hu 1); assumption.
  - apply (within_mul u Hu 5 2); [exact Wc|]. apply (within_mul u Hu 1); assumption.
  - apply Rmult_eq_reg_l with q; [|lra]. rewrite <- E. field. lra.
Qed.
Theorem jacobi_evalf_err k N X : -1 <= X <= 1 -> small (2 * N + 2 * k) -> INR 7 * u < 1 -> 3 * gamma u 7 * (INR N * (INR N + 1)) <= 1 ->
  forall n, (n <= N)%nat -> exists e, jacobi_evalf rnd n (INR k) (INR k) X = Ok (s1 k n * (qJ k X (S n) + e)) /\
  Rabs e <= 3 * gamma u 7 * (INR n * (INR n + 1)) /\
  (1 - X * X) * (e * e) <= (6 * gamma u 7 * INR n) * (6 * gamma u 7 * INR n).
Proof.
  intros HX Sm H7 HN n L. exists (hJ k X (S n) - qJ k X (S n)). split.
  - unfold jacobi_evalf. rewrite (hJ_ok k X N (S n) Sm) by lia. f_equal. cbn [sJ]. ring.
  - apply (error_bound (tJ k) X (tJ_range k) HX (qJ k X) (qJ_0 k X) (qJ_1 k X) (tJ_0 k) (qJ_S k X) N (hJ k X) (gamma u 7) (gamma_nonneg u Hu 7 H7)); [| | |exact HN|exact L].
    + unfold hJ. cbn. field.
    + unfold hJ. cbn. rewrite s1_0. field.
    + intros m Hm. destruct (hJ_S k X m ltac:(apply (small_le _ (2 * N + 2 * k)); [lia|exact Sm])) as (a & b & A & B & E). exists a, b.
      split; [apply within_gamma; assumption|]. split; [apply within_gamma; assumption|exact E].
Qed.
End Rounded.
