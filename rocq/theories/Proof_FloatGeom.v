(** Proofs about determinants, inverses, Jacobians and volumes in rounded arithmetic. *)
From Coq Require Import Reals List Arith Lra Lia.
Import ListNotations.
Require Import Verif.Base Verif.RBase Verif.RSum Verif.NatSum Verif.Spec_Mat Verif.Det Verif.Model_Jac Verif.Proof_Jac Verif.Model_Vol Verif.Spec_Vol Verif.Proof_Vol
  Verif.Spec_Float Verif.Float_Base Verif.Model_FloatLagrange Verif.Spec_FloatGeom Verif.Model_FloatGeom.
Open Scope R_scope.

Section FG.
Context (u : R) (Hu : 0 <= u < 1) (rnd : R -> R) (Hr : rounds u rnd).

(** xf is x up to the relative error of k roundings of quantities of size a *)
Definition gk (k : nat) : R := / (1 - u) ^ k - 1.
Definition ap (k : nat) (a x xf : R) : Prop := Rabs (xf - x) <= gk k * a /\ Rabs x <= a.

Lemma gk0 k : 0 <= gk k.
Proof. unfold gk. assert (H := pw_ge1 u Hu k). lra. Qed.
Lemma gk_le k l : (k <= l)%nat -> gk k <= gk l.
Proof.
  intros H. unfold gk. replace l with (k + (l - k))%nat by lia. rewrite pow_add. assert (P1 := pw_pos u Hu k). assert (P2 := pw_pos u Hu (l - k)).
  rewrite Rinv_mult. assert (G := pw_ge1 u Hu (l - k)). assert (I : 0 < / (1 - u) ^ k) by (apply Rinv_0_lt_compat; exact P1). nra.
Qed.
Lemma gk_mul k l : (1 + gk k) * (1 + gk l) = 1 + gk (k + l).
Proof. unfold gk. rewrite pow_add, Rinv_mult. ring. Qed.
Lemma gk_gamma k : INR k * u < 1 -> gk k <= gamma u k.
Proof. intros H. apply gamma_pow; assumption. Qed.
Lemma ap_a0 k a x xf : ap k a x xf -> 0 <= a.
Proof. intros (_ & H). assert (P := Rabs_pos x). lra. Qed.
Lemma ap_le k l a x xf : (k <= l)%nat -> ap k a x xf -> ap l a x xf.
Proof. intros H A. assert (P := ap_a0 _ _ _ _ A). destruct A as (A & B). split; [|exact B]. assert (G := gk_le k l H). nra. Qed.
Lemma ap_a k a b x xf : a <= b -> ap k a x xf -> ap k b x xf.
Proof. intros H (A & B). assert (G := gk0 k). split; [nra|lra]. Qed.
Lemma ap_var x : ap 0 (Rabs x) x x.
Proof. split; [|lra]. unfold gk. cbn [pow]. rewrite Rinv_1. replace (x - x) with 0 by ring. rewrite Rabs_R0. lra. Qed.
Lemma ap_opp k a x xf : ap k a x xf -> ap k a (- x) (- xf).
Proof. intros (A & B). split; [|rewrite Rabs_Ropp; exact B]. replace (- xf - - x) with (- (xf - x)) by ring. rewrite Rabs_Ropp. exact A. Qed.
Lemma ap_bound k a x xf : ap k a x xf -> Rabs xf <= (1 + gk k) * a.
Proof. intros (A & B). replace xf with ((xf - x) + x) by ring. assert (T := Rabs_triang (xf - x) x). lra. Qed.
Lemma ap_rnd k a x xf : ap k a x xf -> ap (S k) a x (rnd xf).
Proof.
  intros A. assert (C := ap_bound _ _ _ _ A). assert (P := ap_a0 _ _ _ _ A). destruct A as (A & B). split; [|exact B].
  destruct (Hr xf) as (d & D & ->). replace (xf * (1 + d) - x) with ((xf - x) + xf * d) by ring.
  assert (T := Rabs_triang (xf - x) (xf * d)). rewrite Rabs_mult in T.
  assert (Q : Rabs xf * Rabs d <= (1 + gk k) * a * u) by (apply Rmult_le_compat; try apply Rabs_pos; assumption).
  assert (E : gk k + (1 + gk k) * u <= gk (S k)).
  { replace (S k) with (k + 1)%nat by lia. assert (G := gk_mul k 1). assert (U : u <= gk 1).
    { unfold gk. cbn [pow]. rewrite Rmult_1_r. apply Rmult_le_reg_r with (1 - u); [lra|]. rewrite Rmult_minus_distr_r, Rinv_l by lra. nra. }
    assert (K := gk0 k). nra. }
  nra.
Qed.
Lemma ap_add k l a b x y xf yf : ap k a x xf -> ap l b y yf -> ap (S (Nat.max k l)) (a + b) (x + y) (rnd (xf + yf)).
Proof.
  intros H1 H2. apply ap_rnd. apply (ap_le _ (Nat.max k l)) in H1; [|lia]. apply (ap_le _ (Nat.max k l)) in H2; [|lia].
  destruct H1 as (A1 & B1), H2 as (A2 & B2). split.
  - replace (xf + yf - (x + y)) with ((xf - x) + (yf - y)) by ring. assert (T := Rabs_triang (xf - x) (yf - y)). lra.
  - assert (T := Rabs_triang x y). lra.
Qed.
Lemma ap_sub k l a b x y xf yf : ap k a x xf -> ap l b y yf -> ap (S (Nat.max k l)) (a + b) (x - y) (rnd (xf - yf)).
Proof. intros H1 H2. apply (ap_add k l a b x (- y) xf (- yf) H1). apply ap_opp. exact H2. Qed.
Lemma ap_mul0 k l a b x y xf yf : ap k a x xf -> ap l b y yf -> ap (k + l) (a * b) (x * y) (xf * yf).
Proof.
  intros H1 H2. assert (C1 := ap_bound _ _ _ _ H1). assert (P1 := ap_a0 _ _ _ _ H1). assert (P2 := ap_a0 _ _ _ _ H2). destruct H1 as (A1 & B1), H2 as (A2 & B2). split.
  - replace (xf * yf - x * y) with (xf * (yf - y) + (xf - x) * y) by ring. assert (T := Rabs_triang (xf * (yf - y)) ((xf - x) * y)). rewrite !Rabs_mult in T.
    assert (Q1 : Rabs xf * Rabs (yf - y) <= ((1 + gk k) * a) * (gk l * b)) by (apply Rmult_le_compat; try apply Rabs_pos; assumption).
    assert (Q2 : Rabs (xf - x) * Rabs y <= (gk k * a) * b) by (apply Rmult_le_compat; try apply Rabs_pos; assumption).
    assert (G := gk_mul k l). replace (gk (k + l)) with ((1 + gk k) * (1 + gk l) - 1) by lra. nra.
  - rewrite Rabs_mult. apply Rmult_le_compat; try apply Rabs_pos; assumption.
Qed.
Lemma ap_mul k l a b x y xf yf : ap k a x xf -> ap l b y yf -> ap (S (k + l)) (a * b) (x * y) (rnd (xf * yf)).
Proof. intros H1 H2. apply ap_rnd. apply ap_mul0; assumption. Qed.
Lemma ap_err k a x xf : INR k * u < 1 -> ap k a x xf -> Rabs (xf - x) <= gamma u k * a.
Proof. intros K A. assert (P := ap_a0 _ _ _ _ A). destruct A as (A & _). assert (G := gk_gamma k K). nra. Qed.
Lemma ap_sum n k (a p pf : nat -> R) : (forall v, (v < n)%nat -> ap k (a v) (p v) (pf v)) ->
  ap (n + k) (rsum n a) (rsum n p) (fold_up n (fun v s => rnd (s + pf v)) 0).
Proof.
  induction n as [|n IH]; intros H; cbn [rsum fold_up].
  - split; [replace (0 - 0) with 0 by ring; rewrite Rabs_R0; lra|rewrite Rabs_R0; lra].
  - eapply ap_le; [|apply ap_add; [apply IH; intros; apply H; lia|apply H; lia]]. lia.
Qed.

(** a quotient by a perturbed divisor *)
Lemma ap_quot k C c N d df e : ap k C c N -> Rabs (df - d) <= e -> e < Rabs d ->
  df <> 0 /\ Rabs (N / df - c / d) <= (gk k + e / Rabs d) / (1 - e / Rabs d) * (C / Rabs d).
Proof.
  intros A D L. assert (P := ap_a0 _ _ _ _ A). destruct A as (A & B).
  assert (Pd : 0 < Rabs d) by (assert (Q := Rabs_pos (df - d)); lra).
  assert (Nd : d <> 0) by (intros E; rewrite E, Rabs_R0 in Pd; lra).
  assert (F : Rabs d - e <= Rabs df) by (assert (T := Rabs_triang (d - df) df); replace (d - df + df) with d in T by ring; rewrite (Rabs_minus_sym d df) in T; lra).
  assert (Nf : df <> 0) by (intros E; rewrite E, Rabs_R0 in F; lra).
  split; [exact Nf|].
  replace (N / df - c / d) with (((N - c) * d - c * (df - d)) / (df * d)) by (field; split; assumption).
  unfold Rdiv at 1. rewrite Rabs_mult, Rabs_inv, Rabs_mult.
  assert (T : Rabs ((N - c) * d - c * (df - d)) <= gk k * C * Rabs d + C * e).
  { unfold Rminus at 1. assert (T := Rabs_triang ((N - c) * d) (- (c * (df - d)))). rewrite Rabs_Ropp, !Rabs_mult in T.
    assert (Q1 : Rabs (N - c) * Rabs d <= gk k * C * Rabs d) by (apply Rmult_le_compat_r; lra).
    assert (Q2 : Rabs c * Rabs (df - d) <= C * e) by (apply Rmult_le_compat; try apply Rabs_pos; assumption). lra. }
  assert (E : (gk k + e / Rabs d) / (1 - e / Rabs d) * (C / Rabs d) = (gk k * C * Rabs d + C * e) * / ((Rabs d - e) * Rabs d)) by (field; lra).
  rewrite E. apply Rmult_le_compat; [apply Rabs_pos|apply Rlt_le, Rinv_0_lt_compat; apply Rmult_lt_0_compat; lra|exact T|].
  apply Rinv_le_contravar; [apply Rmult_lt_0_compat; lra|apply Rmult_le_compat_r; lra].
Qed.
End FG.

Ltac ap_step := first [apply ap_mul | apply ap_sub | apply ap_add | apply ap_opp | apply ap_var]; try assumption.
