(** Weighted integration functional, norms, and the Golub-Welsch argument. *)
From Coq Require Import List Reals NArith Arith Lia Lra.
From Coquelicot Require Import Coquelicot.
Require Import Verif.Base Verif.RBase Verif.RSum Verif.RDer Verif.Poly Verif.Jacobi_Math Verif.Jacobi_Int
  Verif.Model_Poly Verif.Spec_Poly Verif.Proof_Poly.
Open Scope R_scope.

Lemma isp_integrable f : isp f -> ex_RInt f (-1) 1.
Proof.
  intros (n & H). destruct (poly_derivable n f H) as (g & _ & Hg). apply (ex_RInt_continuous f). intros x _.
  apply continuity_pt_filterlim. apply derivable_continuous_pt. exists (g x). apply Hg.
Qed.
Lemma isp_wt a b : isp (wt a b).
Proof.
  unfold wt. apply isp_mul.
  - induction a as [|a IH]; [exists 1%nat; apply (poly_const 1 1); lia|].
    apply (isp_ext (fun x => (1 - x) ^ a + -1 * (x * (1 - x) ^ a))); [intros; cbn; ring|].
    apply isp_add; [exact IH|]. apply isp_scal, isp_mulX. exact IH.
  - induction b as [|b IH]; [exists 1%nat; apply (poly_const 1 1); lia|].
    apply (isp_ext (fun x => (1 + x) ^ b + x * (1 + x) ^ b)); [intros; cbn; ring|].
    apply isp_add; [exact IH|]. apply isp_mulX. exact IH.
Qed.

Definition Lw (a b : nat) (f : R -> R) : R := RInt (fun x => wt a b x * f x) (-1) 1.
Lemma Lw_ext a b f g : (forall x, f x = g x) -> Lw a b f = Lw a b g.
Proof. intros E. unfold Lw. apply RInt_ext. intros x _. rewrite E. reflexivity. Qed.
Lemma Lw_is a b f : isp f -> is_RInt (fun x => wt a b x * f x) (-1) 1 (Lw a b f).
Proof. intros H. apply (RInt_correct (fun x => wt a b x * f x)). apply isp_integrable. apply isp_mul; [apply isp_wt|exact H]. Qed.
Lemma Lw_add a b f g : isp f -> isp g -> Lw a b (fun x => f x + g x) = Lw a b f + Lw a b g.
Proof.
  intros Hf Hg. unfold Lw at 1. apply is_RInt_unique.
  eapply is_RInt_ext; [|exact (is_RInt_plus _ _ _ _ _ _ (Lw_is a b f Hf) (Lw_is a b g Hg))].
  intros x _. cbv beta. unfold plus. cbn. ring.
Qed.
Lemma Lw_scal a b c f : isp f -> Lw a b (fun x => c * f x) = c * Lw a b f.
Proof.
  intros Hf. unfold Lw at 1. apply is_RInt_unique.
  eapply is_RInt_ext; [|exact (is_RInt_scal _ _ _ c _ (Lw_is a b f Hf))].
  intros x _. cbv beta. unfold scal. cbn. unfold mult. cbn. ring.
Qed.
Lemma Lw_zero a b f : (forall x, f x = 0) -> Lw a b f = 0.
Proof.
  intros E. rewrite (Lw_ext a b f (fun x => 0 * f x)) by (intros x; rewrite E; ring).
  rewrite Lw_scal; [ring|]. exists 0%nat, (fun _ => 0). intros x. rewrite E. reflexivity.
Qed.
Lemma Lw_sum a b n (F : nat -> R -> R) : (forall i, isp (F i)) -> Lw a b (fun x => rsum n (fun i => F i x)) = rsum n (fun i => Lw a b (F i)).
Proof.
  intros H. induction n as [|n IH]; cbn [rsum]; [apply Lw_zero; reflexivity|].
  rewrite Lw_add; [rewrite IH; reflexivity|apply isp_sum; exact H|apply H].
Qed.

(** recurrence coefficients and the family, shifted by one (u 0 = 0, u 1 = P_0, ...) *)
Definition gA (al be : R) (n : nat) : R := if Nat.eqb n 1 then 1 / 2 * (al + be) + 1 else cA al be (INR n).
Definition gB (al be : R) (n : nat) : R := if Nat.eqb n 1 then 1 / 2 * (al - be) else cB al be (INR n).
Definition gC (al be : R) (n : nat) : R := if Nat.eqb n 1 then 0 else cC al be (INR n).
Definition uP (a b m : nat) (x : R) : R := match m with O => 0 | S n => jN a b n x end.
Lemma sum_pos a b : 0 <= INR a + INR b.
Proof. assert (P := pos_INR a). assert (Q := pos_INR b). lra. Qed.
Lemma uP_rec a b n x : uP a b (S (S n)) x =
  (gA (INR a) (INR b) (S n) * x + gB (INR a) (INR b) (S n)) * uP a b (S n) x - gC (INR a) (INR b) (S n) * uP a b n x.
Proof.
  unfold uP, gA, gB, gC, jN. destruct n as [|n]; cbn [Nat.eqb].
  - rewrite jP_1, jP_0. field.
  - assert (P := sum_pos a b). assert (0 <= INR n) by apply pos_INR. apply jP_rec; rewrite !S_INR; lra.
Qed.
Lemma isp_uP a b m : isp (uP a b m).
Proof.
  destruct m as [|n]; cbn [uP]; [exists 0%nat; apply poly_zero|]. apply isp_jP. assert (P := sum_pos a b). lra.
Qed.
Lemma uP_orth a b m k : m <> k -> Lw a b (fun x => uP a b m x * uP a b k x) = 0.
Proof.
  intros H. destruct m as [|n]; [apply Lw_zero; intros; cbn [uP]; ring|].
  destruct k as [|k]; [apply Lw_zero; intros; cbn [uP]; ring|].
  apply is_RInt_unique. apply jacobi_orth. lia.
Qed.
Definition hN (a b n : nat) : R := Lw a b (fun x => uP a b (S n) x * uP a b (S n) x).

Lemma Lw_rec a b n k : 
  Lw a b (fun x => uP a b (S (S n)) x * uP a b k x) =
    gA (INR a) (INR b) (S n) * Lw a b (fun x => x * (uP a b (S n) x * uP a b k x))
    + gB (INR a) (INR b) (S n) * Lw a b (fun x => uP a b (S n) x * uP a b k x)
    - gC (INR a) (INR b) (S n) * Lw a b (fun x => uP a b n x * uP a b k x).
Proof.
  assert (I1 : isp (fun x => uP a b (S n) x * uP a b k x)) by (apply isp_mul; apply isp_uP).
  assert (I2 : isp (fun x => uP a b n x * uP a b k x)) by (apply isp_mul; apply isp_uP).
  assert (I3 := isp_mulX _ I1).
  set (A := gA (INR a) (INR b) (S n)). set (B := gB (INR a) (INR b) (S n)). set (C := gC (INR a) (INR b) (S n)).
  rewrite (Lw_ext a b _ (fun x => (A * (x * (uP a b (S n) x * uP a b k x)) + B * (uP a b (S n) x * uP a b k x)) + (- C) * (uP a b n x * uP a b k x))).
  - rewrite Lw_add, Lw_add, !Lw_scal; auto using isp_add, isp_scal. ring.
  - intros x. rewrite uP_rec. fold A B C. ring.
Qed.
Lemma hN_rec a b n : gA (INR a) (INR b) (S (S n)) * hN a b (S n) = gA (INR a) (INR b) (S n) * gC (INR a) (INR b) (S (S n)) * hN a b n.
Proof.
  assert (E1 := Lw_rec a b n (S (S n))). rewrite (uP_orth a b (S n) (S (S n))), (uP_orth a b n (S (S n))) in E1 by lia. fold (hN a b (S n)) in E1.
  assert (E2 := Lw_rec a b (S n) (S n)). rewrite (uP_orth a b (S (S (S n))) (S n)), (uP_orth a b (S (S n)) (S n)) in E2 by lia.
  fold (hN a b n) in E2.
  rewrite (Lw_ext a b (fun x => x * (uP a b (S (S n)) x * uP a b (S n) x)) (fun x => x * (uP a b (S n) x * uP a b (S (S n)) x))) in E2 by (intros; ring).
  rewrite E1. set (A := gA _ _ (S n)) in *. set (A' := gA _ _ (S (S n))) in *. set (C := gC _ _ (S (S n))) in *.
  set (X := Lw a b (fun x => x * _)) in *.
  transitivity (A * (A' * X)); [ring|]. replace (A' * X) with (C * hN a b n) by lra. ring.
Qed.

(** Legendre: squared norm *)
Lemma lP_norm n : integral (fun x => lP n x * lP n x) (2 / (2 * INR n + 1)).
Proof.
  assert (E : hN 0 0 n = 2 / (2 * INR n + 1)).
  { induction n as [|n IH].
    - unfold hN. unfold Lw. apply is_RInt_unique. eapply is_RInt_ext; [|eapply eq_rect; [exact (wt_moment 0 0)|]].
      + intros x _. cbv beta. unfold uP, jN. rewrite jP_0. change (wt 0 0 x = wt 0 0 x * (1 * 1)). ring.
      + cbn. field.
    - assert (H := hN_rec 0 0 n). rewrite IH in H. assert (0 <= INR n) by apply pos_INR.
      assert (EA : gA (INR 0) (INR 0) (S (S n)) = (2 * INR n + 3) / (INR n + 2)).
      { unfold gA, cA. cbn [Nat.eqb]. change (INR 0) with 0. rewrite !S_INR. field. lra. }
      assert (EC : gC (INR 0) (INR 0) (S (S n)) = (INR n + 1) / (INR n + 2)).
      { unfold gC, cC. cbn [Nat.eqb]. change (INR 0) with 0. rewrite !S_INR. field. lra. }
      assert (EA1 : gA (INR 0) (INR 0) (S n) = (2 * INR n + 1) / (INR n + 1)).
      { destruct n as [|n]; unfold gA, cA; cbn [Nat.eqb]; change (INR 0) with 0; [field|]. rewrite !S_INR in *. field. lra. }
      rewrite EA, EC, EA1 in H. apply (Rmult_eq_reg_l ((2 * INR n + 3) / (INR n + 2))).
      + rewrite H. rewrite S_INR. field. lra.
      + apply Rgt_not_eq. apply Rdiv_lt_0_compat; lra. }
  rewrite <- E. unfold integral. eapply is_RInt_ext; [|apply (Lw_is 0 0 (fun x => uP 0 0 (S n) x * uP 0 0 (S n) x)); apply isp_mul; apply isp_uP].
  intros x _. cbv beta. unfold wt. cbn [pow]. change (1 * 1 * (lP n x * lP n x) = lP n x * lP n x). ring.
Qed.
