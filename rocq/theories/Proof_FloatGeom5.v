(** Two and four dimensions, point tables, volume tables. *)
From Coq Require Import Reals List Arith Lra Lia.
Import ListNotations.
Require Import Verif.Base Verif.RBase Verif.RSum Verif.NatSum Verif.Spec_Mat Verif.Det Verif.Model_Jac Verif.Proof_Jac
  Verif.Spec_Float Verif.Float_Base Verif.Model_FloatLagrange Verif.Spec_FloatGeom Verif.Model_FloatGeom Verif.Proof_FloatGeom Verif.Proof_FloatGeom2 Verif.Proof_FloatGeom3.
Open Scope R_scope.

Section FG5.
Context (u : R) (Hu : 0 <= u < 1) (rnd : R -> R) (Hr : rounds u rnd).
Notation ap := (ap u).

Lemma inverse2_err J C : det2 J <> 0 -> 2 * u < 1 -> is_inverse 2 J C -> let e := gamma u 2 * (perm 2 J / Rabs (det2 J)) in e < 1 ->
  exists B, jacobian_inverse_2df rnd J = Ok B /\ forall i j, (i < 2)%nat -> (j < 2)%nat ->
    Rabs (B i j - C i j) <= (gamma u 1 + e) / (1 - e) * (Rabs (without J j i 0%nat 0%nat) / Rabs (det2 J)).
Proof.
  intros D H2 HC e He. assert (Pd : 0 < Rabs (det2 J)) by (apply Rabs_pos_lt; exact D).
  assert (E := det2_err u Hu rnd Hr J H2). set (df := rnd (rnd (J 0%nat 0%nat * J 1%nat 1%nat) - rnd (J 0%nat 1%nat * J 1%nat 0%nat))) in *.
  assert (Ee : gamma u 2 * perm 2 J = e * Rabs (det2 J)) by (unfold e; field; lra).
  assert (L : gamma u 2 * perm 2 J < Rabs (det2 J)) by (rewrite Ee; nra).
  assert (Eq : gamma u 2 * perm 2 J / Rabs (det2 J) = e) by (unfold e; field; lra).
  assert (Nf : df <> 0) by (apply (ap_quot u 0 (Rabs 0) 0 0 (det2 J) df _ (ap_var u 0) E L)).
  destruct (inverse_2d_ok J D) as (Bx & E1 & I).
  unfold jacobian_inverse_2df. fold df. cbv zeta. unfold rdivf. destruct (Req_EM_T df 0) as [Z|_]; [contradiction|]. cbn [bind]. eexists. split; [reflexivity|].
  unfold jacobian_inverse_2d in E1. fold (det2 J) in E1. cbv zeta in E1. rewrite !rdiv_ok in E1 by exact D. cbn [bind] in E1. injection E1 as E1.
  intros i j Hi Hj. rewrite <- (inverse_unique 2 J Bx C I HC i j Hi Hj), <- E1.
  assert (G : forall x c, (x = c \/ x = - c) -> Rabs (rnd (x / df) - x / det2 J) <= (gamma u 1 + e) / (1 - e) * (Rabs c / Rabs (det2 J))).
  { intros x c Hx. assert (Ex : Rabs x = Rabs c) by (destruct Hx as [-> | ->]; [reflexivity|apply Rabs_Ropp]). rewrite <- Ex.
    destruct (Hr (x / df)) as (d & Dd & ->). replace (x / df * (1 + d)) with (x * (1 + d) / df) by (field; exact Nf).
    assert (A : ap 1 (Rabs x) x (x * (1 + d))).
    { split; [|lra]. replace (x * (1 + d) - x) with (x * d) by ring. rewrite Rabs_mult, (Rmult_comm (gk u 1)). apply Rmult_le_compat_l; [apply Rabs_pos|].
      assert (W := within_delta u Hu d Dd). apply (within_err u Hu) in W. unfold gk. replace (1 + d - 1) with d in W by ring. exact W. }
    destruct (ap_quot u 1 _ _ _ _ _ _ A E L) as (_ & Q). rewrite Eq in Q. eapply Rle_trans; [exact Q|].
    apply Rmult_le_compat_r; [apply Rmult_le_pos; [apply Rabs_pos|apply Rlt_le, Rinv_0_lt_compat; exact Pd]|].
    unfold Rdiv. apply Rmult_le_compat_r; [apply Rlt_le, Rinv_0_lt_compat; lra|].
    assert (K := gk_gamma u Hu 1 ltac:(cbn [INR]; lra)). lra. }
  destruct i as [|[|i]]; [| |lia]; (destruct j as [|[|j]]; [| |lia]); unfold rows; cbn [nth]; unfold without, skip; cbn [Nat.ltb Nat.leb]; apply G; auto.
Qed.

Lemma perm4_eq A : perm 4 A = snd (jacobian_4d 0 0 A A (mabs A)) + 2 * (
     Rabs (A 0%nat 2%nat) * Rabs (A 1%nat 3%nat) * Rabs (A 2%nat 1%nat) * Rabs (A 3%nat 0%nat)
   + Rabs (A 0%nat 3%nat) * Rabs (A 1%nat 1%nat) * Rabs (A 2%nat 2%nat) * Rabs (A 3%nat 0%nat)
   + Rabs (A 0%nat 1%nat) * Rabs (A 1%nat 2%nat) * Rabs (A 2%nat 3%nat) * Rabs (A 3%nat 0%nat)
   + Rabs (A 0%nat 3%nat) * Rabs (A 1%nat 2%nat) * Rabs (A 2%nat 0%nat) * Rabs (A 3%nat 1%nat)
   + Rabs (A 0%nat 0%nat) * Rabs (A 1%nat 3%nat) * Rabs (A 2%nat 2%nat) * Rabs (A 3%nat 1%nat)
   + Rabs (A 0%nat 2%nat) * Rabs (A 1%nat 0%nat) * Rabs (A 2%nat 3%nat) * Rabs (A 3%nat 1%nat)
   + Rabs (A 0%nat 1%nat) * Rabs (A 1%nat 3%nat) * Rabs (A 2%nat 0%nat) * Rabs (A 3%nat 2%nat)
   + Rabs (A 0%nat 3%nat) * Rabs (A 1%nat 0%nat) * Rabs (A 2%nat 1%nat) * Rabs (A 3%nat 2%nat)
   + Rabs (A 0%nat 0%nat) * Rabs (A 1%nat 1%nat) * Rabs (A 2%nat 3%nat) * Rabs (A 3%nat 2%nat)
   + Rabs (A 0%nat 2%nat) * Rabs (A 1%nat 1%nat) * Rabs (A 2%nat 0%nat) * Rabs (A 3%nat 3%nat)
   + Rabs (A 0%nat 0%nat) * Rabs (A 1%nat 2%nat) * Rabs (A 2%nat 1%nat) * Rabs (A 3%nat 3%nat)
   + Rabs (A 0%nat 1%nat) * Rabs (A 1%nat 0%nat) * Rabs (A 2%nat 2%nat) * Rabs (A 3%nat 3%nat)).
Proof. unfold jacobian_4d, jac_fill. cbn [fold_up snd]. cbn [perm rsum]. unfold minor0, skip, mabs. cbn. ring. Qed.
Lemma det4_err nv X P J0 J d : jacobian_4df rnd nv 4 X P J0 = (J, d) -> 26 * u < 1 -> Rabs (d - det 4 J) <= gamma u 26 * perm 4 J.
Proof.
  intros H H26. apply (ap_err u Hu 26); [cbn [INR]; lra|]. rewrite det4_formula. unfold jacobian_4d, jacobian_4df, jac_fill in *. cbn [fold_up snd].
  injection H as EJ H. rewrite EJ in H. rewrite <- H. clear H EJ.
  assert (V : forall i j, ap 0 (Rabs (J i j)) (J i j) (J i j)) by (intros; apply ap_var).
  match goal with |- ap _ _ ?x ?y => assert (G : exists k b, (k <= 26)%nat /\ b <= perm 4 J /\ ap k b x y) end.
  { eexists; eexists. split; [|split].
    3: repeat first [apply (ap_mul u Hu rnd Hr) | apply (ap_sub u Hu rnd Hr) | apply (ap_add u Hu rnd Hr) | apply V].
    - cbn [Nat.max Nat.add]. lia.
    - apply Req_le. rewrite perm4_eq. unfold jacobian_4d, jac_fill, mabs. cbn [fold_up snd]. ring. }
  destruct G as (k & b & L & B & G). apply (ap_le u Hu k 26); [exact L|]. apply (ap_a u Hu k b); [exact B|exact G].
Qed.

Lemma perm3_mono A B : (forall i j, (i < 3)%nat -> (j < 3)%nat -> A i j = B i j) -> perm 3 A = perm 3 B.
Proof. intros H. rewrite !perm3_eq. rewrite !H by lia. reflexivity. Qed.

(** a relative error below 1 keeps the sign *)
Lemma sign_keep x xf b : Rabs (xf - x) <= b -> (b < x -> 0 < xf) /\ (x < - b -> xf < 0) /\ (b < xf -> 0 < x) /\ (xf < - b -> x < 0).
Proof. intros H. assert (P := Rle_abs (xf - x)). assert (Q := Rle_abs (- (xf - x))). rewrite Rabs_Ropp in Q. repeat split; lra. Qed.
End FG5.
