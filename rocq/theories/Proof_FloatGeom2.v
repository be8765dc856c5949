(** Determinants, inverses, assembled Jacobians, volumes in rounded arithmetic. *)
From Coq Require Import Reals List Arith Lra Lia.
Import ListNotations.
Require Import Verif.Base Verif.RBase Verif.RSum Verif.NatSum Verif.Spec_Mat Verif.Det Verif.Model_Jac Verif.Proof_Jac Verif.Model_Vol Verif.Spec_Vol Verif.Proof_Vol
  Verif.Spec_Float Verif.Float_Base Verif.Model_FloatLagrange Verif.Spec_FloatGeom Verif.Model_FloatGeom Verif.Proof_FloatGeom.
Open Scope R_scope.

Lemma inverse_unique n A B C : is_inverse n A B -> is_inverse n A C -> mat_eq n B C.
Proof.
  intros (B1 & B2) (C1 & C2) i j Hi Hj.
  (* B = B (A C) = (B A) C = C *)
  assert (E1 : rsum n (fun k => B i k * mmul n A C k j) = B i j).
  { rewrite (rsum_single n j); [|exact Hj|intros k Hk Nk; rewrite C1 by assumption; unfold ident; destruct (Nat.eqb_spec k j); [contradiction|ring]].
    rewrite C1 by assumption. unfold ident. rewrite Nat.eqb_refl. ring. }
  assert (E2 : rsum n (fun k => mmul n B A i k * C k j) = C i j).
  { rewrite (rsum_single n i); [|exact Hi|intros k Hk Nk; rewrite B2 by assumption; unfold ident; destruct (Nat.eqb_spec i k); [congruence|ring]].
    rewrite B2 by assumption. unfold ident. rewrite Nat.eqb_refl. ring. }
  rewrite <- E1, <- E2. unfold mmul.
  rewrite (rsum_ext n (fun k => B i k * rsum n (fun l => A k l * C l j)) (fun k => rsum n (fun l => B i k * A k l * C l j))).
  2: { intros k Hk. rewrite <- rsum_scal_l. apply rsum_ext. intros. ring. }
  rewrite (rsum_ext n (fun k => rsum n (fun l => B i l * A l k) * C k j) (fun k => rsum n (fun l => B i l * A l k * C k j))).
  2: { intros k Hk. rewrite <- rsum_scal_r. apply rsum_ext. intros. ring. }
  rewrite rsum_swap. reflexivity.
Qed.

Section FG2.
Context (u : R) (Hu : 0 <= u < 1) (rnd : R -> R) (Hr : rounds u rnd).
Notation ap := (ap u).

(** ** determinants *)
Lemma perm3_eq A : perm 3 A =
  Rabs (A 0%nat 0%nat) * (Rabs (A 1%nat 1%nat) * Rabs (A 2%nat 2%nat) + Rabs (A 2%nat 1%nat) * Rabs (A 1%nat 2%nat)) +
  Rabs (A 0%nat 1%nat) * (Rabs (A 1%nat 0%nat) * Rabs (A 2%nat 2%nat) + Rabs (A 1%nat 2%nat) * Rabs (A 2%nat 0%nat)) +
  Rabs (A 0%nat 2%nat) * (Rabs (A 1%nat 0%nat) * Rabs (A 2%nat 1%nat) + Rabs (A 1%nat 1%nat) * Rabs (A 2%nat 0%nat)).
Proof. cbn [perm rsum]. unfold minor0, skip. cbn. ring. Qed.
Lemma perm2_eq A : perm 2 A = Rabs (A 0%nat 0%nat) * Rabs (A 1%nat 1%nat) + Rabs (A 1%nat 0%nat) * Rabs (A 0%nat 1%nat).
Proof. cbn [perm rsum]. unfold minor0, skip. cbn. ring. Qed.

Lemma det_ap k (A m mf : mat) : (forall i j, (i < 3)%nat -> (j < 3)%nat -> 0 <= A i j /\ ap k (A i j) (m i j) (mf i j)) ->
  ap (3 * k + 5) (perm 3 A) (det3 m) (det_cofactorf rnd mf).
Proof.
  intros H. rewrite <- det_cofactor_det3, perm3_eq. unfold det_cofactor, det_cofactorf.
  assert (H0 : forall i j, (i < 3)%nat -> (j < 3)%nat -> ap k (Rabs (A i j)) (m i j) (mf i j)).
  { intros i j Hi Hj. destruct (H i j Hi Hj) as (P & Q). rewrite Rabs_pos_eq by exact P. exact Q. }
  eapply (ap_le u Hu); [|repeat (apply (ap_mul u Hu rnd Hr) || apply (ap_sub u Hu rnd Hr) || apply (ap_add u Hu rnd Hr)); apply H0; lia]. lia.
Qed.
Lemma det_err m : 5 * u < 1 -> Rabs (det_cofactorf rnd m - det3 m) <= gamma u 5 * perm 3 m.
Proof.
  intros H5. assert (A := det_ap 0 (fun i j => Rabs (m i j)) m m). rewrite perm3_eq in *. rewrite !Rabs_Rabsolu in A.
  apply (ap_err u Hu 5); [cbn [INR]; lra|]. apply A. intros i j _ _. split; [apply Rabs_pos|apply ap_var].
Qed.

(** ** inverses *)
Lemma mat_inverse_entry m i j : (i < 3)%nat -> (j < 3)%nat -> det3 m <> 0 -> exists B c, mat_inverse m = Ok B /\ B i j = c / det3 m /\
  forall d, det_cofactorf rnd m = d -> d <> 0 -> exists Bf cf, mat_inversef rnd m = Ok Bf /\ Bf i j = rnd (cf * rnd (1 / d)) /\ ap 2 (perm 2 (without m j i)) c cf.
Proof.
  intros Hi Hj D. unfold mat_inverse. rewrite rdiv_ok by (rewrite det_cofactor_det3; exact D). cbn [bind]. rewrite det_cofactor_det3.
  destruct i as [|[|[|i]]]; [| | |lia]; (destruct j as [|[|[|j]]]; [| | |lia]);
    (eexists; eexists; split; [reflexivity|]; split; [unfold rows; cbn [nth]; unfold Rdiv; rewrite Rmult_1_l; reflexivity|];
     intros d Ed Nd; unfold mat_inversef, rdivf; rewrite Ed; destruct (Req_EM_T d 0) as [E|_]; [contradiction|]; cbn [bind];
     eexists; eexists; split; [reflexivity|]; split; [unfold rows; cbn [nth]; reflexivity|];
     rewrite perm2_eq; unfold without, skip; cbn [Nat.ltb Nat.leb];
     match goal with |- ap 2 ?p ?c ?cf => eapply (ap_a u Hu 2 _ p c cf); [|apply (ap_sub u Hu rnd Hr 1 1); apply (ap_mul u Hu rnd Hr 0 0); apply ap_var] end; lra).
Qed.
Lemma inverse_err m C : det3 m <> 0 -> 5 * u < 1 -> is_inverse 3 m C -> let e := gamma u 5 * (perm 3 m / Rabs (det3 m)) in e < 1 ->
  exists B, mat_inversef rnd m = Ok B /\ forall i j, (i < 3)%nat -> (j < 3)%nat ->
    Rabs (B i j - C i j) <= (gamma u 4 + e) / (1 - e) * (perm 2 (without m j i) / Rabs (det3 m)).
Proof.
  intros D H5 HC e He. assert (Pd : 0 < Rabs (det3 m)) by (apply Rabs_pos_lt; exact D).
  assert (E := det_err m H5).
  assert (Ee : gamma u 5 * perm 3 m = e * Rabs (det3 m)) by (unfold e; field; lra).
  assert (L : gamma u 5 * perm 3 m < Rabs (det3 m)) by (rewrite Ee; nra).
  assert (Eq : gamma u 5 * perm 3 m / Rabs (det3 m) = e) by (unfold e; field; lra).
  assert (Nf : det_cofactorf rnd m <> 0).
  { apply (ap_quot u 0 (Rabs 0) 0 0 (det3 m) (det_cofactorf rnd m) _ (ap_var u 0) E L). }
  assert (Ex : exists B, mat_inversef rnd m = Ok B).
  { unfold mat_inversef, rdivf. destruct (Req_EM_T (det_cofactorf rnd m) 0) as [Z|_]; [contradiction|]. cbn [bind]. eexists. reflexivity. }
  destruct Ex as (B & EB). exists B. split; [exact EB|]. intros i j Hi Hj.
  destruct (mat_inverse_entry m i j Hi Hj D) as (Bx & c & E1 & E2 & E3). destruct (E3 _ eq_refl Nf) as (Bf & cf & E4 & E5 & A). rewrite EB in E4. injection E4 as ->.
  destruct (mat_inverse_ok m D) as (Bx' & E1' & I). rewrite E1 in E1'. injection E1' as <-.
  rewrite <- (inverse_unique 3 m Bx C I HC i j Hi Hj), E2, E5.
  destruct (Hr (1 / det_cofactorf rnd m)) as (d1 & D1 & ->). destruct (Hr (cf * (1 / det_cofactorf rnd m * (1 + d1)))) as (d2 & D2 & ->).
  assert (A4 : ap 4 (perm 2 (without m j i)) c (cf * (1 + d1) * (1 + d2))).
  { assert (T : forall d, Rabs d <= u -> ap 1 1 1 (1 + d)).
    { intros d Hd. split; [|rewrite Rabs_R1; lra]. assert (W := within_delta u Hu d Hd). apply (within_err u Hu) in W. unfold gk. lra. }
    replace (perm 2 (without m j i)) with (perm 2 (without m j i) * 1 * 1) by ring. replace c with (c * 1 * 1) by ring.
    apply (ap_mul0 u 3 1); [apply (ap_mul0 u 2 1); [exact A|apply T; exact D1]|apply T; exact D2]. }
  replace (cf * (1 / det_cofactorf rnd m * (1 + d1)) * (1 + d2)) with (cf * (1 + d1) * (1 + d2) / det_cofactorf rnd m) by (field; exact Nf).
  destruct (ap_quot u 4 _ _ _ _ _ _ A4 E L) as (_ & Q). rewrite Eq in Q.
  assert (P : 0 <= perm 2 (without m j i) / Rabs (det3 m)).
  { apply Rmult_le_pos; [exact (ap_a0 u _ _ _ _ A)|apply Rlt_le, Rinv_0_lt_compat; exact Pd]. }
  eapply Rle_trans; [exact Q|]. apply Rmult_le_compat_r; [exact P|]. unfold Rdiv. apply Rmult_le_compat_r; [apply Rlt_le, Rinv_0_lt_compat; lra|].
  assert (G := gk_gamma u Hu 4 ltac:(cbn [INR]; lra)). lra.
Qed.
Lemma inversef_zero m : mat_inversef rnd m = Err DivZero <-> det_cofactorf rnd m = 0.
Proof.
  unfold mat_inversef, rdivf. destruct (Req_EM_T (det_cofactorf rnd m) 0) as [E|E]; cbn [bind]; split; intros H; try assumption; try reflexivity; [discriminate|contradiction].
Qed.

(** ** two dimensions *)
Lemma det2_err (J : mat) : 2 * u < 1 -> Rabs (rnd (rnd (J 0%nat 0%nat * J 1%nat 1%nat) - rnd (J 0%nat 1%nat * J 1%nat 0%nat)) - det2 J) <= gamma u 2 * perm 2 J.
Proof.
  intros H. rewrite perm2_eq. apply (ap_err u Hu 2); [cbn [INR]; lra|]. unfold det2.
  eapply (ap_a u Hu); [|apply (ap_sub u Hu rnd Hr 1 1); apply (ap_mul u Hu rnd Hr 0 0); apply ap_var]. lra.
Qed.
Lemma det2_sign (J : mat) : monotone rnd -> let d := rnd (rnd (J 0%nat 0%nat * J 1%nat 1%nat) - rnd (J 0%nat 1%nat * J 1%nat 0%nat)) in
  (0 <= det2 J -> 0 <= d) /\ (det2 J <= 0 -> d <= 0).
Proof.
  intros Hm d. assert (Z := rnd_0 u Hu rnd Hr). unfold d, det2. split; intros H; rewrite <- Z; apply Hm.
  - assert (Q := Hm (J 0%nat 1%nat * J 1%nat 0%nat) (J 0%nat 0%nat * J 1%nat 1%nat) ltac:(lra)). lra.
  - assert (Q := Hm (J 0%nat 0%nat * J 1%nat 1%nat) (J 0%nat 1%nat * J 1%nat 0%nat) ltac:(lra)). lra.
Qed.
End FG2.
