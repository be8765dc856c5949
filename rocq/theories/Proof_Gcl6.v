(** The volume check: assembling the parts (C67). *)
From Coq Require Import List Arith ZArith Reals Lia Lra.
From Coquelicot Require Import Coquelicot.
Import ListNotations.
Require Import Verif.Base Verif.RBase Verif.RSum Verif.RDer Verif.Spec_Mat Verif.Spec_Lagrange Verif.Lagrange_Math Verif.Spec_Poly Verif.Spec_Quad Verif.Spec_Ref Verif.Model_Ref
  Verif.Proof_Ref Verif.Proof_Ref5 Verif.Model_Jac Verif.Proof_Jac Verif.Spec_HexN Verif.Model_HexN Verif.Proof_HexN2 Verif.Proof_HexN3 Verif.Model_Gcl Verif.Spec_Gcl
  Verif.Proof_Quad Verif.Proof_Quad6 Verif.Proof_Gcl Verif.Proof_Gcl2 Verif.Proof_Gcl4 Verif.Proof_Gcl5.
Require Verif.Prop_Ref.
Open Scope R_scope.

Lemma pn_int m M f : pn m M f -> exists v, integral f v /\ Rabs v <= 2 * M.
Proof.
  intros H. assert (E : ex_RInt f (-1) 1) by (apply (ex_RInt_continuous (V := R_CompleteNormedModule)); intros; eapply cont_pn; exact H).
  exists (RInt f (-1) 1). split; [apply (RInt_correct (V := R_CompleteNormedModule)); exact E|].
  replace (2 * M) with ((1 - -1) * M) by ring. apply abs_RInt_le_const; [lra|exact E|]. intros t Ht. eapply pn_abs; [exact H|exact Ht].
Qed.

Section Vol.
Variables (n nq deg : nat) (Z : nat -> R) (L tol : R) (x w : nat -> R).
Let nb := (n * n * n)%nat.
Hypothesis D : distinct n Z.
Hypothesis HL : forall a, (a < n)%nat -> growth n Z a <= L.
Hypothesis T0 : 0 <= tol.
Hypothesis Q : quad_rule nq deg tol x w.
Hypothesis Deg : (3 * n - 3 <= S deg)%nat.
Let f d v t := ell n Z (ix n d v) t.
Let g d v t := dell n Z (ix n d v) t.
Let M3 := INR (n - 1) * (L * L * L).

Lemma H3_pn d e a b c : (a < nb)%nat -> (b < nb)%nat -> (c < nb)%nat -> pn (3 * n - 3) M3 (H3 (f d) (g d) e a b c).
Proof.
  intros Ha Hb Hc. assert (N0 : (1 <= n)%nat) by (unfold nb in *; destruct n; lia).
  assert (G : forall u v s, (u < nb)%nat -> (v < nb)%nat -> (s < nb)%nat -> pn (3 * n - 3) M3 (fun t => g d u t * f d v t * f d s t)).
  { intros u v s Hu Hv Hs. apply (ix_lt n d) in Hu, Hv, Hs.
    assert (P := pn_ell _ _ _ _ _ _ Hs D (pn_ell _ _ _ _ _ _ Hv D (dell_pn n Z (ix n d u) Hu D))). cbv beta in P.
    eapply pn_mono; [| |exact P]; [lia|]. unfold M3.
    replace (INR (n - 1) * growth n Z (ix n d u) * growth n Z (ix n d v) * growth n Z (ix n d s)) with (INR (n - 1) * (growth n Z (ix n d u) * growth n Z (ix n d v) * growth n Z (ix n d s))) by ring.
    apply Rmult_le_compat_l; [apply pos_INR|]. apply Rmult_le_compat; [apply Rmult_le_pos; apply growth_nonneg|apply growth_nonneg| |apply HL; assumption].
    apply Rmult_le_compat; try apply growth_nonneg; apply HL; assumption. }
  destruct e as [|[|e]]; cbn [H3]; apply G; assumption.
Qed.

(** the determinant of the derivatives of the map, as polynomial in each direction *)
Definition detf (Y : nat -> nat -> R) (X1 X2 X3 : R) : R :=
  tri nb (fun v => Y v 0%nat) (fun v => Y v 1%nat) (fun v => Y v 2%nat)
    (fun a b c => alt (fun e0 e1 e2 => H3 (f 0) (g 0) e0 a b c X1 * H3 (f 1) (g 1) e1 a b c X2 * H3 (f 2) (g 2) e2 a b c X3)).

Lemma detf_val Y J X1 X2 X3 : (forall i k, (i < 3)%nat -> (k < 3)%nat -> J i k = rsum nb (fun v => gr n Z (fun d => match d with 0%nat => X1 | 1%nat => X2 | _ => X3 end) v k * Y v i)) ->
  det3 J = detf Y X1 X2 X3.
Proof.
  clear Deg Q T0 HL D. intros H. apply det_tri. intros k Hk. rewrite !H by lia. destruct k as [|[|[|k]]]; [| | |lia]; repeat split; apply rsum_ext; intros v _; unfold gr; ring.
Qed.

Lemma map_det Y X1 X2 X3 : is_det (elem_map n Z Y) X1 X2 X3 (detf Y X1 X2 X3).
Proof.
  clear Deg Q T0 HL D. exists (fun i k => rsum nb (fun v => gr n Z (fun d => match d with 0%nat => X1 | 1%nat => X2 | _ => X3 end) v k * Y v i)). split.
  - intros d Hd.
    assert (E : forall a b c, elem_map n Z Y d a b c = rsum nb (fun v => ell n Z (ix n 0 v) a * ell n Z (ix n 1 v) b * ell n Z (ix n 2 v) c * Y v d)).
    { intros a b c. unfold elem_map, sum3, nb. rewrite rsum_rid. apply rsum_ext. intros k Hk. apply rsum_ext. intros j Hj. apply rsum_ext. intros i Hi.
      destruct (rid_dec n i j k Hi Hj) as (E1 & E2 & E3). unfold ix. rewrite E1, E2, E3. reflexivity. }
    unfold is_grad. repeat split.
    + apply (der_ext (fun t => rsum nb (fun v => ell n Z (ix n 0 v) t * ell n Z (ix n 1 v) X2 * ell n Z (ix n 2 v) X3 * Y v d))); [intros; symmetry; apply E|].
      apply der_rsum. intros v Hv. apply der_scal_r. cbn [gr]. apply der_scal_r. apply der_scal_r. apply ell_der.
    + apply (der_ext (fun t => rsum nb (fun v => ell n Z (ix n 0 v) X1 * ell n Z (ix n 1 v) t * ell n Z (ix n 2 v) X3 * Y v d))); [intros; symmetry; apply E|].
      apply der_rsum. intros v Hv. apply der_scal_r. cbn [gr]. apply der_scal_r. apply der_scal. apply ell_der.
    + apply (der_ext (fun t => rsum nb (fun v => ell n Z (ix n 0 v) X1 * ell n Z (ix n 1 v) X2 * ell n Z (ix n 2 v) t * Y v d))); [intros; symmetry; apply E|].
      apply der_rsum. intros v Hv. apply der_scal_r. cbn [gr]. apply der_scal. apply ell_der.
  - symmetry. apply detf_val. reflexivity.
Qed.

Definition vol_bound (Y : nat -> nat -> R) : R :=
  6 * ((2 + tol) ^ 3 - 8) * (M3 * M3 * M3) * (total nb Y 0 * total nb Y 1 * total nb Y 2).

Lemma detf_quad Y : exists V, integral3 (detf Y) V /\ Rabs (Q3 nq x w (detf Y) - V) <= vol_bound Y.
Proof.
  set (ok := fun (d e a b c : nat) (v : R) => integral (H3 (f d) (g d) e a b c) v /\ Rabs v <= 2 * M3).
  assert (I : forall d e a b c, {v : R | (a < nb)%nat -> (b < nb)%nat -> (c < nb)%nat -> ok d e a b c v}).
  { intros d e a b c. exists (RInt (H3 (f d) (g d) e a b c) (-1) 1). intros Ha Hb Hc.
    destruct (pn_int _ _ _ (H3_pn d e a b c Ha Hb Hc)) as (v & I & B). assert (E := is_RInt_unique _ _ _ _ I). unfold ok. rewrite E. split; assumption. }
  set (iv := fun d e a b c => proj1_sig (I d e a b c)).
  assert (Hiv : forall d e a b c, (a < nb)%nat -> (b < nb)%nat -> (c < nb)%nat -> ok d e a b c (iv d e a b c)) by (intros d e a b c; exact (proj2_sig (I d e a b c))).
  set (u := fun v => Y v 0%nat). set (v := fun v => Y v 1%nat). set (s := fun v => Y v 2%nat).
  exists (tri nb u v s (fun a b c => alt (fun e0 e1 e2 => iv 0%nat e0 a b c * iv 1%nat e1 a b c * iv 2%nat e2 a b c))). split.
  - unfold detf. apply (int_tri nb u v s (fun a b c X1 X2 X3 => alt (fun e0 e1 e2 => H3 (f 0) (g 0) e0 a b c X1 * H3 (f 1) (g 1) e1 a b c X2 * H3 (f 2) (g 2) e2 a b c X3))).
    intros a b c Ha Hb Hc.
    apply (int_alt (fun e0 e1 e2 X1 X2 X3 => H3 (f 0) (g 0) e0 a b c X1 * H3 (f 1) (g 1) e1 a b c X2 * H3 (f 2) (g 2) e2 a b c X3)).
    intros e0 e1 e2 _ _ _. apply int3_prod; apply Hiv; assumption.
  - assert (EQ : Q3 nq x w (detf Y) = tri nb u v s (fun a b c => Q3 nq x w (fun X1 X2 X3 => alt (fun e0 e1 e2 => H3 (f 0) (g 0) e0 a b c X1 * H3 (f 1) (g 1) e1 a b c X2 * H3 (f 2) (g 2) e2 a b c X3))))
      by exact (Q3_tri nb u v s nq x w (fun a b c X1 X2 X3 => alt (fun e0 e1 e2 => H3 (f 0) (g 0) e0 a b c X1 * H3 (f 1) (g 1) e1 a b c X2 * H3 (f 2) (g 2) e2 a b c X3))).
    rewrite EQ.
    rewrite tri_minus. unfold vol_bound, total. fold u v s.
    apply (tri_bound nb u v s). intros a b c Ha Hb Hc.
    rewrite (Q3_alt nq x w (fun e0 e1 e2 X1 X2 X3 => H3 (f 0) (g 0) e0 a b c X1 * H3 (f 1) (g 1) e1 a b c X2 * H3 (f 2) (g 2) e2 a b c X3)).
    set (q := fun d e => q1 nq x w (H3 (f d) (g d) e a b c)).
    assert (MP : 0 <= M3) by (eapply pn_nonneg; apply (H3_pn 0 0 a b c Ha Hb Hc)).
    assert (K : forall e0 e1 e2, Rabs (q 0%nat e0 * q 1%nat e1 * q 2%nat e2 - iv 0%nat e0 a b c * iv 1%nat e1 a b c * iv 2%nat e2 a b c) <= ((2 + tol) ^ 3 - 8) * (M3 * M3 * M3)).
    { assert (A : forall d e, Rabs (q d e - iv d e a b c) <= tol * M3).
      { intros d e. unfold q, q1. apply (pn_quad nq deg tol x w (3 * n - 3)); try assumption; [apply H3_pn; assumption|apply Hiv; assumption]. }
      intros e0 e1 e2. apply prod3_scaled; try assumption; try apply A; apply Hiv; assumption. }
    unfold alt. rewrite !Q3_prod.
    assert (R1 := K 0%nat 1%nat 2%nat). assert (R2 := K 2%nat 0%nat 1%nat). assert (R3 := K 1%nat 2%nat 0%nat). assert (R4 := K 2%nat 1%nat 0%nat). assert (R5 := K 1%nat 0%nat 2%nat). assert (R6 := K 0%nat 2%nat 1%nat).
    clear K. unfold q in *. clear - R1 R2 R3 R4 R5 R6.
    repeat match goal with H : Rabs _ <= _ |- _ => apply Rabs_le_between in H end. apply Rabs_le_between. lra.
Qed.
End Vol.

