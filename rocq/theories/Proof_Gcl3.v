(** The area check of the average example, run on the tables (C67). *)
From Coq Require Import List Arith ZArith Reals Lia Lra.
Import ListNotations.
Require Import Verif.Base Verif.RBase Verif.RSum Verif.Spec_Mat Verif.Spec_Lagrange Verif.Lagrange_Math Verif.Spec_Quad Verif.Spec_Ref Verif.Model_Ref
  Verif.Proof_Ref Verif.Proof_Ref5 Verif.Model_Jac Verif.Proof_Jac Verif.Spec_HexN Verif.Model_HexN Verif.Proof_HexN2 Verif.Proof_HexN3 Verif.Model_Gcl Verif.Spec_Gcl
  Verif.Proof_Gcl Verif.Proof_Gcl2.
Require Verif.Proof_Blas Verif.Prop_Ref Verif.Prop_HexN.
Open Scope R_scope.

Definition nx (i : nat) : nat := match i with 0%nat => 1%nat | 1%nat => 2%nat | _ => 0%nat end.
Definition cof (m : mat) (i j : nat) : R := m (nx i) (nx j) * m (nx (nx i)) (nx (nx j)) - m (nx i) (nx (nx j)) * m (nx (nx i)) (nx j).
Lemma inv_cof m B i j : det3 m <> 0 -> mat_inverse m = Ok B -> (i < 3)%nat -> (j < 3)%nat -> B j i * det3 m = cof m i j.
Proof.
  intros D E Hi Hj. unfold mat_inverse in E. rewrite rdiv_ok in E by (rewrite det_cofactor_det3; exact D). cbn [bind] in E. rewrite det_cofactor_det3 in E.
  injection E as E. subst B.
  destruct i as [|[|[|i]]]; try lia; destruct j as [|[|[|j]]]; try lia; unfold rows, cof, nx; cbn [nth]; field; exact D.
Qed.

Definition sg (s : nat) : R := if (s mod 2 =? 0)%nat then -1 else 1.
Lemma side_area T g s i w B : (s < 6)%nat -> t_inv T g = Ok B -> side_area_normal T g s i w = Ok (sg s * B (s / 2)%nat i * t_det T g * w).
Proof.
  intros Hs E. unfold side_area_normal, loop, loop_from. rewrite !Prop_Ref.C37_side_normals by lia. rewrite E. cbn [bind]. f_equal. unfold sg.
  destruct s as [|[|[|[|[|[|s]]]]]]; try lia; cbn; ring.
Qed.
Lemma side_area_err T g s i w : (s < 6)%nat -> t_inv T g = Err DivZero -> side_area_normal T g s i w = Err DivZero.
Proof. intros Hs E. unfold side_area_normal, loop, loop_from. rewrite !Prop_Ref.C37_side_normals by lia. rewrite E. reflexivity. Qed.

Section Tally.
Variables (P : patches) (ncell np : nat) (T : jac_tab) (e : nat) (r : nat -> nat -> nat) (wt : nat -> nat -> R).
Hypothesis Hr : forall c s, (c < ncell)%nat -> (s < 6)%nat -> ref_patches_in_cell P c s = Ok (Z.of_nat (r c s)) /\ ref_patch_g_weights P (r c s) = Ok (wt c s).

Definition step (c s : nat) (t : nat -> R) : res (nat -> R) :=
  loop 3 (fun i t => do a <- side_area_normal T (pt_in_elem np e (r c s)) s i (wt c s); Ok (fset t i (t i + a))) t.
Lemma tally_steps : surf_tally P ncell np T e = loop ncell (fun c t => loop 6 (fun s t => step c s t) t) (fun _ => 0).
Proof.
  apply loop_ext. intros c t Hc. apply loop_ext. intros s t' Hs. destruct (Hr c s Hc Hs) as (-> & E). cbn [bind].
  destruct (Z.ltb_spec (Z.of_nat (r c s)) 0) as [L|_]; [lia|]. cbv zeta. rewrite Nat2Z.id, E. reflexivity.
Qed.
Lemma step_ok c s t B : (s < 6)%nat -> t_inv T (pt_in_elem np e (r c s)) = Ok B -> exists t', step c s t = Ok t' /\
  forall i, (i < 3)%nat -> t' i = t i + sg s * B (s / 2)%nat i * t_det T (pt_in_elem np e (r c s)) * wt c s.
Proof.
  intros Hs E. unfold step, loop, loop_from. rewrite !(side_area _ _ _ _ _ B) by assumption. cbn [bind]. eexists. split; [reflexivity|].
  intros i Hi. destruct i as [|[|[|i]]]; [| | |lia]; unfold fset; cbn; reflexivity.
Qed.
Lemma step_err c s t : (s < 6)%nat -> t_inv T (pt_in_elem np e (r c s)) = Err DivZero -> step c s t = Err DivZero.
Proof. intros Hs E. unfold step, loop, loop_from. rewrite side_area_err by assumption. reflexivity. Qed.

Lemma tally_val (B : nat -> nat -> mat) : (forall c s, (c < ncell)%nat -> (s < 6)%nat -> t_inv T (pt_in_elem np e (r c s)) = Ok (B c s)) ->
  exists t, surf_tally P ncell np T e = Ok t /\ forall i, (i < 3)%nat ->
    t i = rsum ncell (fun c => rsum 6 (fun s => sg s * B c s (s / 2)%nat i * t_det T (pt_in_elem np e (r c s)) * wt c s)).
Proof.
  intros HB. rewrite tally_steps.
  edestruct (loop_inv (fun m (t : nat -> R) => forall i, (i < 3)%nat -> t i = rsum m (fun c => rsum 6 (fun s => sg s * B c s (s / 2)%nat i * t_det T (pt_in_elem np e (r c s)) * wt c s))) ncell) as (t & E & H).
  3: { exists t. split; [exact E|exact H]. }
  - intros i _. reflexivity.
  - intros c t Hc H.
    edestruct (loop_inv (fun m (t' : nat -> R) => forall i, (i < 3)%nat -> t' i = t i + rsum m (fun s => sg s * B c s (s / 2)%nat i * t_det T (pt_in_elem np e (r c s)) * wt c s)) 6) as (t' & E' & H').
    3: { exists t'. split; [exact E'|]. intros i Hi. rewrite H', H by exact Hi. reflexivity. }
    + intros i _. cbn [rsum]. ring.
    + intros s t' Hs H'. destruct (step_ok c s t' (B c s) Hs (HB c s Hc Hs)) as (t'' & E'' & H''). exists t''. split; [exact E''|].
      intros i Hi. rewrite H'', H' by exact Hi. cbn [rsum]. ring.
Qed.
(** one entry of the table is a division by zero, the others are set or divisions by zero *)
Lemma tally_err : (forall c s, (c < ncell)%nat -> (s < 6)%nat -> (exists B, t_inv T (pt_in_elem np e (r c s)) = Ok B) \/ t_inv T (pt_in_elem np e (r c s)) = Err DivZero) ->
  (exists c s, (c < ncell)%nat /\ (s < 6)%nat /\ t_inv T (pt_in_elem np e (r c s)) = Err DivZero) -> surf_tally P ncell np T e = Err DivZero.
Proof.
  intros Hall (c & s & Hc & Hs & E). rewrite tally_steps.
  assert (OR : forall c t, (c < ncell)%nat -> (exists t', loop 6 (fun s t => step c s t) t = Ok t') \/ loop 6 (fun s t => step c s t) t = Err DivZero).
  { intros c' t Hc'. destruct (Proof_Blas.loop_or (fun _ (_ : nat -> R) => True) DivZero 6 (fun s t => step c' s t) t) as [(t' & E' & _)|E']; [exact I| | |].
    - intros s' t' Hs' _. destruct (Hall c' s' Hc' Hs') as [(B & EB)|EB].
      + left. destruct (step_ok c' s' t' B Hs' EB) as (t'' & E'' & _). exists t''. auto.
      + right. apply step_err; assumption.
    - left. exists t'. exact E'.
    - right. exact E'. }
  apply (Proof_Blas.loop_err (fun _ (_ : nat -> R) => True) DivZero c); [exact I| |exact Hc|].
  - intros c' t Hc' _. destruct (OR c' t Hc') as [(t' & E')|E']; [left; exists t'; auto|right; exact E'].
  - intros t _. apply (Proof_Blas.loop_err (fun _ (_ : nat -> R) => True) DivZero s); [exact I| |exact Hs|].
    + intros s' t' Hs' _. destruct (Hall c s' Hc Hs') as [(B & EB)|EB].
      * left. destruct (step_ok c s' t' B Hs' EB) as (t'' & E'' & _). exists t''. auto.
      * right. apply step_err; assumption.
    + intros t' _. apply step_err; assumption.
Qed.
End Tally.
