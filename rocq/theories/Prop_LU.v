(** Theorems about slam/slam.cpp (C18, C19, C20). *)
From Coq Require Import Reals Arith Lra Lia.
Require Import Verif.RSum Verif.RBase Verif.Spec_Mat Verif.Spec_LU Verif.Det Verif.Model_LU Verif.Proof_LU Verif.Proof_LU2 Verif.Proof_LU3.
Open Scope R_scope.

(** return value 0 exactly when some row is entirely zero *)
Theorem C18_failure_iff_zero_row : forall n A indx0 vv0,
  LU_decompos n A indx0 vv0 = None <-> exists i, (i < n)%nat /\ row_zero n A i.
Proof. exact LU_none. Qed.
Print Assumptions C18_failure_iff_zero_row.

(** for an invertible matrix: L U = (rows of A interchanged as recorded), non-zero pivots, parity = sign *)
Theorem C18_factorisation : forall n A indx0 vv0, invertible n A ->
  exists s, LU_decompos n A indx0 vv0 = Some s /\
  swaps_ok n (lu_indx s) /\
  mat_eq n (mmul n (unit_lower (lu_a s)) (upper (lu_a s))) (apply_swaps (lu_indx s) n A) /\
  (forall i, (i < n)%nat -> lu_a s i i <> 0) /\
  lu_parity s = swap_sign (lu_indx s) n.
Proof.
  intros n A indx0 vv0 H. destruct (LU_decompos n A indx0 vv0) as [s|] eqn:E.
  - exists s. split; [reflexivity|]. destruct (LU_inv _ _ _ _ _ E) as (t & I). assert (T := no_perturb_inv n A s t I H).
    assert (L := LUInv_lu n A s t I T). destruct I as (I1 & I2 & I3 & I4 & I5 & I6 & I7).
    split; [exact I1|]. split; [exact L|]. split; [intros i Hi; apply I7; exact Hi|exact I2].
  - exfalso. apply LU_none in E. destruct E as (i & Hi & Z). exact (inv_no_zero_row n A i Hi Z H).
Qed.
Print Assumptions C18_factorisation.

(** whatever the matrix: the factors reproduce the permuted matrix up to TINY added to the pivots that were 0,
    and such a replaced pivot occurs exactly when the matrix is singular *)
Theorem C18_factorisation_any : forall n A indx0 vv0 s, LU_decompos n A indx0 vv0 = Some s ->
  exists t, swaps_ok n (lu_indx s) /\
  mat_eq n (mmul n (unit_lower (lu_a s)) (upper (lu_a s))) (add_diag (apply_swaps (lu_indx s) n A) t) /\
  (forall i, (i < n)%nat -> lu_a s i i <> 0 /\ (t i = 0 \/ (t i = TINY /\ lu_a s i i = TINY))) /\
  ((forall i, (i < n)%nat -> t i = 0) <-> invertible n A) /\
  lu_parity s = swap_sign (lu_indx s) n.
Proof.
  intros n A indx0 vv0 s E. destruct (LU_inv _ _ _ _ _ E) as (t & I). exists t. assert (L := LU_product n A s t I).
  assert (X := I). destruct X as (I1 & I2 & I3 & I4 & I5 & I6 & I7). split; [exact I1|]. split; [exact L|].
  split. { intros i Hi. destruct (I7 i Hi) as (N & [T|(T1 & T2 & _)]); [split; [exact N|left; exact T]|split; [exact N|right; split; assumption]]. }
  split; [|exact I2]. split.
  - intros T. apply det_invertible. exact (LU_pivots_det n A s t I T).
  - intros H. exact (no_perturb_inv n A s t I H).
Qed.
Print Assumptions C18_factorisation_any.

(** swap_sign is the sign of the permutation: it is what interchanging the rows does to the determinant *)
Theorem C18_parity_is_sign : forall n indx A, swaps_ok n indx ->
  det n (apply_swaps indx n A) = swap_sign indx n * det n A /\ (swap_sign indx n = 1 \/ swap_sign indx n = -1).
Proof. intros n indx A H. split; [apply det_apply_swaps; [lia|exact H]|apply swap_sign_pm]. Qed.
Print Assumptions C18_parity_is_sign.

Theorem C19_solve : forall n A indx0 vv0 s b, LU_decompos n A indx0 vv0 = Some s -> invertible n A ->
  forall i, (i < n)%nat -> mvec n A (LU_backsub n (lu_a s) (lu_indx s) b) i = b i.
Proof. intros n A indx0 vv0 s b E H. apply (LU_solve n A indx0 vv0 s b E). apply invertible_det. exact H. Qed.
Print Assumptions C19_solve.

(** and that solution is the only one *)
Theorem C19_unique : forall n A indx0 vv0 s b x, LU_decompos n A indx0 vv0 = Some s -> invertible n A ->
  (forall i, (i < n)%nat -> mvec n A x i = b i) -> forall i, (i < n)%nat -> LU_backsub n (lu_a s) (lu_indx s) b i = x i.
Proof.
  intros n A indx0 vv0 s b x E H X i Hi. destruct H as (B & HR & HL).
  assert (S := C19_solve n A indx0 vv0 s b E (ex_intro _ B (conj HR HL))).
  apply Rminus_diag_uniq. set (y := LU_backsub n (lu_a s) (lu_indx s) b) in *.
  apply (left_inverse_kernel n A B (fun k => y k - x k) HL); [|exact Hi].
  intros r Hr. unfold mvec. rewrite (rsum_ext n _ (fun k => A r k * y k - A r k * x k)) by (intros; ring). rewrite rsum_minus.
  fold (mvec n A y r) (mvec n A x r). rewrite S, X by exact Hr. ring.
Qed.
Print Assumptions C19_unique.

Theorem C20_inverse : forall n A indx0 vv0 s inv0 col0, LU_decompos n A indx0 vv0 = Some s -> invertible n A ->
  is_inverse n A (LU_invert n (lu_a s) (lu_indx s) inv0 col0).
Proof. intros n A indx0 vv0 s inv0 col0 E H. apply (LU_invert_correct n A indx0 vv0 s inv0 col0 E). apply invertible_det. exact H. Qed.
Print Assumptions C20_inverse.

(** the reported determinant is the determinant exactly when that is not zero: a singular matrix without a
    zero row is reported to have a non-zero determinant *)
Theorem C20_determinant : forall n A indx0 vv0 s, LU_decompos n A indx0 vv0 = Some s ->
  LU_determ n (lu_a s) (lu_parity s) <> 0 /\
  (LU_determ n (lu_a s) (lu_parity s) = det n A <-> det n A <> 0) /\
  LU_determ n (lu_a s) (lu_parity s) = lu_parity s * rprod n (fun i => lu_a s i i).
Proof.
  intros n A indx0 vv0 s E. destruct (LU_inv _ _ _ _ _ E) as (t & I).
  assert (N : LU_determ n (lu_a s) (lu_parity s) <> 0).
  { rewrite LU_determ_prod. destruct I as (_ & -> & _ & _ & _ & _ & I7). apply Rmult_integral_contrapositive. split; [apply swap_sign_neq0|].
    apply rprod_neq0. intros i Hi. apply I7. exact Hi. }
  split; [exact N|]. split; [|apply LU_determ_prod]. split.
  - intros <-. exact N.
  - intros D. apply (LU_determ_correct n A s t I). exact (no_perturb_det n A s t I D).
Qed.
Print Assumptions C20_determinant.

(** non-zero determinant and invertibility are the same thing, so every theorem above applies to either *)
Theorem C20_det_invertible : forall n A, det n A <> 0 <-> invertible n A.
Proof. intros n A. split; [apply det_invertible|apply invertible_det]. Qed.
Print Assumptions C20_det_invertible.

(** a 3x3 matrix that needs interchanges *)
Definition ex_mat : mat := fun i j =>
  match i, j with
  | O, O => 0 | O, 1%nat => 2 | O, _ => 1
  | 1%nat, O => 3 | 1%nat, 1%nat => 1 | 1%nat, _ => 0
  | _, O => 1 | _, 1%nat => 1 | _, _ => 5
  end.
Example C18_nonvacuous : invertible 3 ex_mat.
Proof. apply det_invertible. rewrite det3_det. unfold det3, ex_mat. lra. Qed.
Example C19_nonvacuous : exists s, LU_decompos 3 ex_mat (fun _ => O) (fun _ => 0) = Some s.
Proof. destruct (C18_factorisation 3 ex_mat (fun _ => O) (fun _ => 0) C18_nonvacuous) as (s & E & _). exists s. exact E. Qed.
(** the singular 2x2 matrix of ones is accepted, and given a non-zero determinant *)
Theorem C20_singular_accepted : det 2 (fun _ _ => 1) = 0 /\
  exists s, LU_decompos 2 (fun _ _ => 1) (fun _ => O) (fun _ => 0) = Some s /\ LU_determ 2 (lu_a s) (lu_parity s) <> 0.
Proof.
  split; [rewrite det2_det; unfold det2; ring|].
  destruct (LU_decompos 2 (fun _ _ => 1) (fun _ => O) (fun _ => 0)) as [s|] eqn:E.
  - exists s. split; [reflexivity|]. apply (C20_determinant _ _ _ _ _ E).
  - exfalso. apply LU_none in E. destruct E as (i & _ & Z). assert (Z0 := Z O ltac:(lia)). cbv beta in Z0. lra.
Qed.
