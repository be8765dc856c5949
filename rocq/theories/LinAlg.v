(** One-sided inverses of square matrices are two-sided (library; models nothing in /repo). *)
From Coq Require Import Reals Arith Lra Lia.
Require Import Verif.RSum Verif.RBase Verif.Spec_Mat Verif.Spec_LU Verif.Det Verif.Model_LU Verif.Proof_LU Verif.Proof_LU2 Verif.Proof_LU3.
Open Scope R_scope.

Definition no_kernel (n : nat) (A : mat) : Prop :=
  forall x, (forall i, (i < n)%nat -> mvec n A x i = 0) -> forall i, (i < n)%nat -> x i = 0.

Lemma no_kernel_det0 n A : no_kernel n A -> (forall i, (i < n)%nat -> ~ row_zero n A i) -> det n A <> 0.
Proof.
  intros K Z. destruct (LU_decompos n A (fun _ => O) (fun _ => 0)) as [s|] eqn:E.
  - destruct (LU_inv _ _ _ _ _ E) as (t & I). apply (LU_pivots_det n A s t I).
    destruct (first_bad t n) as [G|(c & H1 & H2 & H3)]; [exact G|]. exfalso.
    destruct (bad_kernel n A s t c I H1 H2 H3) as (x & (k & Hk & N) & Zx). apply N. apply K; assumption.
  - exfalso. apply LU_none in E. destruct E as (i & Hi & W). exact (Z i Hi W).
Qed.

Lemma sumsq_zero n (f : nat -> R) : rsum n (fun j => f j * f j) = 0 -> forall j, (j < n)%nat -> f j = 0.
Proof.
  induction n as [|n IH]; intros H j Hj; [lia|]. cbn [rsum] in H.
  assert (P : 0 <= rsum n (fun j => f j * f j)) by (apply rsum_nonneg; intros; nra).
  assert (Q : 0 <= f n * f n) by nra.
  destruct (Nat.eq_dec j n) as [->|Ne]; [nra|]. apply IH; [lra|lia].
Qed.

Lemma no_kernel_no_zero_row n A : no_kernel n A -> forall i, (i < n)%nat -> ~ row_zero n A i.
Proof.
  intros K i0 Hi0 Z0.
  set (sq := fun i => rsum n (fun j => A i j * A i j)).
  set (A' := fun i j => if Req_EM_T (sq i) 0 then 1 else A i j).
  assert (Zr : forall i, sq i = 0 -> row_zero n A i).
  { intros i H j Hj. apply (sumsq_zero n (A i) H j Hj). }
  assert (S0 : sq i0 = 0).
  { unfold sq. apply rsum_zero. intros j Hj. rewrite (Z0 j Hj). ring. }
  assert (K' : no_kernel n A').
  { intros x Hx. apply K. intros i Hi. destruct (Req_EM_T (sq i) 0) as [E|E].
    - unfold mvec. apply rsum_zero. intros j Hj. rewrite (Zr i E j Hj). ring.
    - rewrite <- (Hx i Hi). apply rsum_ext. intros j Hj. unfold A'. destruct (Req_EM_T (sq i) 0); [contradiction|reflexivity]. }
  assert (D : det n A' <> 0).
  { apply no_kernel_det0; [exact K'|]. intros i Hi Z. unfold A' in Z. unfold row_zero in Z.
    destruct (Req_EM_T (sq i) 0) as [E|E]; [generalize (Z i0 Hi0); lra|].
    apply E. unfold sq. apply rsum_zero. intros j Hj. rewrite (Z j Hj). ring. }
  destruct (LU_decompos n A' (fun _ => O) (fun _ => 0)) as [s|] eqn:E.
  2: { apply LU_none in E. destruct E as (i & Hi & W). apply D. eapply det_zero_row; eassumption. }
  set (e := fun k => if Nat.eqb k i0 then 1 else 0).
  assert (Sv := LU_solve n A' (fun _ => O) (fun _ => 0) s e E D).
  set (x := LU_backsub n (lu_a s) (lu_indx s) e) in *.
  assert (X0 : forall i, (i < n)%nat -> x i = 0).
  { apply K. intros i Hi. destruct (Req_EM_T (sq i) 0) as [E'|E'].
    - unfold mvec. apply rsum_zero. intros j Hj. rewrite (Zr i E' j Hj). ring.
    - transitivity (mvec n A' x i).
      + apply rsum_ext. intros j Hj. unfold A'. destruct (Req_EM_T (sq i) 0); [contradiction|reflexivity].
      + rewrite Sv by exact Hi. unfold e. destruct (Nat.eqb_spec i i0) as [->|]; [contradiction|reflexivity]. }
  assert (C := Sv i0 Hi0). unfold e in C. rewrite Nat.eqb_refl in C. unfold mvec in C.
  rewrite rsum_zero in C; [lra|]. intros j Hj. rewrite X0 by exact Hj. ring.
Qed.
Lemma no_kernel_det n A : no_kernel n A -> det n A <> 0.
Proof. intros K. apply no_kernel_det0; [exact K|]. apply no_kernel_no_zero_row. exact K. Qed.

Lemma left_inverse_right n A B : mat_eq n (mmul n B A) ident -> mat_eq n (mmul n A B) ident.
Proof.
  intros H.
  assert (D : det n A <> 0).
  { apply no_kernel_det. intros x Hx. exact (left_inverse_kernel n A B x H Hx). }
  destruct (LU_decompos n A (fun _ => O) (fun _ => 0)) as [s|] eqn:E.
  2: { apply LU_none in E. destruct E as (i & Hi & W). exfalso. apply D. eapply det_zero_row; eassumption. }
  set (C := LU_invert n (lu_a s) (lu_indx s) (fun _ _ => 0) (fun _ => 0)).
  assert (R := LU_invert_right n A _ _ s (fun _ _ => 0) (fun _ => 0) E D : mat_eq n (mmul n A C) ident).
  assert (BC : forall i j, (i < n)%nat -> (j < n)%nat -> B i j = C i j).
  { intros i j Hi Hj. transitivity (rsum n (fun k => B i k * mmul n A C k j)).
    - rewrite (rsum_single n j); [|lia|].
      + rewrite (R j j Hj Hj). unfold ident. rewrite Nat.eqb_refl. ring.
      + intros k Hk Ne. rewrite (R k j Hk Hj). unfold ident. destruct (Nat.eqb_spec k j); [contradiction|ring].
    - unfold mmul. rewrite (rsum_ext n _ (fun k => rsum n (fun m => B i k * (A k m * C m j)))) by (intros; rewrite rsum_scal_l; reflexivity).
      rewrite rsum_swap. rewrite (rsum_ext n _ (fun m => mmul n B A i m * C m j)).
      + rewrite (rsum_single n i); [|lia|].
        * rewrite (H i i Hi Hi). unfold ident. rewrite Nat.eqb_refl. ring.
        * intros k Hk Ne. rewrite (H i k Hi Hk). unfold ident. destruct (Nat.eqb_spec i k); [congruence|ring].
      + intros m Hm. unfold mmul. rewrite <- rsum_scal_r. apply rsum_ext. intros; ring. }
  intros i j Hi Hj. rewrite <- (R i j Hi Hj). unfold mmul. apply rsum_ext. intros k Hk. rewrite BC by assumption. reflexivity.
Qed.

(** orthonormal rows of a square matrix: the columns are orthonormal too *)
Lemma rows_cols_orthonormal n (V : mat) :
  (forall i j, (i < n)%nat -> (j < n)%nat -> rsum n (fun k => V i k * V j k) = ident i j) ->
  (forall i j, (i < n)%nat -> (j < n)%nat -> rsum n (fun k => V k i * V k j) = ident i j).
Proof.
  intros H. assert (L : mat_eq n (mmul n V (fun i j => V j i)) ident) by (intros i j Hi Hj; apply H; assumption).
  exact (left_inverse_right n (fun i j => V j i) V L).
Qed.
