(** Mathematics of Lagrange interpolation over C (complex counterpart of Lagrange_Math.v), used by the proofs about the model. *)
From Coq Require Import Reals Arith Lia Lra.
From Coquelicot Require Import Complex.
Require Verif.Lagrange_Math.
Require Import Verif.CSum Verif.CPoly Verif.Spec_Lagrange Verif.Spec_Complex.
Open Scope R_scope.
Open Scope C_scope.
Implicit Types Z c w : nat -> C.

Definition cnpoly (N : nat) (Z : nat -> C) (x : C) : C := cprod N (fun j => x - Z j).
Definition cbw (N : nat) (Z : nat -> C) (i : nat) : C :=
  cprod N (fun k => if Nat.eqb k i then RtoC 1 else / (Z i - Z k)).

Lemma cpoly_prod_but m i (u v : nat -> C) :
  (i < m)%nat -> cpoly_lt m (fun x => cprod m (fun j => if Nat.eqb j i then RtoC 1 else u j * x + v j)).
Proof.
  induction m as [|m IH]; intros Hi; [lia|]. cbn [cprod].
  destruct (Nat.eqb_spec m i) as [E|E].
  - subst i.
    apply (cpoly_ext (S m) (fun x => cprod m (fun j => u j * x + v j))).
    + intros x. rewrite Cmult_1_r. apply cprod_ext. intros j Hj.
      destruct (Nat.eqb_spec j m); [lia|reflexivity].
    + apply cpoly_prod_lin.
  - apply (cpoly_ext (S m) (fun x => (u m * x + v m) *
       cprod m (fun j => if Nat.eqb j i then RtoC 1 else u j * x + v j))); [intros; ring|].
    apply cpoly_mul_lin. apply IH. lia.
Qed.

Lemma cell_poly N Z i : (i < N)%nat -> cpoly_lt N (cell N Z i).
Proof.
  intros Hi. unfold cell.
  apply (cpoly_ext N (fun x => cprod N (fun j => if Nat.eqb j i then 1
           else / (Z i - Z j) * x + - Z j * / (Z i - Z j)))).
  - intros x. apply cprod_ext. intros j Hj. destruct (Nat.eqb j i); [reflexivity|].
    unfold Cdiv. ring.
  - apply (cpoly_prod_but N i (fun j => / (Z i - Z j)) (fun j => - Z j * / (Z i - Z j)) Hi).
Qed.

Lemma cell_same N Z i : cdistinct N Z -> (i < N)%nat -> cell N Z i (Z i) = 1.
Proof.
  intros D Hi. unfold cell. apply cprod_one. intros j Hj.
  destruct (Nat.eqb_spec j i) as [E|E]; [reflexivity|].
  field. apply Cminus_neq_0. apply D; [exact Hi|exact Hj|congruence].
Qed.

Lemma cell_other N Z i k : (i < N)%nat -> (k < N)%nat -> k <> i -> cell N Z i (Z k) = 0.
Proof.
  intros Hi Hk E. unfold cell. apply (cprod_zero N k); [exact Hk|].
  destruct (Nat.eqb_spec k i); [contradiction|]. unfold Cdiv. ring.
Qed.

Lemma cell_delta N Z i k : cdistinct N Z -> (i < N)%nat -> (k < N)%nat ->
  cell N Z i (Z k) = if Nat.eqb k i then RtoC 1 else RtoC 0.
Proof.
  intros D Hi Hk. destruct (Nat.eqb_spec k i) as [->|E]; [apply cell_same|apply cell_other]; assumption.
Qed.

Lemma cinterp_poly N Z c : cpoly_lt N (cinterp N Z c).
Proof.
  unfold cinterp. apply (cpoly_sum N N (fun i x => c i * cell N Z i x)). intros i Hi. apply cpoly_scal. apply cell_poly. exact Hi.
Qed.

Lemma cinterp_node N Z c k : cdistinct N Z -> (k < N)%nat -> cinterp N Z c (Z k) = c k.
Proof.
  intros D Hk. unfold cinterp. rewrite (csum_single N k); [|exact Hk|].
  - rewrite cell_same by assumption. ring.
  - intros i Hi E. rewrite cell_other by (auto; congruence). ring.
Qed.

Lemma cinterp_ext N Z c c' x : (forall i, (i < N)%nat -> c i = c' i) -> cinterp N Z c x = cinterp N Z c' x.
Proof. intros H. apply csum_ext. intros i Hi. rewrite (H i Hi). reflexivity. Qed.

(** reproduction of polynomials of degree < N *)
Lemma cinterp_repro N Z f : cdistinct N Z -> cpoly_lt N f ->
  forall x, cinterp N Z (fun i => f (Z i)) x = f x.
Proof.
  intros D Hf. apply (cpoly_agree N _ _ Z); [apply cinterp_poly|exact Hf|exact D|].
  intros i Hi. rewrite cinterp_node by assumption. reflexivity.
Qed.

Lemma cell_sum N Z x : cdistinct N Z -> (0 < N)%nat -> csum N (fun i => cell N Z i x) = 1.
Proof.
  intros D HN. rewrite <- (cinterp_repro N Z (fun _ => 1) D (cpoly_const N 1 ltac:(lia)) x).
  unfold cinterp. apply csum_ext. intros. ring.
Qed.

Lemma cbw_neq0 N Z i : cdistinct N Z -> (i < N)%nat -> cbw N Z i <> 0.
Proof.
  intros D Hi. apply cprod_neq0. intros k Hk. destruct (Nat.eqb_spec k i); [exact C1_neq_0|].
  apply Cinv_neq_0, Cminus_neq_0. apply D; [exact Hi|exact Hk|congruence].
Qed.

Lemma cbw_weights N Z : cdistinct N Z -> cweights_of N Z (cbw N Z).
Proof.
  intros D i Hi. unfold cbw. rewrite <- cprod_mult. apply cprod_one. intros k Hk.
  destruct (Nat.eqb_spec k i); [ring|]. field. apply Cminus_neq_0. apply D; [exact Hi|exact Hk|congruence].
Qed.

Lemma cweights_bw N Z w i : cdistinct N Z -> cweights_of N Z w -> (i < N)%nat -> w i = cbw N Z i.
Proof.
  intros D W Hi. specialize (W i Hi). generalize (cbw_weights N Z D i Hi). intros B.
  assert (P : cprod N (fun k => if Nat.eqb k i then RtoC 1 else Z i - Z k) <> 0).
  { intros Q. rewrite Q in B. apply C1_neq_0. rewrite <- B. ring. }
  set (q := cprod N _) in *.
  replace (w i) with (w i * q * / q) by (field; exact P).
  replace (cbw N Z i) with (cbw N Z i * q * / q) by (field; exact P).
  rewrite W, B. reflexivity.
Qed.

(** away from the vertices *)
Lemma cell_bary N Z i x : (i < N)%nat -> x - Z i <> 0 ->
  cell N Z i x = cnpoly N Z x * cbw N Z i / (x - Z i).
Proof.
  intros Hi Hx. unfold cnpoly. rewrite (cprod_split N i) by exact Hi.
  unfold cbw, cell.
  transitivity (cprod N (fun j => if Nat.eqb j i then RtoC 1 else x - Z j) *
                cprod N (fun k => if Nat.eqb k i then RtoC 1 else / (Z i - Z k))).
  - rewrite <- cprod_mult. apply cprod_ext. intros j _. destruct (Nat.eqb j i); [ring|unfold Cdiv; ring].
  - field. exact Hx.
Qed.

Lemma cnpoly_neq0 N Z x : (forall i, (i < N)%nat -> x - Z i <> 0) -> cnpoly N Z x <> 0.
Proof. intros H. apply cprod_neq0. exact H. Qed.

Lemma coff_vertex N Z : exists t : C, forall i, (i < N)%nat -> t - Z i <> 0.
Proof.
  exists (RtoC (1 + RSum.rsum N (fun i => Rabs (Re (Z i))))). intros i Hi H.
  apply (f_equal fst) in H. simpl in H. rewrite (RSum.rsum_split N i) in H by exact Hi.
  assert (0 <= RSum.rsum N (fun k => if Nat.eqb k i then 0 else Rabs (Re (Z k))))%R.
  { apply RSum.rsum_nonneg. intros k _. destruct (Nat.eqb k i); [lra|apply Rabs_pos]. }
  generalize (Rle_abs (Re (Z i))). unfold Re in *. lra.
Qed.

(** the divided difference functional annihilates degree < N-1 *)
Lemma cbw_annihilates N Z g : cdistinct N Z -> cpoly_lt (pred N) g ->
  csum N (fun j => cbw N Z j * g (Z j)) = 0.
Proof.
  intros D Hg. destruct N as [|n]; [reflexivity|]. set (N := S n) in *.
  destruct (coff_vertex N Z) as (t & Ht).
  assert (Hf : cpoly_lt N (fun y => (1 * y + - t) * g y)) by (apply cpoly_mul_lin; exact Hg).
  assert (E := cinterp_repro N Z _ D Hf t). cbv beta in E.
  replace ((1 * t + - t) * g t) with (RtoC 0) in E by ring.
  unfold cinterp in E.
  rewrite (csum_ext N _ (fun j => (- cnpoly N Z t) * (cbw N Z j * g (Z j)))) in E.
  - rewrite csum_scal_l in E.
    assert (P := cnpoly_neq0 N Z t Ht).
    assert (P2 : - cnpoly N Z t <> 0).
    { intros Q. apply P. replace (cnpoly N Z t) with (- - cnpoly N Z t) by ring. rewrite Q. ring. }
    set (S := csum N _) in *. replace S with (- cnpoly N Z t * S * / (- cnpoly N Z t))
      by (transitivity (S * (- cnpoly N Z t * / (- cnpoly N Z t))); [ring|rewrite Cinv_r by exact P2; ring]).
    rewrite E. ring.
  - intros j Hj. rewrite (cell_bary N Z j t Hj (Ht j Hj)). field. apply Ht; exact Hj.
Qed.

(** solving the annihilation identity for vertex i *)
Lemma cbw_at_vertex N Z g i : cdistinct N Z -> (i < N)%nat -> cpoly_lt (pred N) g ->
  csum N (fun j => if Nat.eqb j i then RtoC 0 else cbw N Z j * g (Z j)) * (- / cbw N Z i) = g (Z i).
Proof.
  intros D Hi Hg. assert (E := cbw_annihilates N Z g D Hg).
  rewrite (csum_split N i) in E by exact Hi.
  assert (B := cbw_neq0 N Z i D Hi).
  set (S := csum N _) in *. set (b := cbw N Z i) in *.
  replace S with (b * g (Z i) + S - b * g (Z i)) by ring. rewrite E. field. exact B.
Qed.

Lemma cinterp_bary N Z c x : (forall i, (i < N)%nat -> x - Z i <> 0) ->
  csum N (fun j => cbw N Z j * c j / (x - Z j)) * cnpoly N Z x = cinterp N Z c x.
Proof.
  intros H. rewrite <- csum_scal_r. apply csum_ext. intros j Hj.
  rewrite (cell_bary N Z j x Hj (H j Hj)). field. apply H; exact Hj.
Qed.


(** every basis polynomial has a complex derivative *)
Lemma cell_ders N Z X : exists dl : nat -> C, forall i, (i < N)%nat -> is_cder (cell N Z i) X (dl i).
Proof.
  assert (H1 : forall i, (i < N)%nat -> exists d, is_cder (cell N Z i) X d).
  { intros i Hi. destruct N as [|n]; [lia|].
    destruct (cpoly_factor (S n) (cell (S n) Z i) X) as (g & Hg & Eg).
    { apply (cpoly_mono (S n)); [lia|]. apply cell_poly. exact Hi. }
    exists (g X). apply (cder_factor _ g n X Hg Eg). }
  assert (G : forall m, (m <= N)%nat -> exists dl : nat -> C, forall i, (i < m)%nat -> is_cder (cell N Z i) X (dl i)).
  { induction m as [|m IH]; intros Hm.
    - exists (fun _ => RtoC 0). intros i Hi. lia.
    - destruct (IH ltac:(lia)) as (dl & H). destruct (H1 m ltac:(lia)) as (d & Hd).
      exists (fun i => if Nat.eqb i m then d else dl i). intros i Hi.
      destruct (Nat.eqb_spec i m) as [->|E]; [exact Hd|apply H; lia]. }
  apply (G N). lia.
Qed.

Lemma cinterp_der N Z c X dl : (forall i, (i < N)%nat -> is_cder (cell N Z i) X (dl i)) ->
  is_cder (cinterp N Z c) X (csum N (fun i => c i * dl i)).
Proof.
  intros H. unfold cinterp. apply (cder_sum N (fun i t => c i * cell N Z i t) (fun i => c i * dl i)).
  intros i Hi. apply cder_scal. apply H. exact Hi.
Qed.

(** real vertices and coefficients *)
Lemma cell_RtoC N (Z : nat -> R) i x : distinct N Z -> (i < N)%nat ->
  cell N (fun j => RtoC (Z j)) i (RtoC x) = RtoC (ell N Z i x).
Proof.
  intros D Hi. unfold cell, ell. rewrite <- cprod_RtoC. apply cprod_ext. intros j Hj.
  destruct (Nat.eqb_spec j i) as [E|E]; [reflexivity|].
  rewrite <- !RtoC_minus, <- RtoC_div; [reflexivity|].
  specialize (D i j Hi Hj ltac:(congruence)). lra.
Qed.
Lemma RtoC_distinct N (Z : nat -> R) : distinct N Z -> cdistinct N (fun j => RtoC (Z j)).
Proof. intros D i j Hi Hj E Q. apply (D i j Hi Hj E). apply (f_equal fst) in Q. exact Q. Qed.

Lemma same_interp N (Z c : nat -> R) : distinct N Z ->
  same_poly N (interp N Z c) (cinterp N (fun j => RtoC (Z j)) (fun j => RtoC (c j))).
Proof.
  intros D. destruct (Lagrange_Math.interp_poly N Z c) as (a & Ha). exists a. split; [exact Ha|]. intros X.
  set (F := fun X => csum N (fun k => RtoC (a k) * cpow X k)).
  assert (HF : cpoly_lt N F) by (exists (fun k => RtoC (a k)); reflexivity).
  change (csum N (fun k => RtoC (a k) * cpow X k)) with (F X).
  rewrite <- (cinterp_repro N (fun j => RtoC (Z j)) F (RtoC_distinct N Z D) HF X).
  apply cinterp_ext. intros i Hi. unfold F.
  rewrite (csum_ext N _ (fun k => RtoC (a k * Z i ^ k)%R)) by (intros k _; rewrite cpow_RtoC, <- RtoC_mult; reflexivity).
  rewrite csum_RtoC, <- Ha. rewrite Lagrange_Math.interp_node by assumption. reflexivity.
Qed.
