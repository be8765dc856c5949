(** Mathematics of Lagrange interpolation used by the proofs about the model. *)
From Coq Require Import Reals Arith Lia Lra.
Require Import Verif.RSum Verif.Poly Verif.RDer Verif.Spec_Lagrange.
Open Scope R_scope.

Definition npoly (N : nat) (Z : nat -> R) (x : R) : R := rprod N (fun j => x - Z j).
Definition bw (N : nat) (Z : nat -> R) (i : nat) : R :=
  rprod N (fun k => if Nat.eqb k i then 1 else / (Z i - Z k)).

Lemma poly_prod_but m i (u v : nat -> R) :
  (i < m)%nat -> poly_lt m (fun x => rprod m (fun j => if Nat.eqb j i then 1 else u j * x + v j)).
Proof.
  induction m as [|m IH]; intros Hi; [lia|]. cbn [rprod].
  destruct (Nat.eqb_spec m i) as [E|E].
  - subst i.
    apply (poly_ext (S m) (fun x => rprod m (fun j => u j * x + v j))).
    + intros x. rewrite Rmult_1_r. apply rprod_ext. intros j Hj.
      destruct (Nat.eqb_spec j m); [lia|reflexivity].
    + apply poly_prod_lin.
  - apply (poly_ext (S m) (fun x => (u m * x + v m) *
       rprod m (fun j => if Nat.eqb j i then 1 else u j * x + v j))); [intros; ring|].
    apply poly_mul_lin. apply IH. lia.
Qed.

Lemma ell_poly N Z i : (i < N)%nat -> poly_lt N (ell N Z i).
Proof.
  intros Hi. unfold ell.
  apply (poly_ext N (fun x => rprod N (fun j => if Nat.eqb j i then 1
           else / (Z i - Z j) * x + - Z j * / (Z i - Z j)))).
  - intros x. apply rprod_ext. intros j Hj. destruct (Nat.eqb j i); [reflexivity|].
    unfold Rdiv. ring.
  - apply (poly_prod_but N i (fun j => / (Z i - Z j)) (fun j => - Z j * / (Z i - Z j)) Hi).
Qed.

Lemma ell_same N Z i : distinct N Z -> (i < N)%nat -> ell N Z i (Z i) = 1.
Proof.
  intros D Hi. unfold ell. apply rprod_one. intros j Hj.
  destruct (Nat.eqb_spec j i) as [E|E]; [reflexivity|].
  field. specialize (D i j Hi Hj ltac:(congruence)). lra.
Qed.

Lemma ell_other N Z i k : (i < N)%nat -> (k < N)%nat -> k <> i -> ell N Z i (Z k) = 0.
Proof.
  intros Hi Hk E. unfold ell. apply (rprod_zero N k); [exact Hk|].
  destruct (Nat.eqb_spec k i); [contradiction|]. unfold Rdiv. ring.
Qed.

Lemma ell_delta N Z i k : distinct N Z -> (i < N)%nat -> (k < N)%nat ->
  ell N Z i (Z k) = if Nat.eqb k i then 1 else 0.
Proof.
  intros D Hi Hk. destruct (Nat.eqb_spec k i) as [->|E]; [apply ell_same|apply ell_other]; assumption.
Qed.

Lemma interp_poly N Z c : poly_lt N (interp N Z c).
Proof.
  unfold interp. apply poly_sum. intros i Hi. apply poly_scal. apply ell_poly. exact Hi.
Qed.

Lemma interp_node N Z c k : distinct N Z -> (k < N)%nat -> interp N Z c (Z k) = c k.
Proof.
  intros D Hk. unfold interp. rewrite (rsum_single N k); [|exact Hk|].
  - rewrite ell_same by assumption. ring.
  - intros i Hi E. rewrite ell_other by (auto; congruence). ring.
Qed.

Lemma interp_ext N Z c c' x : (forall i, (i < N)%nat -> c i = c' i) -> interp N Z c x = interp N Z c' x.
Proof. intros H. apply rsum_ext. intros i Hi. rewrite (H i Hi). reflexivity. Qed.

(** reproduction of polynomials of degree < N *)
Lemma interp_repro N Z f : distinct N Z -> poly_lt N f ->
  forall x, interp N Z (fun i => f (Z i)) x = f x.
Proof.
  intros D Hf. apply (poly_agree N _ _ Z); [apply interp_poly|exact Hf|exact D|].
  intros i Hi. rewrite interp_node by assumption. reflexivity.
Qed.

Lemma ell_sum N Z x : distinct N Z -> (0 < N)%nat -> rsum N (fun i => ell N Z i x) = 1.
Proof.
  intros D HN. rewrite <- (interp_repro N Z (fun _ => 1) D (poly_const N 1 ltac:(lia)) x).
  unfold interp. apply rsum_ext. intros. ring.
Qed.

Lemma bw_neq0 N Z i : distinct N Z -> (i < N)%nat -> bw N Z i <> 0.
Proof.
  intros D Hi. apply rprod_neq0. intros k Hk. destruct (Nat.eqb_spec k i); [lra|].
  apply Rinv_neq_0_compat. specialize (D i k Hi Hk ltac:(congruence)). lra.
Qed.

Lemma bw_weights N Z : distinct N Z -> weights_of N Z (bw N Z).
Proof.
  intros D i Hi. unfold bw. rewrite <- rprod_mult. apply rprod_one. intros k Hk.
  destruct (Nat.eqb_spec k i); [ring|]. field. specialize (D i k Hi Hk ltac:(congruence)). lra.
Qed.

Lemma weights_bw N Z w i : distinct N Z -> weights_of N Z w -> (i < N)%nat -> w i = bw N Z i.
Proof.
  intros D W Hi. specialize (W i Hi). generalize (bw_weights N Z D i Hi). intros B.
  assert (P : rprod N (fun k => if Nat.eqb k i then 1 else Z i - Z k) <> 0).
  { intros Q. rewrite Q in B. lra. }
  apply (Rmult_eq_reg_r _ _ _ (eq_trans W (eq_sym B)) P).
Qed.

(** away from the vertices *)
Lemma ell_bary N Z i x : (i < N)%nat -> x - Z i <> 0 ->
  ell N Z i x = npoly N Z x * bw N Z i / (x - Z i).
Proof.
  intros Hi Hx. unfold npoly. rewrite (rprod_split N i) by exact Hi.
  unfold bw, ell.
  transitivity (rprod N (fun j => if Nat.eqb j i then 1 else x - Z j) *
                rprod N (fun k => if Nat.eqb k i then 1 else / (Z i - Z k))).
  - rewrite <- rprod_mult. apply rprod_ext. intros j _. destruct (Nat.eqb j i); [ring|unfold Rdiv; ring].
  - field. exact Hx.
Qed.

Lemma npoly_neq0 N Z x : (forall i, (i < N)%nat -> x - Z i <> 0) -> npoly N Z x <> 0.
Proof. intros H. apply rprod_neq0. exact H. Qed.

Lemma off_vertex N (Z : nat -> R) : exists t, forall i, (i < N)%nat -> t - Z i <> 0.
Proof.
  exists (1 + rsum N (fun i => Rabs (Z i))). intros i Hi.
  rewrite (rsum_split N i) by exact Hi.
  assert (0 <= rsum N (fun k => if Nat.eqb k i then 0 else Rabs (Z k))).
  { apply rsum_nonneg. intros k _. destruct (Nat.eqb k i); [lra|apply Rabs_pos]. }
  generalize (Rle_abs (Z i)). lra.
Qed.

(** the divided difference functional annihilates degree < N-1 *)
Lemma bw_annihilates N Z g : distinct N Z -> poly_lt (pred N) g ->
  rsum N (fun j => bw N Z j * g (Z j)) = 0.
Proof.
  intros D Hg. destruct N as [|n]; [reflexivity|]. set (N := S n) in *.
  destruct (off_vertex N Z) as (t & Ht).
  assert (Hf : poly_lt N (fun y => (1 * y + - t) * g y)) by (apply poly_mul_lin; exact Hg).
  assert (E := interp_repro N Z _ D Hf t). cbv beta in E.
  replace ((1 * t + - t) * g t) with 0 in E by ring.
  unfold interp in E.
  rewrite (rsum_ext N _ (fun j => (- npoly N Z t) * (bw N Z j * g (Z j)))) in E.
  - rewrite rsum_scal_l in E.
    assert (P := npoly_neq0 N Z t Ht).
    apply Rmult_eq_reg_l with (- npoly N Z t); lra.
  - intros j Hj. rewrite (ell_bary N Z j t Hj (Ht j Hj)). field. apply Ht; exact Hj.
Qed.

(** solving the annihilation identity for vertex i *)
Lemma bw_at_vertex N Z g i : distinct N Z -> (i < N)%nat -> poly_lt (pred N) g ->
  rsum N (fun j => if Nat.eqb j i then 0 else bw N Z j * g (Z j)) * (- / bw N Z i) = g (Z i).
Proof.
  intros D Hi Hg. assert (E := bw_annihilates N Z g D Hg).
  rewrite (rsum_split N i) in E by exact Hi.
  assert (B := bw_neq0 N Z i D Hi).
  set (S := rsum N _) in *. set (b := bw N Z i) in *.
  replace S with (- (b * g (Z i))) by lra. field. exact B.
Qed.

Lemma interp_bary N Z c x : (forall i, (i < N)%nat -> x - Z i <> 0) ->
  rsum N (fun j => bw N Z j * c j / (x - Z j)) * npoly N Z x = interp N Z c x.
Proof.
  intros H. rewrite <- rsum_scal_r. apply rsum_ext. intros j Hj.
  rewrite (ell_bary N Z j x Hj (H j Hj)). field. apply H; exact Hj.
Qed.

(** derivatives from iterated divided differences *)
Lemma der2_of_factors n p g h X :
  poly_lt n h -> (forall y, p y = p X + (y - X) * g y) -> (forall y, g y = g X + (y - X) * h y) ->
  is_der2 p X (2 * h X).
Proof.
  intros Hh Ep Eg. destruct (poly_derivable n h Hh) as (h1 & Hh1 & Dh).
  destruct (poly_derivable _ h1 Hh1) as (h2 & _ & Dh1).
  exists (fun t => (g X + (t - X) * h t) + (t - X) * (h t + (t - X) * h1 t)). split.
  - intros t. apply (der_ext (fun y => p X + (y - X) * (g X + (y - X) * h y))).
    + intros y. rewrite (Ep y), (Eg y). reflexivity.
    + der_tac. ring.
  - der_tac. ring.
Qed.

Lemma der3_of_factors n p g h k X :
  poly_lt n k -> (forall y, p y = p X + (y - X) * g y) -> (forall y, g y = g X + (y - X) * h y) ->
  (forall y, h y = h X + (y - X) * k y) ->
  is_der3 p X (6 * k X).
Proof.
  intros Hk Ep Eg Eh. destruct (poly_derivable n k Hk) as (k1 & Hk1 & Dk).
  destruct (poly_derivable _ k1 Hk1) as (k2 & Hk2 & Dk1).
  destruct (poly_derivable _ k2 Hk2) as (k3 & _ & Dk2).
  set (f0 := fun t => p X + (t - X) * (g X + (t - X) * (h X + (t - X) * k t))).
  set (f1 := fun t => g X + 2 * (t - X) * h X + 3 * (t - X) ^ 2 * k t + (t - X) ^ 3 * k1 t).
  set (f2 := fun t => 2 * h X + 6 * (t - X) * k t + 6 * (t - X) ^ 2 * k1 t + (t - X) ^ 3 * k2 t).
  exists f1, f2. split; [|split].
  - intros t. apply (der_ext f0).
    + intros y. unfold f0. rewrite (Ep y), (Eg y), (Eh y). reflexivity.
    + unfold f0, f1. der_tac. simpl. ring.
  - intros t. unfold f1, f2. der_tac. simpl. ring.
  - unfold f2. der_tac. simpl. ring.
Qed.

(** the derivative of the basis polynomial, explicitly *)
Definition dell (N : nat) (Z : nat -> R) (i : nat) (x : R) : R :=
  rsum N (fun k => (if Nat.eqb k i then 0 else / (Z i - Z k)) *
    rprod N (fun j => if Nat.eqb j k then 1 else if Nat.eqb j i then 1 else (x - Z j) / (Z i - Z j))).

Lemma ell_der N Z i x : derivable_pt_lim (ell N Z i) x (dell N Z i x).
Proof.
  unfold ell, dell.
  apply (der_rprod N (fun j t => if Nat.eqb j i then 1 else (t - Z j) / (Z i - Z j))
           (fun k => if Nat.eqb k i then 0 else / (Z i - Z k)) x).
  intros j Hj. destruct (Nat.eqb j i); [apply der_const|]. der_tac. unfold Rdiv. ring.
Qed.

Lemma interp_der N Z c x :
  derivable_pt_lim (interp N Z c) x (rsum N (fun i => c i * dell N Z i x)).
Proof.
  unfold interp. apply (der_rsum N (fun i t => c i * ell N Z i t)). intros i Hi.
  apply der_scal. apply ell_der.
Qed.

Lemma interp_eq_iff_der N Z c x d :
  derivable_pt_lim (interp N Z c) x d -> d = rsum N (fun i => c i * dell N Z i x).
Proof. intros H. apply (der_unique _ _ _ _ H (interp_der N Z c x)). Qed.

Lemma npoly_der N Z x : (forall i, (i < N)%nat -> x - Z i <> 0) ->
  derivable_pt_lim (npoly N Z) x (npoly N Z x * rsum N (fun k => / (x - Z k))).
Proof.
  intros H. unfold npoly.
  eapply der_value; [|apply (der_rprod N (fun j t => t - Z j) (fun _ => 1) x)].
  - rewrite <- rsum_scal_l. apply rsum_ext. intros k Hk.
    rewrite (rprod_split N k (fun j => x - Z j)) by exact Hk. field. apply H; exact Hk.
  - intros i Hi. der_tac. ring.
Qed.

Lemma npoly_poly N Z : poly_lt (S N) (npoly N Z).
Proof.
  unfold npoly. apply (poly_ext (S N) (fun x => rprod N (fun j => 1 * x + - Z j))).
  - intros x. apply rprod_ext. intros. ring.
  - apply (poly_prod_lin N (fun _ => 1) (fun j => - Z j)).
Qed.

(** sum_j l_j(x) / (x - Z_j) = sum_k 1 / (x - Z_k) *)
Lemma ell_over N Z x : distinct N Z -> (forall i, (i < N)%nat -> x - Z i <> 0) ->
  rsum N (fun j => ell N Z j x / (x - Z j)) = rsum N (fun k => / (x - Z k)).
Proof.
  intros D H. destruct (poly_factor N (npoly N Z) x (npoly_poly N Z)) as (q & Hq & Eq).
  assert (Dq : derivable_pt_lim (npoly N Z) x (q x)).
  { apply (derivable_pt_lim_factor (npoly N Z) q N x Hq Eq). }
  assert (E1 := der_unique _ _ _ _ Dq (npoly_der N Z x H)).
  assert (E2 := interp_repro N Z q D Hq x).
  assert (P := npoly_neq0 N Z x H).
  apply Rmult_eq_reg_l with (npoly N Z x); [|exact P].
  rewrite <- E1, <- E2. unfold interp. rewrite <- rsum_scal_l. apply rsum_ext. intros j Hj.
  specialize (Eq (Z j)). specialize (H j Hj).
  assert (npoly N Z (Z j) = 0) by (unfold npoly; apply (rprod_zero N j); [exact Hj|ring]).
  assert (q (Z j) = npoly N Z x / (x - Z j)).
  { apply Rmult_eq_reg_l with (x - Z j); [|exact H]. field_simplify; [|exact H]. lra. }
  rewrite H1. field. exact H.
Qed.
