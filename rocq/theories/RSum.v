(** Finite sums and products of reals over index ranges (library; models nothing in /repo). *)
From Coq Require Import Reals Lra Lia Arith.
Open Scope R_scope.

Fixpoint rsum (n : nat) (f : nat -> R) : R :=
  match n with O => 0 | S m => rsum m f + f m end.
Fixpoint rprod (n : nat) (f : nat -> R) : R :=
  match n with O => 1 | S m => rprod m f * f m end.

Lemma rsum_ext n f g : (forall i, (i < n)%nat -> f i = g i) -> rsum n f = rsum n g.
Proof.
  induction n as [|n IH]; simpl; intros H; [reflexivity|].
  rewrite IH by (intros; apply H; lia). rewrite H by lia. reflexivity.
Qed.
Lemma rprod_ext n f g : (forall i, (i < n)%nat -> f i = g i) -> rprod n f = rprod n g.
Proof.
  induction n as [|n IH]; simpl; intros H; [reflexivity|].
  rewrite IH by (intros; apply H; lia). rewrite H by lia. reflexivity.
Qed.
Lemma rsum_plus n f g : rsum n (fun i => f i + g i) = rsum n f + rsum n g.
Proof. induction n as [|n IH]; simpl; [lra|]. rewrite IH. ring. Qed.
Lemma rsum_minus n f g : rsum n (fun i => f i - g i) = rsum n f - rsum n g.
Proof. induction n as [|n IH]; simpl; [lra|]. rewrite IH. ring. Qed.
Lemma rsum_scal_l n a f : rsum n (fun i => a * f i) = a * rsum n f.
Proof. induction n as [|n IH]; simpl; [ring|]. rewrite IH. ring. Qed.
Lemma rsum_scal_r n a f : rsum n (fun i => f i * a) = rsum n f * a.
Proof. induction n as [|n IH]; simpl; [ring|]. rewrite IH. ring. Qed.
Lemma rsum_opp n f : rsum n (fun i => - f i) = - rsum n f.
Proof. induction n as [|n IH]; simpl; [ring|]. rewrite IH. ring. Qed.
Lemma rsum_0 n : rsum n (fun _ => 0) = 0.
Proof. induction n as [|n IH]; simpl; [reflexivity|]. rewrite IH. ring. Qed.
Lemma rsum_zero n f : (forall i, (i < n)%nat -> f i = 0) -> rsum n f = 0.
Proof. intros H. rewrite (rsum_ext n f (fun _ => 0) H). apply rsum_0. Qed.
Lemma rsum_const n a : rsum n (fun _ => a) = INR n * a.
Proof. induction n as [|n IH]; [simpl; ring|]. rewrite S_INR. simpl. rewrite IH. ring. Qed.
Lemma rsum_swap n m f :
  rsum n (fun i => rsum m (fun j => f i j)) = rsum m (fun j => rsum n (fun i => f i j)).
Proof.
  induction n as [|n IH]; simpl.
  - symmetry. apply rsum_0.
  - rewrite IH. rewrite <- rsum_plus. reflexivity.
Qed.
Lemma rsum_single n k f :
  (k < n)%nat -> (forall i, (i < n)%nat -> i <> k -> f i = 0) -> rsum n f = f k.
Proof.
  intros Hk H. induction n as [|n IH]; [lia|]. simpl.
  destruct (Nat.eq_dec k n) as [->|Hne].
  - rewrite rsum_zero; [ring|]. intros i Hi. apply H; lia.
  - rewrite IH; [|lia|intros; apply H; lia]. rewrite (H n) by lia. ring.
Qed.
Lemma rsum_add n m f : rsum (n + m) f = rsum n f + rsum m (fun i => f (n + i)%nat).
Proof.
  induction m as [|m IH]; simpl.
  - rewrite Nat.add_0_r. ring.
  - rewrite Nat.add_succ_r. simpl. rewrite IH. ring.
Qed.
Lemma rsum_S_l n f : rsum (S n) f = f 0%nat + rsum n (fun i => f (S i)).
Proof. change (S n) with (1 + n)%nat. rewrite rsum_add. simpl. ring. Qed.
Lemma rsum_nonneg n f : (forall i, (i < n)%nat -> 0 <= f i) -> 0 <= rsum n f.
Proof.
  induction n as [|n IH]; simpl; intros H; [lra|].
  assert (0 <= rsum n f) by (apply IH; intros; apply H; lia). specialize (H n ltac:(lia)). lra.
Qed.
Lemma rsum_le n f g : (forall i, (i < n)%nat -> f i <= g i) -> rsum n f <= rsum n g.
Proof.
  induction n as [|n IH]; simpl; intros H; [lra|].
  assert (rsum n f <= rsum n g) by (apply IH; intros; apply H; lia). specialize (H n ltac:(lia)). lra.
Qed.
(** split off one index *)
Lemma rsum_split n k f :
  (k < n)%nat -> rsum n f = f k + rsum n (fun i => if Nat.eqb i k then 0 else f i).
Proof.
  intros Hk.
  replace (f k) with (rsum n (fun i => if Nat.eqb i k then f i else 0)).
  - rewrite <- rsum_plus. apply rsum_ext. intros i Hi. destruct (Nat.eqb i k); ring.
  - rewrite (rsum_single n k).
    + rewrite Nat.eqb_refl. reflexivity.
    + exact Hk.
    + intros i Hi Hne. destruct (Nat.eqb_spec i k); [lia|reflexivity].
Qed.

Lemma rprod_1 n : rprod n (fun _ => 1) = 1.
Proof. induction n as [|n IH]; simpl; [reflexivity|]. rewrite IH. ring. Qed.
Lemma rprod_one n f : (forall i, (i < n)%nat -> f i = 1) -> rprod n f = 1.
Proof. intros H. rewrite (rprod_ext n f (fun _ => 1) H). apply rprod_1. Qed.
Lemma rprod_mult n f g : rprod n (fun i => f i * g i) = rprod n f * rprod n g.
Proof. induction n as [|n IH]; simpl; [ring|]. rewrite IH. ring. Qed.
Lemma rprod_neq0 n f : (forall i, (i < n)%nat -> f i <> 0) -> rprod n f <> 0.
Proof.
  induction n as [|n IH]; simpl; intros H; [lra|].
  apply Rmult_integral_contrapositive_currified; [apply IH; intros; apply H; lia|apply H; lia].
Qed.
Lemma rprod_zero n k f : (k < n)%nat -> f k = 0 -> rprod n f = 0.
Proof.
  intros Hk Hf. induction n as [|n IH]; [lia|]. simpl.
  destruct (Nat.eq_dec k n) as [->|Hne]; [rewrite Hf; ring|rewrite IH by lia; ring].
Qed.
Lemma rprod_inv n f : (forall i, (i < n)%nat -> f i <> 0) -> rprod n (fun i => / f i) = / rprod n f.
Proof.
  induction n as [|n IH]; simpl; intros H; [field|].
  rewrite IH by (intros; apply H; lia). rewrite Rinv_mult. reflexivity.
Qed.
Lemma rprod_split n k f :
  (k < n)%nat -> rprod n f = f k * rprod n (fun i => if Nat.eqb i k then 1 else f i).
Proof.
  intros Hk. induction n as [|n IH]; [lia|]. simpl.
  destruct (Nat.eqb_spec n k) as [->|Hne].
  - rewrite (rprod_ext k (fun i => if Nat.eqb i k then 1 else f i) f).
    + ring.
    + intros i Hi. destruct (Nat.eqb_spec i k); [lia|reflexivity].
  - rewrite IH by lia. ring.
Qed.
Lemma rprod_pos n f : (forall i, (i < n)%nat -> 0 < f i) -> 0 < rprod n f.
Proof.
  induction n as [|n IH]; simpl; intros H; [lra|].
  apply Rmult_lt_0_compat; [apply IH; intros; apply H; lia|apply H; lia].
Qed.

(** sums over a product range: i = q*m + r *)
Lemma rsum_mul n m f :
  rsum (n * m) f = rsum n (fun q => rsum m (fun r => f (q * m + r)%nat)).
Proof.
  induction n as [|n IH]; [reflexivity|].
  replace (S n * m)%nat with (n * m + m)%nat by (simpl; lia).
  rewrite rsum_add, IH. reflexivity.
Qed.
