(** Finite sums and products of complex numbers, powers (library; models nothing in /repo; the complex
    counterpart of RSum.v). *)
From Coq Require Import Reals Lra Lia Arith.
From Coquelicot Require Import Complex.
Require Verif.RSum.
Open Scope R_scope.
Open Scope C_scope.

Implicit Types f g : nat -> C.
Implicit Types a : C.

Fixpoint csum (n : nat) (f : nat -> C) : C :=
  match n with O => 0 | S m => csum m f + f m end.
Fixpoint cprod (n : nat) (f : nat -> C) : C :=
  match n with O => 1 | S m => cprod m f * f m end.

Lemma csum_ext n f g : (forall i, (i < n)%nat -> f i = g i) -> csum n f = csum n g.
Proof.
  induction n as [|n IH]; simpl; intros H; [reflexivity|].
  rewrite IH by (intros; apply H; lia). rewrite H by lia. reflexivity.
Qed.
Lemma cprod_ext n f g : (forall i, (i < n)%nat -> f i = g i) -> cprod n f = cprod n g.
Proof.
  induction n as [|n IH]; simpl; intros H; [reflexivity|].
  rewrite IH by (intros; apply H; lia). rewrite H by lia. reflexivity.
Qed.
Lemma csum_plus n f g : csum n (fun i => f i + g i) = csum n f + csum n g.
Proof. induction n as [|n IH]; simpl; [ring|]. rewrite IH. ring. Qed.
Lemma csum_minus n f g : csum n (fun i => f i - g i) = csum n f - csum n g.
Proof. induction n as [|n IH]; simpl; [ring|]. rewrite IH. ring. Qed.
Lemma csum_scal_l n a f : csum n (fun i => a * f i) = a * csum n f.
Proof. induction n as [|n IH]; simpl; [ring|]. rewrite IH. ring. Qed.
Lemma csum_scal_r n a f : csum n (fun i => f i * a) = csum n f * a.
Proof. induction n as [|n IH]; simpl; [ring|]. rewrite IH. ring. Qed.
Lemma csum_opp n f : csum n (fun i => - f i) = - csum n f.
Proof. induction n as [|n IH]; simpl; [ring|]. rewrite IH. ring. Qed.
Lemma csum_0 n : csum n (fun _ => 0) = 0.
Proof. induction n as [|n IH]; simpl; [reflexivity|]. rewrite IH. ring. Qed.
Lemma csum_zero n f : (forall i, (i < n)%nat -> f i = 0) -> csum n f = 0.
Proof. intros H. rewrite (csum_ext n f (fun _ => 0) H). apply csum_0. Qed.
Lemma csum_swap n m (f : nat -> nat -> C) :
  csum n (fun i => csum m (fun j => f i j)) = csum m (fun j => csum n (fun i => f i j)).
Proof.
  induction n as [|n IH]; simpl.
  - symmetry. apply csum_0.
  - rewrite IH. rewrite <- csum_plus. reflexivity.
Qed.
Lemma csum_single n k f :
  (k < n)%nat -> (forall i, (i < n)%nat -> i <> k -> f i = 0) -> csum n f = f k.
Proof.
  intros Hk H. induction n as [|n IH]; [lia|]. simpl.
  destruct (Nat.eq_dec k n) as [->|Hne].
  - rewrite csum_zero; [ring|]. intros i Hi. apply H; lia.
  - rewrite IH; [|lia|intros; apply H; lia]. rewrite (H n) by lia. ring.
Qed.
Lemma csum_add n m f : csum (n + m) f = csum n f + csum m (fun i => f (n + i)%nat).
Proof.
  induction m as [|m IH]; simpl.
  - rewrite Nat.add_0_r. ring.
  - rewrite Nat.add_succ_r. simpl. rewrite IH. ring.
Qed.
Lemma csum_S_l n f : csum (S n) f = f 0%nat + csum n (fun i => f (S i)).
Proof. change (S n) with (1 + n)%nat. rewrite csum_add. simpl. ring. Qed.
(** split off one index *)
Lemma csum_split n k f :
  (k < n)%nat -> csum n f = f k + csum n (fun i => if Nat.eqb i k then 0 else f i).
Proof.
  intros Hk.
  replace (f k) with (csum n (fun i => if Nat.eqb i k then f i else 0)).
  - rewrite <- csum_plus. apply csum_ext. intros i Hi. destruct (Nat.eqb i k); ring.
  - rewrite (csum_single n k).
    + rewrite Nat.eqb_refl. reflexivity.
    + exact Hk.
    + intros i Hi Hne. destruct (Nat.eqb_spec i k); [lia|reflexivity].
Qed.

Lemma cprod_1 n : cprod n (fun _ => 1) = 1.
Proof. induction n as [|n IH]; simpl; [reflexivity|]. rewrite IH. ring. Qed.
Lemma cprod_one n f : (forall i, (i < n)%nat -> f i = 1) -> cprod n f = 1.
Proof. intros H. rewrite (cprod_ext n f (fun _ => 1) H). apply cprod_1. Qed.
Lemma cprod_mult n f g : cprod n (fun i => f i * g i) = cprod n f * cprod n g.
Proof. induction n as [|n IH]; simpl; [ring|]. rewrite IH. ring. Qed.
Lemma Cmult_neq_0 (a b : C) : a <> 0 -> b <> 0 -> a * b <> 0.
Proof.
  intros Ha Hb H. apply Ha. replace a with (a * b * / b) by (field; exact Hb). rewrite H. ring.
Qed.
Lemma C1_neq_0 : RtoC 1 <> 0.
Proof. intros H. apply (f_equal fst) in H. simpl in H. lra. Qed.
Lemma Cinv_neq_0 (a : C) : a <> 0 -> / a <> 0.
Proof. intros Ha H. apply C1_neq_0. rewrite <- (Cinv_r a Ha), H. ring. Qed.
Lemma Cminus_neq_0 (a b : C) : a <> b -> a - b <> 0.
Proof. intros H E. apply H. replace a with (a - b + b) by ring. rewrite E. ring. Qed.
Lemma Cinv_mult (a b : C) : a <> 0 -> b <> 0 -> / (a * b) = / a * / b.
Proof. intros. field. split; assumption. Qed.
Lemma Cinv_1 : / RtoC 1 = 1.
Proof. field. exact C1_neq_0. Qed.
Lemma cprod_neq0 n f : (forall i, (i < n)%nat -> f i <> 0) -> cprod n f <> 0.
Proof.
  induction n as [|n IH]; simpl; intros H; [exact C1_neq_0|].
  apply Cmult_neq_0; [apply IH; intros; apply H; lia|apply H; lia].
Qed.
Lemma cprod_zero n k f : (k < n)%nat -> f k = 0 -> cprod n f = 0.
Proof.
  intros Hk Hf. induction n as [|n IH]; [lia|]. simpl.
  destruct (Nat.eq_dec k n) as [->|Hne]; [rewrite Hf; ring|rewrite IH by lia; ring].
Qed.
Lemma cprod_inv n f : (forall i, (i < n)%nat -> f i <> 0) -> cprod n (fun i => / f i) = / cprod n f.
Proof.
  induction n as [|n IH]; simpl; intros H; [symmetry; exact Cinv_1|].
  rewrite IH by (intros; apply H; lia). rewrite Cinv_mult; [reflexivity| |apply H; lia].
  apply cprod_neq0. intros; apply H; lia.
Qed.
Lemma cprod_split n k f :
  (k < n)%nat -> cprod n f = f k * cprod n (fun i => if Nat.eqb i k then 1 else f i).
Proof.
  intros Hk. induction n as [|n IH]; [lia|]. simpl.
  destruct (Nat.eqb_spec n k) as [->|Hne].
  - rewrite (cprod_ext k (fun i => if Nat.eqb i k then 1 else f i) f).
    + ring.
    + intros i Hi. destruct (Nat.eqb_spec i k); [lia|reflexivity].
  - rewrite IH by lia. ring.
Qed.

(** sums over a product range: i = q*m + r *)
Lemma csum_mul n m f :
  csum (n * m) f = csum n (fun q => csum m (fun r => f (q * m + r)%nat)).
Proof.
  induction n as [|n IH]; [reflexivity|].
  replace (S n * m)%nat with (n * m + m)%nat by (simpl; lia).
  rewrite csum_add, IH. reflexivity.
Qed.

(** powers *)
Fixpoint cpow (x : C) (n : nat) : C := match n with O => 1 | S m => x * cpow x m end.

(** real data *)
Lemma csum_RtoC n (f : nat -> R) : csum n (fun i => RtoC (f i)) = RtoC (RSum.rsum n f).
Proof. induction n as [|n IH]; simpl; [reflexivity|]. rewrite IH, <- RtoC_plus. reflexivity. Qed.
Lemma cprod_RtoC n (f : nat -> R) : cprod n (fun i => RtoC (f i)) = RtoC (RSum.rprod n f).
Proof. induction n as [|n IH]; simpl; [reflexivity|]. rewrite IH, <- RtoC_mult. reflexivity. Qed.
Lemma cpow_RtoC (x : R) n : cpow (RtoC x) n = RtoC (x ^ n).
Proof. induction n as [|n IH]; simpl; [reflexivity|]. rewrite IH, <- RtoC_mult. reflexivity. Qed.
