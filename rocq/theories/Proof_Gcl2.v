(** The sum of the area vectors of all cell sides as a bilinear form in the vertex coordinates (C67). *)
From Coq Require Import Reals Arith Lia Lra.
Require Import Verif.RSum Verif.Spec_Lagrange Verif.Lagrange_Math Verif.Spec_Quad Verif.Spec_Gcl Verif.Proof_Quad Verif.Proof_Quad6 Verif.Proof_Gcl.
Open Scope R_scope.

Section Bil.
Variables (nq : nat) (x w : nat -> R).
Definition Q2 (F : nat -> nat -> R) : R := rsum nq (fun r => rsum nq (fun q => w q * w r * F q r)).

Lemma Q2_ext F G : (forall q r, (q < nq)%nat -> (r < nq)%nat -> F q r = G q r) -> Q2 F = Q2 G.
Proof. intros H. apply rsum_ext. intros r Hr. apply rsum_ext. intros q Hq. rewrite H by assumption. reflexivity. Qed.
Lemma Q2_minus F G : Q2 (fun q r => F q r - G q r) = Q2 F - Q2 G.
Proof. unfold Q2. rewrite <- rsum_minus. apply rsum_ext. intros r _. rewrite <- rsum_minus. apply rsum_ext. intros. ring. Qed.
Lemma Q2_prod c h1 h2 : Q2 (fun q r => c * (h1 q * h2 r)) = c * (rsum nq (fun q => w q * h1 q) * rsum nq (fun r => w r * h2 r)).
Proof.
  unfold Q2. rewrite <- sum2_factor, <- rsum_scal_l. apply rsum_ext. intros r _. rewrite <- rsum_scal_l. apply rsum_ext. intros. ring.
Qed.
Lemma Q2_sum M (A : nat -> nat -> nat -> R) : Q2 (fun q r => rsum M (fun a => A a q r)) = rsum M (fun a => Q2 (A a)).
Proof.
  unfold Q2. rewrite (rsum_swap M nq). apply rsum_ext. intros r _. rewrite (rsum_swap M nq). apply rsum_ext. intros q _. rewrite <- rsum_scal_l. reflexivity.
Qed.
Lemma Q2_bil M (A : nat -> nat -> nat -> nat -> R) :
  Q2 (fun q r => rsum M (fun a => rsum M (fun b => A a b q r))) = rsum M (fun a => rsum M (fun b => Q2 (A a b))).
Proof. rewrite Q2_sum. apply rsum_ext. intros a _. apply Q2_sum. Qed.

Lemma sum_prod M (A B : nat -> R) : rsum M A * rsum M B = rsum M (fun a => rsum M (fun b => A a * B b)).
Proof. rewrite <- rsum_scal_r. apply rsum_ext. intros a _. rewrite <- rsum_scal_l. reflexivity. Qed.
Lemma cross_expand M (A B C D : nat -> R) : rsum M A * rsum M B - rsum M C * rsum M D = rsum M (fun a => rsum M (fun b => A a * B b - C a * D b)).
Proof. rewrite !sum_prod, <- rsum_minus. apply rsum_ext. intros a _. apply eq_sym, rsum_minus. Qed.

Variables (M : nat) (f0 f1 f2 g0 g1 g2 : nat -> R -> R) (u v : nat -> R).
Definition D0 (u : nat -> R) X Y Z : R := rsum M (fun a => g0 a X * f1 a Y * f2 a Z * u a).
Definition D1 (u : nat -> R) X Y Z : R := rsum M (fun a => f0 a X * g1 a Y * f2 a Z * u a).
Definition D2 (u : nat -> R) X Y Z : R := rsum M (fun a => f0 a X * f1 a Y * g2 a Z * u a).
(** the components of grad u x grad v *)
Definition C0 X Y Z : R := D1 u X Y Z * D2 v X Y Z - D2 u X Y Z * D1 v X Y Z.
Definition C1 X Y Z : R := D2 u X Y Z * D0 v X Y Z - D0 u X Y Z * D2 v X Y Z.
Definition C2 X Y Z : R := D0 u X Y Z * D1 v X Y Z - D1 u X Y Z * D0 v X Y Z.
Definition st (g f : nat -> R -> R) (a b : nat) : R := rsum nq (fun q => w q * (g a (x q) * f b (x q))).

Lemma st_eq h g f a b : (forall q, (q < nq)%nat -> h q = g a (x q) * f b (x q)) -> rsum nq (fun q => w q * h q) = st g f a b.
Proof. intros H. apply rsum_ext. intros q Hq. rewrite H by exact Hq. reflexivity. Qed.

Lemma face0 X : Q2 (fun q r => C0 X (x q) (x r)) =
  rsum M (fun a => rsum M (fun b => u a * v b * (f0 a X * f0 b X * (st g1 f1 a b * st g2 f2 b a - st g1 f1 b a * st g2 f2 a b)))).
Proof.
  rewrite (Q2_ext _ (fun q r => rsum M (fun a => rsum M (fun b =>
    u a * v b * (f0 a X * f0 b X) * (g1 a (x q) * f1 b (x q) * (g2 b (x r) * f2 a (x r))) -
    u a * v b * (f0 a X * f0 b X) * (g1 b (x q) * f1 a (x q) * (g2 a (x r) * f2 b (x r))))))).
  - rewrite Q2_bil. apply rsum_ext. intros a _. apply rsum_ext. intros b _. rewrite Q2_minus.
    rewrite (Q2_prod _ (fun q => g1 a (x q) * f1 b (x q)) (fun r => g2 b (x r) * f2 a (x r))).
    rewrite (Q2_prod _ (fun q => g1 b (x q) * f1 a (x q)) (fun r => g2 a (x r) * f2 b (x r))).
    unfold st. ring.
  - intros q r _ _. unfold C0, D1, D2. rewrite cross_expand. apply rsum_ext. intros a _. apply rsum_ext. intros b _. ring.
Qed.
Lemma face1 Y : Q2 (fun q r => C1 (x q) Y (x r)) =
  rsum M (fun a => rsum M (fun b => u a * v b * (f1 a Y * f1 b Y * (st g2 f2 a b * st g0 f0 b a - st g2 f2 b a * st g0 f0 a b)))).
Proof.
  rewrite (Q2_ext _ (fun q r => rsum M (fun a => rsum M (fun b =>
    u a * v b * (f1 a Y * f1 b Y) * (g0 b (x q) * f0 a (x q) * (g2 a (x r) * f2 b (x r))) -
    u a * v b * (f1 a Y * f1 b Y) * (g0 a (x q) * f0 b (x q) * (g2 b (x r) * f2 a (x r))))))).
  - rewrite Q2_bil. apply rsum_ext. intros a _. apply rsum_ext. intros b _. rewrite Q2_minus.
    rewrite (Q2_prod _ (fun q => g0 b (x q) * f0 a (x q)) (fun r => g2 a (x r) * f2 b (x r))).
    rewrite (Q2_prod _ (fun q => g0 a (x q) * f0 b (x q)) (fun r => g2 b (x r) * f2 a (x r))).
    unfold st. ring.
  - intros q r _ _. unfold C1, D0, D2. rewrite cross_expand. apply rsum_ext. intros a _. apply rsum_ext. intros b _. ring.
Qed.
Lemma face2 Z : Q2 (fun q r => C2 (x q) (x r) Z) =
  rsum M (fun a => rsum M (fun b => u a * v b * (f2 a Z * f2 b Z * (st g0 f0 a b * st g1 f1 b a - st g0 f0 b a * st g1 f1 a b)))).
Proof.
  rewrite (Q2_ext _ (fun q r => rsum M (fun a => rsum M (fun b =>
    u a * v b * (f2 a Z * f2 b Z) * (g0 a (x q) * f0 b (x q) * (g1 b (x r) * f1 a (x r))) -
    u a * v b * (f2 a Z * f2 b Z) * (g0 b (x q) * f0 a (x q) * (g1 a (x r) * f1 b (x r))))))).
  - rewrite Q2_bil. apply rsum_ext. intros a _. apply rsum_ext. intros b _. rewrite Q2_minus.
    rewrite (Q2_prod _ (fun q => g0 a (x q) * f0 b (x q)) (fun r => g1 b (x r) * f1 a (x r))).
    rewrite (Q2_prod _ (fun q => g0 b (x q) * f0 a (x q)) (fun r => g1 a (x r) * f1 b (x r))).
    unfold st. ring.
  - intros q r _ _. unfold C2, D0, D1. rewrite cross_expand. apply rsum_ext. intros a _. apply rsum_ext. intros b _. ring.
Qed.

Definition ends (f : nat -> R -> R) (p m : R) (a b : nat) : R := f a p * f b p - f a m * f b m.
Lemma faces p m :
  Q2 (fun q r => C0 p (x q) (x r) - C0 m (x q) (x r)) + Q2 (fun q r => C1 (x q) p (x r) - C1 (x q) m (x r)) +
  Q2 (fun q r => C2 (x q) (x r) p - C2 (x q) (x r) m) =
  rsum M (fun a => rsum M (fun b => u a * v b *
    K3 (ends f0 p m a b) (ends f1 p m a b) (ends f2 p m a b) (st g0 f0 a b) (st g1 f1 a b) (st g2 f2 a b) (st g0 f0 b a) (st g1 f1 b a) (st g2 f2 b a))).
Proof.
  rewrite !Q2_minus, !face0, !face1, !face2, <- !rsum_minus, <- !rsum_plus. apply rsum_ext. intros a _.
  rewrite <- !rsum_minus, <- !rsum_plus. apply rsum_ext. intros b _. unfold ends, K3. ring.
Qed.
Lemma bil_bound (K : nat -> nat -> R) B : (forall a b, (a < M)%nat -> (b < M)%nat -> Rabs (K a b) <= B) ->
  Rabs (rsum M (fun a => rsum M (fun b => u a * v b * K a b))) <= B * (rsum M (fun a => Rabs (u a)) * rsum M (fun b => Rabs (v b))).
Proof.
  intros H. eapply Rle_trans; [apply rsum_abs|]. rewrite sum_prod, <- rsum_scal_l. apply rsum_le. intros a Ha.
  eapply Rle_trans; [apply rsum_abs|]. rewrite <- rsum_scal_l. apply rsum_le. intros b Hb.
  rewrite !Rabs_mult, (Rmult_comm B). apply Rmult_le_compat_l; [apply Rmult_le_pos; apply Rabs_pos|apply H; assumption].
Qed.
End Bil.

(** telescoping over the cells *)
Section Tel.
Variables (nq : nat) (x w l : nat -> R) (G0 G1 G2 : R -> R -> R -> R).
Lemma telescope (h : nat -> R) n : rsum n (fun i => h (S i) - h i) = h n - h 0%nat.
Proof. induction n; cbn [rsum]; [ring|]. rewrite IHn. ring. Qed.
Lemma cells_sum :
  rsum nq (fun k => rsum nq (fun j => rsum nq (fun i =>
    w j * w k * (G0 (l (S i)) (x j) (x k) - G0 (l i) (x j) (x k)) +
    w i * w k * (G1 (x i) (l (S j)) (x k) - G1 (x i) (l j) (x k)) +
    w i * w j * (G2 (x i) (x j) (l (S k)) - G2 (x i) (x j) (l k))))) =
  Q2 nq w (fun q r => G0 (l nq) (x q) (x r) - G0 (l 0%nat) (x q) (x r)) +
  Q2 nq w (fun q r => G1 (x q) (l nq) (x r) - G1 (x q) (l 0%nat) (x r)) +
  Q2 nq w (fun q r => G2 (x q) (x r) (l nq) - G2 (x q) (x r) (l 0%nat)).
Proof.
  rewrite (rsum_ext nq _ (fun k =>
    rsum nq (fun j => w j * w k * (G0 (l nq) (x j) (x k) - G0 (l 0%nat) (x j) (x k))) +
    rsum nq (fun i => w i * w k * (G1 (x i) (l nq) (x k) - G1 (x i) (l 0%nat) (x k))) +
    rsum nq (fun j => rsum nq (fun i => w i * w j * (G2 (x i) (x j) (l (S k)) - G2 (x i) (x j) (l k)))))).
  - rewrite !rsum_plus. unfold Q2. f_equal. rewrite rsum_swap. apply rsum_ext. intros j _. rewrite rsum_swap. apply rsum_ext. intros i _.
    rewrite rsum_scal_l. f_equal. apply (telescope (fun k => G2 (x i) (x j) (l k))).
  - intros k _. rewrite <- (rsum_plus nq (fun j => w j * w k * _)).
    rewrite (rsum_ext nq (fun j => rsum nq _) (fun j => w j * w k * (G0 (l nq) (x j) (x k) - G0 (l 0%nat) (x j) (x k)) +
       rsum nq (fun i => w i * w k * (G1 (x i) (l (S j)) (x k) - G1 (x i) (l j) (x k))) +
       rsum nq (fun i => w i * w j * (G2 (x i) (x j) (l (S k)) - G2 (x i) (x j) (l k))))).
    + rewrite !rsum_plus. f_equal. f_equal. rewrite rsum_swap. apply rsum_ext. intros i _. rewrite rsum_scal_l. f_equal.
      apply (telescope (fun j => G1 (x i) (l j) (x k))).
    + intros j _. rewrite !rsum_plus. f_equal. f_equal. rewrite rsum_scal_l. f_equal. apply (telescope (fun i => G0 (l i) (x j) (x k))).
Qed.
End Tel.
