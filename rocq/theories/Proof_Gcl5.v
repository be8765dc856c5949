(** The volume check of the average example (C67). *)
From Coq Require Import List Arith ZArith Reals Lia Lra.
From Coquelicot Require Import Coquelicot.
Import ListNotations.
Require Import Verif.Base Verif.RBase Verif.RSum Verif.RDer Verif.Spec_Mat Verif.Spec_Lagrange Verif.Lagrange_Math Verif.Spec_Poly Verif.Spec_Quad Verif.Spec_Ref Verif.Model_Ref
  Verif.Proof_Ref Verif.Proof_Ref5 Verif.Model_Jac Verif.Proof_Jac Verif.Spec_HexN Verif.Model_HexN Verif.Proof_HexN2 Verif.Proof_HexN3 Verif.Model_Gcl Verif.Spec_Gcl
  Verif.Proof_Quad Verif.Proof_Quad6 Verif.Proof_Gcl Verif.Proof_Gcl2 Verif.Proof_Gcl4.
Require Verif.Prop_Ref.
Open Scope R_scope.

(** ** iterated integrals *)
Lemma int_plus f g a b : integral f a -> integral g b -> integral (fun t => f t + g t) (a + b).
Proof. intros H K. exact (is_RInt_plus f g (-1) 1 a b H K). Qed.
Lemma int_scal c f a : integral f a -> integral (fun t => c * f t) (c * a).
Proof. intros H. exact (is_RInt_scal f (-1) 1 c a H). Qed.
Lemma int3_plus f g a b : integral3 f a -> integral3 g b -> integral3 (fun x y z => f x y z + g x y z) (a + b).
Proof.
  intros (u & Hu & Ia) (v & Hv & Ib). exists (fun z => u z + v z). split; [|apply int_plus; assumption].
  intros z. destruct (Hu z) as (u' & Hu' & Iu). destruct (Hv z) as (v' & Hv' & Iv). exists (fun y => u' y + v' y). split; [|apply int_plus; assumption].
  intros y. apply (int_plus (fun x => f x y z) (fun x => g x y z)); auto.
Qed.
Lemma int3_scal c f a : integral3 f a -> integral3 (fun x y z => c * f x y z) (c * a).
Proof.
  intros (u & Hu & Ia). exists (fun z => c * u z). split; [|apply int_scal; assumption].
  intros z. destruct (Hu z) as (u' & Hu' & Iu). exists (fun y => c * u' y). split; [|apply int_scal; assumption].
  intros y. apply (int_scal c (fun x => f x y z)); auto.
Qed.
Lemma int3_ext f g a b : (forall x y z, f x y z = g x y z) -> a = b -> integral3 f a -> integral3 g b.
Proof.
  intros E -> (u & Hu & Ia). exists u. split; [|exact Ia]. intros z. destruct (Hu z) as (u' & Hu' & Iu). exists u'. split; [|exact Iu].
  intros y. eapply integral_ext; [|apply Hu']. intros x. apply E.
Qed.
Lemma int3_prod h0 h1 h2 a b c : integral h0 a -> integral h1 b -> integral h2 c -> integral3 (fun x y z => h0 x * h1 y * h2 z) (a * b * c).
Proof.
  intros H0 H1 H2. exists (fun z => a * b * h2 z). split; [|apply int_scal; exact H2].
  intros z. exists (fun y => a * h2 z * h1 y). split.
  - intros y. apply (integral_ext (fun x => h1 y * h2 z * h0 x)); [intros; ring|]. replace (a * h2 z * h1 y) with (h1 y * h2 z * a) by ring. apply int_scal. exact H0.
  - replace (a * b * h2 z) with (a * h2 z * b) by ring. apply int_scal. exact H1.
Qed.
Lemma int3_rsum M (F : nat -> R -> R -> R -> R) (V : nat -> R) : (forall a, (a < M)%nat -> integral3 (F a) (V a)) ->
  integral3 (fun x y z => rsum M (fun a => F a x y z)) (rsum M V).
Proof.
  induction M as [|M IH]; intros H; cbn [rsum].
  - assert (I0 : integral (fun _ => 0) 0).
    { unfold integral. generalize (is_RInt_const (V := R_NormedModule) (-1) 1 0). unfold scal; cbn. unfold mult; cbn. rewrite Rmult_0_r. auto. }
    exists (fun _ => 0). split; [|exact I0]. intros z. exists (fun _ => 0). split; [intros; exact I0|exact I0].
  - apply int3_plus; [apply IH; intros; apply H; lia|apply H; lia].
Qed.

(** ** a determinant of sums of products *)
Section Det.
Variables (M : nat) (f0 f1 f2 g0 g1 g2 : nat -> R -> R) (u v s : nat -> R).
(** which of the three basis functions is differentiated *)
Definition H3 (f g : nat -> R -> R) (e a b c : nat) (t : R) : R :=
  match e with 0%nat => g a t * f b t * f c t | 1%nat => g b t * f a t * f c t | _ => g c t * f a t * f b t end.
Definition alt (t : nat -> nat -> nat -> R) : R :=
  t 0%nat 1%nat 2%nat + t 2%nat 0%nat 1%nat + t 1%nat 2%nat 0%nat - t 2%nat 1%nat 0%nat - t 1%nat 0%nat 2%nat - t 0%nat 2%nat 1%nat.
Definition tri (K : nat -> nat -> nat -> R) : R := rsum M (fun a => rsum M (fun b => rsum M (fun c => u a * v b * s c * K a b c))).
Lemma tri_ext K K' : (forall a b c, (a < M)%nat -> (b < M)%nat -> (c < M)%nat -> K a b c = K' a b c) -> tri K = tri K'.
Proof. intros H. apply rsum_ext. intros a Ha. apply rsum_ext. intros b Hb. apply rsum_ext. intros c Hc. rewrite H by assumption. reflexivity. Qed.
Lemma tri_prod (A B C : nat -> R) : rsum M (fun a => A a * u a) * rsum M (fun b => B b * v b) * rsum M (fun c => C c * s c) = tri (fun a b c => A a * B b * C c).
Proof.
  unfold tri. rewrite sum_prod, <- rsum_scal_r. apply rsum_ext. intros a _. rewrite <- rsum_scal_r. apply rsum_ext. intros b _.
  rewrite <- rsum_scal_l. apply rsum_ext. intros. ring.
Qed.
Lemma tri_plus K K' : tri K + tri K' = tri (fun a b c => K a b c + K' a b c).
Proof. unfold tri. rewrite <- rsum_plus. apply rsum_ext. intros a _. rewrite <- rsum_plus. apply rsum_ext. intros b _. rewrite <- rsum_plus. apply rsum_ext. intros. ring. Qed.
Lemma tri_minus K K' : tri K - tri K' = tri (fun a b c => K a b c - K' a b c).
Proof. unfold tri. rewrite <- rsum_minus. apply rsum_ext. intros a _. rewrite <- rsum_minus. apply rsum_ext. intros b _. rewrite <- rsum_minus. apply rsum_ext. intros. ring. Qed.

Definition DD (k : nat) (u : nat -> R) X Y Z : R :=
  match k with 0%nat => rsum M (fun a => g0 a X * f1 a Y * f2 a Z * u a) | 1%nat => rsum M (fun a => f0 a X * g1 a Y * f2 a Z * u a) | _ => rsum M (fun a => f0 a X * f1 a Y * g2 a Z * u a) end.
Lemma det_tri J X Y Z : (forall k, (k < 3)%nat -> J 0%nat k = DD k u X Y Z /\ J 1%nat k = DD k v X Y Z /\ J 2%nat k = DD k s X Y Z) ->
  det3 J = tri (fun a b c => alt (fun e0 e1 e2 => H3 f0 g0 e0 a b c X * H3 f1 g1 e1 a b c Y * H3 f2 g2 e2 a b c Z)).
Proof.
  intros HJ. unfold det3. destruct (HJ 0%nat ltac:(lia)) as (-> & -> & ->). destruct (HJ 1%nat ltac:(lia)) as (-> & -> & ->). destruct (HJ 2%nat ltac:(lia)) as (-> & -> & ->).
  unfold DD. rewrite !tri_prod. rewrite !tri_plus, !tri_minus. apply tri_ext. intros a b c _ _ _. unfold alt, H3. ring.
Qed.

(** quadrature and integral of the same form *)
Variables (nq : nat) (x w : nat -> R).
Definition Q3 (F : R -> R -> R -> R) : R := rsum nq (fun k => rsum nq (fun j => rsum nq (fun i => w i * w j * w k * F (x i) (x j) (x k)))).
Lemma Q3_ext F G : (forall i j k, (i < nq)%nat -> (j < nq)%nat -> (k < nq)%nat -> F (x i) (x j) (x k) = G (x i) (x j) (x k)) -> Q3 F = Q3 G.
Proof. intros H. apply rsum_ext. intros k Hk. apply rsum_ext. intros j Hj. apply rsum_ext. intros i Hi. rewrite H by assumption. reflexivity. Qed.
Lemma Q3_plus F G : Q3 (fun a b c => F a b c + G a b c) = Q3 F + Q3 G.
Proof. unfold Q3. rewrite <- rsum_plus. apply rsum_ext. intros k _. rewrite <- rsum_plus. apply rsum_ext. intros j _. rewrite <- rsum_plus. apply rsum_ext. intros. ring. Qed.
Lemma Q3_minus F G : Q3 (fun a b c => F a b c - G a b c) = Q3 F - Q3 G.
Proof. unfold Q3. rewrite <- rsum_minus. apply rsum_ext. intros k _. rewrite <- rsum_minus. apply rsum_ext. intros j _. rewrite <- rsum_minus. apply rsum_ext. intros. ring. Qed.
Lemma Q3_scal c F : Q3 (fun a b d => c * F a b d) = c * Q3 F.
Proof. unfold Q3. rewrite <- rsum_scal_l. apply rsum_ext. intros k _. rewrite <- rsum_scal_l. apply rsum_ext. intros j _. rewrite <- rsum_scal_l. apply rsum_ext. intros. ring. Qed.
Lemma Q3_sum m (F : nat -> R -> R -> R -> R) : Q3 (fun a b c => rsum m (fun t => F t a b c)) = rsum m (fun t => Q3 (F t)).
Proof.
  unfold Q3. rewrite (rsum_swap m nq). apply rsum_ext. intros k _. rewrite (rsum_swap m nq). apply rsum_ext. intros j _. rewrite (rsum_swap m nq). apply rsum_ext. intros i _.
  rewrite <- rsum_scal_l. reflexivity.
Qed.
Definition q1 (h : R -> R) : R := rsum nq (fun q => w q * h (x q)).
Lemma Q3_prod h0 h1 h2 : Q3 (fun a b c => h0 a * h1 b * h2 c) = q1 h0 * q1 h1 * q1 h2.
Proof.
  unfold Q3, q1. rewrite <- rsum_scal_l. apply rsum_ext. intros k _. rewrite <- sum2_factor, <- rsum_scal_r. apply rsum_ext. intros j _.
  rewrite <- rsum_scal_r. apply rsum_ext. intros. ring.
Qed.
Lemma Q3_alt (t : nat -> nat -> nat -> R -> R -> R -> R) : Q3 (fun a b c => alt (fun e0 e1 e2 => t e0 e1 e2 a b c)) = alt (fun e0 e1 e2 => Q3 (t e0 e1 e2)).
Proof. unfold alt. rewrite !Q3_minus, !Q3_plus. reflexivity. Qed.
Lemma Q3_tri (K : nat -> nat -> nat -> R -> R -> R -> R) : Q3 (fun X Y Z => tri (fun a b c => K a b c X Y Z)) = tri (fun a b c => Q3 (K a b c)).
Proof. unfold tri. rewrite Q3_sum. apply rsum_ext. intros a _. rewrite Q3_sum. apply rsum_ext. intros b _. rewrite Q3_sum. apply rsum_ext. intros c _. apply Q3_scal. Qed.
Lemma int_tri (K : nat -> nat -> nat -> R -> R -> R -> R) V : (forall a b c, (a < M)%nat -> (b < M)%nat -> (c < M)%nat -> integral3 (K a b c) (V a b c)) ->
  integral3 (fun X Y Z => tri (fun a b c => K a b c X Y Z)) (tri V).
Proof.
  intros H. unfold tri. apply int3_rsum. intros a Ha. apply int3_rsum. intros b Hb. apply int3_rsum. intros c Hc. apply int3_scal. apply H; assumption.
Qed.
Lemma int_alt (t : nat -> nat -> nat -> R -> R -> R -> R) V : (forall a b c, (a < 3)%nat -> (b < 3)%nat -> (c < 3)%nat -> integral3 (t a b c) (V a b c)) ->
  integral3 (fun X Y Z => alt (fun e0 e1 e2 => t e0 e1 e2 X Y Z)) (alt V).
Proof.
  intros H. unfold alt.
  assert (N : forall f a, integral3 f a -> integral3 (fun x y z => - f x y z) (- a)).
  { intros f a Hf. apply (int3_ext (fun x y z => -1 * f x y z) _ (-1 * a)); [intros; ring|ring|]. apply int3_scal. exact Hf. }
  assert (H' : forall a b c, (a < 3)%nat -> (b < 3)%nat -> (c < 3)%nat -> integral3 (fun x y z => - t a b c x y z) (- V a b c)) by (intros; apply N; apply H; assumption).
  assert (L : forall a, (a < 3)%nat -> (a < 3)%nat) by auto.
  assert (O0 : (0 < 3)%nat) by lia. assert (O1 : (1 < 3)%nat) by lia. assert (O2 : (2 < 3)%nat) by lia.
  exact (int3_plus _ _ _ _ (int3_plus _ _ _ _ (int3_plus _ _ _ _ (int3_plus _ _ _ _ (int3_plus _ _ _ _ (H _ _ _ O0 O1 O2) (H _ _ _ O2 O0 O1)) (H _ _ _ O1 O2 O0))
    (H' _ _ _ O2 O1 O0)) (H' _ _ _ O1 O0 O2)) (H' _ _ _ O0 O2 O1)).
Qed.
Lemma tri_bound K B : (forall a b c, (a < M)%nat -> (b < M)%nat -> (c < M)%nat -> Rabs (K a b c) <= B) ->
  Rabs (tri K) <= B * (rsum M (fun a => Rabs (u a)) * rsum M (fun a => Rabs (v a)) * rsum M (fun a => Rabs (s a))).
Proof.
  intros H. unfold tri. eapply Rle_trans; [apply rsum_abs|]. rewrite sum_prod, <- rsum_scal_r, <- rsum_scal_l. apply rsum_le. intros a Ha.
  eapply Rle_trans; [apply rsum_abs|]. rewrite <- rsum_scal_r, <- rsum_scal_l. apply rsum_le. intros b Hb.
  eapply Rle_trans; [apply rsum_abs|]. rewrite <- !rsum_scal_l. apply rsum_le. intros c Hc.
  rewrite !Rabs_mult, (Rmult_comm B). apply Rmult_le_compat_l; [repeat apply Rmult_le_pos; apply Rabs_pos|apply H; assumption].
Qed.
End Det.

Lemma prod3_scaled t M a b e A B E : 0 <= t -> 0 <= M -> Rabs (a - A) <= t * M -> Rabs (b - B) <= t * M -> Rabs (e - E) <= t * M ->
  Rabs A <= 2 * M -> Rabs B <= 2 * M -> Rabs E <= 2 * M -> Rabs (a * b * e - A * B * E) <= ((2 + t) ^ 3 - 8) * (M * M * M).
Proof.
  intros Ht HM Ha Hb He HA HB HE. destruct (Rle_lt_or_eq_dec 0 M HM) as [P|<-].
  - assert (S : forall y c, Rabs y <= c * M -> Rabs (y / M) <= c).
    { intros y c H. unfold Rdiv. rewrite Rabs_mult, Rabs_Rinv, (Rabs_right M) by lra. apply (Rmult_le_reg_r M); [exact P|]. rewrite Rmult_assoc, Rinv_l by lra. lra. }
    assert (S2 : forall y z c, Rabs (y - z) <= c * M -> Rabs (y / M - z / M) <= c).
    { intros y z c H. replace (y / M - z / M) with ((y - z) / M) by (field; lra). apply S. exact H. }
    assert (G := prod3_err t (a / M) (b / M) (e / M) (A / M) (B / M) (E / M) Ht (S2 _ _ _ Ha) (S2 _ _ _ Hb) (S2 _ _ _ He) (S _ _ HA) (S _ _ HB) (S _ _ HE)).
    replace (a * b * e - A * B * E) with ((a / M * (b / M) * (e / M) - A / M * (B / M) * (E / M)) * (M * M * M)) by (field; lra).
    assert (P3 : 0 < M * M * M) by (repeat apply Rmult_lt_0_compat; exact P).
    rewrite Rabs_mult, (Rabs_right (M * M * M)) by lra. apply Rmult_le_compat_r; [lra|exact G].
  - rewrite !Rmult_0_r in *. assert (Z : forall y, Rabs y <= 0 -> y = 0) by (intros y Hy; destruct (Req_dec y 0) as [|N]; [assumption|apply Rabs_pos_lt in N; lra]).
    apply Z in HA, HB, HE, Ha. subst. replace (a * b * e - 0 * 0 * 0) with ((a - 0) * b * e) by ring. rewrite Ha, !Rmult_0_l, Rabs_R0. lra.
Qed.
