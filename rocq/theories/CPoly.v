(** Polynomial functions of degree < n on C and the facts about them used by the interpolation
    properties (library; models nothing in /repo). *)
From Coq Require Import Reals Lra Lia Arith.
From Coquelicot Require Import Complex.
Require Import Verif.CSum Verif.Spec_Complex.
Open Scope R_scope.
Open Scope C_scope.

Local Arguments Cmod _%C.
Implicit Types f g : C -> C.
Implicit Types u v c r : C.

(** [f] is a polynomial function of degree < n. *)
Definition cpoly_lt (n : nat) (f : C -> C) : Prop :=
  exists a : nat -> C, forall x, f x = csum n (fun k => a k * cpow x k).

Lemma cpoly_ext n f g : (forall x, f x = g x) -> cpoly_lt n f -> cpoly_lt n g.
Proof. intros E (a & H). exists a. intros x. rewrite <- E. apply H. Qed.

Lemma cpoly_mono n m f : (n <= m)%nat -> cpoly_lt n f -> cpoly_lt m f.
Proof.
  intros L (a & H). exists (fun k => if Nat.ltb k n then a k else 0). intros x.
  replace m with (n + (m - n))%nat by lia. rewrite csum_add, H.
  rewrite (csum_zero (m - n)).
  - rewrite Cplus_0_r. apply csum_ext. intros i Hi. destruct (Nat.ltb_spec i n); [reflexivity|lia].
  - intros i Hi. destruct (Nat.ltb_spec (n + i) n); [lia|ring].
Qed.

Lemma cpoly_add n f g : cpoly_lt n f -> cpoly_lt n g -> cpoly_lt n (fun x => f x + g x).
Proof.
  intros (a & Ha) (b & Hb). exists (fun k => a k + b k). intros x. rewrite Ha, Hb, <- csum_plus.
  apply csum_ext. intros. ring.
Qed.
Lemma cpoly_scal n c f : cpoly_lt n f -> cpoly_lt n (fun x => c * f x).
Proof.
  intros (a & Ha). exists (fun k => c * a k). intros x. rewrite Ha, <- csum_scal_l.
  apply csum_ext. intros. ring.
Qed.
Lemma cpoly_sub n f g : cpoly_lt n f -> cpoly_lt n g -> cpoly_lt n (fun x => f x - g x).
Proof.
  intros Hf Hg. apply (cpoly_ext n (fun x => f x + (- RtoC 1) * g x)); [intros; ring|].
  apply cpoly_add; [exact Hf|apply cpoly_scal; exact Hg].
Qed.
Lemma cpoly_const n c : (1 <= n)%nat -> cpoly_lt n (fun _ => c).
Proof.
  intros H. apply (cpoly_mono 1); [exact H|]. exists (fun _ => c). intros x. cbn [csum cprod cpow]. ring.
Qed.
Lemma cpoly_zero n : cpoly_lt n (fun _ => 0).
Proof. exists (fun _ => 0). intros x. symmetry. apply csum_zero. intros; ring. Qed.

Lemma cpoly_mulX n f : cpoly_lt n f -> cpoly_lt (S n) (fun x => x * f x).
Proof.
  intros (a & Ha). exists (fun k => match k with O => RtoC 0 | S k' => a k' end). intros x.
  rewrite csum_S_l, Ha. cbn [csum cprod cpow]. rewrite Cmult_0_l, Cplus_0_l, <- csum_scal_l.
  apply csum_ext. intros. ring.
Qed.
Lemma cpoly_mul_lin n f u v : cpoly_lt n f -> cpoly_lt (S n) (fun x => (u * x + v) * f x).
Proof.
  intros Hf. apply (cpoly_ext (S n) (fun x => u * (x * f x) + v * f x)); [intros; ring|].
  apply cpoly_add.
  - apply cpoly_scal. apply cpoly_mulX. exact Hf.
  - apply cpoly_scal. apply (cpoly_mono n); [lia|exact Hf].
Qed.
Lemma cpoly_sum n m (F : nat -> C -> C) :
  (forall i, (i < m)%nat -> cpoly_lt n (F i)) -> cpoly_lt n (fun x => csum m (fun i => F i x)).
Proof.
  induction m as [|m IH]; cbn [csum]; intros H; [apply cpoly_zero|].
  apply (cpoly_add n (fun x => csum m (fun i => F i x)) (F m)); [apply IH; intros; apply H; lia|apply H; lia].
Qed.
Lemma cpoly_prod_lin m (u v : nat -> C) :
  cpoly_lt (S m) (fun x => cprod m (fun j => u j * x + v j)).
Proof.
  induction m as [|m IH].
  - exact (cpoly_const 1 1 (le_n 1)).
  - apply (cpoly_ext (S (S m)) (fun x => (u m * x + v m) * cprod m (fun j => u j * x + v j))).
    + intros x. cbn [cprod]. ring.
    + apply cpoly_mul_lin. exact IH.
Qed.

(** factor theorem *)
Lemma cpoly_factor n f r :
  cpoly_lt (S n) f -> exists g, cpoly_lt n g /\ forall x, f x = f r + (x - r) * g x.
Proof.
  revert f. induction n as [|n IH]; intros f (a & Ha).
  - exists (fun _ => 0). split; [apply cpoly_zero|]. intros x. rewrite !Ha. cbn [csum cprod cpow]. ring.
  - set (h := fun x => csum (S n) (fun k => a (S k) * cpow x k)).
    assert (Hh : cpoly_lt (S n) h) by (exists (fun k => a (S k)); reflexivity).
    assert (E : forall x, f x = a 0%nat + x * h x).
    { intros x. rewrite Ha, csum_S_l. unfold h. rewrite <- csum_scal_l. cbn [csum cprod cpow].
      rewrite Cmult_1_r. f_equal. f_equal; [|ring]. apply csum_ext. intros. ring. }
    destruct (IH h Hh) as (g & Hg & Eg).
    exists (fun x => h r + x * g x). split.
    + apply cpoly_add; [apply cpoly_const; lia|apply cpoly_mulX; exact Hg].
    + intros x. rewrite !E. rewrite (Eg x) at 1. ring.
Qed.

(** a polynomial of degree < n with n distinct roots is zero *)
Lemma cpoly_roots n f (z : nat -> C) :
  cpoly_lt n f ->
  (forall i j, (i < n)%nat -> (j < n)%nat -> i <> j -> z i <> z j) ->
  (forall i, (i < n)%nat -> f (z i) = 0) -> forall x, f x = 0.
Proof.
  revert f. induction n as [|n IH]; intros f Hf Hd Hr x.
  - destruct Hf as (a & Ha). rewrite Ha. reflexivity.
  - destruct (cpoly_factor n f (z n) Hf) as (g & Hg & E).
    rewrite (Hr n) in E by lia.
    rewrite E. rewrite (IH g Hg).
    + ring.
    + intros i j Hi Hj. apply Hd; lia.
    + intros i Hi. specialize (E (z i)). rewrite (Hr i) in E by lia.
      assert (Q : z i - z n <> 0) by (apply Cminus_neq_0; apply Hd; lia).
      replace (g (z i)) with (/ (z i - z n) * (0 + (z i - z n) * g (z i))) by (field; exact Q).
      rewrite <- E. ring.
Qed.

Lemma cpoly_agree n f g (z : nat -> C) :
  cpoly_lt n f -> cpoly_lt n g ->
  (forall i j, (i < n)%nat -> (j < n)%nat -> i <> j -> z i <> z j) ->
  (forall i, (i < n)%nat -> f (z i) = g (z i)) -> forall x, f x = g x.
Proof.
  intros Hf Hg Hd H x.
  assert (E := cpoly_roots n (fun x => f x - g x) z (cpoly_sub n f g Hf Hg) Hd).
  assert (Q : f x - g x = 0) by (apply E; intros i Hi; rewrite H by exact Hi; ring).
  replace (f x) with (f x - g x + g x) by ring. rewrite Q. ring.
Qed.

(** polynomials are bounded near every point *)
Lemma Cmod_cpow x n : Cmod (cpow x n) = (Cmod x ^ n)%R.
Proof. induction n as [|n IH]; cbn [cpow pow]; [apply Cmod_1|]. rewrite Cmod_mult, IH. reflexivity. Qed.
Lemma Cmod_csum n (F : nat -> C) : (Cmod (csum n F) <= RSum.rsum n (fun i => Cmod (F i)))%R.
Proof.
  induction n as [|n IH]; cbn [csum RSum.rsum]; [rewrite Cmod_0; lra|].
  eapply Rle_trans; [apply Cmod_triangle|]. lra.
Qed.
Lemma cpoly_bounded n f x : cpoly_lt n f ->
  exists B, (0 <= B)%R /\ forall h, (Cmod h <= 1)%R -> (Cmod (f (x + h)%C) <= B)%R.
Proof.
  intros (a & Ha). exists (RSum.rsum n (fun k => Cmod (a k) * (Cmod x + 1) ^ k))%R. split.
  - apply RSum.rsum_nonneg. intros i _. apply Rmult_le_pos; [apply Cmod_ge_0|].
    apply pow_le. generalize (Cmod_ge_0 x). lra.
  - intros h Hh. rewrite Ha. eapply Rle_trans; [apply Cmod_csum|]. apply RSum.rsum_le. intros i _.
    rewrite Cmod_mult, Cmod_cpow. apply Rmult_le_compat_l; [apply Cmod_ge_0|].
    apply pow_incr. split; [apply Cmod_ge_0|]. eapply Rle_trans; [apply Cmod_triangle|]. lra.
Qed.

Lemma cder_ext f g x d : (forall t, f t = g t) -> is_cder f x d -> is_cder g x d.
Proof.
  intros E H eps He. destruct (H eps He) as (dl & Hd & Q). exists dl. split; [exact Hd|].
  intros h H0 H1. rewrite <- !E. apply Q; assumption.
Qed.
Lemma cder_const c x : is_cder (fun _ => c) x 0.
Proof.
  intros eps He. exists 1%R. split; [lra|]. intros h H0 _.
  replace ((c - c) / h - 0) with (RtoC 0) by (field; exact H0). rewrite Cmod_0. exact He.
Qed.
Lemma cder_plus f g x d e : is_cder f x d -> is_cder g x e -> is_cder (fun t => f t + g t) x (d + e).
Proof.
  intros Hf Hg eps He. destruct (Hf (eps / 2)%R ltac:(lra)) as (d1 & P1 & Q1).
  destruct (Hg (eps / 2)%R ltac:(lra)) as (d2 & P2 & Q2). exists (Rmin d1 d2). split; [apply Rmin_pos; assumption|].
  intros h H0 H1. specialize (Q1 h H0 (Rlt_le_trans _ _ _ H1 (Rmin_l _ _))).
  specialize (Q2 h H0 (Rlt_le_trans _ _ _ H1 (Rmin_r _ _))).
  replace ((f (x + h) + g (x + h) - (f x + g x)) / h - (d + e)) with
    (((f (x + h) - f x) / h - d) + ((g (x + h) - g x) / h - e)) by (field; exact H0).
  eapply Rle_lt_trans; [apply Cmod_triangle|]. lra.
Qed.
Lemma cder_scal c f x d : is_cder f x d -> is_cder (fun t => c * f t) x (c * d).
Proof.
  intros H eps He. assert (P := Cmod_ge_0 c).
  destruct (H (eps / (Cmod c + 1))%R) as (dl & Hd & Q); [apply Rdiv_lt_0_compat; lra|].
  exists dl. split; [exact Hd|]. intros h H0 H1. specialize (Q h H0 H1).
  replace ((c * f (x + h) - c * f x) / h - c * d) with (c * ((f (x + h) - f x) / h - d)) by (field; exact H0).
  rewrite Cmod_mult. set (m := Cmod ((f (x + h) - f x) / h - d)) in *.
  assert (M : (0 <= m)%R) by apply Cmod_ge_0.
  assert (E : (eps = eps / (Cmod c + 1) * (Cmod c + 1))%R) by (field; lra).
  rewrite E. apply Rle_lt_trans with ((Cmod c + 1) * m)%R; [nra|].
  rewrite Rmult_comm. apply Rmult_lt_compat_r; lra.
Qed.
Lemma cder_sum n (F : nat -> C -> C) (d : nat -> C) x :
  (forall i, (i < n)%nat -> is_cder (F i) x (d i)) -> is_cder (fun t => csum n (fun i => F i t)) x (csum n d).
Proof.
  induction n as [|n IH]; cbn [csum]; intros H; [apply cder_const|].
  apply (cder_plus (fun t => csum n (fun i => F i t)) (F n)); [apply IH; intros; apply H; lia|apply H; lia].
Qed.
Lemma cder_unique f x d e : is_cder f x d -> is_cder f x e -> d = e.
Proof.
  intros Hd He. destruct (Ceq_dec (d - e) 0) as [E|E].
  { replace d with (d - e + e) by ring. rewrite E. ring. }
  exfalso. assert (P := Cmod_gt_0 (d - e)). assert (P' := proj1 P E).
  destruct (Hd (Cmod (d - e) / 2)%R ltac:(lra)) as (d1 & P1 & Q1).
  destruct (He (Cmod (d - e) / 2)%R ltac:(lra)) as (d2 & P2 & Q2).
  set (h := (Rmin d1 d2 / 2)%R). assert (Hh : (0 < h)%R) by (unfold h; generalize (Rmin_pos _ _ P1 P2); lra).
  assert (H1 : (h < d1)%R) by (unfold h; generalize (Rmin_l d1 d2), (Rmin_pos _ _ P1 P2); lra).
  assert (H2 : (h < d2)%R) by (unfold h; generalize (Rmin_r d1 d2), (Rmin_pos _ _ P1 P2); lra).
  assert (H0 : RtoC h <> 0) by (intros Q; apply (f_equal fst) in Q; simpl in Q; lra).
  assert (Hm : Cmod (RtoC h) = h) by (rewrite Cmod_R; apply Rabs_pos_eq; lra).
  specialize (Q1 (RtoC h) H0 ltac:(rewrite Hm; exact H1)). specialize (Q2 (RtoC h) H0 ltac:(rewrite Hm; exact H2)).
  set (q := (f (x + h) - f x) / h) in *.
  assert (T := Cmod_triangle (q - e) (- (q - d))). rewrite Cmod_opp in T.
  replace (q - e + - (q - d)) with (d - e) in T by ring. lra.
Qed.

(** derivative at [x] of [f y = f x + (y - x) * g y] is [g x] *)
Lemma cder_factor f g n x :
  cpoly_lt (S n) g -> (forall y, f y = f x + (y - x) * g y) -> is_cder f x (g x).
Proof.
  intros Hg E. destruct (cpoly_factor n g x Hg) as (k & Hk & Ek).
  destruct (cpoly_bounded n k x Hk) as (B & HB & Kb). intros eps He.
  exists (Rmin 1 (eps / (B + 1)))%R. split.
  { apply Rmin_pos; [lra|]. apply Rdiv_lt_0_compat; lra. }
  intros h H0 H1.
  replace ((f (x + h) - f x) / h - g x) with (h * k (x + h)).
  - rewrite Cmod_mult. specialize (Kb h ltac:(generalize (Rmin_l 1 (eps / (B + 1))); lra)).
    assert (H2 : (Cmod h < eps / (B + 1))%R) by (eapply Rlt_le_trans; [exact H1|apply Rmin_r]).
    assert (M := Cmod_ge_0 h).
    assert (Ee : (eps = eps / (B + 1) * (B + 1))%R) by (field; lra).
    rewrite Ee. apply Rle_lt_trans with (Cmod h * (B + 1))%R; [nra|]. apply Rmult_lt_compat_r; lra.
  - rewrite (E (x + h)), (Ek (x + h)). field. exact H0.
Qed.
