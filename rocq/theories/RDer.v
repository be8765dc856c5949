(** Differentiation rules for [derivable_pt_lim] in plain lambda form, and a tactic. *)
From Coq Require Import Reals Arith Lia Lra.
Require Import Verif.RSum.
Open Scope R_scope.

Lemma der_value f x d d' : d = d' -> derivable_pt_lim f x d -> derivable_pt_lim f x d'.
Proof. intros ->. exact (fun H => H). Qed.
Lemma der_ext f g x d : (forall t, f t = g t) -> derivable_pt_lim f x d -> derivable_pt_lim g x d.
Proof. intros E H eps He. destruct (H eps He) as (del & Hd). exists del. intros h H0 H1.
  rewrite <- !E. apply Hd; assumption. Qed.
Lemma der_unique f x d d' : derivable_pt_lim f x d -> derivable_pt_lim f x d' -> d = d'.
Proof. apply uniqueness_limite. Qed.
Lemma der_const c x : derivable_pt_lim (fun _ => c) x 0.
Proof. apply (derivable_pt_lim_const c x). Qed.
Lemma der_id x : derivable_pt_lim (fun t => t) x 1.
Proof. apply (derivable_pt_lim_id x). Qed.
Lemma der_add f g x a b :
  derivable_pt_lim f x a -> derivable_pt_lim g x b -> derivable_pt_lim (fun t => f t + g t) x (a + b).
Proof. apply (derivable_pt_lim_plus f g x a b). Qed.
Lemma der_sub f g x a b :
  derivable_pt_lim f x a -> derivable_pt_lim g x b -> derivable_pt_lim (fun t => f t - g t) x (a - b).
Proof. apply (derivable_pt_lim_minus f g x a b). Qed.
Lemma der_opp f x a : derivable_pt_lim f x a -> derivable_pt_lim (fun t => - f t) x (- a).
Proof. apply (derivable_pt_lim_opp f x a). Qed.
Lemma der_mul f g x a b :
  derivable_pt_lim f x a -> derivable_pt_lim g x b ->
  derivable_pt_lim (fun t => f t * g t) x (a * g x + f x * b).
Proof. apply (derivable_pt_lim_mult f g x a b). Qed.
Lemma der_scal c f x a : derivable_pt_lim f x a -> derivable_pt_lim (fun t => c * f t) x (c * a).
Proof. apply (derivable_pt_lim_scal f c x a). Qed.
Lemma der_scal_r c f x a : derivable_pt_lim f x a -> derivable_pt_lim (fun t => f t * c) x (a * c).
Proof. intros H. apply (der_ext (fun t => c * f t)); [intros; ring|]. rewrite Rmult_comm. apply der_scal. exact H. Qed.
Lemma der_divc c f x a : derivable_pt_lim f x a -> derivable_pt_lim (fun t => f t / c) x (a / c).
Proof. intros H. apply (der_scal_r (/ c)). exact H. Qed.
Lemma der_pow n f x a :
  derivable_pt_lim f x a -> derivable_pt_lim (fun t => f t ^ n) x (INR n * f x ^ pred n * a).
Proof.
  intros H. assert (P := derivable_pt_lim_comp f (fun y => y ^ n) x a _ H (derivable_pt_lim_pow (f x) n)).
  exact P.
Qed.
Lemma der_rsum n (F : nat -> R -> R) (d : nat -> R) x :
  (forall i, (i < n)%nat -> derivable_pt_lim (F i) x (d i)) ->
  derivable_pt_lim (fun t => rsum n (fun i => F i t)) x (rsum n d).
Proof.
  induction n as [|n IH]; intros H; cbn [rsum]; [apply der_const|].
  apply der_add; [apply IH; intros; apply H; lia|apply H; lia].
Qed.

(** syntax-directed differentiation of polynomial expressions *)
Ltac der_step :=
  match goal with
  | H : derivable_pt_lim ?f ?x _ |- derivable_pt_lim ?f ?x _ => exact H
  | H : forall y, derivable_pt_lim ?f y _ |- derivable_pt_lim ?f ?x _ => apply H
  | H : forall y, derivable_pt_lim ?f y _ |- derivable_pt_lim (fun t => ?f t) ?x _ => apply H
  | |- derivable_pt_lim (Rmult ?c) ?x ?d => change (derivable_pt_lim (fun t => c * t) x d)
  | |- derivable_pt_lim (Rplus ?c) ?x ?d => change (derivable_pt_lim (fun t => c + t) x d)
  | |- derivable_pt_lim (Rminus ?c) ?x ?d => change (derivable_pt_lim (fun t => c - t) x d)
  | |- derivable_pt_lim Ropp ?x ?d => change (derivable_pt_lim (fun t => - t) x d)
  | |- derivable_pt_lim (fun _ => ?c) _ _ => apply der_const
  | |- derivable_pt_lim (fun t => t) _ _ => apply der_id
  | |- derivable_pt_lim (fun t => _ + _) _ _ => apply der_add
  | |- derivable_pt_lim (fun t => _ - _) _ _ => apply der_sub
  | |- derivable_pt_lim (fun t => - _) _ _ => apply der_opp
  | |- derivable_pt_lim (fun t => ?c * _) _ _ => apply der_scal
  | |- derivable_pt_lim (fun t => _ * ?c) _ _ => apply der_scal_r
  | |- derivable_pt_lim (fun t => _ / ?c) _ _ => apply der_divc
  | |- derivable_pt_lim (fun t => _ * _) _ _ => apply der_mul
  | |- derivable_pt_lim (fun t => _ ^ _) _ _ => apply der_pow
  end.
Ltac der_tac := eapply der_value; [|repeat der_step]; cbv beta.

Lemma der_rprod n (F : nat -> R -> R) (d : nat -> R) x :
  (forall i, (i < n)%nat -> derivable_pt_lim (F i) x (d i)) ->
  derivable_pt_lim (fun t => rprod n (fun i => F i t)) x
    (rsum n (fun k => d k * rprod n (fun j => if Nat.eqb j k then 1 else F j x))).
Proof.
  induction n as [|n IH]; intros H; cbn [rprod]; [apply der_const|].
  eapply der_value; [|apply der_mul; [apply IH; intros; apply H; lia|apply H; lia]].
  cbn [rsum rprod]. rewrite Nat.eqb_refl. cbv beta. rewrite <- rsum_scal_r.
  f_equal.
  - apply rsum_ext. intros k Hk. destruct (Nat.eqb_spec n k); [lia|ring].
  - rewrite (rprod_ext n (fun j => if Nat.eqb j n then 1 else F j x) (fun j => F j x)).
    + ring.
    + intros j Hj. destruct (Nat.eqb_spec j n); [lia|reflexivity].
Qed.
