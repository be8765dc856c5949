(** The cycle as a map on nodal fields: it has one steady state and converges to it (C62). *)
From Coq Require Import Reals List Arith ZArith Lra Lia Bool.
Import ListNotations.
Require Import Verif.Base Verif.NatSum Verif.RBase Verif.RSum Verif.Spec_Full Verif.Proof_High3 Verif.Spec_Average Verif.Proof_Average2.
Local Open Scope nat_scope.

Lemma cv_const a : Un_cv (fun _ => a) a.
Proof. intros e He. exists 0. intros n _. unfold R_dist. rewrite Rminus_eq_0, Rabs_R0. exact He. Qed.
Lemma cv_ext u v l : (forall k, u k = v k) -> Un_cv u l -> Un_cv v l.
Proof. intros H C e He. destruct (C e He) as (K & Q). exists K. intros n Hn. rewrite <- H. apply Q. exact Hn. Qed.
Lemma cv_scal a u l : Un_cv u l -> Un_cv (fun k => a * u k)%R (a * l)%R.
Proof. intros H. apply (CV_mult (fun _ => a) u a l); [apply cv_const|exact H]. Qed.
Lemma cv_rsum n (u : nat -> nat -> R) (l : nat -> R) : (forall i, i < n -> Un_cv (fun k => u k i) (l i)) -> Un_cv (fun k => rsum n (u k)) (rsum n l).
Proof.
  induction n as [|n IH]; intros H; cbn [rsum]; [apply cv_const|].
  apply (CV_plus (fun k => rsum n (u k)) (fun k => u k n)); [apply IH; intros; apply H; lia|apply H; lia].
Qed.
Lemma cv_squeeze u v w l : (forall k, (u k <= v k <= w k)%R) -> Un_cv u l -> Un_cv w l -> Un_cv v l.
Proof.
  intros H Cu Cw e He. destruct (Cu e He) as (K & Q). destruct (Cw e He) as (K' & Q'). exists (Nat.max K K'). intros n Hn.
  specialize (Q n ltac:(lia)). specialize (Q' n ltac:(lia)). specialize (H n). unfold R_dist in *. apply Rabs_def2 in Q, Q'. apply Rabs_def1; lra.
Qed.
Lemma cv_unique u l l' : Un_cv u l -> Un_cv u l' -> l = l'.
Proof. apply UL_sequence. Qed.
Lemma growing_le u : (forall k, (u k <= u (S k))%R) -> forall k m, k <= m -> (u k <= u m)%R.
Proof. intros H k m Hm. induction Hm as [|m Hm IH]; [lra|]. assert (Q := H m). lra. Qed.

Section Steady.
  Variables (N : nat -> nat -> nat) (nn nc : nat) (b0 b3 : nat -> bool).
  Hypothesis HN : forall c l, c < nc -> l < 8 -> N c l < nn.

  Definition T (f : nat -> R) (n : nat) : R := if b0 n then 10%R else if b3 n then 0%R else smoothed N nc f n.
  Definition it (k : nat) (f : nat -> R) : nat -> R := Nat.iter k T f.

  Lemma T_ext f g n : (forall m, m < nn -> f m = g m) -> T f n = T g n.
  Proof. intros H. unfold T. destruct (b0 n); [reflexivity|]. destruct (b3 n); [reflexivity|]. apply (smoothed_ext N nn nc HN). exact H. Qed.
  Lemma T_le f g n : (forall m, m < nn -> (f m <= g m)%R) -> (T f n <= T g n)%R.
  Proof. intros H. unfold T. destruct (b0 n); [lra|]. destruct (b3 n); [lra|]. apply (smoothed_le N nn nc HN). exact H. Qed.
  Lemma T_bounds lo hi f n : (lo <= 0)%R -> (10 <= hi)%R -> (forall m, m < nn -> (lo <= f m <= hi)%R) -> (lo <= T f n <= hi)%R.
  Proof.
    intros Hlo Hhi H. unfold T. destruct (b0 n); [lra|]. destruct (b3 n); [lra|].
    destruct (Nat.eq_dec (corner_count N nc n) 0) as [Z|NZ]; [rewrite smoothed_none by exact Z; lra|]. apply (smoothed_bounds N nn nc HN); [lia|exact H].
  Qed.
  Lemma it_S k f : it (S k) f = T (it k f).
  Proof. reflexivity. Qed.
  Lemma it_ext k f g : (forall m, m < nn -> f m = g m) -> forall n, n < nn -> it k f n = it k g n.
  Proof. intros H. induction k as [|k IH]; [exact H|]. intros n Hn. rewrite !it_S. apply T_ext. exact IH. Qed.
  Lemma it_le k f g : (forall m, m < nn -> (f m <= g m)%R) -> forall n, n < nn -> (it k f n <= it k g n)%R.
  Proof. intros H. induction k as [|k IH]; [exact H|]. intros n Hn. rewrite !it_S. apply T_le. exact IH. Qed.
  Lemma it_bounds lo hi k f : (lo <= 0)%R -> (10 <= hi)%R -> (forall m, m < nn -> (lo <= f m <= hi)%R) -> forall n, n < nn -> (lo <= it k f n <= hi)%R.
  Proof. intros Hlo Hhi H. induction k as [|k IH]; [exact H|]. intros n Hn. rewrite it_S. apply T_bounds; assumption. Qed.

  Lemma T_cv (u : nat -> nat -> R) h n : (forall m, m < nn -> Un_cv (fun k => u k m) (h m)) -> Un_cv (fun k => T (u k) n) (T h n).
  Proof.
    intros H. unfold T. destruct (b0 n); [apply cv_const|]. destruct (b3 n); [apply cv_const|]. unfold smoothed, node_mean. destruct (_ =? 0); [apply cv_const|].
    unfold Rdiv. apply CV_mult; [|apply cv_const]. apply (cv_rsum nc (fun k c => INR (times 8 N c n) * cell_mean N (u k) c)%R). intros c Hc. apply cv_scal.
    unfold cell_mean, Rdiv. apply CV_mult; [|apply cv_const]. apply (cv_rsum 8 (fun k l => u k (N c l))). intros l Hl. apply H, HN; assumption.
  Qed.

  (** a field that one cycle raises (or lowers) keeps rising (falling) *)
  Lemma it_rising f : (forall n, n < nn -> (f n <= T f n)%R) -> forall k n, n < nn -> (it k f n <= it (S k) f n)%R.
  Proof. intros H k. induction k as [|k IH]; [exact H|]. intros n Hn. rewrite (it_S (S k)), it_S. apply T_le. exact IH. Qed.
  Lemma it_falling f : (forall n, n < nn -> (T f n <= f n)%R) -> forall k n, n < nn -> (it (S k) f n <= it k f n)%R.
  Proof. intros H k. induction k as [|k IH]; [exact H|]. intros n Hn. rewrite (it_S (S k)), it_S. apply T_le. exact IH. Qed.

  Lemma steady_of_limit f h : (forall n, n < nn -> Un_cv (fun k => it k f n) (h n)) -> forall n, n < nn -> T h n = h n.
  Proof.
    intros H n Hn. apply (cv_unique (fun k => it (S k) f n)).
    - exact (T_cv (fun k => it k f) h n H).
    - intros e He. destruct (H n Hn e He) as (K & Q). exists K. intros m Hm. apply Q. lia.
  Qed.

  Lemma rising_limit f hi : (10 <= hi)%R -> (forall n, n < nn -> (f n <= T f n)%R) -> (forall n, n < nn -> (f n <= hi)%R) ->
    exists h, (forall n, n < nn -> Un_cv (fun k => it k f n) (h n)) /\ (forall n, n < nn -> T h n = h n).
  Proof.
    intros Hhi Hr Hb.
    assert (B : forall k n, n < nn -> (it k f n <= hi)%R).
    { intros k n Hn. assert (Q := it_le k f (fun _ => hi) Hb n Hn). apply (Rle_trans _ _ _ Q). clear Q. revert n Hn. induction k as [|k IH]; intros n Hn; [cbn; lra|]. rewrite it_S.
      unfold T. destruct (b0 n); [lra|]. destruct (b3 n); [lra|]. destruct (Nat.eq_dec (corner_count N nc n) 0) as [Z|NZ]; [rewrite smoothed_none by exact Z; lra|].
      refine (Rle_trans _ _ _ (smoothed_le N nn nc HN _ (fun _ => hi) n IH) _). rewrite smoothed_const by lia. lra. }
    assert (L : forall n, n < nn -> { l | Un_cv (fun k => it k f n) l }).
    { intros n Hn. apply growing_cv.
      - intros k. apply it_rising; assumption.
      - exists hi. intros x (k & ->). apply B. exact Hn. }
    exists (fun n => match lt_dec n nn with left Hn => proj1_sig (L n Hn) | right _ => 0%R end).
    assert (C : forall n, n < nn -> Un_cv (fun k => it k f n) (match lt_dec n nn with left Hn => proj1_sig (L n Hn) | right _ => 0%R end)).
    { intros n Hn. destruct (lt_dec n nn) as [Hn'|]; [|contradiction]. exact (proj2_sig (L n Hn')). }
    split; [exact C|]. exact (steady_of_limit f _ C).
  Qed.

  Lemma falling_limit f lo : (lo <= 0)%R -> (forall n, n < nn -> (T f n <= f n)%R) -> (forall n, n < nn -> (lo <= f n)%R) ->
    exists h, (forall n, n < nn -> Un_cv (fun k => it k f n) (h n)) /\ (forall n, n < nn -> T h n = h n).
  Proof.
    intros Hlo Hr Hb.
    assert (B : forall k n, n < nn -> (lo <= it k f n)%R).
    { intros k n Hn. assert (Q := it_le k (fun _ => lo) f Hb n Hn). refine (Rle_trans _ _ _ _ Q). clear Q. revert n Hn. induction k as [|k IH]; intros n Hn; [cbn; lra|]. rewrite it_S.
      unfold T. destruct (b0 n); [lra|]. destruct (b3 n); [lra|]. destruct (Nat.eq_dec (corner_count N nc n) 0) as [Z|NZ]; [rewrite smoothed_none by exact Z; lra|].
      refine (Rle_trans _ _ _ _ (smoothed_le N nn nc HN (fun _ => lo) _ n IH)). rewrite smoothed_const by lia. lra. }
    assert (L : forall n, n < nn -> { l | Un_cv (fun k => it k f n) l }).
    { intros n Hn. apply decreasing_cv.
      - intros k. apply it_falling; assumption.
      - exists (- lo)%R. intros x (k & ->). unfold opp_seq. assert (Q := B k n Hn). lra. }
    exists (fun n => match lt_dec n nn with left Hn => proj1_sig (L n Hn) | right _ => 0%R end).
    assert (C : forall n, n < nn -> Un_cv (fun k => it k f n) (match lt_dec n nn with left Hn => proj1_sig (L n Hn) | right _ => 0%R end)).
    { intros n Hn. destruct (lt_dec n nn) as [Hn'|]; [|contradiction]. exact (proj2_sig (L n Hn')). }
    split; [exact C|]. exact (steady_of_limit f _ C).
  Qed.

  (** at most one steady state *)
  Definition fixed (n : nat) : Prop := b0 n = true \/ b3 n = true.
  Hypothesis HR : forall n, n < nn -> linked N nc fixed n.

  Lemma steady_below f g : (forall n, n < nn -> T f n = f n) -> (forall n, n < nn -> T g n = g n) -> forall n, n < nn -> (f n <= g n)%R.
  Proof.
    intros Hf Hg n0 Hn0. set (d := fun n => (f n - g n)%R).
    destruct (exists_max nn d ltac:(lia)) as (a & Ha & Hmax). apply Rnot_lt_le. intros Hlt.
    assert (Mpos : (0 < d a)%R) by (assert (Q := Hmax n0 Hn0); unfold d in *; lra).
    assert (Fx : forall n, fixed n -> n < nn -> d n = 0%R).
    { intros n [E|E] Hn; unfold d; rewrite <- (Hf n Hn), <- (Hg n Hn); unfold T; rewrite E; [ring|]. destruct (b0 n); ring. }
    assert (Sp : forall n, linked N nc fixed n -> n < nn -> d n = d a -> False).
    { intros n L. induction L as [n F|c l l' Hc Hl Hl' L IH]; intros Hn E.
      - rewrite (Fx n F Hn) in E. lra.
      - apply IH; [apply HN; assumption|]. destruct (b0 (N c l)) eqn:E0; [exfalso; rewrite (Fx (N c l)) in E; [lra|left; exact E0|exact Hn]|].
        destruct (b3 (N c l)) eqn:E3; [exfalso; rewrite (Fx (N c l)) in E; [lra|right; exact E3|exact Hn]|].
        apply (max_spreads N nn nc HN d (N c l) (d a) c l l'); try assumption; [|reflexivity].
        rewrite <- E at 1. unfold d at 2. rewrite <- (Hf _ Hn), <- (Hg _ Hn). unfold T. rewrite E0, E3. symmetry. apply smoothed_minus. }
    exact (Sp a (HR a Ha) Ha eq_refl).
  Qed.
  Lemma steady_unique f g : (forall n, n < nn -> T f n = f n) -> (forall n, n < nn -> T g n = g n) -> forall n, n < nn -> f n = g n.
  Proof. intros Hf Hg n Hn. apply Rle_antisym; apply steady_below; assumption. Qed.

  Lemma bounds_of f : exists b, (10 <= b)%R /\ forall n, n < nn -> (- b <= f n <= b)%R.
  Proof.
    clear HN HR. induction nn as [|m (b & Hb & H)]; [exists 10%R; split; [lra|intros; lia]|].
    exists (Rmax b (Rabs (f m))). assert (A := Rmax_l b (Rabs (f m))). assert (B := Rmax_r b (Rabs (f m))). split; [lra|]. intros n Hn.
    destruct (Nat.eq_dec n m) as [->|]; [assert (C := Rle_abs (f m)); assert (D := Rle_abs (- f m)); rewrite Rabs_Ropp in D; lra|]. specialize (H n ltac:(lia)). lra.
  Qed.

  Lemma T_const_hi b : (10 <= b)%R -> forall n, n < nn -> (T (fun _ => b) n <= b)%R.
  Proof.
    intros Hb n Hn. unfold T. destruct (b0 n); [lra|]. destruct (b3 n); [lra|]. destruct (Nat.eq_dec (corner_count N nc n) 0) as [Z|NZ]; [rewrite smoothed_none by exact Z; lra|]. rewrite smoothed_const by lia. lra.
  Qed.
  Lemma T_const_lo b : (b <= 0)%R -> forall n, n < nn -> (b <= T (fun _ => b) n)%R.
  Proof.
    intros Hb n Hn. unfold T. destruct (b0 n); [lra|]. destruct (b3 n); [lra|]. destruct (Nat.eq_dec (corner_count N nc n) 0) as [Z|NZ]; [rewrite smoothed_none by exact Z; lra|]. rewrite smoothed_const by lia. lra.
  Qed.

  Lemma converges : exists h, (forall n, n < nn -> T h n = h n) /\ forall f n, n < nn -> Un_cv (fun k => it k f n) (h n).
  Proof.
    destruct (rising_limit (fun _ => 0%R) 10 ltac:(lra) (T_const_lo 0 ltac:(lra)) ltac:(intros; lra)) as (h & Ch & Th). exists h. split; [exact Th|].
    intros f n Hn. destruct (bounds_of f) as (b & Hb & Hf).
    destruct (rising_limit (fun _ => - b)%R b ltac:(lra) (T_const_lo (- b) ltac:(lra)) ltac:(intros; lra)) as (h1 & C1 & T1).
    destruct (falling_limit (fun _ => b)%R (- b) ltac:(lra) (T_const_hi b ltac:(lra)) ltac:(intros; lra)) as (h2 & C2 & T2).
    apply (cv_squeeze (fun k => it k (fun _ => - b)%R n) _ (fun k => it k (fun _ => b) n)).
    - intros k. split; apply it_le; try exact Hn; intros m Hm; apply Hf; exact Hm.
    - rewrite (steady_unique h h1 Th T1 n Hn). exact (C1 n Hn).
    - rewrite (steady_unique h h2 Th T2 n Hn). exact (C2 n Hn).
  Qed.
End Steady.
