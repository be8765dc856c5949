(** Averages: bounds, monotonicity, conservation, convergence (C62). *)
From Coq Require Import Reals List Arith ZArith Lra Lia Bool.
Import ListNotations.
Require Import Verif.Base Verif.NatSum Verif.RBase Verif.RSum Verif.Spec_Full Verif.Proof_High3 Verif.Spec_Average.
Local Open Scope nat_scope.

Lemma times_S K N c n : times (S K) N c n = times K N c n + (if Nat.eqb (N c K) n then 1 else 0).
Proof. unfold times. rewrite seq_S, filter_app, app_length. cbn [Nat.add filter]. destruct (N c K =? n); reflexivity. Qed.
Lemma times_pos K N c n : 0 < times K N c n <-> exists l, l < K /\ N c l = n.
Proof.
  induction K as [|K IH].
  - split; [unfold times; cbn; lia|intros (l & Hl & _); lia].
  - rewrite times_S. split.
    + intros H. destruct (Nat.eqb_spec (N c K) n) as [E|E]; [exists K; auto|]. destruct (proj1 IH ltac:(lia)) as (l & Hl & Q). exists l. auto.
    + intros (l & Hl & Q). destruct (Nat.eq_dec l K) as [->|]; [rewrite Q, Nat.eqb_refl; lia|]. assert (0 < times K N c n) by (apply IH; exists l; split; [lia|exact Q]). lia.
Qed.
Lemma sum_times K N c nn (f : nat -> R) : (forall l, l < K -> N c l < nn) ->
  rsum nn (fun n => INR (times K N c n) * f n)%R = rsum K (fun l => f (N c l)).
Proof.
  induction K as [|K IH]; intros H.
  - cbn [rsum]. apply rsum_zero. intros n _. cbn. ring.
  - cbn [rsum]. rewrite <- IH by (intros; apply H; lia).
    transitivity (rsum nn (fun n => INR (times K N c n) * f n + (if Nat.eqb n (N c K) then f n else 0))%R).
    + apply rsum_ext. intros n Hn. rewrite times_S, plus_INR, (Nat.eqb_sym (N c K) n). destruct (n =? N c K); cbn [INR]; ring.
    + rewrite rsum_plus. f_equal. rewrite (rsum_single nn (N c K)); [rewrite Nat.eqb_refl; reflexivity|apply H; lia|].
      intros i Hi Ne. apply Nat.eqb_neq in Ne. rewrite Ne. reflexivity.
Qed.
Lemma INR_nsum n f : INR (nsum n f) = rsum n (fun i => INR (f i)).
Proof. induction n as [|n IH]; [reflexivity|]. cbn [nsum rsum]. rewrite plus_INR, IH. reflexivity. Qed.
Lemma nsum_pos n f k : k < n -> 0 < f k -> 0 < nsum n f.
Proof. induction n as [|n IH]; intros Hk Hf; [lia|]. cbn [nsum]. destruct (Nat.eq_dec k n) as [->|]; [lia|]. specialize (IH ltac:(lia) Hf). lia. Qed.
Lemma count_pos N nc n c l : c < nc -> l < 8 -> N c l = n -> 0 < corner_count N nc n.
Proof. intros Hc Hl E. unfold corner_count. apply (nsum_pos nc _ c Hc). apply times_pos. exists l. auto. Qed.

Lemma rsum_zero_inv n f : (forall i, i < n -> (0 <= f i)%R) -> rsum n f = 0%R -> forall i, i < n -> f i = 0%R.
Proof.
  induction n as [|n IH]; intros Hf E i Hi; [lia|]. cbn [rsum] in E.
  assert (0 <= rsum n f)%R by (apply rsum_nonneg; intros; apply Hf; lia). assert (H' := Hf n ltac:(lia)).
  destruct (Nat.eq_dec i n) as [->|]; [lra|]. apply IH; [intros; apply Hf; lia|lra|lia].
Qed.

Lemma Rge_iff_le' (a b : R) : (0 <= b - a)%R <-> (a <= b)%R.
Proof. split; lra. Qed.

Section Means.
  Variables (N : nat -> nat -> nat) (nn nc : nat).
  Hypothesis HN : forall c l, c < nc -> l < 8 -> N c l < nn.

  Lemma cell_mean_ext f g c : c < nc -> (forall n, n < nn -> f n = g n) -> cell_mean N f c = cell_mean N g c.
  Proof. intros Hc H. unfold cell_mean. f_equal. apply rsum_ext. intros l Hl. apply H, HN; assumption. Qed.
  Lemma smoothed_ext f g n : (forall n, n < nn -> f n = g n) -> smoothed N nc f n = smoothed N nc g n.
  Proof.
    intros H. unfold smoothed, node_mean. destruct (_ =? 0); [reflexivity|]. f_equal. apply rsum_ext. intros c Hc. rewrite (cell_mean_ext f g c Hc H). reflexivity.
  Qed.

  Lemma cell_mean_le f g c : c < nc -> (forall n, n < nn -> (f n <= g n)%R) -> (cell_mean N f c <= cell_mean N g c)%R.
  Proof.
    intros Hc H. unfold cell_mean, Rdiv. apply Rmult_le_compat_r; [lra|]. apply rsum_le. intros l Hl. apply H, HN; assumption.
  Qed.
  Lemma smoothed_le f g n : (forall n, n < nn -> (f n <= g n)%R) -> (smoothed N nc f n <= smoothed N nc g n)%R.
  Proof.
    intros H. unfold smoothed, node_mean. destruct (Nat.eqb_spec (corner_count N nc n) 0); [lra|]. unfold Rdiv. apply Rmult_le_compat_r.
    - apply Rlt_le, Rinv_0_lt_compat, lt_0_INR. lia.
    - apply rsum_le. intros c Hc. apply Rmult_le_compat_l; [apply pos_INR|]. apply cell_mean_le; assumption.
  Qed.
  Lemma cell_mean_const a c : cell_mean N (fun _ => a) c = a.
  Proof. unfold cell_mean. rewrite rsum_const. replace (INR 8) with 8%R by (cbn; lra). field. Qed.
  Lemma smoothed_const a n : 0 < corner_count N nc n -> smoothed N nc (fun _ => a) n = a.
  Proof.
    intros H. unfold smoothed, node_mean. destruct (Nat.eqb_spec (corner_count N nc n) 0); [lia|].
    rewrite (rsum_ext nc _ (fun c => INR (times 8 N c n) * a)%R) by (intros; rewrite cell_mean_const; reflexivity).
    rewrite rsum_scal_r, <- INR_nsum. fold (corner_count N nc n). field. apply not_0_INR. lia.
  Qed.
  Lemma smoothed_none f n : corner_count N nc n = 0 -> smoothed N nc f n = 0%R.
  Proof. intros H. unfold smoothed, node_mean. rewrite H. reflexivity. Qed.

  Lemma smoothed_bounds lo hi f n : 0 < corner_count N nc n -> (forall m, m < nn -> (lo <= f m <= hi)%R) -> (lo <= smoothed N nc f n <= hi)%R.
  Proof.
    intros Hc H. assert (A := smoothed_le (fun _ => lo) f n (fun m Hm => proj1 (H m Hm))). assert (B := smoothed_le f (fun _ => hi) n (fun m Hm => proj2 (H m Hm))). rewrite smoothed_const in A, B by exact Hc. split; assumption.
  Qed.

  Lemma smoothed_minus f g n : (smoothed N nc f n - smoothed N nc g n)%R = smoothed N nc (fun m => f m - g m)%R n.
  Proof.
    unfold smoothed, node_mean. destruct (_ =? 0); [ring|]. unfold Rdiv. rewrite <- Rmult_minus_distr_r, <- rsum_minus. f_equal. apply rsum_ext. intros c Hc.
    rewrite <- Rmult_minus_distr_l. f_equal. unfold cell_mean, Rdiv. rewrite <- Rmult_minus_distr_r, <- rsum_minus. reflexivity.
  Qed.

  (** conservation *)
  Lemma conserved f : rsum nn (fun n => INR (corner_count N nc n) * smoothed N nc f n)%R = rsum nn (fun n => INR (corner_count N nc n) * f n)%R.
  Proof.
    transitivity (rsum nn (fun n => rsum nc (fun c => INR (times 8 N c n) * cell_mean N f c)%R)).
    { apply rsum_ext. intros n Hn. unfold smoothed, node_mean. destruct (Nat.eqb_spec (corner_count N nc n) 0) as [Z|NZ].
      - rewrite Z. cbn [INR]. rewrite Rmult_0_l. symmetry. apply rsum_zero. intros c Hc.
        assert (times 8 N c n = 0). { destruct (times 8 N c n) eqn:E; [reflexivity|]. assert (P := nsum_pos nc (fun c => times 8 N c n) c Hc ltac:(lia)). unfold corner_count in Z. lia. }
        rewrite H. cbn. ring.
      - field. apply not_0_INR. exact NZ. }
    rewrite rsum_swap.
    transitivity (rsum nc (fun c => rsum 8 (fun l => f (N c l)))).
    { apply rsum_ext. intros c Hc. rewrite rsum_scal_r.
      rewrite (rsum_ext nn _ (fun n => INR (times 8 N c n) * 1)%R) by (intros; ring).
      rewrite (sum_times 8 N c nn (fun _ => 1%R)) by (intros; apply HN; assumption). rewrite rsum_const. unfold cell_mean. replace (INR 8) with 8%R by (cbn; lra). field. }
    transitivity (rsum nc (fun c => rsum nn (fun n => INR (times 8 N c n) * f n)%R)).
    { apply rsum_ext. intros c Hc. symmetry. apply sum_times. intros; apply HN; assumption. }
    rewrite rsum_swap. apply rsum_ext. intros n Hn. rewrite rsum_scal_r. unfold corner_count. rewrite INR_nsum. reflexivity.
  Qed.

  (** a maximum spreads to all corners of the cells around it *)
  Lemma max_spreads f n M c l l' : (forall m, m < nn -> (f m <= M)%R) -> smoothed N nc f n = M -> c < nc -> l < 8 -> l' < 8 -> N c l = n -> f (N c l') = M.
  Proof.
    intros H E Hc Hl Hl' En. assert (P := count_pos N nc n c l Hc Hl En).
    assert (CM : forall c, c < nc -> (cell_mean N f c <= M)%R). { intros c' Hc'. rewrite <- (cell_mean_const M c'). apply cell_mean_le; assumption. }
    assert (Z : rsum nc (fun c => INR (times 8 N c n) * (M - cell_mean N f c))%R = 0%R).
    { unfold smoothed, node_mean in E. destruct (Nat.eqb_spec (corner_count N nc n) 0); [lia|].
      rewrite (rsum_ext nc _ (fun c => INR (times 8 N c n) * M - INR (times 8 N c n) * cell_mean N f c)%R) by (intros; ring).
      rewrite rsum_minus, rsum_scal_r, <- INR_nsum. fold (corner_count N nc n). rewrite <- E. field. apply not_0_INR. lia. }
    assert (Z1 := rsum_zero_inv nc _ (fun c Hc => Rmult_le_pos _ _ (pos_INR _) (proj2 (Rge_iff_le' _ _) (CM c Hc))) Z c Hc).
    cbn beta in Z1. apply Rmult_integral in Z1. destruct Z1 as [Z1|Z1].
    { exfalso. assert (0 < times 8 N c n) by (apply times_pos; exists l; auto). apply (not_0_INR (times 8 N c n)); [lia|exact Z1]. }
    assert (Z2 : rsum 8 (fun l => M - f (N c l))%R = 0%R).
    { rewrite rsum_minus, rsum_const. unfold cell_mean in Z1. replace (INR 8) with 8%R by (cbn; lra). lra. }
    assert (Z3 := rsum_zero_inv 8 _ (fun l Hl => proj2 (Rge_iff_le' _ _) (H _ (HN c l Hc Hl))) Z2 l' Hl'). cbn beta in Z3. lra.
  Qed.
End Means.
