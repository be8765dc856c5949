(** Products of roundings. *)
From Coq Require Import Reals ZArith Arith Lra Lia.
From Flocq Require Import Core Relative.
Require Import Verif.RSum Verif.RBase Verif.Spec_Float.
Open Scope R_scope.

Lemma u64_bpow : u64 = bpow radix2 (-53).
Proof. unfold u64. change (-53)%Z with (- (53))%Z. rewrite (bpow_opp radix2 53). f_equal. rewrite <- IZR_Zpower by lia. rewrite pow_IZR. reflexivity. Qed.
Lemma u64_half_eps : / 2 * bpow radix2 (- (53) + 1) = u64.
Proof. rewrite u64_bpow, bpow_plus. change (bpow radix2 1) with 2. change (- (53))%Z with (-53)%Z. field. Qed.
Lemma u64_range : 0 < u64 < 1.
Proof. rewrite u64_bpow. split; [apply bpow_gt_0|]. change 1 with (bpow radix2 0). apply bpow_lt. lia. Qed.

Lemma binary64_rounds : rounds u64 binary64.
Proof.
  intros x. destruct (relative_error_N_FLX_ex radix2 53 ltac:(lia) (fun z => negb (Z.even z)) x) as (d & B & E).
  exists d. split; [rewrite <- u64_half_eps; exact B|exact E].
Qed.
Lemma ieee_binary64 x : x = 0 \/ bpow radix2 (-1022) <= Rabs x -> ieee_double x = binary64 x.
Proof.
  intros [-> |H]; [unfold ieee_double, binary64; rewrite !round_0 by typeclasses eauto; reflexivity|].
  unfold ieee_double, binary64. apply round_FLT_FLX. exact H.
Qed.

Section Within.
Context (u : R).
Hypothesis Hu : 0 <= u < 1.
(** x lies between (1-u)^m and (1-u)^-m *)
Definition within (m : nat) (x : R) : Prop := (1 - u) ^ m <= x <= / (1 - u) ^ m.

Lemma pw_pos m : 0 < (1 - u) ^ m.
Proof. apply pow_lt. lra. Qed.
Lemma pw_le1 m : (1 - u) ^ m <= 1.
Proof. induction m as [|m IH]; simpl; [lra|]. assert (P := pw_pos m). nra. Qed.
Lemma pw_ge1 m : 1 <= / (1 - u) ^ m.
Proof. assert (H := Rinv_le_contravar _ 1 (pw_pos m) (pw_le1 m)). rewrite Rinv_1 in H. exact H. Qed.
Lemma within_pos m x : within m x -> 0 < x.
Proof. intros (H & _). assert (P := pw_pos m). lra. Qed.
Lemma within_1 m : within m 1.
Proof. split; [apply pw_le1|apply pw_ge1]. Qed.
Lemma within_mul a b x y : within a x -> within b y -> within (a + b) (x * y).
Proof.
  intros (X1 & X2) (Y1 & Y2). assert (Pa := pw_pos a). assert (Pb := pw_pos b). unfold within. rewrite pow_add. split.
  - apply Rmult_le_compat; lra.
  - rewrite Rinv_mult_distr by lra. apply Rmult_le_compat; lra.
Qed.
Lemma within_inv m x : within m x -> within m (/ x).
Proof.
  intros (X1 & X2). assert (P := pw_pos m). split.
  - rewrite <- (Rinv_involutive ((1 - u) ^ m)) by lra. apply Rinv_le_contravar; lra.
  - apply Rinv_le_contravar; lra.
Qed.
Lemma within_le a b x : (a <= b)%nat -> within a x -> within b x.
Proof.
  intros L H. replace b with (a + (b - a))%nat by lia. rewrite <- (Rmult_1_r x). apply within_mul; [exact H|apply within_1].
Qed.
Lemma within_delta d : Rabs d <= u -> within 1 (1 + d).
Proof.
  intros H. apply Rabs_le_inv in H. unfold within. rewrite pow_1. split; [lra|].
  apply Rmult_le_reg_r with (1 - u); [lra|]. rewrite Rinv_l by lra. nra.
Qed.
Lemma within_err m x : within m x -> Rabs (x - 1) <= / (1 - u) ^ m - 1.
Proof.
  intros (X1 & X2). assert (P := pw_pos m). apply Rabs_le. split; [|lra].
  assert (Q : 2 <= (1 - u) ^ m + / (1 - u) ^ m).
  { set (p := (1 - u) ^ m) in *. apply Rmult_le_reg_r with p; [exact P|]. rewrite Rmult_plus_distr_r, Rinv_l by lra. assert (0 <= (p - 1) * (p - 1)) by apply Rle_0_sqr. lra. }
  lra.
Qed.
Lemma bernoulli m : 1 - INR m * u <= (1 - u) ^ m.
Proof.
  induction m as [|m IH]; [simpl; lra|]. rewrite S_INR. cbn [pow]. assert (P := pw_pos m). assert (L := pw_le1 m).
  assert (0 <= INR m) by apply pos_INR. nra.
Qed.
Lemma gamma_pow m : INR m * u < 1 -> / (1 - u) ^ m - 1 <= gamma u m.
Proof.
  intros H. unfold gamma. assert (B := bernoulli m). assert (P := pw_pos m).
  replace (INR m * u / (1 - INR m * u)) with (/ (1 - INR m * u) - 1) by (field; lra).
  assert (/ (1 - u) ^ m <= / (1 - INR m * u)) by (apply Rinv_le_contravar; lra). lra.
Qed.
Lemma within_gamma m x : INR m * u < 1 -> within m x -> Rabs (x - 1) <= gamma u m.
Proof. intros H W. eapply Rle_trans; [apply within_err, W|apply gamma_pow, H]. Qed.
Lemma gamma_nonneg m : INR m * u < 1 -> 0 <= gamma u m.
Proof. intros H. unfold gamma. apply Rmult_le_pos; [apply Rmult_le_pos; [apply pos_INR|lra]|apply Rlt_le, Rinv_0_lt_compat; lra]. Qed.

Context (rnd : R -> R).
Hypothesis Hr : rounds u rnd.
Lemma rnd_w x : exists t, within 1 t /\ rnd x = x * t.
Proof. destruct (Hr x) as (d & B & E). exists (1 + d). split; [apply within_delta; exact B|exact E]. Qed.
Lemma rnd_0 : rnd 0 = 0.
Proof. destruct (rnd_w 0) as (t & _ & ->). ring. Qed.
Lemma rnd_eq0 x : rnd x = 0 -> x = 0.
Proof. destruct (rnd_w x) as (t & W & ->). apply within_pos in W. intros E. apply Rmult_integral in E. destruct E; [assumption|lra]. Qed.
Lemma rnd_sign x : 0 <= x -> 0 <= rnd x.
Proof. intros H. destruct (rnd_w x) as (t & W & ->). apply within_pos in W. apply Rmult_le_pos; lra. Qed.
Lemma rnd_pos x : 0 < x -> 0 < rnd x.
Proof. intros H. destruct (rnd_w x) as (t & W & ->). apply within_pos in W. apply Rmult_lt_0_compat; lra. Qed.

(** c = s + sum of the p k, every term with its own factor made of at most m roundings *)
Definition dotted (m K : nat) (c s : R) (p : nat -> R) : Prop :=
  exists th ph, within m th /\ (forall k, (k < K)%nat -> within m (ph k)) /\ c = s * th + rsum K (fun k => p k * ph k).
Lemma dotted_le m m' K c s p : (m <= m')%nat -> dotted m K c s p -> dotted m' K c s p.
Proof. intros L (th & ph & T & P & E). exists th, ph. split; [apply (within_le m); assumption|]. split; [intros k Hk; apply (within_le m); [exact L|apply P, Hk]|exact E]. Qed.
Lemma dotted_ext m K c s p q : (forall k, (k < K)%nat -> p k = q k) -> dotted m K c s p -> dotted m K c s q.
Proof. intros H (th & ph & T & P & ->). exists th, ph. split; [exact T|]. split; [exact P|]. f_equal. apply rsum_ext. intros k Hk. rewrite H by exact Hk. reflexivity. Qed.
(** the loop s -= p k *)
Lemma dot_loop p c : forall m, dotted m m c (fold_up m (fun k s => rnd (s - rnd (p k))) c) p.
Proof.
  induction m as [|m (th & ph & T & P & E)]; cbn [fold_up].
  - exists 1, (fun _ => 1). split; [apply within_1|]. split; [intros; apply within_1|]. cbn [rsum]. ring.
  - set (s := fold_up m _ c) in *. destruct (rnd_w (p m)) as (e & We & Ee). destruct (rnd_w (s - rnd (p m))) as (d & Wd & Ed).
    assert (Pd := within_pos _ _ Wd). rewrite Ed. exists (/ d * th), (fun k => if Nat.eqb k m then e * th else ph k).
    split; [apply (within_mul 1 m); [apply within_inv; exact Wd|exact T]|]. split.
    + intros k Hk. destruct (Nat.eqb_spec k m) as [-> |]; [apply (within_mul 1 m); assumption|apply (within_le m); [lia|apply P; lia]].
    + cbn [rsum]. rewrite Nat.eqb_refl. rewrite (rsum_ext m _ (fun k => p k * ph k)).
      * rewrite E, Ee. field. lra.
      * intros k Hk. destruct (Nat.eqb_spec k m); [lia|reflexivity].
Qed.
Lemma dotted_scale m r K c s s' p t : within r t -> s = s' * t -> dotted m K c s p -> dotted (m + r) K c s' p.
Proof.
  intros W -> (th & ph & T & P & E). exists (t * th), ph. split; [rewrite Nat.add_comm; apply within_mul; assumption|].
  split; [intros k Hk; apply (within_le m); [lia|apply P, Hk]|]. rewrite E. ring.
Qed.
Lemma sum_gamma m K p ph : INR m * u < 1 -> (forall k, (k < K)%nat -> within m (ph k)) ->
  Rabs (rsum K (fun k => p k * ph k) - rsum K p) <= gamma u m * rsum K (fun k => Rabs (p k)).
Proof.
  intros H P. induction K as [|K IH]; cbn [rsum]; [rewrite Rminus_0_r, Rabs_R0; lra|].
  specialize (IH (fun k Hk => P k ltac:(lia))). replace (rsum K (fun k => p k * ph k) + p K * ph K - (rsum K p + p K)) with ((rsum K (fun k => p k * ph k) - rsum K p) + p K * (ph K - 1)) by ring.
  eapply Rle_trans; [apply Rabs_triang|]. rewrite Rmult_plus_distr_l. apply Rplus_le_compat; [exact IH|].
  rewrite Rabs_mult, Rmult_comm. apply Rmult_le_compat_r; [apply Rabs_pos|]. apply within_gamma; [exact H|apply P; lia].
Qed.
Lemma dotted_gamma m K c s p : INR m * u < 1 -> dotted m K c s p -> Rabs (c - (s + rsum K p)) <= gamma u m * (Rabs s + rsum K (fun k => Rabs (p k))).
Proof.
  intros H (th & ph & T & P & ->). assert (S := sum_gamma m K p ph H P).
  replace (s * th + rsum K (fun k => p k * ph k) - (s + rsum K p)) with (s * (th - 1) + (rsum K (fun k => p k * ph k) - rsum K p)) by ring.
  eapply Rle_trans; [apply Rabs_triang|]. rewrite Rmult_plus_distr_l. apply Rplus_le_compat; [|exact S].
  rewrite Rabs_mult, Rmult_comm. apply Rmult_le_compat_r; [apply Rabs_pos|]. apply within_gamma; assumption.
Qed.
End Within.
