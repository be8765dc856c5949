(** The accumulated time of examples/average (C81). *)
From Coq Require Import Reals List Arith ZArith Lra Lia Bool.
Import ListNotations.
Require Import Verif.Spec_Run Verif.Spec_Float Verif.Float_Base Verif.Float_Eval Verif.Ex_FloatGeom Verif.Spec_FloatGeom Verif.Spec_FloatRun Verif.Proof_FloatAverage3.
Local Open Scope nat_scope.

Lemma Rabs_in x a : (Rabs x <= a)%R -> (- a <= x <= a)%R.
Proof. unfold Rabs. destruct (Rcase_abs x); lra. Qed.
Lemma run_length_ex T tf stop : exists K, run_length_at T tf stop K.
Proof.
  induction stop as [|n (K & H1 & H2 & H3)]; [exists 0; split; [lia|split; [intros; lia|left; reflexivity]]|].
  destruct H3 as [->|H3].
  - destruct (Rle_dec tf (T n)) as [Le|Gt].
    + destruct n as [|n]; [|exists (S n); split; [lia|split; [exact H2|right; split; [lia|exact Le]]]].
      exists 1. split; [lia|]. split; [intros; lia|left; reflexivity].
    + exists (S n). split; [lia|]. split; [|left; reflexivity]. intros k Hk. destruct (Nat.eq_dec k n) as [->|]; [lra|apply H2; lia].
  - exists K. split; [lia|]. split; [exact H2|right; exact H3].
Qed.
Lemma run_length_unique T tf stop K K' : run_length_at T tf stop K -> run_length_at T tf stop K' -> K' = K.
Proof.
  intros (A1 & A2 & A3) (B1 & B2 & B3).
  destruct (Nat.lt_trichotomy K K') as [Lt|[Eq|Lt]]; [|congruence|].
  - destruct A3 as [A3|(A3 & A4)]; [lia|]. specialize (B2 K ltac:(lia)). lra.
  - destruct B3 as [B3|(B3 & B4)]; [lia|]. specialize (A2 K' ltac:(lia)). lra.
Qed.

Section Clock.
  Variables (u : R) (rnd : R -> R).
  Hypotheses (Hu : (0 <= u < 1)%R) (Hr : rounds u rnd).
  Lemma clock_bounds k : ((1 - u) ^ (k + 1) * time_after k <= clock rnd k <= time_after k / (1 - u) ^ (k + 1))%R.
  Proof.
    induction k as [|k (IH1 & IH2)].
    - unfold time_after. cbn [clock INR]. lra.
    - cbn [clock]. destruct (rnd_w u Hu rnd Hr (1 / 1000)) as (t0 & (A1 & A2) & E0). destruct (rnd_w u Hu rnd Hr (clock rnd k + rnd (1 / 1000))) as (t1 & (B1 & B2) & E1). rewrite E1, E0.
      assert (Et : time_after (S k) = (time_after k + 1 / 1000)%R) by (unfold time_after; rewrite S_INR; lra). rewrite Et.
      assert (Pt : (0 <= time_after k)%R) by (unfold time_after; assert (Z := pos_INR k); lra).
      rewrite pow_1 in A1, A2, B1, B2. set (q := (1 - u)%R) in *. assert (Q : (0 < q <= 1)%R) by (unfold q; lra).
      change (S k + 1)%nat with (S (k + 1))%nat. cbn [pow]. set (p := (q ^ (k + 1))%R) in *.
      assert (P : (0 < p <= q)%R). { unfold p. rewrite Nat.add_1_r. cbn [pow]. assert (0 < q ^ k <= 1)%R by (split; [apply pow_lt; lra|rewrite <- (pow1 k); apply pow_incr; lra]). nra. }
      assert (IQ : (1 <= / q)%R) by (rewrite <- Rinv_1; apply Rinv_le_contravar; lra). assert (IP : (/ q <= / p)%R) by (apply Rinv_le_contravar; lra).
      unfold Rdiv in IH2 |- *. split.
      + apply Rle_trans with ((p * time_after k + 1 * / 1000 * q) * q)%R; [|apply Rmult_le_compat; nra].
        assert (p * (1 * / 1000) <= 1 * / 1000 * q)%R by nra. nra.
      + rewrite Rinv_mult. apply Rle_trans with ((time_after k * / p + 1 * / 1000 * / q) * / q)%R; [apply Rmult_le_compat; try nra|].
        assert (1 * / 1000 * / q <= 1 * / 1000 * / p)%R by nra. assert (0 < / q)%R by lra. nra.
  Qed.
  Lemma clock_err k : (INR (k + 1) * u < 1)%R -> (Rabs (clock rnd k - time_after k) <= gamma u (k + 1) * time_after k)%R.
  Proof.
    intros Hk. destruct (clock_bounds k) as (A & B). assert (G := gamma_pow u Hu (k + 1) Hk). assert (G2 := bernoulli u Hu (k + 1)).
    assert (Pt : (0 <= time_after k)%R) by (unfold time_after; assert (Z := pos_INR k); lra).
    assert (G3 : (INR (k + 1) * u <= gamma u (k + 1))%R).
    { unfold gamma. assert (Z := pos_INR (k + 1)). assert (0 <= INR (k + 1) * u)%R by (apply Rmult_le_pos; lra). set (t := (INR (k + 1) * u)%R) in *. apply (Rmult_le_reg_r (1 - t)); [lra|]. unfold Rdiv. rewrite Rmult_assoc, Rinv_l by lra. nra. }
    set (p := ((1 - u) ^ (k + 1))%R) in *. unfold Rdiv in B. apply Rabs_le. split; nra.
  Qed.
End Clock.

(** the clock in binary64, evaluated *)
Definition fstep : fexp := FD (FL (1, 0)%Z) (FL (1000, 0)%Z).
Fixpoint fclock (k : nat) : option (Z * Z) := match k with 0 => Some (0, 0)%Z | S k => obind (fclock k) (fev fstep) fadd end.
Lemma fstep_ok : fden fstep = binary64 (1 / 1000).
Proof. unfold fstep. cbn [fden]. rewrite !val_z. reflexivity. Qed.
Lemma fclock_ok k : forall c, fclock k = Some c -> clock binary64 k = Float_Eval.val c.
Proof.
  induction k as [|k IH]; intros c.
  - cbn [fclock clock]. intros [= <-]. rewrite val_z. reflexivity.
  - cbn [fclock clock]. unfold obind. destruct (fclock k) as [a|]; [|discriminate]. destruct (fev fstep) as [b|] eqn:Eb; [|discriminate]. intros H.
    rewrite (IH a eq_refl), <- fstep_ok, (fev_ok fstep b Eb). apply fadd_ok. exact H.
Qed.
Lemma val_neg m (k : positive) : Float_Eval.val (m, Z.neg k) = (IZR m / IZR (2 ^ Z.pos k))%R.
Proof.
  unfold Float_Eval.val. cbn [fst snd]. unfold Rdiv. f_equal.
Qed.
(** between cycles the error stays below 0.9 steps for 9*10^7 cycles *)
Lemma clock_near k : (Z.of_nat k <= 90000000)%Z -> (Rabs (clock binary64 k - time_after k) <= 9 / 10 / 1000)%R.
Proof.
  intros Hk. assert (U := u64_range). assert (Hk' : (INR k <= 90000000)%R).
  { rewrite INR_IZR_INZ. apply IZR_le. exact Hk. }
  assert (E53 : (2 ^ 53 = 9007199254740992)%R) by (rewrite pow_IZR; reflexivity).
  assert (Eu : u64 = (/ 9007199254740992)%R) by (unfold u64; rewrite E53; reflexivity).
  assert (Z := pos_INR k).
  assert (S1 : (INR (k + 1) * u64 <= 1 / 100000000)%R) by (rewrite plus_INR, Eu; cbn [INR]; lra).
  eapply Rle_trans; [apply (clock_err u64 binary64 ltac:(lra) binary64_rounds); lra|].
  assert (S0 : (0 <= INR (k + 1) * u64)%R) by (apply Rmult_le_pos; [apply pos_INR|lra]).
  unfold gamma, time_after. rewrite Eu in *. rewrite plus_INR in *. change (INR 1) with 1%R in *. set (x := INR k) in *.
  set (t := ((x + 1) * / 9007199254740992)%R) in *. apply (Rmult_le_reg_r (1 - t)); [lra|].
  replace (t / (1 - t) * (x / 1000) * (1 - t))%R with (t * x / 1000)%R by (field; lra).
  assert (T2 : (t * x <= 90000001 * / 9007199254740992 * 90000000)%R).
  { apply Rmult_le_compat; try lra. unfold t. apply Rmult_le_compat_r; lra. }
  lra.
Qed.
Lemma b64_near x : (0 <= x)%R -> (Rabs (binary64 x - x) <= u64 * x)%R.
Proof.
  intros Hx. destruct (binary64_rounds x) as (d & Hd & ->). replace (x * (1 + d) - x)%R with (x * d)%R by ring. rewrite Rabs_mult, Rabs_pos_eq by exact Hx. assert (Z := Rabs_pos d). nra.
Qed.
Lemma clock_500 : (1 / 2 <= clock binary64 500)%R.
Proof. rewrite (fclock_ok 500 (4503599627370499, -53)%Z) by (vm_compute; reflexivity). rewrite val_neg. change (2 ^ 53)%Z with 9007199254740992%Z. lra. Qed.
Lemma clock_1008 : (clock binary64 1008 < binary64 (1008 / 1000))%R.
Proof.
  rewrite (fclock_ok 1008 (4539628424389459, -52)%Z) by (vm_compute; reflexivity).
  assert (E : binary64 (1008 / 1000) = fden (FD (FL (1008, 0)%Z) (FL (1000, 0)%Z))) by (cbn [fden]; rewrite !val_z; reflexivity).
  rewrite E, (fev_ok _ (4539628424389460, -52)%Z) by (vm_compute; reflexivity). rewrite !val_neg. apply Rmult_lt_compat_r; [apply Rinv_0_lt_compat; apply IZR_lt; lia|]. apply IZR_lt. lia.
Qed.
Lemma b64_e8 : binary64 (10 ^ 8) = (10 ^ 8)%R.
Proof.
  assert (E1 : fden (FA (FL (100000000, 0)%Z) (FL (0, 0)%Z)) = binary64 (10 ^ 8)) by (cbn [fden]; rewrite !val_z; f_equal; lra).
  rewrite <- E1 at 1. rewrite (fev_ok _ (6710886400000000, -26)%Z) by (vm_compute; reflexivity). rewrite val_neg. change (2 ^ 26)%Z with 67108864%Z. lra.
Qed.
Lemma b64_big x : (10 ^ 8 <= x)%R -> (10 ^ 8 <= binary64 x)%R.
Proof. intros H. rewrite <- b64_e8. apply Proof_FloatAverage3.b64_mono. exact H. Qed.
