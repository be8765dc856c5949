(** Rounded derivatives, series and elements (Model_FloatPoly.v). *)
From Coq Require Import List Reals NArith ZArith Arith Lia Lra.
From Flocq Require Import Core.
Import ListNotations.
Require Import Verif.Base Verif.RBase Verif.RSum Verif.Jacobi_Math Verif.Model_Lagrange Verif.Model_FloatLagrange Verif.Model_Poly Verif.Spec_Poly Verif.Proof_Poly
  Verif.Proof_LegElem Verif.Model_FloatPoly Verif.Spec_Float Verif.Spec_FloatPoly Verif.Float_Base Verif.Three_Term Verif.Proof_FloatLagrange2 Verif.Proof_FloatPoly.
Open Scope R_scope.

(** x approximates f, which is at most M, with error at most M (K - 1) *)
Definition near (M K f x : R) : Prop := 0 <= M /\ 1 <= K /\ Rabs f <= M /\ Rabs (x - f) <= M * (K - 1).
Lemma near_abs M K f x : near M K f x -> Rabs x <= M * K.
Proof.
  intros (HM & HK & F & D). replace x with ((x - f) + f) by ring. eapply Rle_trans; [apply Rabs_triang|]. lra.
Qed.
Lemma near_mul M1 K1 f1 x1 M2 K2 f2 x2 : near M1 K1 f1 x1 -> near M2 K2 f2 x2 -> near (M1 * M2) (K1 * K2) (f1 * f2) (x1 * x2).
Proof.
  intros N1 N2. assert (A1 := near_abs _ _ _ _ N1). destruct N1 as (HM1 & HK1 & F1 & D1). destruct N2 as (HM2 & HK2 & F2 & D2).
  split; [apply Rmult_le_pos; assumption|]. split; [nra|]. split; [rewrite Rabs_mult; apply Rmult_le_compat; try apply Rabs_pos; assumption|].
  replace (x1 * x2 - f1 * f2) with (x1 * (x2 - f2) + (x1 - f1) * f2) by ring. eapply Rle_trans; [apply Rabs_triang|]. rewrite !Rabs_mult.
  replace (M1 * M2 * (K1 * K2 - 1)) with (M1 * K1 * (M2 * (K2 - 1)) + M1 * (K1 - 1) * M2) by ring.
  apply Rplus_le_compat; apply Rmult_le_compat; try apply Rabs_pos; assumption.
Qed.
Lemma near_weaken M K f x M' K' : M <= M' -> K <= K' -> near M K f x -> near M' K' f x.
Proof.
  intros LM LK (HM & HK & F & D). split; [lra|]. split; [lra|]. split; [lra|]. eapply Rle_trans; [exact D|]. apply Rmult_le_compat; lra.
Qed.
Lemma near_self M f : Rabs f <= M -> near M 1 f f.
Proof. intros F. split; [eapply Rle_trans; [apply Rabs_pos|exact F]|]. split; [lra|]. split; [exact F|]. replace (f - f) with 0 by ring. rewrite Rabs_R0. lra. Qed.

Lemma rising_fact m k : rising (INR m + 1) k = INR (fact (m + k)) / INR (fact m).
Proof.
  induction k as [|k IH].
  - rewrite Nat.add_0_r. unfold rising. cbn. field. apply INR_fact_neq_0.
  - rewrite rising_S, IH, Nat.add_succ_r, fact_S_R, plus_INR. field. apply INR_fact_neq_0.
Qed.

Section Rounded.
Context (u : R) (rnd : R -> R).
Hypothesis Hu : 0 <= u < 1.
Hypothesis Hr : rounds u rnd.
Hypothesis Hi : exact_ints rnd.
Notation within := (within u).
Ltac rw x t W := let E := fresh in destruct (rnd_w u Hu rnd Hr x) as (t & W & E); rewrite E; clear E.

Lemma near_within m t : INR m * u < 1 -> within m t -> near 1 (1 + gamma u m) 1 t.
Proof.
  intros H W. assert (G := gamma_nonneg u Hu m H). split; [lra|]. split; [lra|]. split; [rewrite Rabs_R1; lra|]. assert (B := within_gamma u Hu m t H W). lra.
Qed.
Lemma near_rounded M K f x m t : INR m * u < 1 -> near M K f x -> within m t -> near M (K * (1 + gamma u m)) f (x * t).
Proof. intros H N W. assert (Q := near_mul _ _ _ _ _ _ _ _ N (near_within m t H W)). rewrite !Rmult_1_r in Q. exact Q. Qed.

(** ---- derivatives ---- *)
Definition dJ (a k n : nat) (X : R) : R := (1 / 2) ^ k * rising (INR n + (INR a + INR a) + 1) k * jP (INR a + INR k) (INR a + INR a + 2 * INR k) (n - k) X.
Definition DJ (a k n : nat) : R := (1 / 2) ^ k * rising (INR n + (INR a + INR a) + 1) k * s1 (a + k) (n - k).
Lemma dJ_nth a k n X : (k <= n)%nat -> nth_der k (jP (INR a) (INR a + INR a) n) X (dJ a k n X).
Proof. intros H. apply nth_der_jP. exact H. Qed.
Lemma dJ_at1 a k n : dJ a k n 1 = DJ a k n.
Proof. unfold dJ, DJ. rewrite jP_at1. unfold s1. rewrite (plus_INR a k). reflexivity. Qed.
Lemma DJ_pos a k n : 0 < DJ a k n.
Proof.
  unfold DJ. apply Rmult_lt_0_compat; [apply Rmult_lt_0_compat; [apply pow_lt; lra|apply rising_pos]|apply s1_pos].
  assert (P := pos_INR n). assert (Q := pos_INR a). lra.
Qed.
Lemma dJ_eq a k n X : dJ a k n X = DJ a k n * qJ (a + k) X (S (n - k)).
Proof.
  unfold dJ, DJ, qJ. cbn [pJ sJ]. assert (P := s1_pos (a + k) (n - k)). rewrite plus_INR.
  replace (INR a + INR a + 2 * INR k) with (INR a + INR k + (INR a + INR k)) by ring. field. lra.
Qed.
Lemma qJ_bound k X m : -1 <= X <= 1 -> Rabs (qJ k X m) <= 1.
Proof. intros H. apply (q_bound (tJ k) X (tJ_range k) H (qJ k X) (qJ_0 k X) (qJ_1 k X) (tJ_0 k) (qJ_S k X) m). Qed.
Lemma dJ_bound a k n X : -1 <= X <= 1 -> Rabs (dJ a k n X) <= DJ a k n.
Proof.
  intros H. rewrite dJ_eq, Rabs_mult. assert (P := DJ_pos a k n). rewrite Rabs_right by lra. rewrite <- (Rmult_1_r (DJ a k n)) at 2.
  apply Rmult_le_compat_l; [lra|apply qJ_bound; exact H].
Qed.
(** error constants *)
Definition kv (m : nat) (n : nat) : R := 1 + 3 * gamma u m * (INR n * (INR n + 1)).
Lemma kv_mono m n n' : INR m * u < 1 -> (n <= n')%nat -> kv m n <= kv m n'.
Proof.
  intros H L. unfold kv. assert (G := gamma_nonneg u Hu m H). apply Rplus_le_compat_l. apply Rmult_le_compat_l; [lra|].
  assert (P := pos_INR n). assert (Q := le_INR _ _ L). apply Rmult_le_compat; lra.
Qed.
Theorem jacobi_eval_derf_ok G g a n k X : gamma_accurate u g G -> -1 <= X <= 1 -> (1 <= n)%nat -> (k <= n)%nat ->
  small (2 * n + 2 * a + 1) -> INR 7 * u < 1 -> INR (2 * g + 3) * u < 1 -> 3 * gamma u 7 * (INR (n - k) * (INR (n - k) + 1)) <= 1 ->
  exists v, jacobi_eval_derf rnd G n k (INR a) (INR a) X = Ok v /\
    near (DJ a k n) (kv 7 (n - k) * (1 + gamma u (2 * g + 3))) (dJ a k n X) v.
Proof.
  intros HG HX Hn Hk Sm H7 Hg HN. unfold jacobi_eval_derf.
  replace (Nat.eqb n 0) with false by (symmetry; apply Nat.eqb_neq; lia). replace (Nat.ltb n k) with false by (symmetry; apply Nat.ltb_ge; lia). cbn [orb].
  rewrite !(rn_add rnd Hi) by (unfold small in *; lia).
  assert (E1 : rnd (INR (n + (a + a)) + 1) = INR (n + (a + a) + 1)) by (apply (rn_add rnd Hi _ 1); unfold small in *; lia). rewrite E1. clear E1.
  rewrite (rn_add rnd Hi (n + (a + a) + 1) k) by (unfold small in *; lia).
  destruct (jacobi_evalf_err u rnd Hu Hr Hi (a + k) (n - k) X HX ltac:(unfold small in *; lia) H7 HN (n - k) ltac:(lia)) as (e & -> & Be & _). cbn [bind].
  replace (INR (n + (a + a) + 1 + k)) with (INR (n + (a + a) + k) + 1) by (rewrite !plus_INR; cbn [INR]; ring). rewrite (plus_INR (n + (a + a)) 1). change (INR 1) with 1.
  destruct (HG (n + (a + a) + k)%nat) as (g1 & W1 & ->). destruct (HG (n + (a + a))%nat) as (g2 & W2 & ->).
  assert (P2 := within_pos u Hu _ _ W2). set (F1 := INR (fact (n + (a + a) + k))). set (F2 := INR (fact (n + (a + a)))). assert (F2n : F2 <> 0) by apply INR_fact_neq_0.
  set (p := s1 (a + k) (n - k) * (qJ (a + k) X (S (n - k)) + e)).
  rw ((1 / 2) ^ k * (F1 * g1)) t1 T1. rw ((1 / 2) ^ k * (F1 * g1) * t1 * p) t2 T2.
  destruct (rdivf_w u rnd Hu Hr ((1 / 2) ^ k * (F1 * g1) * t1 * p * t2) (F2 * g2)) as (t3 & T3 & ->); [apply Rmult_integral_contrapositive_currified; lra|].
  eexists. split; [reflexivity|].
  replace ((1 / 2) ^ k * (F1 * g1) * t1 * p * t2 / (F2 * g2) * t3) with (DJ a k n * (qJ (a + k) X (S (n - k)) + e) * (g1 * (/ g2 * (t1 * (t2 * t3))))).
  - apply near_rounded; [exact Hg| |].
    + rewrite dJ_eq. assert (D := DJ_pos a k n). assert (G7 := gamma_nonneg u Hu 7 H7). assert (Q := qJ_bound (a + k) X (S (n - k)) HX).
      replace (DJ a k n) with (DJ a k n * 1) at 1 by ring. replace (kv 7 (n - k)) with (1 * kv 7 (n - k)) by ring. apply near_mul; [apply near_self; rewrite Rabs_right; lra|].
      assert (Rabs e >= 0) by (apply Rle_ge, Rabs_pos). unfold near, kv in *. split; [lra|]. split; [lra|]. split; [exact Q|].
      replace (qJ (a + k) X (S (n - k)) + e - qJ (a + k) X (S (n - k))) with e by ring. lra.
    + replace (2 * g + 3)%nat with (g + (g + (1 + (1 + 1))))%nat by lia. apply within_mul; [exact Hu|exact W1|]. apply within_mul; [exact Hu|apply within_inv; [exact Hu|exact W2]|].
      repeat (apply within_mul; [exact Hu|assumption|]). assumption.
  - unfold p, DJ. replace (INR n + (INR a + INR a) + 1) with (INR (n + (a + a)) + 1) by (rewrite !plus_INR; ring). rewrite rising_fact. fold F1 F2. field. split; [lra|exact F2n].
Qed.

(** ---- sums ---- *)
Lemma sumf_ok N c c' (P : nat -> res R) (p f : nat -> R) M K : (forall j, (j < N)%nat -> c j = Ok (c' j)) -> (forall j, (j < N)%nat -> P j = Ok (p j)) ->
  (forall j, (j < N)%nat -> near M K (f j) (p j)) -> INR (N + 1) * u < 1 ->
  exists w, loop N (fun j s => do cj <- c j; do p <- P j; Ok (rnd (s + rnd (cj * p)))) 0 = Ok (rsum N (fun j => c' j * w j)) /\
    forall j, (j < N)%nat -> near M (K * (1 + gamma u (N + 1))) (f j) (w j).
Proof.
  intros Hc HP Hn Hm.
  assert (L : exists ph, loop N (fun j s => do cj <- c j; do p <- P j; Ok (rnd (s + rnd (cj * p)))) 0 = Ok (rsum N (fun j => c' j * p j * ph j)) /\
     forall j, (j < N)%nat -> within (N + 1) (ph j)).
  { clear Hm Hn. set (B := fun j s => do cj <- c j; do p <- P j; Ok (rnd (s + rnd (cj * p)))).
    destruct (loop_inv (fun m s => exists ph, s = rsum m (fun j => c' j * p j * ph j) /\ forall j, (j < m)%nat -> within (m + 1) (ph j)) N B 0) as (r & E & ph & -> & W).
    - exists (fun _ => 1). split; [reflexivity|]. intros j Hj. lia.
    - intros i s Hi' (ph & -> & W). unfold B. rewrite (Hc i Hi'), (HP i Hi'). cbn [bind]. eexists. split; [reflexivity|].
      rw (c' i * p i) t1 T1. rw (rsum i (fun j => c' j * p j * ph j) + c' i * p i * t1) t2 T2.
      exists (fun j => if Nat.eqb j i then t1 * t2 else ph j * t2). split.
      + cbn [rsum]. rewrite Nat.eqb_refl. rewrite (rsum_ext i (fun j => c' j * p j * (if Nat.eqb j i then t1 * t2 else ph j * t2)) (fun j => c' j * p j * ph j * t2)).
        * rewrite rsum_scal_r. ring.
        * intros j Hj. replace (Nat.eqb j i) with false by (symmetry; apply Nat.eqb_neq; lia). ring.
      + intros j Hj. destruct (Nat.eqb_spec j i).
        * apply (within_le u Hu (1 + 1)); [lia|]. apply within_mul; assumption.
        * replace (S i + 1)%nat with ((i + 1) + 1)%nat by lia. apply within_mul; [exact Hu|apply W; lia|assumption].
    - exists ph. split; [exact E|exact W]. }
  destruct L as (ph & -> & W). exists (fun j => p j * ph j). split; [f_equal; apply rsum_ext; intros; ring|].
  intros j Hj. apply near_rounded; [exact Hm|apply Hn; exact Hj|apply W; exact Hj].
Qed.
Lemma near_sum N c f w M K : 0 <= M -> 1 <= K -> (forall j, (j < N)%nat -> near M K (f j) (w j)) ->
  Rabs (rsum N (fun j => c j * w j) - rsum N (fun j => c j * f j)) <= M * (K - 1) * rsum N (fun j => Rabs (c j)).
Proof.
  intros HM HK H. induction N as [|N IH]; cbn [rsum]; [replace (0 - 0) with 0 by ring; rewrite Rabs_R0; lra|].
  specialize (IH (fun j Hj => H j (Nat.lt_lt_succ_r _ _ Hj))). destruct (H N (Nat.lt_succ_diag_r N)) as (_ & _ & _ & D).
  replace (rsum N (fun j => c j * w j) + c N * w N - (rsum N (fun j => c j * f j) + c N * f N)) with ((rsum N (fun j => c j * w j) - rsum N (fun j => c j * f j)) + c N * (w N - f N)) by ring.
  eapply Rle_trans; [apply Rabs_triang|]. rewrite Rmult_plus_distr_l. apply Rplus_le_compat; [exact IH|]. rewrite Rabs_mult, Rmult_comm. apply Rmult_le_compat_r; [apply Rabs_pos|exact D].
Qed.

(** ---- Legendre values and derivatives with N terms ---- *)
Context (N : nat).
Hypothesis Sm : small (2 * N + 1).
Hypothesis H7 : INR 7 * u < 1.
Hypothesis HN : 3 * gamma u 7 * (INR N * INR N) <= 1.
Lemma gamma_mono m m' : (m <= m')%nat -> INR m' * u < 1 -> gamma u m <= gamma u m'.
Proof.
  intros L H. unfold gamma. assert (P := le_INR _ _ L). assert (Q := pos_INR m). assert (INR m * u <= INR m' * u) by (apply Rmult_le_compat_r; lra).
  unfold Rdiv. apply Rmult_le_compat; [apply Rmult_le_pos; lra|apply Rlt_le, Rinv_0_lt_compat; lra|assumption|apply Rinv_le_contravar; lra].
Qed.
Lemma H5 : INR 5 * u < 1.
Proof. cbn [INR] in *. lra. Qed.
Lemma idx_sq n : (n < N)%nat -> INR n * (INR n + 1) <= INR N * INR N.
Proof.
  intros L. assert (Q := pos_INR n). assert (B : INR n + 1 <= INR N) by (rewrite <- S_INR; apply le_INR; lia). apply Rmult_le_compat; lra.
Qed.
Definition KL : R := 1 + 3 * gamma u 5 * (INR N * INR N).
Definition KD (g : nat) : R := (1 + 3 * gamma u 7 * (INR N * INR N)) * (1 + gamma u (2 * g + 3)).
Lemma leg_near X n : -1 <= X <= 1 -> (n < N)%nat -> legendre_evalf rnd n X = Ok (hL rnd X (S n)) /\ near 1 KL (lP n X) (hL rnd X (S n)).
Proof.
  intros HX L. assert (G5 := gamma_nonneg u Hu 5 H5). assert (G57 := gamma_mono 5 7 ltac:(lia) H7). assert (I := idx_sq n L).
  assert (I0 : 0 <= INR n * (INR n + 1)) by (assert (Q := pos_INR n); apply Rmult_le_pos; lra).
  assert (B : 3 * gamma u 5 * (INR n * (INR n + 1)) <= 3 * gamma u 5 * (INR N * INR N)) by (apply Rmult_le_compat_l; lra).
  assert (B7 : 3 * gamma u 5 * (INR N * INR N) <= 3 * gamma u 7 * (INR N * INR N)) by (apply Rmult_le_compat_r; lra).
  assert (SN : 0 <= 3 * gamma u 5 * (INR N * INR N)) by (apply Rmult_le_pos; lra).
  destruct (legendre_evalf_err u rnd Hu Hr Hi n X HX ltac:(unfold small in *; lia) H5 ltac:(lra) n ltac:(lia)) as (E & Be & _). split; [exact E|].
  unfold near, KL. split; [lra|]. split; [lra|]. split; [apply lP_bound; exact HX|]. lra.
Qed.
Lemma lDk_dJ k n X : (k <= n)%nat -> lDk k n X = dJ 0 k n X.
Proof.
  intros H. unfold lDk, dJ. replace (Nat.ltb n k) with false by (symmetry; apply Nat.ltb_ge; exact H). reflexivity.
Qed.
Lemma DJ1 n : (1 <= n)%nat -> DJ 0 1 n = INR n * (INR n + 1) / 2.
Proof.
  intros H. unfold DJ. destruct n as [|n]; [lia|]. cbn [Nat.add]. replace (S n - 1)%nat with n by lia. unfold s1. rewrite rising_fact. unfold rising. cbn [rprod]. cbn [pow fact Nat.add Nat.mul].
  change (fact n + n * fact n)%nat with (S n * fact n)%nat. rewrite mult_INR, S_INR. cbn [INR]. field. apply INR_fact_neq_0.
Qed.
Lemma leg_der_near G g X n : gamma_accurate u g G -> INR (2 * g + 3) * u < 1 -> -1 <= X <= 1 -> (n < N)%nat ->
  exists v, legendre_eval_derf rnd G n 1 X = Ok v /\ near (INR N * INR N / 2) (KD g) (lDk 1 n X) v.
Proof.
  intros HG Hg HX L. assert (G7 := gamma_nonneg u Hu 7 H7). assert (Gg := gamma_nonneg u Hu _ Hg). assert (I := idx_sq n L). assert (Q := pos_INR n). assert (QN := pos_INR N).
  assert (SN : 0 <= INR N * INR N) by (apply Rmult_le_pos; lra). assert (S3 : 0 <= 3 * gamma u 7 * (INR N * INR N)) by (apply Rmult_le_pos; lra).
  unfold legendre_eval_derf. destruct n as [|n].
  - exists 0. split; [reflexivity|]. change (lDk 1 0 X) with 0. unfold near, KD. rewrite Rminus_0_r, Rabs_R0.
    assert (1 <= (1 + 3 * gamma u 7 * (INR N * INR N)) * (1 + gamma u (2 * g + 3))) by nra. split; [lra|]. split; [lra|]. split; [lra|]. apply Rmult_le_pos; lra.
  - replace (S n - 1)%nat with n by lia. assert (In : INR n * (INR n + 1) <= INR N * INR N) by (apply idx_sq; lia). assert (Qn := pos_INR n).
    assert (B : 3 * gamma u 7 * (INR n * (INR n + 1)) <= 3 * gamma u 7 * (INR N * INR N)) by (apply Rmult_le_compat_l; lra).
    destruct (jacobi_eval_derf_ok G g 0 (S n) 1 X HG HX ltac:(lia) ltac:(lia) ltac:(unfold small in *; lia) H7 Hg) as (v & E & Nv).
    { replace (S n - 1)%nat with n by lia. lra. }
    exists v. split; [exact E|]. rewrite lDk_dJ by lia. apply (near_weaken _ _ _ _ _ _) with (3 := Nv).
    + rewrite DJ1 by lia. lra.
    + replace (S n - 1)%nat with n by lia. unfold KD, kv. apply Rmult_le_compat_r; lra.
Qed.
Lemma KL_ge : 1 <= KL.
Proof. unfold KL. assert (G5 := gamma_nonneg u Hu 5 H5). assert (QN := pos_INR N). assert (0 <= 3 * gamma u 5 * (INR N * INR N)) by (apply Rmult_le_pos; [lra|apply Rmult_le_pos; lra]). lra. Qed.
Lemma KD_ge g : INR (2 * g + 3) * u < 1 -> 1 <= KD g.
Proof.
  intros Hg. unfold KD. assert (G7 := gamma_nonneg u Hu 7 H7). assert (Gg := gamma_nonneg u Hu _ Hg). assert (QN := pos_INR N).
  assert (0 <= 3 * gamma u 7 * (INR N * INR N)) by (apply Rmult_le_pos; [lra|apply Rmult_le_pos; lra]). nra.
Qed.
Hypothesis HN1 : INR (N + 1) * u < 1.
Lemma approxf_near c c' X : -1 <= X <= 1 -> (forall j, (j < N)%nat -> c j = Ok (c' j)) ->
  exists w, legendre_eval_approxf rnd N c X = Ok (rsum N (fun j => c' j * w j)) /\
    forall j, (j < N)%nat -> near 1 (KL * (1 + gamma u (N + 1))) (lP j X) (w j).
Proof.
  intros HX Hc. apply (sumf_ok N c c' (fun j => legendre_evalf rnd j X) (fun j => hL rnd X (S j))); [exact Hc| | |exact HN1]; intros j Hj; apply leg_near; assumption.
Qed.
Lemma der_approxf_near G g c c' X : gamma_accurate u g G -> INR (2 * g + 3) * u < 1 -> -1 <= X <= 1 -> (forall j, (j < N)%nat -> c j = Ok (c' j)) ->
  exists w, legendre_eval_der_approxf rnd G N 1 c X = Ok (rsum N (fun j => c' j * w j)) /\
    forall j, (j < N)%nat -> near (INR N * INR N / 2) (KD g * (1 + gamma u (N + 1))) (lDk 1 j X) (w j).
Proof.
  intros HG Hg HX Hc. apply (sumf_ok N c c' (fun j => legendre_eval_derf rnd G j 1 X) (fun j => val (legendre_eval_derf rnd G j 1 X))); [exact Hc| | |exact HN1];
    intros j Hj; destruct (leg_der_near G g X j HG Hg HX Hj) as (v & E & Nv); rewrite E; [reflexivity|exact Nv].
Qed.
Definition Mop (d : bool) : R := if d then INR N * INR N / 2 else 1.
Definition Kop (d : bool) (g : nat) : R := (if d then KD g else KL) * (1 + gamma u (N + 1)).
Lemma collapsef_near G g d c c' X : (d = true -> gamma_accurate u g G /\ INR (2 * g + 3) * u < 1) -> -1 <= X <= 1 -> (forall j, (j < N)%nat -> c j = Ok (c' j)) ->
  exists w, lg_collapsef rnd G d N c X = Ok (rsum N (fun j => c' j * w j)) /\
    forall j, (j < N)%nat -> near (Mop d) (Kop d g) (lop d j X) (w j).
Proof.
  intros Hd HX Hc. destruct d; [destruct (Hd eq_refl); apply der_approxf_near; assumption|apply approxf_near; assumption].
Qed.
Lemma fin_choice (A : Type) (d0 : A) n (Q : nat -> A -> Prop) : (forall i, (i < n)%nat -> exists a, Q i a) -> exists f, forall i, (i < n)%nat -> Q i (f i).
Proof.
  induction n as [|n IH]; intros H; [exists (fun _ => d0); intros; lia|].
  destruct IH as (f & Hf); [intros i Hi'; apply H; lia|]. destruct (H n ltac:(lia)) as (a & Ha). exists (fun i => if Nat.eqb i n then a else f i).
  intros i Hi'. destruct (Nat.eqb_spec i n) as [-> |]; [exact Ha|apply Hf; lia].
Qed.
End Rounded.

Lemma grad_compf_ok u rnd G g order l c c' x y z C : 0 <= u < 1 -> rounds u rnd -> exact_ints rnd -> let n := lg_size order in
  small (2 * n + 1) -> INR 7 * u < 1 -> 3 * gamma u 7 * (INR n * INR n) <= 1 -> INR (n + 1) * u < 1 ->
  ((l < 3)%nat -> gamma_accurate u g G /\ INR (2 * g + 3) * u < 1) -> -1 <= x <= 1 -> -1 <= y <= 1 -> -1 <= z <= 1 ->
  (forall i, (i < n * n * n)%nat -> c i = Ok (c' i)) ->
  exists v C', lg_grad_compf rnd G order l c x y z C = Ok (v, C') /\
    Rabs (v - tensor_sum n c' (fun i => lop (Nat.eqb l 0) i x) (fun j => lop (Nat.eqb l 1) j y) (fun k => lop (Nat.eqb l 2) k z)) <=
    Mop n (Nat.eqb l 0) * Mop n (Nat.eqb l 1) * Mop n (Nat.eqb l 2) * (Kop u n (Nat.eqb l 0) g * Kop u n (Nat.eqb l 1) g * Kop u n (Nat.eqb l 2) g - 1) *
      rsum (n * n * n) (fun i => Rabs (c' i)).
Proof.
  intros Hu Hr Hi n Sm H7 HN HN1 HG Hx Hy Hz Hc.
  assert (H0 : Nat.eqb l 0 = true -> gamma_accurate u g G /\ INR (2 * g + 3) * u < 1) by (intros E; apply HG; apply Nat.eqb_eq in E; lia).
  assert (H1 : Nat.eqb l 1 = true -> gamma_accurate u g G /\ INR (2 * g + 3) * u < 1) by (intros E; apply HG; apply Nat.eqb_eq in E; lia).
  assert (H2 : Nat.eqb l 2 = true -> gamma_accurate u g G /\ INR (2 * g + 3) * u < 1) by (intros E; apply HG; apply Nat.eqb_eq in E; lia).
  assert (CN := collapsef_near u rnd Hu Hr Hi n Sm H7 HN HN1 G g).
  set (d0 := Nat.eqb l 0) in *. set (d1 := Nat.eqb l 1) in *. set (d2 := Nat.eqb l 2) in *.
  set (tri := fun (w : nat -> nat -> nat -> R) (w1 : nat -> nat -> R) k => rsum n (fun j => rsum n (fun i => c' (j * n + k * n * n + i)%nat * w k j i) * w1 k j)).
  set (good := fun k a => exists wx wy, a = rsum n (fun j => rsum n (fun i => c' (j * n + k * n * n + i)%nat * wx j i) * wy j) /\
     (forall j i, (j < n)%nat -> (i < n)%nat -> near (Mop n d0) (Kop u n d0 g) (lop d0 i x) (wx j i)) /\
     (forall j, (j < n)%nat -> near (Mop n d1) (Kop u n d1 g) (lop d1 j y) (wy j))).
  assert (L : exists C1, loop n (fun k C =>
      do C' <- loop n (fun j C => do v <- lg_collapsef rnd G d0 n (shift (j * n + k * n * n) c) x; Ok (fset C j (Ok v))) C;
      do v <- lg_collapsef rnd G d1 n C' y; Ok (fset C' (n + k)%nat (Ok v))) C = Ok C1 /\
      forall k, (k < n)%nat -> exists a, C1 (n + k)%nat = Ok a /\ good k a).
  { match goal with |- exists C1, loop n ?B C = _ /\ _ => destruct (loop_inv (fun m (C : nat -> res R) => forall k, (k < m)%nat -> exists a, C (n + k)%nat = Ok a /\ good k a) n B C) as (C1 & E & H) end.
    - intros; lia.
    - intros k C0 Hk HC0.
      match goal with |- context [bind (loop n ?B C0) _] => destruct (loop_inv (fun m (C : nat -> res R) =>
         (forall j, (j < m)%nat -> exists w, C j = Ok (rsum n (fun i => c' (j * n + k * n * n + i)%nat * w i)) /\ forall i, (i < n)%nat -> near (Mop n d0) (Kop u n d0 g) (lop d0 i x) (w i)) /\
         (forall i, (n <= i)%nat -> C i = C0 i)) n B C0) as (C2 & E & HA & HB) end.
      + split; [intros; lia|auto].
      + intros j C2 Hj (HA & HB).
        destruct (CN d0 (shift (j * n + k * n * n) c) (fun i => c' (j * n + k * n * n + i)%nat) x H0 Hx) as (w & -> & W).
        { intros i Hi'. unfold shift. apply Hc. nia. }
        cbn [bind]. eexists. split; [reflexivity|]. split.
        * intros j' Hj'. destruct (Nat.eq_dec j' j) as [-> |Ne]; [exists w; split; [apply fset_eq|exact W]|]. rewrite fset_neq by exact Ne. apply HA. lia.
        * intros i Hi'. rewrite fset_neq by lia. apply HB. exact Hi'.
      + rewrite E. cbn [bind].
        destruct (fin_choice (nat -> R) (fun _ => 0) n (fun j w => C2 j = Ok (rsum n (fun i => c' (j * n + k * n * n + i)%nat * w i)) /\ forall i, (i < n)%nat -> near (Mop n d0) (Kop u n d0 g) (lop d0 i x) (w i)) HA) as (wx & Wx).
        destruct (CN d1 C2 (fun j => rsum n (fun i => c' (j * n + k * n * n + i)%nat * wx j i)) y H1 Hy) as (wy & -> & Wy); [intros j Hj; apply (Wx j Hj)|].
        cbn [bind]. eexists. split; [reflexivity|]. intros k' Hk'. destruct (Nat.eq_dec k' k) as [-> |Ne].
        * rewrite fset_eq. eexists. split; [reflexivity|]. exists wx, wy. split; [reflexivity|]. split; [intros j i Hj Hi'; apply (Wx j Hj); exact Hi'|exact Wy].
        * rewrite fset_neq by lia. rewrite HB by lia. apply HC0. lia.
    - exists C1. split; [exact E|exact H]. }
  unfold lg_grad_compf. fold n. fold d0 d1 d2. destruct L as (C1 & -> & HC1). cbn [bind].
  destruct (fin_choice R 0 n (fun k a => C1 (n + k)%nat = Ok a /\ good k a) HC1) as (ay & Hay).
  destruct (CN d2 (shift n C1) ay z H2 Hz) as (wz & -> & Wz); [intros k Hk; unfold shift; apply Hay; exact Hk|]. cbn [bind].
  eexists. exists C1. split; [reflexivity|].
  set (Mx := Mop n d0) in *. set (My := Mop n d1) in *. set (Mz := Mop n d2) in *. set (Kx := Kop u n d0 g) in *. set (Ky := Kop u n d1 g) in *. set (Kz := Kop u n d2 g) in *.
  unfold tensor_sum.
  assert (FS : rsum (n * n * n) (fun i => Rabs (c' i)) = rsum n (fun k => rsum n (fun j => rsum n (fun i => Rabs (c' (i + j * n + k * n * n)%nat))))).
  { rewrite (rsum_mul (n * n) n). rewrite (rsum_mul n n). apply rsum_ext. intros k Hk. apply rsum_ext. intros j Hj. apply rsum_ext. intros i Hi'. f_equal. f_equal. lia. }
  rewrite FS. clear FS. rewrite <- rsum_scal_l.
  replace (rsum n (fun j => ay j * wz j) - rsum n (fun k => rsum n (fun j => rsum n (fun i => c' (i + j * n + k * n * n)%nat * (lop d0 i x * lop d1 j y * lop d2 k z)))))
    with (rsum n (fun k => ay k * wz k - rsum n (fun j => rsum n (fun i => c' (i + j * n + k * n * n)%nat * (lop d0 i x * lop d1 j y * lop d2 k z))))) by (rewrite rsum_minus; reflexivity).
  eapply Rle_trans; [apply rsum_abs|]. apply rsum_le. intros k Hk. destruct (Hay k Hk) as (_ & wx & wy & -> & Wx & Wy).
  rewrite <- rsum_scal_r, <- rsum_minus, <- rsum_scal_l. eapply Rle_trans; [apply rsum_abs|]. apply rsum_le. intros j Hj.
  rewrite <- !rsum_scal_r, <- rsum_minus, <- rsum_scal_l. eapply Rle_trans; [apply rsum_abs|]. apply rsum_le. intros i Hi'.
  replace (j * n + k * n * n + i)%nat with (i + j * n + k * n * n)%nat by lia. set (q := c' (i + j * n + k * n * n)%nat).
  destruct (near_mul _ _ _ _ _ _ _ _ (near_mul _ _ _ _ _ _ _ _ (Wx j i Hj Hi') (Wy j Hj)) (Wz k Hk)) as (_ & _ & _ & D).
  replace (q * wx j i * wy j * wz k - q * (lop d0 i x * lop d1 j y * lop d2 k z)) with (q * (wx j i * wy j * wz k - lop d0 i x * lop d1 j y * lop d2 k z)) by ring.
  rewrite Rabs_mult, Rmult_comm. apply Rmult_le_compat_r; [apply Rabs_pos|exact D].
Qed.
