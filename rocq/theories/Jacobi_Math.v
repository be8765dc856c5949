(** Jacobi polynomials in the basis ((1-x)/2)^m: explicit coefficients, three-term recurrence, derivative
    rule, differential equation.  Library file: it models nothing in /repo. *)
From Coq Require Import Reals Arith Lia Lra.
Require Import Verif.RSum Verif.RDer.
Open Scope R_scope.

Definition rising (x : R) (m : nat) : R := rprod m (fun i => x + INR i).

Lemma rising_S x m : rising x (S m) = rising x m * (x + INR m).
Proof. reflexivity. Qed.
Lemma rising_Sl x m : rising x (S m) = x * rising (x + 1) m.
Proof.
  induction m as [|m IH].
  - unfold rising. cbn [rprod INR]. ring.
  - rewrite rising_S, IH. rewrite (rising_S (x + 1) m). rewrite S_INR. ring.
Qed.
Lemma rising_pos x m : 0 < x -> 0 < rising x m.
Proof. intros H. apply rprod_pos. intros i _. assert (0 <= INR i) by apply pos_INR. lra. Qed.

(** coefficient with m and d = n - m *)
Definition jq (al s : R) (m d : nat) : R :=
  (-1) ^ m / (INR (fact d) * INR (fact m)) * rising (al + INR m + 1) d * rising (INR m + INR d + s + 1) m.
Definition jc (al s : R) (n m : nat) : R := if Nat.leb m n then jq al s m (n - m) else 0.
Definition jP (al s : R) (n : nat) (x : R) : R := rsum (S n) (fun m => jc al s n m * ((1 - x) / 2) ^ m).

Lemma fact_S_R d : INR (fact (S d)) = (INR d + 1) * INR (fact d).
Proof. rewrite fact_simpl, mult_INR, S_INR. reflexivity. Qed.

(** recurrence on the coefficients, in terms of (m, d), n = m + d *)
Definition cA (al be n : R) := (2 * n + (al + be) - 1) * (2 * n + (al + be)) / (2 * n * (n + (al + be))).
Definition cB (al be n : R) := (al * al - be * be) * (2 * n + (al + be) - 1) / (2 * n * (n + (al + be)) * (2 * n + (al + be) - 2)).
Definition cC (al be n : R) := (n + al - 1) * (n + be - 1) * (2 * n + (al + be)) / (n * (n + (al + be)) * (2 * n + (al + be) - 2)).

Definition jq_d1 al s m d := match d with O => 0 | S d' => jq al s m d' end.
Definition jq_d2 al s m d := match d with O | S O => 0 | S (S d') => jq al s m d' end.
Definition jq_m1 al s m d := match m with O => 0 | S m' => jq al s m' d end.

Lemma jq_rec al be m d : (2 <= m + d)%nat -> INR (m + d) + (al + be) <> 0 -> 2 * INR (m + d) + (al + be) - 2 <> 0 ->
  jq al (al + be) m d = (cA al be (INR (m + d)) + cB al be (INR (m + d))) * jq_d1 al (al + be) m d
     - 2 * cA al be (INR (m + d)) * jq_m1 al (al + be) m d - cC al be (INR (m + d)) * jq_d2 al (al + be) m d.
Proof.
  unfold cA, cB, cC. set (s := al + be) in *.
  intros Hn H1 H2. rewrite plus_INR in *.
  assert (Fm : forall k, INR (fact k) <> 0) by (intros k; apply INR_fact_neq_0).
  assert (Pm : forall k, 0 <= INR k) by (intros; apply pos_INR).
  destruct m as [|[|l]]; destruct d as [|[|j]]; try lia; unfold jq_d1, jq_d2, jq_m1, jq;
  rewrite ?fact_S_R, ?S_INR in *; change (INR 0) with 0 in *; change (fact 0) with 1%nat; change (INR 1) with 1;
  cbn [pow].
  - (* m = 0, d >= 2 *)
    assert (Q := Pm j). assert (Fj := Fm j).
    rewrite !rising_S. rewrite ?S_INR. change (rising (0 + (INR j + 1 + 1) + s + 1) 0) with 1.
    change (rising (0 + (INR j + 1) + s + 1) 0) with 1. change (rising (0 + INR j + s + 1) 0) with 1.
    set (u := rising (al + 0 + 1) j) in *. unfold s in *. field. repeat split; lra.
  - (* m = 1, d = 1 *)
    unfold rising. cbn [rprod INR]. unfold s in *. field. repeat split; lra.
  - (* m = 1, d >= 2 *)
    assert (Q := Pm j). assert (Fj := Fm j).
    replace (rising (al + 0 + 1) (S (S j))) with ((al + 1) * rising (al + (0 + 1) + 1) j * (al + 2 + INR j)).
    2: { rewrite rising_S, rising_Sl, S_INR. replace (al + 0 + 1 + 1) with (al + (0 + 1) + 1) by ring. ring. }
    rewrite !rising_S. rewrite ?S_INR.
    set (u := rising (al + (0 + 1) + 1) j) in *. unfold rising. cbn [rprod INR]. unfold s in *. field. repeat split; lra.
  - (* m >= 2, d = 0 *)
    assert (Q := Pm l). assert (Fj := Fm l).
    change (rising (al + (INR l + 1 + 1) + 1) 0) with 1. change (rising (al + (INR l + 1) + 1) 0) with 1.
    rewrite (rising_S (INR l + 1 + 1 + 0 + s + 1)), (rising_S (INR l + 1 + 1 + 0 + s + 1)), (rising_Sl (INR l + 1 + 0 + s + 1)).
    replace (INR l + 1 + 0 + s + 1 + 1) with (INR l + 1 + 1 + 0 + s + 1) by ring. rewrite S_INR.
    set (v := rising (INR l + 1 + 1 + 0 + s + 1) l) in *. unfold s in *. field. repeat split; lra.
  - (* m >= 2, d = 1 *)
    assert (Q := Pm l). assert (Fj := Fm l).
    rewrite (rising_S (INR l + 1 + 1 + (0 + 1) + s + 1)), (rising_S (INR l + 1 + 1 + (0 + 1) + s + 1)).
    rewrite (rising_Sl (INR l + 1 + (0 + 1) + s + 1)), (rising_S (INR l + 1 + 1 + 0 + s + 1) (S l)), (rising_Sl (INR l + 1 + 1 + 0 + s + 1) l).
    replace (INR l + 1 + (0 + 1) + s + 1 + 1) with (INR l + 1 + 1 + (0 + 1) + s + 1) by ring.
    replace (INR l + 1 + 1 + 0 + s + 1 + 1) with (INR l + 1 + 1 + (0 + 1) + s + 1) by ring.
    set (v := rising (INR l + 1 + 1 + (0 + 1) + s + 1) l) in *.
    unfold rising. cbn [rprod]. rewrite ?S_INR. change (INR 0) with 0. unfold s in *. field. repeat split; lra.
  - (* m >= 2, d >= 2 *)
    assert (Q := Pm l). assert (Fj := Fm l). assert (Q' := Pm j). assert (Fj' := Fm j).
    rewrite (rising_S (INR l + 1 + 1 + (INR j + 1 + 1) + s + 1)), (rising_S (INR l + 1 + 1 + (INR j + 1 + 1) + s + 1)).
    rewrite (rising_S (INR l + 1 + 1 + (INR j + 1) + s + 1) (S l)), (rising_Sl (INR l + 1 + 1 + (INR j + 1) + s + 1) l).
    rewrite (rising_Sl (INR l + 1 + (INR j + 1 + 1) + s + 1) l).
    rewrite (rising_Sl (INR l + 1 + 1 + INR j + s + 1) (S l)), (rising_Sl (INR l + 1 + 1 + INR j + s + 1 + 1) l).
    replace (INR l + 1 + 1 + (INR j + 1) + s + 1 + 1) with (INR l + 1 + 1 + (INR j + 1 + 1) + s + 1) by ring.
    replace (INR l + 1 + (INR j + 1 + 1) + s + 1 + 1) with (INR l + 1 + 1 + (INR j + 1 + 1) + s + 1) by ring.
    replace (INR l + 1 + 1 + INR j + s + 1 + 1 + 1) with (INR l + 1 + 1 + (INR j + 1 + 1) + s + 1) by ring.
    set (v := rising (INR l + 1 + 1 + (INR j + 1 + 1) + s + 1) l) in *.
    rewrite (rising_Sl (al + (INR l + 1) + 1) (S j)).
    replace (al + (INR l + 1) + 1 + 1) with (al + (INR l + 1 + 1) + 1) by ring.
    rewrite !(rising_S (al + (INR l + 1 + 1) + 1)). rewrite ?S_INR.
    set (u := rising (al + (INR l + 1 + 1) + 1) j) in *. unfold s in *. field. repeat split; lra.
Qed.

(** ---- from coefficients to values ---- *)
Lemma jc_hi al s n m : (n < m)%nat -> jc al s n m = 0.
Proof. intros H. unfold jc. destruct (Nat.leb_spec m n); [lia|reflexivity]. Qed.
Lemma jc_lo al s m d : jc al s (m + d) m = jq al s m d.
Proof. unfold jc. destruct (Nat.leb_spec m (m + d)); [|lia]. f_equal. lia. Qed.

Lemma jP_ext al s n K x : (n < K)%nat -> jP al s n x = rsum K (fun m => jc al s n m * ((1 - x) / 2) ^ m).
Proof.
  intros H. replace K with (S n + (K - S n))%nat by lia. rewrite rsum_add. unfold jP.
  rewrite (rsum_zero (K - S n)); [ring|]. intros i _. rewrite jc_hi by lia. ring.
Qed.

Lemma jc_rec al be n m : INR (S (S n)) + (al + be) <> 0 -> 2 * INR (S (S n)) + (al + be) - 2 <> 0 ->
  jc al (al + be) (S (S n)) m = (cA al be (INR (S (S n))) + cB al be (INR (S (S n)))) * jc al (al + be) (S n) m
     - 2 * cA al be (INR (S (S n))) * (match m with O => 0 | S m' => jc al (al + be) (S n) m' end)
     - cC al be (INR (S (S n))) * jc al (al + be) n m.
Proof.
  intros H1 H2. destruct (Nat.le_gt_cases m (S (S n))) as [Hm|Hm].
  - assert (E : (S (S n) = m + (S (S n) - m))%nat) by lia. set (d := (S (S n) - m)%nat) in *.
    rewrite E in *. rewrite jc_lo. rewrite (jq_rec al be m d) by (try lia; assumption). f_equal; [f_equal|].
    + f_equal. unfold jq_d1. destruct d as [|d'].
      * rewrite jc_hi by lia. reflexivity.
      * replace (S n) with (m + d')%nat by lia. rewrite jc_lo. reflexivity.
    + f_equal. unfold jq_m1. destruct m as [|m']; [reflexivity|].
      replace (S n) with (m' + d)%nat by lia. rewrite jc_lo. reflexivity.
    + f_equal. unfold jq_d2. destruct d as [|[|d']].
      * rewrite jc_hi by lia. reflexivity.
      * rewrite jc_hi by lia. reflexivity.
      * replace n with (m + d')%nat by lia. rewrite jc_lo. reflexivity.
  - rewrite !jc_hi by lia. destruct m as [|m']; [lia|]. rewrite jc_hi by lia. ring.
Qed.

Lemma jP_0 al s x : jP al s 0 x = 1.
Proof. unfold jP, jc, jq, rising. cbn. field. Qed.

Lemma jP_1 al be x : jP al (al + be) 1 x = ((al + be) / 2 + 1) * x + (al - be) / 2.
Proof. unfold jP, jc, jq, rising. cbn. field. Qed.

(** the three-term recurrence *)
Lemma jP_rec al be n x : INR (S (S n)) + (al + be) <> 0 -> 2 * INR (S (S n)) + (al + be) - 2 <> 0 ->
  jP al (al + be) (S (S n)) x =
    (cA al be (INR (S (S n))) * x + cB al be (INR (S (S n)))) * jP al (al + be) (S n) x
    - cC al be (INR (S (S n))) * jP al (al + be) n x.
Proof.
  intros H1 H2. set (A := cA al be (INR (S (S n)))) in *. set (B := cB al be (INR (S (S n)))) in *.
  set (C := cC al be (INR (S (S n)))) in *.
  replace (A * x + B) with ((A + B) - 2 * A * ((1 - x) / 2)) by field.
  set (t := (1 - x) / 2).
  rewrite (jP_ext al (al + be) (S (S n)) (S (S (S n))) x) by lia.
  rewrite (jP_ext al (al + be) n (S (S (S n))) x) by lia.
  rewrite Rmult_minus_distr_r.
  rewrite (jP_ext al (al + be) (S n) (S (S (S n))) x) at 1 by lia.
  rewrite (jP_ext al (al + be) (S n) (S (S n)) x) by lia. fold t.
  replace (2 * A * t * rsum (S (S n)) (fun m => jc al (al + be) (S n) m * t ^ m))
    with (rsum (S (S (S n))) (fun m => 2 * A * (match m with O => 0 | S m' => jc al (al + be) (S n) m' end) * t ^ m)).
  2: { rewrite rsum_S_l. rewrite <- !rsum_scal_l. rewrite Rmult_0_r, Rmult_0_l, Rplus_0_l.
       apply rsum_ext. intros i _. cbn [pow]. ring. }
  rewrite <- !rsum_scal_l, <- !rsum_minus. apply rsum_ext. intros m _.
  rewrite (jc_rec al be n m H1 H2). fold A B C. ring.
Qed.

(** the derivative rule *)
Lemma jq_der al s m d : jq al s (S m) d * (INR (S m) * (- (1 / 2))) =
  (INR (m + d) + s + 2) / 2 * jq (al + 1) (s + 2) m d.
Proof.
  unfold jq. rewrite fact_S_R, plus_INR, S_INR. cbn [pow]. rewrite (rising_Sl (INR m + 1 + INR d + s + 1)).
  replace (INR m + 1 + INR d + s + 1 + 1) with (INR m + INR d + (s + 2) + 1) by ring.
  replace (al + (INR m + 1) + 1) with (al + 1 + INR m + 1) by ring.
  assert (0 <= INR m) by apply pos_INR. field. repeat split; try apply INR_fact_neq_0; lra.
Qed.

Lemma jP_der al s n x : derivable_pt_lim (jP al s (S n)) x ((INR n + s + 2) / 2 * jP (al + 1) (s + 2) n x).
Proof.
  eapply der_value; [|apply (der_rsum (S (S n)) (fun m x => jc al s (S n) m * ((1 - x) / 2) ^ m)
     (fun m => jc al s (S n) m * (INR m * ((1 - x) / 2) ^ pred m * (- (1 / 2)))))].
  - rewrite rsum_S_l. change (INR 0) with 0. unfold jP. rewrite <- rsum_scal_l.
    replace (jc al s (S n) 0 * (0 * ((1 - x) / 2) ^ pred 0 * - (1 / 2))) with 0 by ring.
    rewrite Rplus_0_l. apply rsum_ext. intros m Hm. cbn [pred].
    remember (n - m)%nat as d eqn:Ed. replace n with (m + d)%nat by lia. change (S (m + d)) with (S m + d)%nat. rewrite !jc_lo.
    transitivity ((jq al s (S m) d * (INR (S m) * - (1 / 2))) * ((1 - x) / 2) ^ m); [ring|].
    rewrite (jq_der al s m d). ring.
  - intros m _. apply der_scal. apply (der_pow m (fun x => (1 - x) / 2)). eapply der_value; [|apply der_divc; apply der_sub; [apply der_const|apply der_id]].
    field.
Qed.

(** ---- the differential equation ---- *)
Lemma jq_step al s m d :
  (INR m + 1) * (al + INR m + 1) * jq al s (S m) d = - (INR d + 1) * (2 * INR m + INR d + s + 2) * jq al s m (S d).
Proof.
  unfold jq. rewrite !fact_S_R, !S_INR. cbn [pow].
  rewrite (rising_Sl (al + INR m + 1) d), (rising_S (INR m + 1 + INR d + s + 1) m).
  replace (al + (INR m + 1) + 1) with (al + INR m + 1 + 1) by ring.
  replace (INR m + (INR d + 1) + s + 1) with (INR m + 1 + INR d + s + 1) by ring.
  assert (0 <= INR m) by apply pos_INR. assert (0 <= INR d) by apply pos_INR.
  field. repeat split; try apply INR_fact_neq_0; lra.
Qed.
Lemma jc_step al s n m : (m <= n)%nat ->
  (INR m + 1) * (al + INR m + 1) * jc al s n (S m) = (INR m * (INR m + s + 1) - INR n * (INR n + s + 1)) * jc al s n m.
Proof.
  intros H. destruct (Nat.eq_dec m n) as [->|Ne].
  - rewrite jc_hi by lia. ring.
  - remember (n - S m)%nat as d eqn:Ed. replace n with (S m + d)%nat at 1 by lia. rewrite jc_lo, jq_step.
    replace n with (m + S d)%nat by lia. rewrite jc_lo, plus_INR, S_INR. ring.
Qed.

(** first and second derivative (in t = (1-x)/2) as sums *)
Definition jS1 al s n t := rsum (S n) (fun m => INR m * jc al s n m * t ^ pred m).
Definition jS2 al s n t := rsum (S n) (fun m => INR m * (INR m - 1) * jc al s n m * t ^ pred (pred m)).

Lemma jS1_r al s n t : jS1 al s n t = rsum (S n) (fun m => (INR m + 1) * jc al s n (S m) * t ^ m).
Proof.
  unfold jS1. rewrite rsum_S_l. change (INR 0) with 0. cbn [rsum]. rewrite (jc_hi al s n (S n)) by lia.
  replace (0 * jc al s n 0 * t ^ pred 0) with 0 by ring. rewrite Rplus_0_l.
  replace ((INR n + 1) * 0 * t ^ n) with 0 by ring. rewrite Rplus_0_r.
  apply rsum_ext. intros i _. rewrite S_INR. reflexivity.
Qed.
Lemma jS1_t al s n t : t * jS1 al s n t = rsum (S n) (fun m => INR m * jc al s n m * t ^ m).
Proof.
  unfold jS1. rewrite <- rsum_scal_l. apply rsum_ext. intros [|i] _; [change (INR 0) with 0; ring|].
  cbn [pred pow]. ring.
Qed.
Lemma jS2_t al s n t : t * jS2 al s n t = rsum (S n) (fun m => (INR m + 1) * INR m * jc al s n (S m) * t ^ m).
Proof.
  unfold jS2. rewrite <- rsum_scal_l, rsum_S_l. change (INR 0) with 0. cbn [rsum]. rewrite (jc_hi al s n (S n)) by lia.
  match goal with |- ?a + ?b = ?c + ?d => replace a with 0 by ring; replace d with 0 by ring end.
  rewrite Rplus_0_l, Rplus_0_r.
  apply rsum_ext. intros [|i] _; rewrite S_INR; [change (INR 0) with 0; ring|]. cbn [pred pow]. ring.
Qed.
Lemma jS2_tt al s n t : t * (t * jS2 al s n t) = rsum (S n) (fun m => INR m * (INR m - 1) * jc al s n m * t ^ m).
Proof.
  unfold jS2. rewrite <- !rsum_scal_l. apply rsum_ext. intros [|[|i]] _; [change (INR 0) with 0; ring|rewrite S_INR; change (INR 0) with 0; ring|].
  cbn [pred pow]. ring.
Qed.
Lemma jS_ode al s n t :
  t * (1 - t) * jS2 al s n t + (al + 1 - (s + 2) * t) * jS1 al s n t
  + INR n * (INR n + s + 1) * rsum (S n) (fun m => jc al s n m * t ^ m) = 0.
Proof.
  replace (t * (1 - t) * jS2 al s n t + (al + 1 - (s + 2) * t) * jS1 al s n t)
    with (t * jS2 al s n t - t * (t * jS2 al s n t) + (al + 1) * jS1 al s n t - (s + 2) * (t * jS1 al s n t)) by ring.
  rewrite jS2_tt, jS2_t, jS1_t, jS1_r.
  rewrite <- !rsum_scal_l, <- !rsum_minus, <- !rsum_plus, <- !rsum_minus, <- !rsum_plus.
  apply rsum_zero. intros m Hm.
  assert (E := jc_step al s n m ltac:(lia)).
  transitivity (((INR m + 1) * (al + INR m + 1) * jc al s n (S m) - (INR m * (INR m + s + 1) - INR n * (INR n + s + 1)) * jc al s n m) * t ^ m); [ring|].
  rewrite E. ring.
Qed.

Definition jD1 al s n x := - (1 / 2) * jS1 al s n ((1 - x) / 2).
Definition jD2 al s n x := 1 / 4 * jS2 al s n ((1 - x) / 2).
Lemma lin_der x : derivable_pt_lim (fun x => (1 - x) / 2) x (- (1 / 2)).
Proof. eapply der_value; [|apply der_divc; apply der_sub; [apply der_const|apply der_id]]. field. Qed.
Lemma jP_D1 al s n x : derivable_pt_lim (jP al s n) x (jD1 al s n x).
Proof.
  eapply der_value; [|apply (der_rsum (S n) (fun m x => jc al s n m * ((1 - x) / 2) ^ m)
     (fun m => jc al s n m * (INR m * ((1 - x) / 2) ^ pred m * (- (1 / 2)))))].
  - unfold jD1, jS1. rewrite <- rsum_scal_l. apply rsum_ext. intros. ring.
  - intros m _. apply der_scal. apply (der_pow m (fun x => (1 - x) / 2)). apply lin_der.
Qed.
Lemma jP_D2 al s n x : derivable_pt_lim (jD1 al s n) x (jD2 al s n x).
Proof.
  unfold jD1. eapply der_value; [|apply der_scal; apply (der_rsum (S n) (fun m x => INR m * jc al s n m * ((1 - x) / 2) ^ pred m)
     (fun m => INR m * jc al s n m * (INR (pred m) * ((1 - x) / 2) ^ pred (pred m) * (- (1 / 2)))))].
  - unfold jD2, jS2. rewrite <- !rsum_scal_l. apply rsum_ext. intros [|m] _; [change (INR 0) with 0; ring|].
    rewrite S_INR. cbn [pred]. field.
  - intros m _. apply der_scal. apply (der_pow (pred m) (fun x => (1 - x) / 2)). apply lin_der.
Qed.
Lemma jP_ode al be n x :
  (1 - x * x) * jD2 al (al + be) n x + (be - al - (al + be + 2) * x) * jD1 al (al + be) n x
  + INR n * (INR n + (al + be) + 1) * jP al (al + be) n x = 0.
Proof.
  assert (E := jS_ode al (al + be) n ((1 - x) / 2)). unfold jD1, jD2, jP. rewrite <- E.
  set (s0 := rsum (S n) _). set (s1 := jS1 _ _ _ _). set (s2 := jS2 _ _ _ _). field.
Qed.

(** values at the end point, and the leading coefficient *)
Lemma jP_at1 al s n : jP al s n 1 = rising (al + 1) n / INR (fact n).
Proof.
  unfold jP. replace ((1 - 1) / 2) with 0 by field. rewrite rsum_S_l.
  rewrite rsum_zero.
  - replace n with (0 + n)%nat at 1 by lia. rewrite jc_lo. unfold jq, rising at 2. cbn [rprod pow fact INR].
    change (INR 0) with 0. rewrite !Rplus_0_r. field. apply INR_fact_neq_0.
  - intros i _. cbn [pow]. ring.
Qed.
Lemma jc_top al s n : jc al s n n = (-1) ^ n / INR (fact n) * rising (INR n + s + 1) n.
Proof.
  replace n with (n + 0)%nat at 1 by lia. rewrite jc_lo. unfold jq. change (rising _ 0) with 1. change (INR (fact 0)) with 1.
  change (INR 0) with 0. rewrite Rplus_0_r. field. apply INR_fact_neq_0.
Qed.
