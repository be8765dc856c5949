From Coq Require Import List Reals NArith Arith Lia Lra.
From Coquelicot Require Import Coquelicot.
Import ListNotations.
Require Import Verif.Base Verif.RBase Verif.RSum Verif.RDer Verif.Poly Verif.Jacobi_Math Verif.Jacobi_Int
  Verif.Model_Poly Verif.Spec_Poly.
Open Scope R_scope.

(** ---- Jacobi values ---- *)
Lemma jac_a_ok al be n : 0 < INR (S (S n)) + (al + be) ->
  jac_a al be (S (S n)) = Ok (cA al be (INR (S (S n)))).
Proof.
  intros H. unfold jac_a, cA. cbn [Nat.eqb]. assert (0 <= INR n) by apply pos_INR.
  rewrite rdiv_ok.
  - f_equal. rewrite !Rplus_assoc. reflexivity.
  - rewrite Rplus_assoc. apply Rmult_integral_contrapositive_currified; [|lra]. rewrite !S_INR. lra.
Qed.
Lemma jac_b_ok al be n : 0 < INR (S (S n)) + (al + be) -> 0 < 2 * INR (S (S n)) + (al + be) - 2 ->
  jac_b al be (S (S n)) = Ok (cB al be (INR (S (S n)))).
Proof.
  intros H H'. unfold jac_b, cB. cbn [Nat.eqb]. assert (0 <= INR n) by apply pos_INR.
  rewrite rdiv_ok.
  - f_equal. rewrite !Rplus_assoc. reflexivity.
  - rewrite !Rplus_assoc. repeat apply Rmult_integral_contrapositive_currified; rewrite ?S_INR in *; lra.
Qed.
Lemma jac_c_ok al be n : 0 < INR (S (S n)) + (al + be) -> 0 < 2 * INR (S (S n)) + (al + be) - 2 ->
  jac_c al be (S (S n)) = Ok (cC al be (INR (S (S n)))).
Proof.
  intros H H'. unfold jac_c, cC. cbn [Nat.eqb]. assert (0 <= INR n) by apply pos_INR.
  rewrite rdiv_ok.
  - f_equal. rewrite !Rplus_assoc. reflexivity.
  - rewrite !Rplus_assoc. repeat apply Rmult_integral_contrapositive_currified; rewrite ?S_INR in *; lra.
Qed.

Lemma jac_rec_SS m al be X : jac_rec (S (S m)) al be X =
  do a <- jac_a al be (S m); do b <- jac_b al be (S m); do p1 <- jac_rec (S m) al be X;
  do c <- jac_c al be (S m); do p2 <- jac_rec m al be X; Ok ((a * X + b) * p1 - c * p2).
Proof. reflexivity. Qed.

Lemma jacobi_eval_ok al be X : -2 < al + be -> forall n, jacobi_eval n al be X = Ok (jP al (al + be) n X).
Proof.
  intros Hs. unfold jacobi_eval.
  assert (P : forall n, jac_rec (S n) al be X = Ok (jP al (al + be) n X) /\ jac_rec (S (S n)) al be X = Ok (jP al (al + be) (S n) X)).
  { induction n as [|n (IH1 & IH2)].
    - split; [rewrite jP_0; reflexivity|]. rewrite jac_rec_SS, jP_1. unfold jac_a, jac_b, jac_c. cbn [jac_rec bind Nat.eqb]. f_equal. field.
    - split; [exact IH2|]. assert (0 <= INR n) by apply pos_INR.
      assert (H1 : 0 < INR (S (S n)) + (al + be)) by (rewrite !S_INR; lra).
      assert (H2 : 0 < 2 * INR (S (S n)) + (al + be) - 2) by (rewrite !S_INR; lra).
      rewrite jac_rec_SS, jac_a_ok, jac_b_ok, jac_c_ok by assumption. rewrite IH1, IH2. cbn [bind].
      rewrite (jP_rec al be n X) by lra. reflexivity. }
  intros n. apply P.
Qed.

(** ---- derivatives ---- *)
Lemma nth_der_scal k : forall f c x d, nth_der k f x d -> nth_der k (fun t => c * f t) x (c * d).
Proof.
  induction k as [|k IH]; cbn; intros f c x d H; [rewrite H; reflexivity|].
  destruct H as (g & Hg & H). exists (fun t => c * g t). split; [intros t; apply der_scal; apply Hg|].
  apply IH. exact H.
Qed.
Lemma nth_der_ext k : forall f g x d, (forall t, f t = g t) -> nth_der k f x d -> nth_der k g x d.
Proof.
  destruct k as [|k]; cbn; intros f g x d E H; [rewrite <- E; exact H|].
  destruct H as (h & Hh & H). exists h. split; [|exact H]. intros t. apply (der_ext f); [exact E|apply Hh].
Qed.
Lemma nth_der_unique k : forall f x d d', nth_der k f x d -> nth_der k f x d' -> d = d'.
Proof.
  induction k as [|k IH]; cbn; intros f x d d' H H'; [congruence|].
  destruct H as (g & Hg & H). destruct H' as (g' & Hg' & H'). apply (IH g' x); [|exact H'].
  apply (nth_der_ext k g); [|exact H]. intros t. apply (der_unique f t); auto.
Qed.
Lemma nth_der_jP k : forall al s n x, (k <= n)%nat ->
  nth_der k (jP al s n) x ((1 / 2) ^ k * rising (INR n + s + 1) k * jP (al + INR k) (s + 2 * INR k) (n - k) x).
Proof.
  induction k as [|k IH]; intros al s n x Hk.
  - cbn. change (rising _ 0) with 1. rewrite Rmult_0_r, !Rplus_0_r, Nat.sub_0_r. ring.
  - destruct n as [|n]; [lia|].
    exists (fun t => (INR n + s + 2) / 2 * jP (al + 1) (s + 2) n t). split; [intros t; apply jP_der|].
    eapply eq_rect; [apply nth_der_scal; apply (IH (al + 1) (s + 2) n x ltac:(lia))|].
    rewrite rising_Sl. rewrite !S_INR. cbn [Nat.sub pow].
    replace (INR n + (s + 2) + 1) with (INR n + 1 + s + 1 + 1) by ring.
    replace (al + 1 + INR k) with (al + (INR k + 1)) by ring.
    replace (s + 2 + 2 * INR k) with (s + 2 * (INR k + 1)) by ring. field.
Qed.
Lemma nth_der_zero k : forall f x, (forall t, f t = 0) -> nth_der k f x 0.
Proof.
  induction k as [|k IH]; cbn; intros f x H; [apply H|]. exists (fun _ => 0). split.
  - intros t. apply (der_ext (fun _ => 0)); [intros; symmetry; apply H|apply der_const].
  - apply IH. reflexivity.
Qed.
Lemma nth_der_high k : forall al s n x, (n < k)%nat -> nth_der k (jP al s n) x 0.
Proof.
  induction k as [|k IH]; intros al s n x Hk; [lia|]. destruct n as [|n].
  - exists (fun _ => 0). split; [|apply nth_der_zero; reflexivity].
    intros t. apply (der_ext (fun _ => 1)); [intros; symmetry; apply jP_0|apply der_const].
  - exists (fun t => (INR n + s + 2) / 2 * jP (al + 1) (s + 2) n t). split; [intros t; apply jP_der|].
    replace 0 with ((INR n + s + 2) / 2 * 0) by ring. apply nth_der_scal. apply IH. lia.
Qed.

Lemma gamma_rising G x k : gamma_like G -> 0 < x -> G (x + INR k) = rising x k * G x.
Proof.
  intros (_ & H) Hx. induction k as [|k IH].
  - change (rising x 0) with 1. change (INR 0) with 0. rewrite Rplus_0_r. ring.
  - rewrite S_INR, rising_S. assert (0 <= INR k) by apply pos_INR.
    replace (x + (INR k + 1)) with (x + INR k + 1) by ring.
    destruct (H (x + INR k) ltac:(lra)) as (_ & ->). rewrite IH. ring.
Qed.
Lemma gamma_fact G n : gamma_like G -> G (INR n + 1) = INR (fact n).
Proof.
  intros HG. induction n as [|n IH].
  - cbn. rewrite Rplus_0_l. apply HG.
  - rewrite S_INR. assert (0 <= INR n) by apply pos_INR. destruct HG as (_ & HG).
    destruct (HG (INR n + 1) ltac:(lra)) as (_ & ->). rewrite IH, fact_S_R. reflexivity.
Qed.

(** what eval_der computes, for every alpha, beta > -1 *)
Lemma jacobi_eval_der_val G n k al be X : gamma_like G -> -1 < al -> -1 < be -> (1 <= n)%nat -> (k <= n)%nat ->
  jacobi_eval_der G n k al be X =
    Ok ((1 / 2) ^ k * rising (INR n + 2 * al + 1) k * jP (al + INR k) (al + be + 2 * INR k) (n - k) X).
Proof.
  intros HG Ha Hb Hn Hk. unfold jacobi_eval_der.
  replace (Nat.eqb n 0) with false by (symmetry; apply Nat.eqb_neq; lia).
  replace (Nat.ltb n k) with false by (symmetry; apply Nat.ltb_ge; lia). cbn [orb].
  assert (0 <= INR k) by apply pos_INR.
  rewrite jacobi_eval_ok by lra. cbn [bind].
  assert (H1 : 1 <= INR n) by (change 1 with (INR 1); apply le_INR; lia).
  set (theta := INR n + (al + al) + 1). assert (Ht : 0 < theta) by (unfold theta; lra).
  rewrite rdiv_ok by (apply HG; exact Ht). f_equal. rewrite (gamma_rising G theta k HG Ht).
  replace (al + INR k + (be + INR k)) with (al + be + 2 * INR k) by ring.
  replace (INR n + 2 * al + 1) with theta by (unfold theta; ring). field. apply HG. exact Ht.
Qed.

Lemma jacobi_der_sym G n k al X : gamma_like G -> -1 < al -> (1 <= n)%nat ->
  exists v, jacobi_eval_der G n k al al X = Ok v /\ nth_der k (jP al (al + al) n) X v.
Proof.
  intros HG Ha Hn. destruct (Nat.le_gt_cases k n) as [Hk|Hk].
  - rewrite jacobi_eval_der_val by assumption. eexists. split; [reflexivity|].
    eapply eq_rect; [apply nth_der_jP; exact Hk|].
    replace (INR n + 2 * al + 1) with (INR n + (al + al) + 1) by ring. reflexivity.
  - exists 0. split; [|apply nth_der_high; exact Hk]. unfold jacobi_eval_der.
    replace (Nat.ltb n k) with true by (symmetry; apply Nat.ltb_lt; lia). rewrite Bool.orb_true_r. reflexivity.
Qed.

(** strict monotonicity of the rising factorial *)
Lemma rising_lt x y k : 0 < x -> x < y -> (1 <= k)%nat -> rising x k < rising y k.
Proof.
  intros Hx Hy. induction k as [|k IH]; intros Hk; [lia|]. rewrite !rising_S. assert (0 <= INR k) by apply pos_INR.
  destruct k as [|k].
  - change (rising x 0) with 1. change (rising y 0) with 1. lra.
  - apply Rmult_gt_0_lt_compat; try lra.
    + apply rising_pos; lra.
    + apply IH; lia.
Qed.
Lemma rising_neq x y k : 0 < x -> 0 < y -> x <> y -> (1 <= k)%nat -> rising x k <> rising y k.
Proof.
  intros Hx Hy N Hk. destruct (Rtotal_order x y) as [H|[H|H]]; [|contradiction|].
  - apply Rlt_not_eq. apply rising_lt; assumption.
  - apply Rgt_not_eq. apply rising_lt; assumption.
Qed.

(** for alpha <> beta the result is right only at the zeros of the reduced polynomial *)
Lemma jacobi_der_asym G n k al be X : gamma_like G -> -1 < al -> -1 < be -> al <> be -> (1 <= k)%nat -> (k <= n)%nat ->
  exists v d, jacobi_eval_der G n k al be X = Ok v /\ nth_der k (jP al (al + be) n) X d /\
    v * rising (INR n + al + be + 1) k = d * rising (INR n + 2 * al + 1) k /\
    (v = d <-> d = 0).
Proof.
  intros HG Ha Hb Hab Hk Hkn. rewrite jacobi_eval_der_val by (try assumption; lia).
  eexists. eexists. split; [reflexivity|]. split; [apply nth_der_jP; exact Hkn|].
  assert (H1 : 1 <= INR n) by (change 1 with (INR 1); apply le_INR; lia).
  replace (INR n + al + be + 1) with (INR n + (al + be) + 1) by ring.
  set (r1 := rising (INR n + 2 * al + 1) k). set (r2 := rising (INR n + (al + be) + 1) k).
  set (p := jP _ _ _ _).
  assert (R1 : 0 < r1) by (apply rising_pos; lra). assert (R2 : 0 < r2) by (apply rising_pos; lra).
  assert (R12 : r1 <> r2) by (apply rising_neq; try lra; lia).
  assert (Hh : 0 < (1 / 2) ^ k) by (apply pow_lt; lra). split; [ring|]. split.
  - intros E. assert (Z : (1 / 2) ^ k * p * (r1 - r2) = 0) by nra.
    apply Rmult_integral in Z. destruct Z as [Z|Z]; [|exfalso; apply R12; lra]. nra.
  - intros E. assert (Z : p = 0).
    { apply (Rmult_eq_reg_l ((1 / 2) ^ k * r2)); [rewrite E; ring|]. apply Rgt_not_eq. apply Rmult_lt_0_compat; assumption. }
    rewrite Z. ring.
Qed.

(** ---- Legendre ---- *)
Definition lP (n : nat) (x : R) : R := jP 0 (0 + 0) n x.
Lemma leg_rec_SS m X : leg_rec (S (S m)) X =
  do i <- rdiv 1 (INR (S m)); do p1 <- leg_rec (S m) X; do p2 <- leg_rec m X;
  Ok (i * ((2 * INR (S m) - 1) * X * p1 - (INR (S m) - 1) * p2)).
Proof. reflexivity. Qed.
Lemma lP_rec n x : (INR n + 2) * lP (S (S n)) x = (2 * INR n + 3) * x * lP (S n) x - (INR n + 1) * lP n x.
Proof.
  unfold lP. assert (0 <= INR n) by apply pos_INR.
  rewrite (jP_rec 0 0 n x) by (rewrite !S_INR; lra). unfold cA, cB, cC. rewrite !S_INR. field. lra.
Qed.
Lemma lP_0 x : lP 0 x = 1. Proof. apply jP_0. Qed.
Lemma lP_1 x : lP 1 x = x. Proof. unfold lP. rewrite jP_1. field. Qed.
Lemma legendre_eval_ok X : forall n, legendre_eval n X = Ok (lP n X).
Proof.
  unfold legendre_eval.
  assert (P : forall n, leg_rec (S n) X = Ok (lP n X) /\ leg_rec (S (S n)) X = Ok (lP (S n) X)).
  { induction n as [|n (IH1 & IH2)].
    - split; [rewrite lP_0; reflexivity|]. rewrite leg_rec_SS. change (INR 1) with 1. rewrite rdiv_ok by lra.
      cbn [leg_rec bind]. rewrite lP_1. f_equal. field.
    - split; [exact IH2|]. assert (0 <= INR n) by apply pos_INR.
      rewrite leg_rec_SS, rdiv_ok by (rewrite !S_INR; lra). rewrite IH1, IH2. cbn [bind]. f_equal.
      assert (E := lP_rec n X). rewrite !S_INR. apply (Rmult_eq_reg_l (INR n + 2)); [|lra]. rewrite E. field. lra. }
  intros n. apply P.
Qed.
Lemma two_step (P : nat -> Prop) : P 0%nat -> P 1%nat -> (forall n, P n -> P (S n) -> P (S (S n))) -> forall n, P n.
Proof. intros H0 H1 HS n. assert (P n /\ P (S n)) as [H _]; [|exact H]. induction n as [|n [A B]]; split; auto. Qed.
Lemma lP_at1 n : lP n 1 = 1.
Proof.
  revert n. apply two_step; [apply lP_0|apply lP_1|]. intros n H0 H1. assert (0 <= INR n) by apply pos_INR.
  apply (Rmult_eq_reg_l (INR n + 2)); [|lra]. rewrite lP_rec, H0, H1. ring.
Qed.
Lemma lP_parity n x : lP n (- x) = (-1) ^ n * lP n x.
Proof.
  revert n. apply (two_step (fun n => lP n (- x) = (-1) ^ n * lP n x)).
  - rewrite !lP_0. cbn. ring.
  - rewrite !lP_1. cbn. ring.
  - intros n H0 H1. assert (0 <= INR n) by apply pos_INR.
    apply (Rmult_eq_reg_l (INR n + 2)); [|lra]. rewrite lP_rec, H0, H1.
    transitivity ((-1) ^ S (S n) * ((INR n + 2) * lP (S (S n)) x)); [|ring]. rewrite lP_rec. cbn [pow]. ring.
Qed.
(** degree: explicit leading coefficient *)
Lemma lead_gen al s n : exists c, forall x, jP al s n x = rsum n (fun i => c i * x ^ i) + jc al s n n * (- (1 / 2)) ^ n * x ^ n.
Proof.
  assert (Pt : forall m u, exists c, forall x : R, u * ((1 - x) / 2) ^ m = rsum m (fun i => c i * x ^ i) + u * (- (1 / 2)) ^ m * x ^ m).
  { induction m as [|m IH]; intros u.
    - exists (fun _ => 0). intros x. cbn. ring.
    - destruct (IH (u * (1 / 2))) as (c & Hc).
      exists (fun i => (if Nat.eqb i m then u * (1 / 2) * (- (1 / 2)) ^ m else c i) + (match i with O => 0 | S i' => - c i' end)).
      intros x. cbn [pow rsum]. rewrite Nat.eqb_refl.
      transitivity ((1 - x) * (u * (1 / 2) * ((1 - x) / 2) ^ m)); [field|]. rewrite Hc.
      rewrite (rsum_ext m (fun i => ((if Nat.eqb i m then u * (1 / 2) * (- (1 / 2)) ^ m else c i) + (match i with O => 0 | S i' => - c i' end)) * x ^ i) (fun i => c i * x ^ i + (match i with O => 0 | S i' => - c i' end) * x ^ i)).
      2: { intros i Hi. destruct (Nat.eqb_spec i m); [lia|]. ring. }
      rewrite rsum_plus. assert (Es : rsum (S m) (fun i => (match i with O => 0 | S i' => - c i' end) * x ^ i) = - x * rsum m (fun i => c i * x ^ i)).
      { rewrite rsum_S_l, <- rsum_scal_l. rewrite Rmult_0_l, Rplus_0_l. apply rsum_ext. intros i _. cbn [pow]. ring. }
      cbn [rsum] in Es. set (q := match m with O => 0 | S i' => - c i' end) in *.
      transitivity (rsum m (fun i => c i * x ^ i) + (rsum m (fun i => match i with O => 0 | S i' => - c i' end * x ^ i) + q * x ^ m)
         + u * (1 / 2) * (- (1 / 2)) ^ m * x ^ m - x * (u * (1 / 2) * (- (1 / 2)) ^ m * x ^ m)); [rewrite Es; ring|]. field. }
  assert (Ps : forall m, exists c, forall x, rsum m (fun i => jc al s n i * ((1 - x) / 2) ^ i) = rsum m (fun i => c i * x ^ i)).
  { induction m as [|m (c & IH)]; [exists (fun _ => 0); reflexivity|].
    destruct (Pt m (jc al s n m)) as (c' & Hc').
    exists (fun i => if Nat.eqb i m then jc al s n m * (- (1 / 2)) ^ m else c i + c' i). intros x. cbn [rsum]. rewrite Nat.eqb_refl, IH, Hc'.
    rewrite (rsum_ext m (fun i => (if Nat.eqb i m then _ else _) * x ^ i) (fun i => c i * x ^ i + c' i * x ^ i)).
    - rewrite rsum_plus. ring.
    - intros i Hi. destruct (Nat.eqb_spec i m); [lia|]. ring. }
  destruct (Ps n) as (c & Hc). destruct (Pt n (jc al s n n)) as (c' & Hc'). exists (fun i => c i + c' i). intros x.
  unfold jP. cbn [rsum]. rewrite Hc, Hc'. rewrite (rsum_ext n (fun i => (c i + c' i) * x ^ i) (fun i => c i * x ^ i + c' i * x ^ i)) by (intros; ring).
  rewrite rsum_plus. ring.
Qed.
Lemma jP_degree al s n : -1 < s -> degree_exactly n (jP al s n).
Proof.
  intros Hs. destruct (lead_gen al s n) as (c & Hc).
  exists (fun i => if Nat.eqb i n then jc al s n n * (- (1 / 2)) ^ n else c i). rewrite Nat.eqb_refl. split.
  - rewrite jc_top. assert (0 <= INR n) by apply pos_INR.
    repeat apply Rmult_integral_contrapositive_currified; try apply pow_nonzero; try lra.
    + apply Rinv_neq_0_compat, INR_fact_neq_0.
    + apply Rgt_not_eq. apply rising_pos. lra.
  - intros x. rewrite Hc. cbn [rsum]. rewrite Nat.eqb_refl. f_equal. apply rsum_ext. intros i Hi.
    destruct (Nat.eqb_spec i n); [lia|]. reflexivity.
Qed.

(** orthogonality and norm *)
Lemma lP_jN n x : lP n x = jN 0 0 n x.
Proof. reflexivity. Qed.
Lemma lP_orth n m : n <> m -> integral (fun x => lP n x * lP m x) 0.
Proof.
  intros H. unfold integral. eapply is_RInt_ext; [|apply (jacobi_orth 0 0 n m H)].
  intros x _. cbv beta. unfold wt. cbn [pow]. change (1 * 1 * (lP n x * lP m x) = lP n x * lP m x). ring.
Qed.

(** f is a polynomial (of some degree): enough regularity for every integral below *)
Definition isp (f : R -> R) : Prop := exists n, poly_lt n f.
Lemma isp_add f g : isp f -> isp g -> isp (fun x => f x + g x).
Proof.
  intros (n & Hn) (m & Hm). exists (n + m)%nat. apply poly_add; [eapply poly_mono; [|exact Hn]; lia|eapply poly_mono; [|exact Hm]; lia].
Qed.
Lemma isp_scal c f : isp f -> isp (fun x => c * f x).
Proof. intros (n & H). exists n. apply poly_scal. exact H. Qed.
Lemma isp_mulX f : isp f -> isp (fun x => x * f x).
Proof. intros (n & H). exists (S n). apply poly_mulX. exact H. Qed.
Lemma isp_ext f g : (forall x, f x = g x) -> isp f -> isp g.
Proof. intros E (n & H). exists n. apply (poly_ext n f); assumption. Qed.
Lemma isp_pow m : isp (fun x => x ^ m).
Proof.
  induction m as [|m IH].
  - exists 1%nat. apply (poly_const 1 1). lia.
  - apply (isp_ext (fun x => x * x ^ m)); [reflexivity|]. apply isp_mulX. exact IH.
Qed.
Lemma isp_sum n (F : nat -> R -> R) : (forall i, isp (F i)) -> isp (fun x => rsum n (fun i => F i x)).
Proof.
  intros H. induction n as [|n IH]; cbn [rsum]; [exists 0%nat; apply poly_zero|]. apply isp_add; [exact IH|apply H].
Qed.
Lemma isp_mul f g : isp f -> isp g -> isp (fun x => f x * g x).
Proof.
  intros (n & c & Hf) Hg.
  apply (isp_ext (fun x => rsum n (fun i => c i * (x ^ i * g x)))).
  - intros x. rewrite Hf, <- rsum_scal_r. apply rsum_ext. intros. ring.
  - apply (isp_sum n (fun i x => c i * (x ^ i * g x))). intros i. apply isp_scal. clear Hf.
    induction i as [|i IH]; [apply (isp_ext g); [intros; cbn; ring|exact Hg]|].
    apply (isp_ext (fun x => x * (x ^ i * g x))); [intros; cbn; ring|]. apply isp_mulX. exact IH.
Qed.
Lemma isp_deg n f : degree_exactly n f -> isp f.
Proof. intros (c & _ & H). exists (S n), c. exact H. Qed.
Lemma isp_jP al s n : -1 < s -> isp (jP al s n).
Proof. intros H. apply (isp_deg n). apply jP_degree. exact H. Qed.
