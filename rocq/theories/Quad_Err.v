(** Error of quadrature rules for smooth functions (library; models nothing in /repo). *)
From Coq Require Import Reals Lra Lia Arith.
From Coquelicot Require Import Coquelicot.
Require Import Verif.RSum Verif.RDer Verif.Spec_Poly Verif.Spec_Quad Verif.Spec_Accuracy Verif.Rolle Verif.Proof_Quad Verif.Proof_Quad6 Verif.Proof_Gcl5.
Open Scope R_scope.

(** ** Taylor's formula at 0 on [-1,1] *)
Lemma pval_at0 n a : (0 < n)%nat -> pval n a 0 = a 0%nat.
Proof. intros H. destruct n as [|n]; [lia|]. unfold pval. rewrite rsum_S_l. rewrite rsum_zero; [cbn; ring|]. intros i Hi. cbn [pow]. ring. Qed.

Lemma taylor n F t : derivatives_on (-1) 1 n F -> -1 <= t <= 1 ->
  exists z, -1 <= z <= 1 /\ F 0%nat t = rsum n (fun k => F k 0 / INR (fact k) * t ^ k) + F n z / INR (fact n) * t ^ n.
Proof.
  intros D Ht. assert (Ff : forall k, INR (fact k) <> 0) by (intros; apply INR_fact_neq_0).
  destruct (Req_dec t 0) as [-> |N0].
  { exists 0. split; [lra|]. destruct n as [|n].
    - cbn. field.
    - rewrite rsum_S_l. rewrite rsum_zero; [rewrite (pow_i (S n)) by lia; rewrite Rmult_0_r; cbn [fact pow INR]; field|]. intros i Hi. cbn [pow]. ring. }
  assert (Hp : t ^ n <> 0) by (apply pow_nonzero; exact N0).
  set (T := rsum n (fun k => F k 0 / INR (fact k) * t ^ k)). set (K := (F 0%nat t - T) / t ^ n).
  set (a := fun k => if Nat.eqb k n then K else F k 0 / INR (fact k)).
  set (G := fun k u => F k u - pval (S n - k) (dcoefs k a) u).
  assert (DG : forall k u, (k < n)%nat -> -1 <= u <= 1 -> derivable_pt_lim (G k) u (G (S k) u)) by (intros k u Hk Hu; apply der_sub; [apply D; assumption|apply pval_derivs; exact Hk]).
  assert (G0 : forall k, (k < n)%nat -> G k 0 = 0).
  { intros k Hk. unfold G. rewrite pval_at0 by lia. rewrite dcoefs_fact. unfold a. destruct (Nat.eqb_spec k n); [lia|]. field. apply Ff. }
  assert (Gt : G 0%nat t = 0).
  { unfold G. cbn [dcoefs]. rewrite Nat.sub_0_r. unfold pval. cbn [rsum]. unfold a at 2. rewrite Nat.eqb_refl.
    rewrite (rsum_ext n _ (fun k => F k 0 / INR (fact k) * t ^ k)); [fold T; unfold K; field; exact Hp|]. intros i Hi. unfold a. destruct (Nat.eqb_spec i n); [lia|reflexivity]. }
  assert (St : forall k, (k <= n)%nat -> exists u, -1 <= u <= 1 /\ u <> 0 /\ G k u = 0).
  { induction k as [|k IH]; intros Hk; [exists t; auto|]. destruct IH as (u & Hu & Nu & Eu); [lia|].
    destruct (Rlt_le_dec 0 u) as [L|L].
    - destruct (MVT_cor2 (G k) (G (S k)) 0 u L) as (c & E & Hc); [intros c Hc; apply DG; [lia|lra]|]. exists c. split; [lra|]. split; [lra|]. rewrite Eu, G0 in E by lia. apply Rmult_eq_reg_r with (u - 0); lra.
    - destruct (MVT_cor2 (G k) (G (S k)) u 0 ltac:(lra)) as (c & E & Hc); [intros c Hc; apply DG; [lia|lra]|]. exists c. split; [lra|]. split; [lra|]. rewrite Eu, G0 in E by lia. apply Rmult_eq_reg_r with (0 - u); lra. }
  destruct (St n (le_n _)) as (z & Hz & _ & Ez). exists z. split; [exact Hz|]. unfold G in Ez. rewrite pval_top in Ez. unfold a in Ez. rewrite Nat.eqb_refl in Ez.
  replace (F n z) with (INR (fact n) * K) by lra. fold T. unfold K. field. split; [exact Hp|apply Ff].
Qed.

Lemma taylor_bound deg F M t : derivatives_on (-1) 1 (S deg) F -> (forall u, -1 <= u <= 1 -> Rabs (F (S deg) u) <= M) -> -1 <= t <= 1 ->
  Rabs (F 0%nat t - poly deg (fun k => F k 0 / INR (fact k)) t) <= M / INR (fact (S deg)).
Proof.
  intros D B Ht. destruct (taylor (S deg) F t D Ht) as (z & Hz & E). rewrite E. unfold poly.
  replace (_ + _ - _) with (F (S deg) z / INR (fact (S deg)) * t ^ S deg) by ring.
  assert (Fp := INR_fact_lt_0 (S deg)). rewrite Rabs_mult. unfold Rdiv. rewrite Rabs_mult, (Rabs_pos_eq (/ _)) by (apply Rlt_le, Rinv_0_lt_compat, Fp).
  rewrite <- (Rmult_1_r (M * / _)). apply Rmult_le_compat; [apply Rmult_le_pos; [apply Rabs_pos|apply Rlt_le, Rinv_0_lt_compat, Fp]|apply Rabs_pos| |].
  - apply Rmult_le_compat_r; [apply Rlt_le, Rinv_0_lt_compat, Fp|apply B; exact Hz].
  - rewrite <- RPow_abs. assert (Hb : 0 <= Rabs t <= 1) by (split; [apply Rabs_pos|apply Rabs_le; lra]). rewrite <- (pow1 (S deg)). apply pow_incr. exact Hb.
Qed.

(** ** integrals on [-1,1] *)
Lemma int_const c : integral (fun _ => c) (2 * c).
Proof. unfold integral. generalize (is_RInt_const (V := R_NormedModule) (-1) 1 c). unfold scal; cbn. unfold mult; cbn. replace ((1 - -1) * c) with (2 * c) by ring. auto. Qed.
Lemma int_rsum n (f : nat -> R -> R) v : (forall i, (i < n)%nat -> integral (f i) (v i)) -> integral (fun t => rsum n (fun i => f i t)) (rsum n v).
Proof.
  induction n as [|n IH]; intros H; cbn [rsum]; [generalize (int_const 0); rewrite Rmult_0_r; auto|]. apply int_plus; [apply IH; intros; apply H; lia|apply H; lia].
Qed.
Lemma int_close f g u v E : integral f u -> integral g v -> (forall t, -1 <= t <= 1 -> Rabs (f t - g t) <= E) -> Rabs (u - v) <= 2 * E.
Proof.
  intros Hf Hg B. assert (H : is_RInt (fun t => f t - g t) (-1) 1 (u - v)) by (exact (is_RInt_minus f g (-1) 1 u v Hf Hg)).
  replace (2 * E) with ((1 - -1) * E) by ring. apply (norm_RInt_le_const (V := R_NormedModule) (fun t => f t - g t) (-1) 1 (u - v) E); [lra| |exact H].
  intros t Ht. exact (B t Ht).
Qed.
Lemma int_smooth F n : derivatives_on (-1) 1 (S n) F -> exists v, integral (F 0%nat) v.
Proof.
  intros D. assert (X : ex_RInt (F 0%nat) (-1) 1).
  { apply (ex_RInt_continuous (V := R_CompleteNormedModule)). intros z Hz. rewrite Rmin_left, Rmax_right in Hz by lra.
    apply continuity_pt_filterlim, derivable_continuous_pt. exists (F 1%nat z). apply D; [lia|exact Hz]. }
  destruct X as (v & Hv). exists v. exact Hv.
Qed.

(** ** rules on [-1,1] *)
Section Rule.
Variables (n deg : nat) (tol : R) (x w : nat -> R).
Hypothesis Q : quad_rule n deg tol x w.
Lemma weight_sum : rsum n w <= 2 + tol.
Proof.
  assert (I1 : integral (poly deg (fun k => if Nat.eqb k 0 then 1 else 0)) 2).
  { apply (integral_ext (fun _ => 1)); [|replace 2 with (2 * 1) by ring; apply int_const]. intros t. unfold poly. rewrite rsum_S_l. cbn [Nat.eqb pow]. rewrite rsum_zero; [ring|]. intros i Hi. cbn. ring. }
  assert (B := q_exact _ _ _ _ _ Q _ _ I1).
  rewrite (rsum_ext n _ w) in B.
  - rewrite (rsum_S_l deg) in B. cbn [Nat.eqb] in B. rewrite (rsum_zero deg) in B by (intros; cbn; apply Rabs_R0). rewrite Rabs_R1, Rplus_0_r, Rmult_1_r in B.
    assert (L := Rle_abs (rsum n w - 2)). lra.
  - intros i Hi. unfold poly. rewrite rsum_S_l. cbn [Nat.eqb pow]. rewrite rsum_zero; [ring|]. intros k Hk. cbn. ring.
Qed.
Lemma sum_close (f g : nat -> R) E : (forall i, (i < n)%nat -> Rabs (f i - g i) <= E) -> 0 <= E -> Rabs (rsum n (fun i => w i * f i) - rsum n (fun i => w i * g i)) <= (2 + tol) * E.
Proof.
  intros H HE. rewrite <- rsum_minus. apply Rle_trans with (rsum n (fun i => w i * E)).
  - assert (Ab : forall m h, Rabs (rsum m h) <= rsum m (fun i => Rabs (h i))).
    { intros m h. induction m as [|m IH]; cbn [rsum]; [rewrite Rabs_R0; lra|]. eapply Rle_trans; [apply Rabs_triang|]. lra. }
    eapply Rle_trans; [apply Ab|]. apply rsum_le. intros i Hi. replace (w i * f i - w i * g i) with (w i * (f i - g i)) by ring.
    rewrite Rabs_mult, (Rabs_pos_eq (w i)) by (apply Rlt_le, (q_positive _ _ _ _ _ Q); exact Hi). apply Rmult_le_compat_l; [apply Rlt_le, (q_positive _ _ _ _ _ Q); exact Hi|apply H; exact Hi].
  - rewrite rsum_scal_r. apply Rmult_le_compat_r; [exact HE|apply weight_sum].
Qed.
Lemma rule_error F M A I : derivatives_on (-1) 1 (S deg) F -> (forall u, -1 <= u <= 1 -> Rabs (F (S deg) u) <= M) -> 0 <= tol ->
  rsum (S deg) (fun k => Rabs (F k 0) / INR (fact k)) <= A -> integral (F 0%nat) I ->
  Rabs (rsum n (fun i => w i * F 0%nat (x i)) - I) <= rule_error_bound deg tol M A.
Proof.
  intros D B Ht HA HI. set (c := fun k => F k 0 / INR (fact k)). set (E := M / INR (fact (S deg))).
  assert (TB : forall t, -1 <= t <= 1 -> Rabs (F 0%nat t - poly deg c t) <= E) by (intros t H; apply taylor_bound; assumption).
  assert (HE : 0 <= E) by (eapply Rle_trans; [apply Rabs_pos|apply (TB 0); lra]).
  assert (HP := poly_int deg c). set (J := rsum (S deg) (fun k => c k * mom k)) in HP.
  assert (B1 := q_exact _ _ _ _ _ Q c J HP).
  assert (B2 := int_close _ _ _ _ E HI HP TB).
  assert (B3 := sum_close (fun i => F 0%nat (x i)) (fun i => poly deg c (x i)) E (fun i Hi => TB (x i) (q_inside _ _ _ _ _ Q i Hi)) HE).
  assert (B4 : rsum (S deg) (fun k => Rabs (c k)) <= A).
  { rewrite (rsum_ext (S deg) _ (fun k => Rabs (F k 0) / INR (fact k))); [exact HA|]. intros k Hk. unfold c, Rdiv. rewrite Rabs_mult. f_equal. apply Rabs_pos_eq, Rlt_le, Rinv_0_lt_compat, INR_fact_lt_0. }
  apply (Rmult_le_compat_l tol) in B4; [|exact Ht]. unfold rule_error_bound. fold E.
  set (S0 := rsum n (fun i => w i * F 0%nat (x i))) in *. set (S1 := rsum n (fun i => w i * poly deg c (x i))) in *.
  replace (S0 - I) with ((S0 - S1) + (S1 - J) + - (I - J)) by ring. eapply Rle_trans; [apply Rabs_triang|]. eapply Rle_trans; [apply Rplus_le_compat_r, Rabs_triang|]. rewrite Rabs_Ropp. lra.
Qed.
End Rule.

(** ** tensor rules on the cube *)
Section Cube.
Variables (n deg : nat) (tol : R) (x w : nat -> R).
Hypothesis Q : quad_rule n deg tol x w.
Hypothesis Ht : 0 <= tol.
Variables (M A : R).
Let E := rule_error_bound deg tol M A.
Lemma line_error f I : smooth_line (S deg) M A f -> integral f I -> Rabs (rsum n (fun i => w i * f (x i)) - I) <= E.
Proof.
  intros (F & F0 & D & B & HA) HI. rewrite (rsum_ext n _ (fun i => w i * F 0%nat (x i))) by (intros; rewrite F0; reflexivity).
  apply (rule_error n deg tol x w Q F M A I D B Ht HA). apply (integral_ext f); [intros; symmetry; apply F0|exact HI].
Qed.
Lemma line_int f : smooth_line (S deg) M A f -> exists I, integral f I.
Proof. intros (F & F0 & D & _). destruct (int_smooth F deg D) as (v & Hv). exists v. exact (integral_ext _ _ _ F0 Hv). Qed.
Lemma E_nonneg f : smooth_line (S deg) M A f -> 0 <= E.
Proof. intros H. destruct (line_int f H) as (I & HI). eapply Rle_trans; [apply Rabs_pos|apply (line_error f I H HI)]. Qed.
Lemma finite_ints (f : nat -> R -> R) : (forall i, (i < n)%nat -> exists I, integral (f i) I) -> exists v, forall i, (i < n)%nat -> integral (f i) (v i).
Proof. intros H. apply (finite_choice n (fun i v => integral (f i) v)). exact H. Qed.
Lemma inside i : (i < n)%nat -> -1 <= x i <= 1.
Proof. apply (q_inside _ _ _ _ _ Q). Qed.

Lemma square_error f v : (forall y, -1 <= y <= 1 -> smooth_line (S deg) M A (fun t => f t y)) -> (forall u, -1 <= u <= 1 -> smooth_line (S deg) M A (fun t => f u t)) -> integral2 f v ->
  Rabs (rsum n (fun i => w i * rsum n (fun j => w j * f (x i) (x j))) - v) <= (4 + tol) * E.
Proof.
  intros Sx Sy (g & Hg & Hv). assert (HE : 0 <= E) by (apply (E_nonneg (fun t => f t 0)), Sx; lra).
  destruct (finite_ints (fun i t => f (x i) t)) as (I & HI); [intros i Hi; apply line_int, Sy, inside, Hi|].
  assert (HS := int_rsum n (fun i t => w i * f (x i) t) (fun i => w i * I i) (fun i Hi => int_scal (w i) _ _ (HI i Hi))).
  assert (B1 := int_close _ _ _ _ E HS Hv (fun t H => line_error (fun u => f u t) (g t) (Sx t H) (Hg t))).
  assert (B2 := sum_close n deg tol x w Q (fun i => rsum n (fun j => w j * f (x i) (x j))) I E (fun i Hi => line_error (fun t => f (x i) t) (I i) (Sy (x i) (inside i Hi)) (HI i Hi)) HE).
  set (S0 := rsum n (fun i => w i * rsum n (fun j => w j * f (x i) (x j)))) in *. set (S1 := rsum n (fun i => w i * I i)) in *.
  replace (S0 - v) with ((S0 - S1) + (S1 - v)) by ring. eapply Rle_trans; [apply Rabs_triang|]. lra.
Qed.

Lemma cube_error f v : smooth_cube (S deg) M A f -> integral3 f v ->
  Rabs (rsum n (fun i => w i * rsum n (fun j => w j * rsum n (fun k => w k * f (x i) (x j) (x k)))) - v) <= (12 + 6 * tol + tol * tol) * E.
Proof.
  intros (Sx & Sy & Sz) (g & Hg & Hv). assert (HE : 0 <= E) by (apply (E_nonneg (fun t => f t 0 0)), Sx; lra).
  assert (B1 : forall z, -1 <= z <= 1 -> Rabs (rsum n (fun i => w i * rsum n (fun j => w j * f (x i) (x j) z)) - g z) <= (4 + tol) * E).
  { intros z Hz. apply (square_error (fun u t => f u t z)); [intros y Hy; apply Sx; assumption|intros u Hu; apply Sy; assumption|apply Hg]. }
  assert (CI : forall i j, (i < n)%nat -> (j < n)%nat -> exists I, integral (fun z => f (x i) (x j) z) I) by (intros i j Hi Hj; apply line_int, Sz; apply inside; assumption).
  assert (C1 : forall i, (i < n)%nat -> exists J, integral (fun z => rsum n (fun j => w j * f (x i) (x j) z)) J /\ Rabs (rsum n (fun j => w j * rsum n (fun k => w k * f (x i) (x j) (x k))) - J) <= (2 + tol) * E).
  { intros i Hi. destruct (finite_ints (fun j z => f (x i) (x j) z)) as (I & HI); [intros j Hj; apply CI; assumption|].
    exists (rsum n (fun j => w j * I j)). split; [apply int_rsum; intros j Hj; apply int_scal, HI, Hj|].
    apply (sum_close n deg tol x w Q); [|exact HE]. intros j Hj. apply (line_error (fun z => f (x i) (x j) z)); [apply Sz; apply inside; assumption|apply HI; exact Hj]. }
  destruct (finite_choice n (fun i J => integral (fun z => rsum n (fun j => w j * f (x i) (x j) z)) J /\ Rabs (rsum n (fun j => w j * rsum n (fun k => w k * f (x i) (x j) (x k))) - J) <= (2 + tol) * E) C1) as (J & HJ).
  assert (HS := int_rsum n (fun i z => w i * rsum n (fun j => w j * f (x i) (x j) z)) (fun i => w i * J i) (fun i Hi => int_scal (w i) _ _ (proj1 (HJ i Hi)))).
  assert (B2 := int_close _ _ _ _ _ HS Hv B1).
  assert (B3 := sum_close n deg tol x w Q (fun i => rsum n (fun j => w j * rsum n (fun k => w k * f (x i) (x j) (x k)))) J ((2 + tol) * E) (fun i Hi => proj2 (HJ i Hi)) ltac:(apply Rmult_le_pos; lra)).
  set (S0 := rsum n (fun i => w i * rsum n (fun j => w j * rsum n (fun k => w k * f (x i) (x j) (x k))))) in *. set (S1 := rsum n (fun i => w i * J i)) in *.
  replace (S0 - v) with ((S0 - S1) + (S1 - v)) by ring. eapply Rle_trans; [apply Rabs_triang|]. nra.
Qed.
End Cube.
