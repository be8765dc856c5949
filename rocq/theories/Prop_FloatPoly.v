(** Property theorem C76: rounding errors of the Legendre and Jacobi routines (elements/legendre_polynomials.cpp,
    elements/jacobi_polynomials.cpp, elements/legendre_element.cpp).  [rounds], [binary64], [u64], [gamma] are in
    Spec_Float, [exact_ints], [gamma_accurate] in Spec_FloatPoly, [nth_der], [tensor_sum] in Spec_Poly, [is_grad] in
    Spec_Lagrange. *)
From Coq Require Import List Reals NArith ZArith Arith Lia Lra.
Import ListNotations.
Require Import Verif.Base Verif.RBase Verif.RSum Verif.RDer Verif.Spec_Lagrange Verif.Jacobi_Math Verif.Model_Lagrange Verif.Model_FloatLagrange Verif.Model_Poly Verif.Spec_Poly
  Verif.Proof_Poly Verif.Proof_LegElem Verif.Model_FloatPoly Verif.Spec_Float Verif.Spec_FloatPoly Verif.Float_Base Verif.Proof_FloatLagrange2 Verif.Proof_FloatPoly Verif.Proof_FloatPoly2.
Open Scope R_scope.

(** with exact arithmetic these are the functions of Model_Poly.v *)
Theorem C76_exact_case : let id := fun x : R => x in
  jac_af id = jac_a /\ jac_bf id = jac_b /\ jac_cf id = jac_c /\ jacobi_evalf id = jacobi_eval /\ jacobi_eval_derf id = jacobi_eval_der /\
  legendre_evalf id = legendre_eval /\ legendre_eval_derf id = legendre_eval_der /\
  legendre_eval_approxf id = legendre_eval_approx /\ legendre_eval_der_approxf id = legendre_eval_der_approx /\ lg_eval_basisf id = lg_eval_basis /\
  lg_eval_grad_basisf id = lg_eval_grad_basis /\ lg_eval_approxf id = lg_eval_approx /\ lg_eval_grad_approxf id = lg_eval_grad_approx.
Proof. repeat split; reflexivity. Qed.
Print Assumptions C76_exact_case.

(** rounding with unit roundoff u that leaves integers below 2^53 alone *)
Definition good_rounding (u : R) (rnd : R -> R) : Prop := 0 <= u < 1 /\ rounds u rnd /\ exact_ints rnd.
Theorem C76_doubles : good_rounding u64 binary64.
Proof. split; [assert (H := u64_range); lra|]. split; [exact binary64_rounds|exact b64_ints]. Qed.
Print Assumptions C76_doubles.

Definition is_leg (P : nat -> R -> R) : Prop := forall n x, legendre_eval n x = Ok (P n x).
Lemma is_leg_eq P n x : is_leg P -> P n x = lP n x.
Proof. intros H. assert (E := H n x). rewrite legendre_eval_ok in E. congruence. Qed.

(** exact arithmetic: on [-1,1] the Legendre polynomials are at most 1, and every derivative is at most its value at 1;
    the same for Jacobi polynomials with equal natural parameters *)
Theorem C76_bounded : forall a P n k X, (forall x, jacobi_eval n (INR a) (INR a) x = Ok (P x)) -> -1 <= X <= 1 ->
  exists d d1, nth_der k P X d /\ nth_der k P 1 d1 /\ Rabs d <= d1.
Proof.
  intros a P n k X HP HX. assert (E : forall x, jP (INR a) (INR a + INR a) n x = P x).
  { intros x. assert (Q := HP x). rewrite jacobi_eval_ok in Q by (assert (H := pos_INR a); lra). congruence. }
  destruct (le_lt_dec k n) as [L|L].
  - exists (dJ a k n X), (dJ a k n 1). split; [apply (nth_der_ext k _ _ _ _ E), dJ_nth, L|]. split; [apply (nth_der_ext k _ _ _ _ E), dJ_nth, L|]. rewrite dJ_at1. apply dJ_bound. exact HX.
  - exists 0, 0. split; [apply (nth_der_ext k _ _ _ _ E), nth_der_high, L|]. split; [apply (nth_der_ext k _ _ _ _ E), nth_der_high, L|]. rewrite Rabs_R0. lra.
Qed.
Print Assumptions C76_bounded.
Theorem C76_legendre_bounded : forall P n X, is_leg P -> -1 <= X <= 1 -> Rabs (P n X) <= 1.
Proof. intros P n X HP HX. rewrite (is_leg_eq P) by exact HP. apply lP_bound. exact HX. Qed.
Print Assumptions C76_legendre_bounded.

(** values *)
Lemma sqrt_sq_le a e r : 0 <= a -> 0 <= r -> a * (e * e) <= r * r -> sqrt a * Rabs e <= r.
Proof.
  intros Ha Hr H. rewrite <- (Rabs_right (sqrt a)) by (apply Rle_ge, sqrt_pos). rewrite <- Rabs_mult. apply Three_Term.sq_le; [exact Hr|].
  replace (sqrt a * e * (sqrt a * e)) with (sqrt a * sqrt a * (e * e)) by ring. rewrite sqrt_sqrt by exact Ha. exact H.
Qed.
Theorem C76_legendre_eval : forall u rnd P n X, good_rounding u rnd -> is_leg P -> -1 <= X <= 1 ->
  (2 * Z.of_nat n < 2 ^ 53)%Z -> 5 * u < 1 -> 3 * gamma u 5 * (INR n * (INR n + 1)) <= 1 ->
  exists v, legendre_evalf rnd n X = Ok v /\
    Rabs (v - P n X) <= 3 * gamma u 5 * (INR n * (INR n + 1)) /\
    sqrt (1 - X * X) * Rabs (v - P n X) <= 6 * gamma u 5 * INR n.
Proof.
  intros u rnd P n X (Hu & Hr & Hi) HP HX Sm H5 HN. rewrite (is_leg_eq P) by exact HP. assert (H5' : INR 5 * u < 1) by (cbn [INR]; lra).
  destruct (legendre_evalf_err u rnd Hu Hr Hi n X HX ltac:(unfold small; lia) H5' HN n ltac:(lia)) as (E & B1 & B2). eexists. split; [exact E|]. split; [exact B1|].
  assert (G := gamma_nonneg u Hu 5 H5'). assert (Q := pos_INR n). apply sqrt_sq_le; [nra|apply Rmult_le_pos; lra|exact B2].
Qed.
Print Assumptions C76_legendre_eval.
Theorem C76_jacobi_eval : forall u rnd a P n X, good_rounding u rnd -> (forall x, jacobi_eval n (INR a) (INR a) x = Ok (P x)) -> -1 <= X <= 1 ->
  (2 * Z.of_nat (n + a) < 2 ^ 53)%Z -> 7 * u < 1 -> 3 * gamma u 7 * (INR n * (INR n + 1)) <= 1 ->
  exists v, jacobi_evalf rnd n (INR a) (INR a) X = Ok v /\ Rabs (v - P X) <= P 1 * (3 * gamma u 7 * (INR n * (INR n + 1))).
Proof.
  intros u rnd a P n X (Hu & Hr & Hi) HP HX Sm H7 HN. assert (E : forall x, jP (INR a) (INR a + INR a) n x = P x).
  { intros x. assert (Q := HP x). rewrite jacobi_eval_ok in Q by (assert (H := pos_INR a); lra). congruence. }
  destruct (jacobi_evalf_err u rnd Hu Hr Hi a n X HX ltac:(unfold small; lia) ltac:(cbn [INR]; lra) HN n ltac:(lia)) as (e & Ev & B & _). eexists. split; [exact Ev|].
  rewrite <- !E. rewrite jP_at1. fold (s1 a n). assert (S := s1_pos a n).
  replace (jP (INR a) (INR a + INR a) n X) with (s1 a n * qJ a X (Datatypes.S n)) by (symmetry; apply (pJ_qJ a X (Datatypes.S n))).
  replace (s1 a n * (qJ a X (Datatypes.S n) + e) - s1 a n * qJ a X (Datatypes.S n)) with (s1 a n * e) by ring. rewrite Rabs_mult, (Rabs_right (s1 a n)) by lra.
  apply Rmult_le_compat_l; lra.
Qed.
Print Assumptions C76_jacobi_eval.

(** derivatives of every order; the error is relative to the derivative at 1, which bounds the derivative on [-1,1] *)
Theorem C76_derivatives : forall u rnd G g a P n k X, good_rounding u rnd -> gamma_accurate u g G ->
  (forall x, jacobi_eval n (INR a) (INR a) x = Ok (P x)) -> -1 <= X <= 1 -> (1 <= n)%nat ->
  (2 * Z.of_nat (n + a) + 1 < 2 ^ 53)%Z -> 7 * u < 1 -> INR (2 * g + 3) * u < 1 -> 3 * gamma u 7 * (INR (n - k) * (INR (n - k) + 1)) <= 1 ->
  exists v d d1, jacobi_eval_derf rnd G n k (INR a) (INR a) X = Ok v /\ nth_der k P X d /\ nth_der k P 1 d1 /\ Rabs d <= d1 /\
    Rabs (v - d) <= d1 * ((1 + 3 * gamma u 7 * (INR (n - k) * (INR (n - k) + 1))) * (1 + gamma u (2 * g + 3)) - 1).
Proof.
  intros u rnd G g a P n k X (Hu & Hr & Hi) HG HP HX Hn Sm H7 Hg HN. assert (E : forall x, jP (INR a) (INR a + INR a) n x = P x).
  { intros x. assert (Q := HP x). rewrite jacobi_eval_ok in Q by (assert (H := pos_INR a); lra). congruence. }
  destruct (le_lt_dec k n) as [L|L].
  - destruct (jacobi_eval_derf_ok u rnd Hu Hr Hi G g a n k X HG HX Hn L ltac:(unfold small; lia) ltac:(cbn [INR]; lra) Hg HN) as (v & Ev & (_ & _ & _ & B)).
    exists v, (dJ a k n X), (dJ a k n 1). split; [exact Ev|]. split; [apply (nth_der_ext k _ _ _ _ E), dJ_nth, L|]. split; [apply (nth_der_ext k _ _ _ _ E), dJ_nth, L|]. rewrite dJ_at1.
    split; [apply dJ_bound; exact HX|exact B].
  - exists 0, 0, 0. unfold jacobi_eval_derf. replace (Nat.ltb n k) with true by (symmetry; apply Nat.ltb_lt; exact L). rewrite Bool.orb_true_r. split; [reflexivity|].
    split; [apply (nth_der_ext k _ _ _ _ E), nth_der_high, L|]. split; [apply (nth_der_ext k _ _ _ _ E), nth_der_high, L|]. rewrite Rminus_0_r, Rabs_R0. lra.
Qed.
Print Assumptions C76_derivatives.

(** the common conditions for N terms *)
Definition few_terms (u : R) (N : nat) : Prop := (2 * Z.of_nat N + 1 < 2 ^ 53)%Z /\ 7 * u < 1 /\ 3 * gamma u 7 * (INR N * INR N) <= 1 /\ INR (N + 1) * u < 1.
(** error factors of one direction: values, first derivatives *)
Definition KV (u : R) (N : nat) : R := (1 + 3 * gamma u 5 * (INR N * INR N)) * (1 + gamma u (N + 1)).
Definition KG (u : R) (g N : nat) : R := (1 + 3 * gamma u 7 * (INR N * INR N)) * (1 + gamma u (2 * g + 3)) * (1 + gamma u (N + 1)).

Theorem C76_series : forall u rnd P N c X, good_rounding u rnd -> is_leg P -> -1 <= X <= 1 -> few_terms u N ->
  (exists v, legendre_eval_approxf rnd N (fun j => Ok (c j)) X = Ok v /\
     Rabs (v - rsum N (fun j => c j * P j X)) <= (KV u N - 1) * rsum N (fun j => Rabs (c j))) /\
  (forall G g, gamma_accurate u g G -> INR (2 * g + 3) * u < 1 ->
   exists v d, legendre_eval_der_approxf rnd G N 1 (fun j => Ok (c j)) X = Ok v /\ derivable_pt_lim (fun x => rsum N (fun j => c j * P j x)) X d /\
     Rabs (v - d) <= INR N * INR N / 2 * (KG u g N - 1) * rsum N (fun j => Rabs (c j))).
Proof.
  intros u rnd P N c X (Hu & Hr & Hi) HP HX (Sm & H7 & HN & HN1). assert (H7' : INR 7 * u < 1) by (cbn [INR]; lra). assert (Sm' : small (2 * N + 1)) by (unfold small; lia).
  assert (GN := gamma_nonneg u Hu _ HN1). assert (QN := pos_INR N). split.
  - destruct (approxf_near u rnd Hu Hr Hi N Sm' H7' HN HN1 (fun j => Ok (c j)) c X HX ltac:(reflexivity)) as (w & E & W). eexists. split; [exact E|].
    rewrite (rsum_ext N (fun j => c j * P j X) (fun j => c j * lP j X)) by (intros; rewrite (is_leg_eq P) by exact HP; reflexivity).
    assert (K1 := KL_ge u Hu N H7'). assert (K2 : 1 <= KL u N * (1 + gamma u (N + 1))) by nra.
    assert (B := near_sum N c (fun j => lP j X) w 1 _ ltac:(lra) K2 W). unfold KV. fold (KL u N). lra.
  - intros G g HG Hg. destruct (der_approxf_near u rnd Hu Hr Hi N Sm' H7' HN HN1 G g (fun j => Ok (c j)) c X HG Hg HX ltac:(reflexivity)) as (w & E & W).
    eexists. exists (rsum N (fun j => c j * lDk 1 j X)). split; [exact E|]. split.
    + apply (der_ext (fun x => rsum N (fun j => c j * lP j x))); [intros; apply rsum_ext; intros; rewrite (is_leg_eq P) by exact HP; reflexivity|]. apply der_rsum. intros j _. apply der_scal. apply lD1_der.
    + assert (K1 := KD_ge u Hu N H7' HN g Hg). assert (K2 : 1 <= KD u N g * (1 + gamma u (N + 1))) by nra.
      apply (near_sum N c (fun j => lDk 1 j X) w (INR N * INR N / 2)); [assert (0 <= INR N * INR N) by (apply Rmult_le_pos; lra); lra|exact K2|exact W].
Qed.
Print Assumptions C76_series.

(** elements of every order, at every point of the reference cube, whatever the work array held *)
Theorem C76_element : forall u rnd P order c c' x y z C, good_rounding u rnd -> is_leg P ->
  -1 <= x <= 1 -> -1 <= y <= 1 -> -1 <= z <= 1 -> let n := (order + 1)%nat in few_terms u n ->
  (forall i, (i < n * n * n)%nat -> c' i = Ok (c i)) ->
  let f := fun x y z => tensor_sum n c (fun i => P i x) (fun j => P j y) (fun k => P k z) in
  let size := rsum (n * n * n) (fun i => Rabs (c i)) in
  (exists v C', lg_eval_approxf rnd order c' x y z C = Ok (v, C') /\ Rabs (v - f x y z) <= (KV u n ^ 3 - 1) * size) /\
  (forall G g, gamma_accurate u g G -> INR (2 * g + 3) * u < 1 ->
   exists gx gy gz dx dy dz C', lg_eval_grad_approxf rnd G order c' x y z C = Ok ((gx, gy, gz), C') /\ is_grad f x y z (dx, dy, dz) /\
     let bound := INR n * INR n / 2 * (KV u n ^ 2 * KG u g n - 1) * size in
     Rabs (gx - dx) <= bound /\ Rabs (gy - dy) <= bound /\ Rabs (gz - dz) <= bound).
Proof.
  intros u rnd P order c c' x y z C (Hu & Hr & Hi) HP Hx Hy Hz n (Sm & H7 & HN & HN1) Hc f size. assert (H7' : INR 7 * u < 1) by (cbn [INR]; lra). assert (Sm' : small (2 * n + 1)) by (unfold small; lia).
  assert (ET : forall x y z, lfield n c x y z = f x y z).
  { intros. unfold lfield, f, tensor_sum. do 3 (apply rsum_ext; intros ? _). rewrite !(is_leg_eq P) by exact HP. reflexivity. }
  assert (L3 : forall l G g C, ((l < 3)%nat -> gamma_accurate u g G /\ INR (2 * g + 3) * u < 1) -> _) by (intros l G g C0 H; exact (grad_compf_ok u rnd G g order l c' c x y z C0 Hu Hr Hi Sm' H7' HN HN1 H Hx Hy Hz Hc)). cbv zeta in L3. change (lg_size order) with n in L3. split.
  - destruct (L3 3%nat (fun _ => 0) 0%nat C ltac:(lia)) as (v & C' & E & B). exists v, C'. split; [exact E|]. cbn [Nat.eqb Mop Kop lop] in B. unfold Kop in B.
    rewrite <- ET. unfold lfield. unfold KV. fold (KL u n). fold size in B. eapply Rle_trans; [exact B|]. apply Req_le. unfold Mop. ring.
  - intros G g HG Hg. unfold lg_eval_grad_approxf.
    destruct (L3 0%nat G g C ltac:(auto)) as (v0 & C0 & -> & B0). cbn [bind]. destruct (L3 1%nat G g C0 ltac:(auto)) as (v1 & C1 & -> & B1). cbn [bind].
    destruct (L3 2%nat G g C1 ltac:(auto)) as (v2 & C2 & -> & B2). cbn [bind]. cbn [Nat.eqb Mop lop] in B0, B1, B2. unfold Kop, Mop in B0, B1, B2.
    assert (LG := lfield_grad n c x y z). eexists v0, v1, v2, _, _, _, C2. split; [reflexivity|]. split.
    + unfold is_grad in LG |- *. destruct LG as (L1 & L2 & L3'). split; [|split].
      * apply (der_ext (fun t => lfield n c t y z)); [intros; apply ET|exact L1].
      * apply (der_ext (fun t => lfield n c x t z)); [intros; apply ET|exact L2].
      * apply (der_ext (fun t => lfield n c x y t)); [intros; apply ET|exact L3'].
    + cbv zeta. fold size in B0, B1, B2. unfold KV, KG. fold (KL u n). fold (KD u n g).
      split; [eapply Rle_trans; [exact B0|]; apply Req_le; field|]. split; [eapply Rle_trans; [exact B1|]; apply Req_le; field|eapply Rle_trans; [exact B2|]; apply Req_le; field].
Qed.
Print Assumptions C76_element.

(** one basis function and its gradient *)
Theorem C76_basis : forall u rnd P order i j k x y z, good_rounding u rnd -> is_leg P ->
  -1 <= x <= 1 -> -1 <= y <= 1 -> -1 <= z <= 1 -> let n := (order + 1)%nat in few_terms u n -> (N.of_nat (n * n * n) <= 2 ^ 64)%N ->
  (i < n)%nat -> (j < n)%nat -> (k < n)%nat -> let I := N.of_nat (i + j * n + k * n * n) in let f := fun x y z => P i x * P j y * P k z in
  let kv := 1 + 3 * gamma u 5 * (INR n * INR n) in
  (exists v, lg_eval_basisf rnd order I x y z = Ok v /\ Rabs (v - f x y z) <= kv ^ 3 * (1 + gamma u 2) - 1) /\
  (forall G g, gamma_accurate u g G -> INR (2 * g + 3) * u < 1 ->
   exists gx gy gz dx dy dz, lg_eval_grad_basisf rnd G order I x y z = Ok (gx, gy, gz) /\ is_grad f x y z (dx, dy, dz) /\
     let bound := INR n * INR n / 2 * (kv ^ 2 * ((1 + 3 * gamma u 7 * (INR n * INR n)) * (1 + gamma u (2 * g + 3))) * (1 + gamma u 2) - 1) in
     Rabs (gx - dx) <= bound /\ Rabs (gy - dy) <= bound /\ Rabs (gz - dz) <= bound).
Proof.
  intros u rnd P order i j k x y z (Hu & Hr & Hi) HP Hx Hy Hz n (Sm & H7 & HN & HN1) Hs Li Lj Lk I f kv. assert (H7' : INR 7 * u < 1) by (cbn [INR]; lra). assert (Sm' : small (2 * n + 1)) by (unfold small; lia).
  assert (H2 : INR 2 * u < 1) by (cbn [INR]; lra).
  assert (R3 : forall M1 K1 f1 x1 M2 K2 f2 x2 M3 K3 f3 x3, near M1 K1 f1 x1 -> near M2 K2 f2 x2 -> near M3 K3 f3 x3 ->
     near (M1 * M2 * M3) (K1 * K2 * K3 * (1 + gamma u 2)) (f1 * f2 * f3) (rnd (rnd (x1 * x2) * x3))).
  { intros. destruct (rnd_w u Hu rnd Hr (x1 * x2)) as (t1 & W1 & ->). destruct (rnd_w u Hu rnd Hr (x1 * x2 * t1 * x3)) as (t2 & W2 & ->).
    replace (x1 * x2 * t1 * x3 * t2) with (x1 * x2 * x3 * (t1 * t2)) by ring. apply (near_rounded u Hu); [exact H2| |apply (within_mul u Hu 1 1); assumption]. repeat apply near_mul; assumption. }
  destruct (leg_near u rnd Hu Hr Hi n Sm' H7' HN x i Hx Li) as (Ei & Ni). destruct (leg_near u rnd Hu Hr Hi n Sm' H7' HN y j Hy Lj) as (Ej & Nj). destruct (leg_near u rnd Hu Hr Hi n Sm' H7' HN z k Hz Lk) as (Ek & Nk).
  unfold KL in Ni, Nj, Nk. fold kv in Ni, Nj, Nk. split.
  - unfold lg_eval_basisf, I. change (lg_size order) with n. rewrite lg_ijk_ok by assumption. cbn [bind]. rewrite Ei, Ej, Ek. cbn [bind]. eexists. split; [reflexivity|].
    destruct (R3 _ _ _ _ _ _ _ _ _ _ _ _ Ni Nj Nk) as (_ & _ & _ & B). unfold f. rewrite !(is_leg_eq P) by exact HP. eapply Rle_trans; [exact B|]. apply Req_le. ring.
  - intros G g HG Hg. destruct (leg_der_near u rnd Hu Hr Hi n Sm' H7' HN G g x i HG Hg Hx Li) as (di & Di & Mi). destruct (leg_der_near u rnd Hu Hr Hi n Sm' H7' HN G g y j HG Hg Hy Lj) as (dj & Dj & Mj).
    destruct (leg_der_near u rnd Hu Hr Hi n Sm' H7' HN G g z k HG Hg Hz Lk) as (dk & Dk & Mk).
    unfold lg_eval_grad_basisf, I. change (lg_size order) with n. rewrite lg_ijk_ok by assumption. cbn [bind]. rewrite Ei, Ej, Ek. cbn [bind]. rewrite Di, Dj, Dk. cbn [bind].
    eexists _, _, _, (lDk 1 i x * lP j y * lP k z), (lP i x * lDk 1 j y * lP k z), (lP i x * lP j y * lDk 1 k z). split; [reflexivity|]. split.
    + unfold is_grad, f. split; [|split].
      * apply (der_ext (fun t => lP i t * lP j y * lP k z)); [intros; rewrite !(is_leg_eq P) by exact HP; reflexivity|]. apply der_scal_r, der_scal_r, lD1_der.
      * apply (der_ext (fun t => lP i x * lP j t * lP k z)); [intros; rewrite !(is_leg_eq P) by exact HP; reflexivity|]. apply der_scal_r, der_scal, lD1_der.
      * apply (der_ext (fun t => lP i x * lP j y * lP k t)); [intros; rewrite !(is_leg_eq P) by exact HP; reflexivity|]. apply der_scal, lD1_der.
    + cbv zeta. fold (KD u n g). split; [|split].
      * destruct (R3 _ _ _ _ _ _ _ _ _ _ _ _ Mi Nj Nk) as (_ & _ & _ & B). eapply Rle_trans; [exact B|]. apply Req_le. field.
      * destruct (R3 _ _ _ _ _ _ _ _ _ _ _ _ Ni Mj Nk) as (_ & _ & _ & B). eapply Rle_trans; [exact B|]. apply Req_le. field.
      * destruct (R3 _ _ _ _ _ _ _ _ _ _ _ _ Ni Nj Mk) as (_ & _ & _ & B). eapply Rle_trans; [exact B|]. apply Req_le. field.
Qed.
Print Assumptions C76_basis.

(** doubles: numbers *)
Lemma u64_val : u64 * 9007199254740992 = 1.
Proof. unfold u64. replace (2 ^ 53) with 9007199254740992 by (rewrite pow_IZR; apply f_equal; reflexivity). field. Qed.
Lemma gamma64 m : INR m <= 1000000000 -> INR m * u64 < 1 /\ 0 <= gamma u64 m <= 1112 / 10 ^ 19 * INR m.
Proof.
  intros H. assert (U := u64_val). assert (P := pos_INR m). assert (R := u64_range). assert (B : INR m * u64 <= 1 / 1000000) by nra.
  split; [lra|]. split; [apply gamma_nonneg; [lra|]; lra|]. unfold gamma. apply Rmult_le_reg_r with (1 - INR m * u64); [lra|].
  unfold Rdiv. rewrite Rmult_assoc, Rinv_l by lra. rewrite Rmult_1_r.
  assert (X : u64 <= 1111 / 10 ^ 19) by lra. assert (Y : INR m * u64 <= INR m * (1111 / 10 ^ 19)) by (apply Rmult_le_compat_l; lra).
  assert (Z : INR m * (1111 / 10 ^ 19) <= 1112 * / 10 ^ 19 * INR m * (1 - INR m * u64)); [|lra].
  assert (INR m * (INR m * u64) <= INR m * (1 / 1000000)) by (apply Rmult_le_compat_l; lra). lra.
Qed.
Theorem C76_doubles_value : forall P n X, is_leg P -> -1 <= X <= 1 -> (Z.of_nat n <= 10000000)%Z ->
  exists v, legendre_evalf binary64 n X = Ok v /\ Rabs (v - P n X) <= 17 / 10 ^ 16 * (INR n * (INR n + 1)) /\
    sqrt (1 - X * X) * Rabs (v - P n X) <= 34 / 10 ^ 16 * INR n.
Proof.
  intros P n X HP HX Hn. assert (Q := pos_INR n). assert (Ln : INR n <= 10000000).
  { rewrite INR_IZR_INZ. apply (IZR_le _ 10000000). exact Hn. }
  destruct (gamma64 5) as (A & G0 & G); [cbn [INR]; lra|]. cbn [INR] in A, G. assert (S : 0 <= INR n * (INR n + 1)) by (apply Rmult_le_pos; lra).
  assert (S2 : INR n * (INR n + 1) <= 10000000 * 10000001) by (apply Rmult_le_compat; lra).
  assert (G5 : 3 * gamma u64 5 <= 17 / 10 ^ 16) by lra.
  assert (B : 3 * gamma u64 5 * (INR n * (INR n + 1)) <= 17 / 10 ^ 16 * (INR n * (INR n + 1))) by (apply Rmult_le_compat_r; lra).
  destruct (C76_legendre_eval u64 binary64 P n X C76_doubles HP HX) as (v & E & B1 & B2).
  - lia.
  - lra.
  - lra.
  - exists v. split; [exact E|]. split; [lra|]. eapply Rle_trans; [exact B2|]. apply Rmult_le_compat_r; lra.
Qed.
Print Assumptions C76_doubles_value.
Theorem C76_doubles_field : forall P order c x y z C, is_leg P -> -1 <= x <= 1 -> -1 <= y <= 1 -> -1 <= z <= 1 -> let n := (order + 1)%nat in (Z.of_nat n <= 1000)%Z ->
  exists v C', lg_eval_approxf binary64 order (fun i => Ok (c i)) x y z C = Ok (v, C') /\
    Rabs (v - tensor_sum n c (fun i => P i x) (fun j => P j y) (fun k => P k z)) <= 1 / 10 ^ 14 * (INR n * INR n) * rsum (n * n * n) (fun i => Rabs (c i)).
Proof.
  intros P order c x y z C HP Hx Hy Hz n Hn.
  assert (Ln : INR n <= 1000).
  { rewrite INR_IZR_INZ. apply (IZR_le _ 1000). exact Hn. }
  assert (L1 : 1 <= INR n) by (change 1 with (INR 1); apply le_INR; unfold n; lia).
  destruct (gamma64 5) as (A5 & G50 & G5); [cbn [INR]; lra|]. destruct (gamma64 7) as (A7 & G70 & G7); [cbn [INR]; lra|]. cbn [INR] in A5, G5, A7, G7.
  assert (I1 : INR (n + 1) = INR n + 1) by (rewrite plus_INR; reflexivity).
  destruct (gamma64 (n + 1)) as (AN & GN0 & GN); [lra|]. set (s := INR n * INR n) in *. assert (S1 : 1 <= s) by (unfold s; nra). assert (S2 : s <= 1000000) by (unfold s; nra). assert (S3 : INR n <= s) by (unfold s; nra).
  assert (F : few_terms u64 n).
  { split; [lia|]. split; [lra|]. split; [|exact AN]. fold s. assert (3 * gamma u64 7 * s <= 3 * (1112 / 10 ^ 19 * (7)) * 1000000); [|lra]. apply Rmult_le_compat; lra. }
  destruct (proj1 (C76_element u64 binary64 P order c (fun i => Ok (c i)) x y z C C76_doubles HP Hx Hy Hz F ltac:(reflexivity))) as (v & C' & E & B). fold n in B.
  exists v, C'. split; [exact E|]. eapply Rle_trans; [exact B|]. apply Rmult_le_compat_r; [apply rsum_nonneg; intros; apply Rabs_pos|].
  unfold KV. fold s.
  assert (B1 : 3 * gamma u64 5 * s <= 17 / 10 ^ 16 * s) by (apply Rmult_le_compat_r; lra).
  assert (B0 : 0 <= 3 * gamma u64 5 * s) by (apply Rmult_le_pos; lra).
  assert (B2 : gamma u64 (n + 1) <= 3 / 10 ^ 16 * s) by lra.
  set (p := 3 * gamma u64 5 * s) in *. set (q := gamma u64 (n + 1)) in *. set (e := (1 + p) * (1 + q) - 1).
  assert (P1 : p <= 1 / 100) by lra. assert (Pq : p * q <= 1 / 100 * q) by (apply Rmult_le_compat_r; lra).
  assert (E0 : 0 <= e) by (unfold e; assert (0 <= p * q) by (apply Rmult_le_pos; lra); lra). assert (E1 : e <= 21 / 10 ^ 16 * s) by (unfold e; lra). assert (E2 : e <= 1 / 100) by lra.
  replace (((1 + p) * (1 + q)) ^ 3 - 1) with (3 * e + 3 * (e * e) + e * (e * e)) by (unfold e; ring).
  assert (E3 : e * e <= 1 / 100 * e) by (apply Rmult_le_compat_r; lra). assert (E4 : e * (e * e) <= 1 / 100 * (1 / 100 * e)); [|lra].
  apply Rmult_le_compat; [lra|apply Rmult_le_pos; lra|lra|exact E3].
Qed.
Print Assumptions C76_doubles_field.

(** non-vacuity: factorials rounded to doubles are accurate to one rounding, and a concrete derivative case meets every hypothesis *)
Definition Gb (x : R) : R := binary64 (INR (fact (Z.to_nat (up x - 2)))).
Lemma Gb_accurate : gamma_accurate u64 1 Gb.
Proof.
  intros n. unfold Gb. assert (U : up (INR n + 1) = (Z.of_nat n + 2)%Z).
  { symmetry. apply tech_up; rewrite plus_IZR, <- INR_IZR_INZ; lra. }
  rewrite U. replace (Z.of_nat n + 2 - 2)%Z with (Z.of_nat n) by lia. rewrite Nat2Z.id.
  assert (Hu : 0 <= u64 < 1) by (assert (H := u64_range); lra). destruct (rnd_w u64 Hu binary64 binary64_rounds (INR (fact n))) as (t & W & E). exists t. split; [exact W|exact E].
Qed.
Example C76_nonvacuous : good_rounding u64 binary64 /\ is_leg lP /\ gamma_accurate u64 1 Gb /\ few_terms u64 (7 + 1) /\ INR (2 * 1 + 3) * u64 < 1 /\
  3 * gamma u64 7 * (INR (9 - 2) * (INR (9 - 2) + 1)) <= 1 /\ (2 * Z.of_nat (9 + 0) + 1 < 2 ^ 53)%Z.
Proof.
  destruct (gamma64 7) as (A7 & G70 & G7); [cbn [INR]; lra|]. destruct (gamma64 9) as (A9 & _); [cbn [INR]; lra|]. cbn [INR] in A7, G7, A9.
  split; [exact C76_doubles|]. split; [intros n x; apply legendre_eval_ok|]. split; [exact Gb_accurate|]. split; [|split; [|split]].
  - split; [lia|]. split; [lra|]. cbn [INR Nat.add]. split; lra.
  - cbn [INR Nat.mul Nat.add]. assert (H := u64_range). lra.
  - cbn [INR Nat.sub]. lra.
  - lia.
Qed.
